(** What TransactionalList must do, in terms of plain lists: the published list
    and, while a transaction is open, the private copy. *)
From Coq Require Import List Bool Arith.
From Verif Require Import TxEnumModel TxListModel.
Import ListNotations.
Set Implicit Arguments.

Section Spec.
  Variable V : Type.
  Notation entry := (cop * (nat * V))%type.

  (** first position of [v] *)
  Definition first_at (v : V) (l : list V) (o : option nat) : Prop :=
    match o with
    | None => ~ In v l
    | Some i => exists a b, l = a ++ v :: b /\ length a = i /\ ~ In v a
    end.

  Record ll := mk_ll { lcontent : list V; lprivate : option (list V) }.
  Definition ll0 : ll := mk_ll [] None.

  (** positional edits, as relations; an index out of range is not an edit *)
  Definition put_at (i : nat) (v : V) (l l' : list V) : Prop :=
    exists a x b, l = a ++ x :: b /\ length a = i /\ l' = a ++ v :: b.
  Definition ins_at (i : nat) (v : V) (l l' : list V) : Prop :=
    exists a b, l = a ++ b /\ length a = i /\ l' = a ++ v :: b.
  Definition del_at (i : nat) (x : V) (l l' : list V) : Prop :=
    exists a b, l = a ++ x :: b /\ length a = i /\ l' = a ++ b.

  (** replaying a diff with positional insert/remove; a Removed entry must name
      the element that really is at that position *)
  Inductive replays : list entry -> list V -> list V -> Prop :=
  | rp_nil l : replays [] l l
  | rp_add i v d l l1 l2 : ins_at i v l l1 -> replays d l1 l2 -> replays ((OpAdded, (i, v)) :: d) l l2
  | rp_del i v d l l1 l2 : del_at i v l l1 -> replays d l1 l2 -> replays ((OpRemoved, (i, v)) :: d) l l2
  | rp_upd i v d l l1 l2 : put_at i v l l1 -> replays d l1 l2 -> replays ((OpUpdated, (i, v)) :: d) l l2.

  (** entries only where the lists differ *)
  Record ldiff_ok (c m : list V) (d : list entry) : Prop := {
    ld_replay : replays d c m;
    ld_empty : d = [] <-> c = m;
    ld_added : forall i v, In (OpAdded, (i, v)) d <-> nth_error m i = Some v /\ nth_error c i <> Some v;
    ld_removed : forall i v, In (OpRemoved, (i, v)) d ->
      (i < length m /\ nth_error c i = Some v /\ nth_error m i <> Some v) \/
      (i = length m /\ exists j, length m <= j /\ nth_error c j = Some v);
    ld_updated : forall x, ~ In (OpUpdated, x) d }.

  (** [edit m r R]: the call either succeeds with result [r] and changes the
      private list as [R] says, or throws and changes nothing because [R] is
      impossible *)
  Definition edit (m : list V) (R : list V -> Prop) (ok : lres V) (r : lres V) (m' : list V) : Prop :=
    (r = ok /\ R m') \/ (r = LRExn /\ m' = m /\ forall x, ~ R x).

  Definition elems (tag : cop) (l : list V) : list entry :=
    combine (repeat tag (length l)) (combine (seq 0 (length l)) l).

  (** [lrel s o r s']: in state [s] the call [o] may return [r] and lead to [s'] *)
  Definition lrel (s : ll) (o : lop V) (r : lres V) (s' : ll) : Prop :=
    let c := lcontent s in
    match o, lprivate s with
    | LCGet i, _ => s' = s /\ ((exists v, r = LRVal v /\ nth_error c i = Some v) \/ (r = LRExn /\ length c <= i))
    | LCTryGet i, _ => s' = s /\ r = LROpt (nth_error c i)
    | LCCount, _ => s' = s /\ r = LRNat (length c)
    | LCIsEmpty, _ => s' = s /\ exists b, r = LRBool b /\ (b = true <-> c = [])
    | LCContains v, _ => s' = s /\ exists b, r = LRBool b /\ (b = true <-> In v c)
    | LCIndexOf v, _ => s' = s /\ exists o, r = LRIdx o /\ first_at v c o
    | LCEnum, _ => s' = s /\ exists e, r = LREnum e (elems OpUpdated c)
    | LCReverse, _ => s' = s /\ exists e, r = LREnum e (elems OpUpdated (rev c))
    | LCPopulate, _ => s' = s /\ ((r = LRUnit /\ c = []) \/ (exists e, r = LREnum e (elems OpAdded c) /\ c <> []))
    | LStart, None => r = LRUnit /\ s' = mk_ll c (Some c)
    | LStart, Some _ => r = LRNone /\ s' = s
    | LDrop _, _ => s' = s
    | _, None => r = LRNone /\ s' = s
    | LEnd, Some _ => r = LRUnit /\ s' = mk_ll c None
    | LGet i, Some m => s' = s /\ ((exists v, r = LRVal v /\ nth_error m i = Some v) \/ (r = LRExn /\ length m <= i))
    | LTryGet i, Some m => s' = s /\ r = LROpt (nth_error m i)
    | LCount, Some m => s' = s /\ r = LRNat (length m)
    | LIsEmpty, Some m => s' = s /\ exists b, r = LRBool b /\ (b = true <-> m = [])
    | LContains v, Some m => s' = s /\ exists b, r = LRBool b /\ (b = true <-> In v m)
    | LIndexOf v, Some m => s' = s /\ exists o, r = LRIdx o /\ first_at v m o
    | LEnum, Some m => s' = s /\ exists e, r = LREnum e (elems OpUpdated m)
    | LReverse, Some m => s' = s /\ exists e, r = LREnum e (elems OpUpdated (rev m))
    | LAdd v, Some m => r = LRUnit /\ s' = mk_ll c (Some (m ++ [v]))
    | LSet i v, Some m => exists m', s' = mk_ll c (Some m') /\ edit m (put_at i v m) LRUnit r m'
    | LInsert i v, Some m => exists m', s' = mk_ll c (Some m') /\ edit m (ins_at i v m) LRUnit r m'
    | LRemoveAt i, Some m => exists m', s' = mk_ll c (Some m') /\ edit m (fun l => exists x, del_at i x m l) LRUnit r m'
    | LRemove v, Some m =>
        (r = LRBool false /\ s' = s /\ ~ In v m) \/
        (r = LRBool true /\ exists a b, m = a ++ v :: b /\ ~ In v a /\ s' = mk_ll c (Some (a ++ b)))
    | LRemoveAll p, Some m =>
        r = LRNat (length (filter p m)) /\ s' = mk_ll c (Some (filter (fun x => negb (p x)) m))
    | LClear, Some m => r = LRUnit /\ s' = mk_ll c (Some [])
    (* as coded: Added replaces (see C15) *)
    | LApply (OpRemoved, (i, _)), Some m =>
        exists m', s' = mk_ll c (Some m') /\ edit m (fun l => exists x, del_at i x m l) LRUnit r m'
    | LApply (_, (i, v)), Some m => exists m', s' = mk_ll c (Some m') /\ edit m (put_at i v m) LRUnit r m'
    | LDiff, Some m => s' = s /\ exists e d, r = LREnum e d /\ ldiff_ok c m d
    | LIsDirty, Some m => s' = s /\ exists b, r = LRBool b /\ (b = false -> c = m)
    | LCommit, Some m =>
        s' = mk_ll m (Some m) /\
        ((r = LRCommit None /\ c = m) \/ (exists d, r = LRCommit (Some d) /\ ldiff_ok c m d /\ c <> m))
    | LRevert, Some m => r = LRUnit /\ s' = mk_ll c (Some c)
    end.

  Inductive lhistory : ll -> list (lop V) -> list (lres V) -> Prop :=
  | lh_nil s : lhistory s [] []
  | lh_cons s o r s' ops rs : lrel s o r s' -> lhistory s' ops rs -> lhistory s (o :: ops) (r :: rs).
End Spec.
