(** What TransactionalDictionary must do, in terms of finite maps
    [K -> option V]: the published content and, while a transaction is open, the
    transaction's private copy.  Only the vocabulary of API calls and results
    ([op], [res]) is taken from the model. *)
From Coq Require Import List Bool Arith Sorting.Sorted.
From Verif Require Import TxEnumModel TxDictModel.
Import ListNotations.
Set Implicit Arguments.

Section Spec.
  Variables K V : Type.
  Variable klt : K -> K -> bool.

  Definition fmap := K -> option V.
  Definition upd (k : K) (o : option V) (m : fmap) : fmap :=
    fun k' => if klt k k' || klt k' k then m k' else o.
  Definition restrict (p : K -> V -> bool) (m : fmap) : fmap :=
    fun k => match m k with Some v => if p k v then Some v else None | None => None end.

  (** [l] lists the map in key order *)
  Definition listing (m : fmap) (l : list (K * V)) : Prop :=
    StronglySorted (fun a b => klt (fst a) (fst b) = true) l /\
    forall k v, In (k, v) l <-> m k = Some v.

  Record sst := mk_sst { content : fmap; private : option fmap }.
  Definition sinit : sst := mk_sst (fun _ => None) None.

  Definition apply_entry (e : cop * (K * V)) (m : fmap) : fmap :=
    match fst e with
    | OpRemoved => upd (fst (snd e)) None m
    | OpAdded | OpUpdated => upd (fst (snd e)) (Some (snd (snd e))) m
    end.
  (** replaying a diff entry by entry *)
  Definition replay (d : list (cop * (K * V))) (m : fmap) : fmap :=
    fold_left (fun m e => apply_entry e m) d m.

  Definition snext (s : sst) (o : op K V) : sst :=
    match o, private s with
    | OStart, None => mk_sst (content s) (Some (content s))
    | OEnd, Some _ => mk_sst (content s) None
    | OAdd k v, Some m =>
        mk_sst (content s) (Some (match m k with None => upd k (Some v) m | Some _ => m end))
    | OSet k v, Some m => mk_sst (content s) (Some (upd k (Some v) m))
    | ORemove k, Some m => mk_sst (content s) (Some (upd k None m))
    | ORemoveWhere p, Some m => mk_sst (content s) (Some (restrict (fun k v => negb (p k v)) m))
    | OClear, Some _ => mk_sst (content s) (Some (fun _ => None))
    | OApply e, Some m => mk_sst (content s) (Some (apply_entry e m))
    | OCommit, Some m => mk_sst m (Some m)
    | ORevert, Some _ => mk_sst (content s) (Some (content s))
    | _, _ => s
    end.

  (** A complete forward / reverse enumeration, and one started at a key *)
  Definition plain (l : list (K * V)) : list (cop * (K * V)) := map (fun p => (OpUpdated, p)) l.
  Definition enum_fwd (m : fmap) (l : list (K * V)) : Prop := listing m l.
  Definition enum_rev (m : fmap) (l : list (K * V)) : Prop := listing m (rev l).
  Definition enum_find (k : K) (m : fmap) (l : list (K * V)) : Prop :=
    match m k with
    | None => l = []
    | Some v => exists before t, l = (k, v) :: t /\ listing m (before ++ l)
    end.
  Definition enum_rfind (k : K) (m : fmap) (l : list (K * V)) : Prop :=
    match m k with
    | None => l = []
    | Some v => exists after t, l = (k, v) :: t /\ listing m (rev l ++ after)
    end.
  Definition ret_list (r : res K V) (Q : list (K * V) -> Prop) : Prop :=
    exists e l, r = REnum e (Some (plain l)) /\ Q l.

  (** [d] is exactly the difference between [c] and [m] *)
  Definition entry_before (p q : cop * (K * V)) : Prop :=
    klt (fst (snd p)) (fst (snd q)) = true \/
    (fst (snd p) = fst (snd q) /\ fst p = OpRemoved /\ fst q = OpAdded).
  Record exact_diff (c m : fmap) (d : list (cop * (K * V))) : Prop := {
    ed_removed : forall k v, In (OpRemoved, (k, v)) d <-> c k = Some v /\ m k <> Some v;
    ed_added : forall k v, In (OpAdded, (k, v)) d <-> m k = Some v /\ c k <> Some v;
    ed_updated : forall x, ~ In (OpUpdated, x) d;
    ed_order : StronglySorted entry_before d;
    ed_replay : forall k, replay d c k = m k }.

  (** C11: results of the reads and updates of a transaction [m] and of the
      collection [c]. *)
  Definition read_ok (s : sst) (o : op K V) (r : res K V) : Prop :=
    let c := content s in
    match o, private s with
    | CGet k, _ => r = match c k with Some v => RVal v | None => RExn end
    | CTryGet k, _ => r = ROpt (c k)
    | CContains k, _ => exists b, r = RBool b /\ (b = true <-> c k <> None)
    | CCount, _ => exists l, r = RNat (length l) /\ listing c l
    | CIsEmpty, _ => exists b, r = RBool b /\ (b = true <-> forall k, c k = None)
    | CEnum, _ => ret_list r (enum_fwd c)
    | CReverse, _ => ret_list r (enum_rev c)
    | CFind k, _ => ret_list r (enum_find k c)
    | CReverseFind k, _ => ret_list r (enum_rfind k c)
    | OStart, None => r = RUnit
    | OStart, Some _ => r = RNone
    | OEnd, Some _ => r = RUnit
    | OGet k, Some m => r = match m k with Some v => RVal v | None => RExn end
    | OTryGet k, Some m => r = ROpt (m k)
    | OContains k, Some m => exists b, r = RBool b /\ (b = true <-> m k <> None)
    | OCount, Some m => exists l, r = RNat (length l) /\ listing m l
    | OIsEmpty, Some m => exists b, r = RBool b /\ (b = true <-> forall k, m k = None)
    | OEnum, Some m => ret_list r (enum_fwd m)
    | OReverse, Some m => ret_list r (enum_rev m)
    | OFind k, Some m => ret_list r (enum_find k m)
    | OReverseFind k, Some m => ret_list r (enum_rfind k m)
    | OAdd k v, Some m => r = RBool (match m k with None => true | Some _ => false end)
    | OSet k v, Some m => r = RUnit
    | ORemove k, Some m => r = RBool (match m k with None => false | Some _ => true end)
    | ORemoveWhere p, Some m =>
        exists l, listing m l /\ r = RNat (length (filter (fun x => p (fst x) (snd x)) l))
    | OClear, Some _ => r = RUnit
    | OApply _, Some _ => r = RUnit
    | _, _ => True
    end.

  (** C12: results of Diff, IsDirty, Commit, Revert, and the initial diff given
      to a new observer. *)
  Definition commit_ok (s : sst) (o : op K V) (r : res K V) : Prop :=
    let c := content s in
    match o, private s with
    | ODiff, Some m => exists e d, r = REnum e (Some d) /\ exact_diff c m d
    | OIsDirty, Some m => exists b, r = RBool b /\ (b = true <-> exists k, c k <> m k)
    | OCommit, Some m =>
        (r = RCommit None /\ forall k, c k = m k) \/
        (exists d, r = RCommit (Some d) /\ exact_diff c m d /\ exists k, c k <> m k)
    | ORevert, Some _ => r = RUnit
    | CPopulate, _ =>
        (r = RUnit /\ forall k, c k = None) \/
        (exists e l, r = REnum e (Some (map (fun p => (OpAdded, p)) l)) /\ l <> [] /\ listing c l)
    | _, _ => True
    end.

  (** the results of a whole history satisfy [ok] along the specification run *)
  Fixpoint history (ok : sst -> op K V -> res K V -> Prop) (s : sst)
      (ops : list (op K V)) (rs : list (res K V)) : Prop :=
    match ops, rs with
    | [], [] => True
    | o :: ops, r :: rs => ok s o r /\ history ok (snext s o) ops rs
    | _, _ => False
    end.
End Spec.
