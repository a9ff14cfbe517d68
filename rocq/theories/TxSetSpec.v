(** What TransactionalSet must do, in terms of sets [T -> bool]. *)
From Coq Require Import List Bool Arith Sorting.Sorted.
From Verif Require Import TxEnumModel TxDictModel TxSetModel.
Import ListNotations.
Set Implicit Arguments.

Section Spec.
  Variable T : Type.
  Variable tlt : T -> T -> bool.
  Definition tset := T -> bool.
  Definition tupd (x : T) (b : bool) (m : tset) : tset :=
    fun y => if tlt x y || tlt y x then m y else b.

  (** [l] lists the set in order *)
  Definition slisting (m : tset) (l : list T) : Prop :=
    StronglySorted (fun a b => tlt a b = true) l /\ forall x, In x l <-> m x = true.

  Record tst := mk_tst { tcontent : tset; tprivate : option tset }.
  Definition tinit : tst := mk_tst (fun _ => false) None.

  Definition tapply (e : cop * T) (m : tset) : tset :=
    match fst e with
    | OpAdded => tupd (snd e) true m
    | OpRemoved => tupd (snd e) false m
    | OpUpdated => m
    end.
  Definition treplay (d : list (cop * T)) (m : tset) : tset := fold_left (fun m e => tapply e m) d m.

  Definition tnext (s : tst) (o : sop T) : tst :=
    match o, tprivate s with
    | SStart, None => mk_tst (tcontent s) (Some (tcontent s))
    | SEnd, Some _ => mk_tst (tcontent s) None
    | SAdd x, Some m => mk_tst (tcontent s) (Some (tupd x true m))
    | SRemove x, Some m => mk_tst (tcontent s) (Some (tupd x false m))
    | SRemoveWhere p, Some m => mk_tst (tcontent s) (Some (fun x => m x && negb (p x)))
    | SClear, Some _ => mk_tst (tcontent s) (Some (fun _ => false))
    | SApply e, Some m => mk_tst (tcontent s) (Some (tapply e m))
    | SCommit, Some m => mk_tst m (Some m)
    | SRevert, Some _ => mk_tst (tcontent s) (Some (tcontent s))
    | _, _ => s
    end.

  Definition splain (l : list T) : list (cop * T) := map (fun p => (OpUpdated, p)) l.
  Definition sret (r : sres T) (Q : list T -> Prop) : Prop :=
    exists e l, r = SREnum e (Some (splain l)) /\ Q l.
  Definition senum_find (x : T) (m : tset) (l : list T) : Prop :=
    if m x then exists before t, l = x :: t /\ slisting m (before ++ l) else l = [].
  Definition senum_rfind (x : T) (m : tset) (l : list T) : Prop :=
    if m x then exists after t, l = x :: t /\ slisting m (rev l ++ after) else l = [].

  Definition sentry_before (p q : cop * T) : Prop := tlt (snd p) (snd q) = true.
  Record sexact_diff (c m : tset) (d : list (cop * T)) : Prop := {
    sed_removed : forall x, In (OpRemoved, x) d <-> c x = true /\ m x = false;
    sed_added : forall x, In (OpAdded, x) d <-> m x = true /\ c x = false;
    sed_updated : forall x, ~ In (OpUpdated, x) d;
    sed_order : StronglySorted sentry_before d;
    sed_replay : forall x, treplay d c x = m x }.

  Definition sread_ok (s : tst) (o : sop T) (r : sres T) : Prop :=
    let c := tcontent s in
    match o, tprivate s with
    | SCContains x, _ => r = SRBool (c x)
    | SCCount, _ => exists l, r = SRNat (length l) /\ slisting c l
    | SCIsEmpty, _ => exists b, r = SRBool b /\ (b = true <-> forall x, c x = false)
    | SCEnum, _ => sret r (slisting c)
    | SCReverse, _ => sret r (fun l => slisting c (rev l))
    | SCFind x, _ => sret r (senum_find x c)
    | SCReverseFind x, _ => sret r (senum_rfind x c)
    | SStart, None => r = SRUnit
    | SStart, Some _ => r = SRNone
    | SEnd, Some _ => r = SRUnit
    | SContains x, Some m => r = SRBool (m x)
    | SCount, Some m => exists l, r = SRNat (length l) /\ slisting m l
    | SIsEmpty, Some m => exists b, r = SRBool b /\ (b = true <-> forall x, m x = false)
    | SEnumerate, Some m => sret r (slisting m)
    | SReverse, Some m => sret r (fun l => slisting m (rev l))
    | SFind x, Some m => sret r (senum_find x m)
    | SReverseFind x, Some m => sret r (senum_rfind x m)
    | SAdd x, Some m => r = SRBool (negb (m x))
    | SRemove x, Some m => r = SRBool (m x)
    | SRemoveWhere p, Some m => exists l, slisting m l /\ r = SRNat (length (filter p l))
    | SClear, Some _ => r = SRUnit
    | SApply e, Some _ => r = match fst e with OpUpdated => SRExn | _ => SRUnit end
    | _, _ => True
    end.

  Definition scommit_ok (s : tst) (o : sop T) (r : sres T) : Prop :=
    let c := tcontent s in
    match o, tprivate s with
    | SDiff, Some m => exists e d, r = SREnum e (Some d) /\ sexact_diff c m d
    | SIsDirty, Some m => exists b, r = SRBool b /\ (b = true <-> exists x, c x <> m x)
    | SCommit, Some m =>
        (r = SRCommit None /\ forall x, c x = m x) \/
        (exists d, r = SRCommit (Some d) /\ sexact_diff c m d /\ exists x, c x <> m x)
    | SRevert, Some _ => r = SRUnit
    | SCPopulate, _ =>
        (r = SRUnit /\ forall x, c x = false) \/
        (exists e l, r = SREnum e (Some (map (fun p => (OpAdded, p)) l)) /\ l <> [] /\ slisting c l)
    | _, _ => True
    end.

  Fixpoint shistory (ok : tst -> sop T -> sres T -> Prop) (s : tst)
      (ops : list (sop T)) (rs : list (sres T)) : Prop :=
    match ops, rs with
    | [], [] => True
    | o :: ops, r :: rs => ok s o r /\ shistory ok (tnext s o) ops rs
    | _, _ => False
    end.
End Spec.
