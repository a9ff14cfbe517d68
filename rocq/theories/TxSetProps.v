(** C13, C16 (set part).

    Every element type with a decidable strict total order, every sequence of API
    calls from an empty set, interleaved with clients releasing enumerators. *)
From Coq Require Import List Bool ZArith.
From Verif Require Import Base SortedMap TxEnumModel CowModel TxDictModel TxSetModel TxSetSpec TxSetProofs.
Import ListNotations.
Set Implicit Arguments.

Section Props.
  Variable T : Type.
  Variable tlt : T -> T -> bool.
  Hypothesis tlt_irrefl : forall a, tlt a a = false.
  Hypothesis tlt_trans : forall a b c, tlt a b = true -> tlt b c = true -> tlt a c = true.
  Hypothesis tlt_total : forall a b, tlt a b = false -> tlt b a = false -> a = b.

  Theorem C13_set_transaction_is_private_copy (ops : list (sop T)) :
    shistory tlt (sread_ok tlt) (tinit T) ops (snd (srun tlt (init T unit) ops)).
  Proof.
    exact (proj1 (@srun_sound T tlt tlt_irrefl tlt_trans tlt_total ops _ _ (@sinit_rel T tlt))).
  Qed.

  Theorem C13_set_commit_and_diff_exact (ops : list (sop T)) :
    shistory tlt (scommit_ok tlt) (tinit T) ops (snd (srun tlt (init T unit) ops)).
  Proof.
    exact (proj1 (proj2 (@srun_sound T tlt tlt_irrefl tlt_trans tlt_total ops _ _ (@sinit_rel T tlt)))).
  Qed.

  Theorem C16_set_enumerators_are_snapshots
      (ops1 : list (sop T)) (o : sop T) (ops2 : list (sop T)) s1 rs1 s2 e now s3 rs3 :
    srun tlt (init T unit) ops1 = (s1, rs1) ->
    sstep tlt s1 o = (s2, SREnum e now) ->
    srun tlt s2 ops2 = (s3, rs3) ->
    (forall j, In (SDrop j) ops2 -> ~ In j (holders_of e)) ->
    syields tlt (hh s3) e = now.
  Proof.
    exact (@set_snapshot_stable T tlt tlt_irrefl tlt_trans tlt_total ops1 o ops2 s1 rs1 s2 e now s3 rs3).
  Qed.
End Props.

Print Assumptions C13_set_transaction_is_private_copy.
Print Assumptions C13_set_commit_and_diff_exact.
Print Assumptions C16_set_enumerators_are_snapshots.

(** Non-vacuity ([Z.ltb] meets the order hypotheses: TxDictProps.Z_order_ok). *)
Open Scope Z_scope.
Definition set_demo : list (sop Z) :=
  [SStart; SAdd 1; SAdd 2; SAdd 3; SCommit; SRemove 2; SAdd 0; SRemove 0; SAdd 9; SAdd 2; SAdd 2; SRemove 3;
   SEnumerate; SDiff; SApply (OpUpdated, 1); SIsDirty; SCommit; SIsDirty; SReverseFind 2].
Example set_demo_results : snd (srun Z.ltb (init Z unit) set_demo) =
  [SRUnit; SRBool true; SRBool true; SRBool true;
   SRCommit (Some [(OpAdded, 1); (OpAdded, 2); (OpAdded, 3)]);
   SRBool true; SRBool true; SRBool true; SRBool true; SRBool true; SRBool false; SRBool true;
   SREnum (EnTx DFwd 2 3 4) (Some [(OpUpdated, 1); (OpUpdated, 2); (OpUpdated, 9)]);
   SREnum (EnDiff 3 4) (Some [(OpRemoved, 3); (OpAdded, 9)]);
   SRExn; SRBool true; SRCommit (Some [(OpRemoved, 3); (OpAdded, 9)]); SRBool false;
   SREnum (EnTx (DRFind 2) 5 6 7) (Some [(OpUpdated, 2); (OpUpdated, 1)])].
Proof. reflexivity. Qed.
