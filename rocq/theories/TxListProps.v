(** C14, C15, C16 (list part).

    Every value type whose equality comparer decides equality, every sequence of
    API calls from an empty list, interleaved with clients releasing enumerators. *)
From Coq Require Import List Bool Arith.
From Verif Require Import Base TxEnumModel CowModel TxListModel TxListSpec TxListProofs.
Import ListNotations.
Set Implicit Arguments.

Section Props.
  Variable V : Type.
  Variable veq : V -> V -> bool.
  Hypothesis veq_spec : forall a b, veq a b = true <-> a = b.

  Theorem C14_list_transaction_is_private_copy (ops : list (lop V)) :
    lhistory (ll0 V) ops (snd (lrun veq (linit V) ops)).
  Proof. exact (proj1 (run_sound veq_spec ops (init_rel veq))). Qed.

  Theorem C16_list_enumerators_are_snapshots
      (ops1 : list (lop V)) (o : lop V) (ops2 : list (lop V)) s1 rs1 s2 e now s3 rs3 :
    lrun veq (linit V) ops1 = (s1, rs1) ->
    lstep veq s1 o = (s2, LREnum e now) ->
    lrun veq s2 ops2 = (s3, rs3) ->
    (forall j, In (LDrop j) ops2 -> ~ In j (lholders e)) ->
    lyields (lhh s3) e = now.
  Proof. exact (@snapshot_stable V veq veq_spec ops1 o ops2 s1 rs1 s2 e now s3 rs3). Qed.

  (** C15 holds for diffs that only shorten the list: applied entry by entry to a
      transaction showing [a ++ b], the diff from [a ++ b] to [a] gives [a].  What
      is missing (every diff with an Added entry) is false: C15_apply_refuted. *)
  Theorem C15_apply_truncation_partial (ops : list (lop V)) (a b : list V) s rs e :
    lrun veq (linit V) ops = (s, rs) ->
    snd (lstep veq s LEnum) = LREnum e (elems OpUpdated (a ++ b)) ->
    let r := lrun veq s (map (fun x => LApply x) (make_diff veq (a ++ b) a)) in
    Forall (fun x => x = LRUnit) (snd r) /\ exists e', snd (lstep veq (fst r) LEnum) = LREnum e' (elems OpUpdated a).
  Proof. exact (@apply_truncation V veq veq_spec ops a b s rs e). Qed.
End Props.

(** C15 is false.  (1) [] -> [7]: Apply throws.  (2) [1;2;3] -> [9;2;3]: Apply
    succeeds on every entry and yields [9;3]. *)
Theorem C15_apply_refuted :
  let run := lrun Nat.eqb (linit nat) in
  (let sent := [(OpAdded, (0, 7))] in
   snd (run [LStart; LAdd 7; LCommit]) = [LRUnit; LRUnit; LRCommit (Some sent)] /\
   snd (run (LStart :: map (fun e => LApply e) sent)) = [LRUnit; LRExn]) /\
  (let sent := [(OpRemoved, (0, 1)); (OpAdded, (0, 9))] in
   let build := [LStart; LAdd 1; LAdd 2; LAdd 3; LCommit] in
   snd (lrun Nat.eqb (fst (run build)) [LSet 0 9; LCommit]) = [LRUnit; LRCommit (Some sent)] /\
   exists h, snd (lrun Nat.eqb (fst (run build)) (map (fun e => LApply e) sent ++ [LEnum])) =
     [LRUnit; LRUnit; LREnum h (elems OpUpdated [9; 3])]).
Proof. repeat split; eexists; reflexivity. Qed.

Print Assumptions C14_list_transaction_is_private_copy.
Print Assumptions C16_list_enumerators_are_snapshots.
Print Assumptions C15_apply_truncation_partial.
Print Assumptions C15_apply_refuted.

(** Non-vacuity *)
Definition list_demo : list (lop nat) :=
  [LStart; LAdd 1; LAdd 2; LInsert 1 5; LInsert 9 5; LCommit; LRemoveAt 0; LSet 1 8; LEnum; LAdd 4; LDiff; LRemove 8;
   LCommit; LCReverse; LSet 0 5; LIsDirty; LCommit; LIsDirty].
Example list_demo_results : snd (lrun Nat.eqb (linit nat) list_demo) =
  [LRUnit; LRUnit; LRUnit; LRUnit; LRExn;
   LRCommit (Some [(OpAdded, (0, 1)); (OpAdded, (1, 5)); (OpAdded, (2, 2))]);
   LRUnit; LRUnit; LREnum (LFwd 0) [(OpUpdated, (0, 5)); (OpUpdated, (1, 8))]; LRUnit;
   (let d := [(OpRemoved, (0, 1)); (OpAdded, (0, 5)); (OpRemoved, (1, 5)); (OpAdded, (1, 8)); (OpRemoved, (2, 2)); (OpAdded, (2, 4))] in
    LREnum (LDf d) d);
   LRBool true;
   LRCommit (Some [(OpRemoved, (0, 1)); (OpAdded, (0, 5)); (OpRemoved, (1, 5)); (OpAdded, (1, 4)); (OpRemoved, (2, 2))]);
   LREnum (LRev 1) [(OpUpdated, (0, 4)); (OpUpdated, (1, 5))];
   LRUnit; LRBool true (* dirty although nothing changed *); LRCommit None; LRBool false].
Proof. reflexivity. Qed.
Example list_demo_snapshot :
  lyields (lhh (fst (lrun Nat.eqb (linit nat) list_demo))) (LFwd 0) = [(OpUpdated, (0, 5)); (OpUpdated, (1, 8))].
Proof. reflexivity. Qed.
Example truncation_hyp :
  let s := fst (lrun Nat.eqb (linit nat) [LStart; LAdd 1; LAdd 2; LAdd 3]) in
  snd (lstep Nat.eqb s LEnum) = LREnum (LFwd 0) (elems OpUpdated ([1] ++ [2; 3])).
Proof. reflexivity. Qed.
