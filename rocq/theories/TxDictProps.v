(** C11, C12, C16 (dictionary part).

    The theorems quantify over every key type with a decidable strict total order,
    every value type whose ValueEqualsComparer decides equality, and every
    sequence of API calls from an empty dictionary (interleaved with clients
    releasing their enumerators at arbitrary moments). *)
From Coq Require Import List Bool ZArith.
From Verif Require Import Base SortedMap TxEnumModel CowModel TxDictModel TxDictSpec TxDictProofs.
Import ListNotations.
Set Implicit Arguments.

Section Props.
  Variables K V : Type.
  Variable klt : K -> K -> bool.
  Variable veq : V -> V -> bool.
  Hypothesis klt_irrefl : forall a, klt a a = false.
  Hypothesis klt_trans : forall a b c, klt a b = true -> klt b c = true -> klt a c = true.
  Hypothesis klt_total : forall a b, klt a b = false -> klt b a = false -> a = b.
  Hypothesis veq_spec : forall a b, veq a b = true <-> a = b.

  Theorem C11_dictionary_transaction_is_private_copy (ops : list (op K V)) :
    history klt (read_ok klt) (@sinit K V) ops (snd (run klt veq (init K V) ops)).
  Proof.
    exact (proj1 (@run_sound K V klt veq klt_irrefl klt_trans klt_total veq_spec ops _ _
      (@init_rel K V klt))).
  Qed.

  Theorem C12_dictionary_commit_and_diff_exact (ops : list (op K V)) :
    history klt (commit_ok klt) (@sinit K V) ops (snd (run klt veq (init K V) ops)).
  Proof.
    exact (proj1 (proj2 (@run_sound K V klt veq klt_irrefl klt_trans klt_total veq_spec ops _ _
      (@init_rel K V klt)))).
  Qed.

  (** an enumerator or diff [e] that yields [now] when created still yields [now]
      after any further calls, as long as its own holders are not released *)
  Theorem C16_dictionary_enumerators_are_snapshots
      (ops1 : list (op K V)) (o : op K V) (ops2 : list (op K V)) s1 rs1 s2 e now s3 rs3 :
    run klt veq (init K V) ops1 = (s1, rs1) ->
    step klt veq s1 o = (s2, REnum e now) ->
    run klt veq s2 ops2 = (s3, rs3) ->
    (forall j, In (EDrop j) ops2 -> ~ In j (holders_of e)) ->
    yields klt (hh s3) e = now.
  Proof.
    exact (@snapshot_stable K V klt veq klt_irrefl klt_trans klt_total veq_spec ops1 o ops2 s1 rs1 s2 e now s3 rs3).
  Qed.
End Props.

Print Assumptions C11_dictionary_transaction_is_private_copy.
Print Assumptions C12_dictionary_commit_and_diff_exact.
Print Assumptions C16_dictionary_enumerators_are_snapshots.

(** Non-vacuity: integer keys and values. *)
Open Scope Z_scope.
Definition demo : list (op Z Z) :=
  [OStart; OAdd 1 10; OAdd 2 20; OAdd 3 30; OCommit; OSet 2 25; ORemove 3; OAdd 0 5; OSet 1 10; OEnum; ODiff;
   OReverseFind 2; OIsDirty; OCommit; OEnum; CEnum].
Example demo_results : snd (run Z.ltb Z.eqb (init Z Z) demo) =
  [RUnit; RBool true; RBool true; RBool true;
   RCommit (Some [(OpAdded, (1, 10)); (OpAdded, (2, 20)); (OpAdded, (3, 30))]);
   RUnit; RBool true; RBool true; RUnit;
   REnum (EnTx DFwd 2 3 4) (Some [(OpUpdated, (0, 5)); (OpUpdated, (1, 10)); (OpUpdated, (2, 25))]);
   REnum (EnDiff 3 4) (Some [(OpAdded, (0, 5)); (OpRemoved, (2, 20)); (OpAdded, (2, 25)); (OpRemoved, (3, 30))]);
   REnum (EnTx (DRFind 2) 2 3 4) (Some [(OpUpdated, (2, 25)); (OpUpdated, (1, 10)); (OpUpdated, (0, 5))]);
   RBool true;
   RCommit (Some [(OpAdded, (0, 5)); (OpRemoved, (2, 20)); (OpAdded, (2, 25)); (OpRemoved, (3, 30))]);
   REnum (EnTx DFwd 5 6 7) (Some [(OpUpdated, (0, 5)); (OpUpdated, (1, 10)); (OpUpdated, (2, 25))]);
   REnum (EnColl DFwd 5) (Some [(OpUpdated, (0, 5)); (OpUpdated, (1, 10)); (OpUpdated, (2, 25))])].
Proof. reflexivity. Qed.
(** the enumerator created by the 10th call still shows the uncommitted view of
    that moment after the transaction was changed and committed again *)
Example demo_snapshot :
  let s := fst (run Z.ltb Z.eqb (init Z Z) (demo ++ [OClear; OCommit; OEnd])) in
  yields Z.ltb (hh s) (EnTx DFwd 2 3 4) = Some [(OpUpdated, (0, 5)); (OpUpdated, (1, 10)); (OpUpdated, (2, 25))]
  /\ items s = [].
Proof. now vm_compute. Qed.
Example Z_order_ok :
  (forall a, Z.ltb a a = false) /\ (forall a b c, Z.ltb a b = true -> Z.ltb b c = true -> Z.ltb a c = true) /\
  (forall a b, Z.ltb a b = false -> Z.ltb b a = false -> a = b) /\ (forall a b, Z.eqb a b = true <-> a = b).
Proof.
  repeat split.
  - apply Z.ltb_irrefl.
  - intros a b c. rewrite !Z.ltb_lt. apply Z.lt_trans.
  - intros a b. rewrite !Z.ltb_ge. intros. now apply Z.le_antisymm.
  - apply Z.eqb_eq.
  - apply Z.eqb_eq.
Qed.
