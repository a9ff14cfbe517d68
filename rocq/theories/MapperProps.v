(* C84: mappers *)
From Coq Require Import List Bool ZArith Lia.
From Verif Require Import MapperModel MapperSpec MapperProofs.
Import ListNotations.
Open Scope Z_scope.

(* Map compiles exactly if every source side is sensible; Unmap, if every destination side is *)
Theorem C84_compiles : forall m x,
  (Map m x <> DoesNotCompile <-> Forall sensible (map fst (table m))) /\ (Unmap m x <> DoesNotCompile <-> Forall sensible (map snd (table m))).
Proof.
  intros m x. split.
  - rewrite <- all_fits_sensible. split.
    + intros H. unfold Map in H. destruct (all_fits _); congruence.
    + intros H. rewrite all_fits_sensible in H. destruct (Map_chosen m x H) as (n & _ & -> & _). destruct (get_value n); discriminate.
  - rewrite <- all_fits_sensible. split.
    + intros H. unfold Unmap in H. destruct (all_fits _); congruence.
    + intros H. rewrite all_fits_sensible in H. destruct (Unmap_chosen m x H) as (n & _ & -> & _). destruct (get_value n); discriminate.
Qed.
Print Assumptions C84_compiles.

(* Map gives the value of the first pair whose source side stands for x, or that of the default; it throws exactly if that is Fail, and
   exactly then HasMapping is false *)
Theorem C84_map : forall m x, Forall sensible (map fst (table m)) ->
  exists n, (forall n', chosen (table m) fst snd (default_dst m) x n' <-> n' = n) /\
    (forall y, Map m x = Is y <-> gives n y) /\ (Map m x = Throws <-> n = Fail) /\
    (HasMapping m x = Some true <-> exists y, Map m x = Is y) /\ (HasMapping m x = Some false <-> Map m x = Throws).
Proof.
  intros m x H. destruct (Map_chosen m x H) as (n & Hn & E & F). exists n. rewrite E, F. split.
  { intros n'. split; [intros K; eapply chosen_unique; eauto|intros ->; auto]. }
  split; [intros y; rewrite value_Is; apply get_value_spec|].
  destruct n; cbn; repeat split; intros; try discriminate; eauto; repeat match goal with H : exists _, _ |- _ => destruct H end; try discriminate; auto.
Qed.
Print Assumptions C84_map.
Theorem C84_unmap : forall m y, Forall sensible (map snd (table m)) ->
  exists n, (forall n', chosen (table m) snd fst (default_src m) y n' <-> n' = n) /\
    (forall x, Unmap m y = Is x <-> gives n x) /\ (Unmap m y = Throws <-> n = Fail) /\
    (HasBackMapping m y = Some true <-> exists x, Unmap m y = Is x) /\ (HasBackMapping m y = Some false <-> Unmap m y = Throws).
Proof.
  intros m x H. destruct (Unmap_chosen m x H) as (n & Hn & E & F). exists n. rewrite E, F. split.
  { intros n'. split; [intros K; eapply chosen_unique; eauto|intros ->; auto]. }
  split; [intros y; rewrite value_Is; apply get_value_spec|].
  destruct n; cbn; repeat split; intros; try discriminate; eauto; repeat match goal with H : exists _, _ |- _ => destruct H end; try discriminate; auto.
Qed.
Print Assumptions C84_unmap.

(* If no value is stood for by two pairs, on either side, and what a pair gives is a value it stands for, then a value of the table goes
   to one that comes back to a value of the same pair, and that goes to the same one again: Map (Unmap (Map x)) = Map x. With pairs of
   single values it comes back to itself. *)
Theorem C84_there_and_back : forall m p x, Forall sensible (map fst (table m)) -> Forall sensible (map snd (table m)) ->
  disjoint (table m) fst -> disjoint (table m) snd -> own (table m) fst -> own (table m) snd ->
  In p (table m) -> stands_for (fst p) x ->
  exists y x', Map m x = Is y /\ stands_for (snd p) y /\ Unmap m y = Is x' /\ stands_for (fst p) x' /\ Map m x' = Is y /\
    ((exists v, fst p = Value v) -> x' = x).
Proof.
  intros m p x H1 H2 D1 D2 O1 O2 Hp Hx.
  assert (G1 : exists y, gives (snd p) y).
  { rewrite Forall_forall in H2. assert (Hs : sensible (snd p)) by (apply H2, in_map; auto). destruct (snd p); cbn in *; eauto; contradiction. }
  assert (G2 : exists y, gives (fst p) y) by (destruct (fst p); cbn in *; eauto; contradiction).
  destruct G1 as (y & Hy). destruct G2 as (x' & Hx'). exists y, x'.
  assert (M : forall z, stands_for (fst p) z -> Map m z = Is y).
  { intros z Hz. destruct (C84_map m z H1) as (n & Hn & Hm & _). apply Hm. rewrite <- (proj1 (Hn (snd p))); auto. apply disjoint_chosen; auto. }
  split; [auto|]. split; [apply O2; auto|]. split.
  { destruct (C84_unmap m y H2) as (n & Hn & Hm & _). apply Hm. rewrite <- (proj1 (Hn (fst p))); auto. apply disjoint_chosen; auto. }
  split; [apply O1; auto|]. split; [apply M, O1; auto|]. intros (v & Hv). rewrite Hv in Hx, Hx'. cbn in *. congruence.
Qed.
Print Assumptions C84_there_and_back.

(* Not true of every mapper that compiles: Map (Unmap (Map x)) = Map x. Overlapping pairs are accepted. *)
Theorem C84_overlap_refuted : ~ (forall m x y x', Forall sensible (map fst (table m)) -> Forall sensible (map snd (table m)) ->
  own (table m) fst -> own (table m) snd -> Map m x = Is y -> Unmap m y = Is x' -> Map m x' = Is y).
Proof.
  intros H. specialize (H (mk_mapper [(Value 1, BiValue 5 6); (Value 2, BiValue 6 5)] Fail Fail) 2 6 1).
  assert (E : Is 5 = Is 6).
  { apply H; try reflexivity; try (repeat constructor; cbn; lia).
    - intros p x [<-|[<-|[]]]; cbn; auto.
    - intros p x [<-|[<-|[]]]; cbn; auto. }
  discriminate.
Qed.
Print Assumptions C84_overlap_refuted.
(* Not true either if only the pairs are disjoint: the value that a Range is mapped back to need not be in the Range *)
Theorem C84_range_refuted : ~ (forall m x y x', Forall sensible (map fst (table m)) -> Forall sensible (map snd (table m)) ->
  disjoint (table m) fst -> disjoint (table m) snd -> Map m x = Is y -> Unmap m y = Is x' -> Map m x' = Is y).
Proof.
  intros H. specialize (H (mk_mapper [(Range 1 4 9, Value 5)] Fail Fail) 2 5 9).
  assert (E : Throws = Is 5).
  { apply H; try reflexivity; try (repeat constructor; cbn; lia); apply disjoint_pairs; repeat constructor. }
  discriminate.
Qed.
Print Assumptions C84_range_refuted.

Definition example : mapper := mk_mapper [(Range 1 4 2, Value 10); (Value 4, BiValue 11 12); (MultiValue 7 [8; 9], TriValue 20 21 22)] Fail (Value 0).
Example C84_example : Map example 3 = Is 10 /\ Unmap example 10 = Is 2 /\ Unmap example 12 = Is 4 /\ Map example 9 = Is 20 /\
  Map example 5 = Is 0 /\ Unmap example 5 = Throws /\ HasMapping example 5 = Some true /\ HasBackMapping example 5 = Some false.
Proof. vm_compute. repeat split. Qed.
Example C84_example_proper : Forall sensible (map fst (table example)) /\ Forall sensible (map snd (table example)) /\
  disjoint (table example) fst /\ disjoint (table example) snd /\ own (table example) fst /\ own (table example) snd.
Proof.
  split; [repeat constructor; cbn; lia|]. split; [repeat constructor; cbn; lia|]. split; [|split; [|split]].
  - apply disjoint_pairs. repeat constructor; cbn; lia.
  - apply disjoint_pairs. repeat constructor; cbn; lia.
  - intros p x [<-|[<-|[<-|[]]]]; cbn; intros; subst; auto; lia.
  - intros p x [<-|[<-|[<-|[]]]]; cbn; intros; subst; auto; lia.
Qed.
