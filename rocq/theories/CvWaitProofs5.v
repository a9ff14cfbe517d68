(** * BasicConditionVariable *)
From Coq Require Import List Arith Bool Lia.
From Verif Require Import Conc CvWaitModel CvWaitSpec.
Import ListNotations.

Definition wb (p : bpc) : bool := match p with BCounted | BBlocked => true | _ => false end.
Definition b2n (b : bool) : nat := if b then 1 else 0.

Lemma count_set l i p q : nth_error l i = Some p ->
  length (filter wb (firstn i l ++ q :: skipn (S i) l)) + b2n (wb p) = length (filter wb l) + b2n (wb q).
Proof.
  revert i. induction l as [|x l IH]; intros [|i]; cbn; try discriminate.
  - intros [= ->]. destruct (wb p), (wb q); cbn; lia.
  - intros H. specialize (IH _ H). cbn in IH. destruct (wb x); cbn; lia.
Qed.

Lemma bstep_count s l s' : bstep s l = Some s' ->
  if match snd l with BTimeout => true | _ => false end
  then permits s' + count s' = permits s + count s /\ bwaiting s' <= bwaiting s
  else permits s' + count s' + bwaiting s = permits s + count s + bwaiting s'.
Proof.
  destruct l as [i c]. unfold bstep, bwaiting, bset. cbn [fst snd].
  change (fun p => match p with BCounted | BBlocked => true | _ => false end) with wb.
  destruct c; cbn;
    try (destruct (nth_error (bpcs s) i) as [p|] eqn:E; [|discriminate]; destruct p as [| | |ok]; try discriminate;
    try (destruct (permits s) as [|n] eqn:Ep; [discriminate|]); intros [= <-]; cbn;
    match goal with |- context [firstn i (bpcs s) ++ ?q :: _] => pose proof (count_set _ i _ q E) as Q; cbn in Q end; lia).
  - intros [= <-]. cbn. lia.
  - destruct (count s) as [|n] eqn:Ec; intros [= <-]; cbn; lia.
Qed.

Lemma bsteps_count n ls s : steps bstep (binit n) ls s ->
  bwaiting s <= permits s + count s /\ (no_timeouts ls -> permits s + count s = bwaiting s).
Proof.
  intros H. remember (binit n) as s0 eqn:E0.
  assert (G : forall a ls b, steps bstep a ls b -> bwaiting a <= permits a + count a ->
     bwaiting b <= permits b + count b /\ (no_timeouts ls -> permits a + count a = bwaiting a -> permits b + count b = bwaiting b)).
  { clear. intros a ls b S. induction S as [s|s l s1 ls s2 E S IH]; intros B; [split; auto|].
    pose proof (bstep_count _ _ _ E) as Q. destruct l as [i c].
    assert (B1 : bwaiting s1 <= permits s1 + count s1) by (destruct c; cbn in Q; lia).
    destruct (IH B1) as [IH1 IH2]. split; [exact IH1|].
    intros NT E0. inversion NT as [|x y N1 N2]; subst. apply IH2; [exact N2|]. cbn in N1. destruct c; cbn in Q; try lia; exfalso; now apply N1. }
  assert (Z : bwaiting s0 = 0 /\ permits s0 + count s0 = 0).
  { subst. split; [|reflexivity]. unfold bwaiting. cbn. clear. induction n as [|n IH]; [reflexivity|exact IH]. }
  destruct (G _ _ _ H) as [G1 G2]; [lia|]. split; [exact G1|]. intros NT. apply G2; [exact NT|lia].
Qed.
