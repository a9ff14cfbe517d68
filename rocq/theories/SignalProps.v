(** C35: signals.  Traces and vocabulary: SignalSpec.v. *)
From Coq Require Import List Arith Lia Bool.
From Verif Require Import Conc SignalSpec SignalModel SignalProofs SignalProofs2 SignalProofs3.
Import ListNotations.
Set Implicit Arguments.

Section Props.
Variable A : Type.

(** Once the Token's destructor has returned, the slot is never called again - neither by an emission
    already under way nor by a populator - and no other thread is still inside it. *)
Theorem C35_no_slot_call_after_disconnect : forall (s : st A) p t c q,
  reach s (p ++ ODisconnected t c :: q) ->
  received c q = [] /\ forall u, u <> t -> ~ inside u c (p ++ [ODisconnected t c]).
Proof. exact (@no_call_after_disconnect A). Qed.

(** Two threads are never inside the slot of the same connection. *)
Theorem C35_slot_runs_in_one_thread : forall (s : st A) tr t u c,
  reach s tr -> inside t c tr -> inside u c tr -> t = u.
Proof. exact (@one_thread_per_slot A). Qed.

(** When a call of the signal returns it has dealt with exactly the connections in force when it
    started, each once and in the order of connection; before that, with a prefix of them. *)
Theorem C35_emission_deals_with_exactly_the_connected : forall (s : st A) p o q t e a,
  reach s (p ++ o :: q) -> emission o t e a ->
  (exists rest, connected p = handled e (p ++ o :: q) ++ rest) /\
  (forall t', In (OEmitted t' e) q -> handled e (p ++ o :: q) = connected p /\ t' = t) /\
  NoDup (connected p).
Proof.
  intros s p o q t e a R E. split; [|split].
  - eapply emission_prefix; eauto.
  - intros t' X. eapply emission_complete; eauto.
  - destruct (reach_split _ _ _ R) as (s1&_&_&R1&_). eapply connected_nodup; eauto.
Qed.

(** "Dealt with" means: called with the emission's argument by the emitting thread, and skipped only
    if the connection's Token had already been destroyed. *)
Theorem C35_calls_and_skips : forall (s : st A) p q t e c,
  (forall a, reach s (p ++ OCall t e c a :: q) -> (exists p1 o p2, p = p1 ++ o :: p2 /\ emission o t e a) /\ ~ disconnected c p) /\
  (reach s (p ++ OSkip t e c :: q) -> disconnected c p).
Proof.
  intros. split; [intros a; apply call_of_emission|apply skip_disconnected].
Qed.

(** Hence a connection that existed when the signal was called and is not disconnected receives the
    call exactly once. *)
Theorem C35_live_connection_called_exactly_once : forall (s : st A) p o q t e a t' c,
  reach s (p ++ o :: q) -> emission o t e a -> In (OEmitted t' e) q -> In c (connected p) -> ~ disconnected c (p ++ o :: q) ->
  exists u v, p ++ o :: q = u ++ OCall t e c a :: v /\ ~ In c (handled e u) /\ ~ In c (handled e v).
Proof.
  intros s p o q t e a t' c R E X Hc Nd.
  destruct (emission_complete _ _ _ R E X) as (Hh&_).
  assert (N : NoDup (handled e (p ++ o :: q))).
  { rewrite Hh. destruct (reach_split _ _ _ R) as (s1&_&_&R1&_). eapply connected_nodup; eauto. }
  rewrite <- Hh in Hc. unfold handled in Hc. apply in_flat_map in Hc. destruct Hc as (o1&H1&H2).
  apply in_split in H1. destruct H1 as (u&v&H1).
  assert (Nu : forall x, handled1 e x = [c] -> x = o1 -> ~ In c (handled e u) /\ ~ In c (handled e v)).
  { intros x Hx ->. rewrite H1 in N. unfold handled in N. rewrite flat_map_app in N. cbn [flat_map] in N. rewrite Hx in N. cbn in N.
    apply NoDup_remove_2 in N. unfold handled. split; intros Y; apply N; apply in_or_app; auto. }
  rewrite H1 in R. destruct o1; cbn in H2; try contradiction; destruct (e0 =? e) eqn:Ee; try contradiction; destruct H2 as [->|[]]; apply Nat.eqb_eq in Ee; subst e0.
  - exists u, v. pose proof (call_of_emission _ _ _ _ _ _ R) as ((p1&o2&p2&Hp&E2)&_).
    assert (J := reach_jnv R). rewrite <- H1 in J.
    assert (Hs : p ++ o :: q = p1 ++ o2 :: (p2 ++ OCall t0 e c a0 :: v)). { rewrite H1, Hp, <- app_assoc. reflexivity. }
    destruct (j_uniq J _ _ _ _ eq_refl Hs E E2) as (_&<-&<-). split; auto. apply (Nu (OCall t e c a)); auto. cbn. now rewrite Nat.eqb_refl.
  - exfalso. apply Nd. apply skip_disconnected in R. destruct R as (t1&R). exists t1. rewrite H1. apply in_or_app. auto.
Qed.

(** Connecting with the current state (the pattern documented in signals.h): if the guarded state is
    changed only under a signal_locker together with an emission, every connection in force has
    received, in order and without loss or duplication, the whole history of the state - up to the
    one change that is being announced, and exactly all of it whenever no signal_locker is held. *)
Theorem C35_populated_connection_sees_every_change_once : forall (s : st A) tr c,
  reach s tr -> disciplined tr -> In c (connected tr) ->
  (exists p, received c tr ++ p = added tr /\ length p <= 1) /\
  ((forall t, ~ locking t tr) -> received c tr = added tr).
Proof. exact (@populated A). Qed.
End Props.

Print Assumptions C35_no_slot_call_after_disconnect.
Print Assumptions C35_slot_runs_in_one_thread.
Print Assumptions C35_emission_deals_with_exactly_the_connected.
Print Assumptions C35_calls_and_skips.
Print Assumptions C35_live_connection_called_exactly_once.
Print Assumptions C35_populated_connection_sees_every_change_once.

(* ---- concrete histories ---- *)
Lemma execs_reach (A : Type) ls : forall s tr s' tr', reach s tr -> @execs A s ls tr = Some (s', tr') -> reach s' tr'.
Proof.
  induction ls as [|l ls IH]; cbn; intros s tr s' tr' R H; [congruence|].
  destruct (step s l) as [[s1 o]|] eqn:E; [|discriminate]. eapply IH; [|exact H]. eapply reach_step; eauto.
Qed.
Lemma execs_trace (A : Type) ls tr : option_map snd (@execs A (init A) ls []) = Some tr -> exists s, reach s tr.
Proof. destruct (execs (init A) ls []) as [[s tr']|] eqn:E; cbn; [|discriminate]. injection 1 as <-. exists s. eapply execs_reach; eauto. constructor. Qed.

(** two connections; thread 1 emits and is inside slot 0 while thread 2 has unlinked connection 1 and
    destroyed its Token: the emission skips 1. *)
Example C35_example_disconnect_during_emission :
  exists s : st nat, reach s
   ([OConnecting 0 0 false; OConnected 0 0; OConnecting 0 1 false; OConnected 0 1; OEmit 1 0 7; OCall 1 0 0 7; ODisc 2 1]
    ++ ODisconnected 2 1 :: [OReturn 1 0; OSkip 1 0 1; OEmitted 1 0]).
Proof.
  apply (@execs_trace nat [LConnect 0 false; LNext 0; LConnect 0 false; LNext 0; LEmit 1 7; LNext 1; LDisc 2 1; LNext 2; LReturn 1; LNext 1; LNext 1]).
  vm_compute. reflexivity.
Qed.
(** the populator and a concurrent add: connection 1 is made between the two adds *)
Definition ex_add := [LConnect 0 true; LNext 0; LLock 1; LAdd 1 5; LNext 1; LReturn 1; LNext 1; LUnlock 1;
   LConnect 2 true; LNext 2; LReturn 2; LNext 2; LLock 1; LAdd 1 6; LNext 1; LReturn 1; LNext 1; LReturn 1; LNext 1; LUnlock 1].
Example C35_example_populated :
  exists (s : st nat) tr, reach s tr /\ disciplined tr /\ In 1 (connected tr) /\ (forall t, ~ locking t tr) /\ received 1 tr = [5; 6] /\ added tr = [5; 6].
Proof.
  destruct (execs (init nat) ex_add []) as [[s tr]|] eqn:E; [|vm_compute in E; discriminate].
  exists s, tr. assert (R : reach s tr) by (eapply execs_reach; [constructor|exact E]).
  assert (T : option_map snd (execs (init nat) ex_add []) = Some tr) by now rewrite E.
  vm_compute in T. injection T as <-. split; auto. split; [|split; [|split; [|split]]].
  - intros o Ho. cbn in Ho. repeat (destruct Ho as [<-|Ho]; [cbn; auto|]). contradiction.
  - vm_compute. auto.
  - intros t. unfold locking, locked_n, unlocked_n. cbn. destruct t as [|[|[|t]]]; cbn; lia.
  - reflexivity.
  - reflexivity.
Qed.

(** Not guaranteed: destroying a Token while holding a signal_locker can deadlock with a slot of that
    connection that uses the signal.  Thread 0 holds the locker and waits for the token of
    connection 0 (no label of thread 0 is enabled); thread 1, inside slot 0, cannot lock, emit,
    connect or disconnect. *)
Theorem C35_disconnect_under_locker_can_deadlock_refuted : exists (s : st nat) tr, reach s tr /\
  (forall a p c, step s (LLock 0) = None /\ step s (LUnlock 0) = None /\ step s (LEmit 0 a) = None /\ step s (LAdd 0 a) = None /\
     step s (LConnect 0 p) = None /\ step s (LDisc 0 c) = None /\ step s (LNext 0) = None /\ step s (LReturn 0) = None) /\
  (forall a p c, step s (LLock 1) = None /\ step s (LEmit 1 a) = None /\ step s (LConnect 1 p) = None /\ step s (LDisc 1 c) = None) /\
  inside 1 0 tr.
Proof.
  pose (ls := [LConnect 0 false; LNext 0; LEmit 1 7; LNext 1; LLock 0; LDisc 0 0] : list (lab nat)).
  destruct (execs (init nat) ls []) as [[s tr]|] eqn:E; [|vm_compute in E; discriminate].
  exists s, tr. assert (R : reach s tr) by (eapply execs_reach; [constructor|exact E]).
  cbn in E. injection E as <- <-. split; auto. split; [|split].
  - intros. repeat split; reflexivity.
  - intros. repeat split; try reflexivity.
  - unfold inside. vm_compute. lia.
Qed.
Print Assumptions C35_disconnect_under_locker_can_deadlock_refuted.
