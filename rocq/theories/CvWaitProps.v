(** * C69: waiting on a condition variable with a cancellation token *)
From Coq Require Import List Arith Bool Lia.
From Verif Require Import Conc CvWaitModel CvWaitSpec CvWaitProofs CvWaitProofs2 CvWaitProofs3 CvWaitProofs4 CvWaitProofs5.
Import ListNotations.

Lemma reach_of s : reachable s -> reach s.
Proof. exact (fun x => x). Qed.
Lemma waiting_in p : waiting p = in_wait p.
Proof. now destruct p. Qed.
Lemma critical_holding p : critical p = holding p.
Proof. now destruct p as [| | | | | | | | |[|]| | |[|]]. Qed.
Lemma waits_leaves p : waits_on p = leaves p.
Proof. now destruct p. Qed.
Lemma reg_leaves s w t : Inv s -> In t (regset (pcs s w)) -> In t (waits_on (pcs s w)) /\ waiting (pcs s w) = true.
Proof.
  intros I H. destruct (iW _ I w) as (_ & A & _). specialize (A t H). rewrite waits_leaves. split; [exact A|].
  destruct (pcs s w); cbn in *; tauto.
Qed.

(** ** the mutex *)
Theorem C69_mutual_exclusion s v w : reachable s -> critical (pcs s v) = true -> critical (pcs s w) = true -> v = w.
Proof.
  intros R A B. pose proof (reach_inv _ R) as I. rewrite critical_holding in *.
  pose proof (iO1 _ I _ A). pose proof (iO1 _ I _ B). congruence.
Qed.

(** Wait returns with the mutex held, and reports exactly once, for the call and token it was given *)
Theorem C69_returns_with_mutex s w c s' : reachable s -> step s (w, c) = Some s' ->
  waiting (pcs s w) = true -> waiting (pcs s' w) = false ->
  pcs s' w = Hold /\ owner s' = Some w /\
  exists r, log s' = ERet w (calls s w) (waits_on (pcs s w)) (tmd s w) r :: log s.
Proof.
  intros R St W W'. pose proof (reach_inv _ R) as I. pose proof (step_inv _ _ _ I St) as I'.
  assert (Q : pcs s' w = Hold /\ exists r, log s' = ERet w (calls s w) (waits_on (pcs s w)) (tmd s w) r :: log s).
  { revert St W'. unfold step. cbn [fst snd].
    destruct (pcs s w) as [| |ls tm [|t todo] got|ls tm got|ls got tout|ls [|t todo] l|ls r [|t todo] l|ls r [|t todo]|ls r|b t h|b t h|b t h|b t] eqn:P;
      try discriminate W; destruct c; try discriminate;
    repeat match goal with
    | |- context [match ?x with _ => _ end] => destruct x eqn:?; try discriminate
    end; intros [= <-]; cbn; rewrite ?fupd_same; cbn; try discriminate; eauto. }
  destruct Q as [P Q]. split; [exact P|]. split; [|exact Q]. apply (iO1 _ I'). now rewrite P.
Qed.

(** ** the handler lives on the stack of Wait: whoever may still call it finds that call in progress *)
Theorem C69_handler_alive s k t w n : reachable s -> uses_handler (pcs s k) t w n ->
  waiting (pcs s w) = true /\ calls s w = n /\ In t (waits_on (pcs s w)).
Proof.
  intros R H. pose proof (reach_inv _ R) as I.
  assert (K : khandler (pcs s k) = Some (t, (w, n))).
  { destruct (pcs s k); cbn in *; try contradiction; try (destruct h; [|contradiction]); destruct H as [-> ->]; reflexivity. }
  destruct (iKh _ I _ _ _ _ K) as [A B]. destruct (reg_leaves _ _ _ I A). auto.
Qed.

Theorem C69_no_stale_handler s t w n : reachable s -> handler (toks s t) = Some (w, n) ->
  waiting (pcs s w) = true /\ calls s w = n /\ In t (waits_on (pcs s w)).
Proof.
  intros R H. pose proof (reach_inv _ R) as I.
  destruct (iH _ I _ _ _ H) as [A B]. destruct (reg_leaves _ _ _ I A). auto.
Qed.

(** ** no lost cancellation: a thread asleep on a plain token is never left there by a finished Cancel *)
Theorem C69_no_lost_cancel s w t tm got : reachable s -> pcs s w = PSleep [t] tm got -> cancelled (toks s t) = true ->
  done (toks s t) = false /\ exists k, uses_handler (pcs s k) t w (calls s w).
Proof.
  intros R P C. pose proof (reach_inv _ R) as I.
  pose proof (iW _ I w) as W. rewrite P in W. destruct W as (_ & W2 & _ & W3). cbn in W2.
  destruct got as [|g got]; [congruence|]. destruct (W2 g (or_introl eq_refl)) as [<-|[]].
  destruct (iE _ I t w) as [k K]; [rewrite P; now left|exact C|].
  pose proof (khandler_target _ _ _ (kpre_handler _ _ K)) as KT.
  split; [apply (iK _ I _ _ KT)|]. exists k. apply kpre_handler in K.
  destruct (pcs s k); cbn in *; try discriminate; try (destruct h; [|discriminate]); injection K as -> ->; auto.
Qed.

(** the same for a joined token, for the members it did register with *)
Theorem C69_no_lost_cancel_joined_partial s w ls t tm got : reachable s -> pcs s w = PSleep ls tm got ->
  In t got -> cancelled (toks s t) = true ->
  done (toks s t) = false /\ exists k, uses_handler (pcs s k) t w (calls s w).
Proof.
  intros R P Ht C. pose proof (reach_inv _ R) as I.
  destruct (iE _ I t w) as [k K]; [now rewrite P|exact C|].
  pose proof (khandler_target _ _ _ (kpre_handler _ _ K)) as KT.
  split; [apply (iK _ I _ _ KT)|]. exists k. apply kpre_handler in K.
  destruct (pcs s k); cbn in *; try discriminate; try (destruct h; [|discriminate]); injection K as -> ->; auto.
Qed.

(** ** the result says why *)
Theorem C69_results s w n ls tm r : reachable s -> In (ERet w n ls tm r) (log s) ->
  match r with
  | Broadcasted => forall t, ~ In (EHandled w n t) (log s)
  | Cancelled => tm = true \/ exists t, In t ls /\ cancelled (toks s t) = true
  | TimedOut => tm = true
  end.
Proof.
  intros R H. pose proof (reach_linv _ R) as I. destruct (lR _ I _ _ _ _ _ H) as (_ & _ & Q).
  destruct r; cbn in Q; auto. intros t E. exact (lB _ I _ _ _ _ _ E H).
Qed.

Theorem C69_one_result s w n ls tm r ls' tm' r' : reachable s ->
  In (ERet w n ls tm r) (log s) -> In (ERet w n ls' tm' r') (log s) -> r = r'.
Proof. intros R. apply (lU _ (reach_linv _ R)). Qed.

(** ** a wait can return: when every member of its token is cancelled, or once it is awake *)
Theorem C69_cancelled_can_return s w : reachable s -> waiting (pcs s w) = true ->
  (forall t, In t (waits_on (pcs s w)) -> cancelled (toks s t) = true) \/
  match pcs s w with PReg _ _ _ _ | PSleep _ _ _ => False | _ => True end ->
  exists sched s', Forall goes_on sched /\ steps step s sched s' /\
    pcs s' w = Hold /\ owner s' = Some w /\ exists ls tm r, In (ERet w (calls s w) ls tm r) (log s').
Proof.
  intros R W H. pose proof (reach_inv _ R) as I.
  destruct (can_return s w I) as (s' & Run & P & Rt).
  - now rewrite <- waiting_in.
  - pose proof (iW _ I w) as Wf. destruct (pcs s w) as [| |ls tm todo got|ls tm got|ls got tout|ls todo l|ls r todo l|ls r todo|ls r|b t h|b t h|b t h|b t] eqn:E; cbn; auto.
    + destruct H as [H|[]]. cbn in H. destruct Wf as (_ & A & B & C & _). cbn in A. split; [auto|].
      destruct got as [|g got]; [now left|]. right. exists g. split; [now left|]. apply H, A. now left.
    + destruct H as [H|[]]. cbn in H. destruct Wf as (_ & A & _ & B). cbn in A.
      destruct got as [|g got]; [congruence|]. exists g. split; [now left|]. apply H, A. now left.
  - destruct Run as (sched & F & S). exists sched, s'. split; [exact F|]. split; [exact S|]. split; [exact P|]. split; [|exact Rt].
    pose proof (run_inv _ _ I (ex_intro _ sched (conj F S))) as I'. apply (iO1 _ I'). now rewrite P.
Qed.

(** ** refuted: "a cancelled token ends the wait".  JoiningCancellationToken counts as registered when one
    of its members is; if the other was cancelled before, nobody wakes the thread: it sleeps although
    the token is cancelled, its Cancel long finished, and nothing else is going on *)
Theorem C69_joined_cancel_lost_refuted : exists s,
  reachable s /\ pcs s 0 = PSleep [1; 2] false [2] /\ cancelled (toks s 1) = true /\ done (toks s 1) = true /\
  owner s = None /\ (forall k, k <> 0 -> pcs s k = Idle) /\
  (forall l s', goes_on l -> step s l <> Some s').
Proof.
  destruct (exec_obs step (fun s => pcs s 0 = PSleep [1; 2] false [2] /\ cancelled (toks s 1) = true /\ done (toks s 1) = true /\
    owner s = None /\ (forall k, k <> 0 -> pcs s k = Idle)) init
    [(7, CallCancel 1); (7, Go); (7, Go); (0, Lock); (0, CallWait [1; 2] false); (0, Go); (0, Go); (0, Go)]) as (s & St & H).
  { vm_compute. repeat split. intros k N. destruct k; [congruence|]. do 7 (destruct k; [reflexivity|]). reflexivity. }
  destruct H as (A & B & C & D & E). exists s. split; [eexists; exact St|]. repeat split; auto.
  intros [k c] s' G. unfold goes_on in G. cbn [fst snd] in G. unfold step. cbn [fst snd].
  destruct (Nat.eq_dec k 0) as [->|N]; [rewrite A|rewrite (E k N)]; destruct G as [-> | ->]; discriminate.
Qed.

(** ** refuted: "Cancelled means that the token was cancelled".  An expired TimedCancellationToken refuses
    the registration, and Wait calls that Cancelled, not TimedOut *)
Theorem C69_cancelled_without_cancel_refuted : exists s,
  reachable s /\ In (ERet 0 1 [1] true Cancelled) (log s) /\ cancelled (toks s 1) = false.
Proof.
  destruct (exec_obs step (fun s => In (ERet 0 1 [1] true Cancelled) (log s) /\ cancelled (toks s 1) = false) init
    [(0, Lock); (0, CallWait [1] true); (0, Expired)]) as (s & St & H).
  { vm_compute. auto. }
  exists s. split; [eexists; exact St|exact H].
Qed.

(** ** BasicConditionVariable: waiters are never more than the permits they can still get, so a Broadcast
    leaves a permit for everyone inside Wait; without timeouts there is none to spare *)
Theorem C69_basic_broadcast n ls s s' i : steps bstep (binit n) ls s -> bstep s (i, BBroadcast) = Some s' ->
  count s' = 0 /\ bwaiting s' = bwaiting s /\ bwaiting s' <= permits s' /\
  (no_timeouts ls -> permits s' = bwaiting s').
Proof.
  intros H [= <-]. destruct (bsteps_count _ _ _ H) as [A B].
  split; [reflexivity|]. split; [reflexivity|]. split; [exact A|exact B].
Qed.

(** refuted: the permits are not tied to the waiters: a thread that starts to wait after the Broadcast may
    take the permit, and the one that was waiting stays blocked *)
Theorem C69_basic_stolen_wakeup_refuted : exists ls s,
  steps bstep (binit 2) ls s /\ no_timeouts ls /\
  ls = [(0, BEnter); (0, BUnlock); (9, BBroadcast); (1, BEnter); (1, BUnlock); (1, BAcquire)] /\
  bpcs s = [BBlocked; BReturned true] /\ permits s = 0.
Proof.
  destruct (exec_obs bstep (fun s => bpcs s = [BBlocked; BReturned true] /\ permits s = 0) (binit 2)
    [(0, BEnter); (0, BUnlock); (9, BBroadcast); (1, BEnter); (1, BUnlock); (1, BAcquire)]) as (s & St & A & B).
  { vm_compute. auto. }
  eexists _, s. split; [exact St|]. split; [repeat constructor; discriminate|]. auto.
Qed.

(** refuted: after a timeout _waitersCount is not taken back: a later Broadcast posts for a thread that has
    gone, and the next Wait returns at once though nobody has broadcast since it began *)
Theorem C69_basic_timeout_surplus_refuted : exists s,
  steps bstep (binit 1) [(0, BEnter); (0, BUnlock); (0, BTimeout); (9, BBroadcast); (0, BEnter); (0, BUnlock); (0, BAcquire)] s /\
  bpcs s = [BReturned true].
Proof.
  destruct (exec_obs bstep (fun s => bpcs s = [BReturned true]) (binit 1)
    [(0, BEnter); (0, BUnlock); (0, BTimeout); (9, BBroadcast); (0, BEnter); (0, BUnlock); (0, BAcquire)]) as (s & St & A).
  { vm_compute. auto. }
  exists s. auto.
Qed.

(** ** the hypotheses are met *)
Example asleep_and_being_cancelled : exists s, reachable s /\ pcs s 0 = PSleep [1] false [1] /\ cancelled (toks s 1) = true /\
  uses_handler (pcs s 7) 1 0 1.
Proof.
  destruct (exec_obs step (fun s => pcs s 0 = PSleep [1] false [1] /\ cancelled (toks s 1) = true /\ uses_handler (pcs s 7) 1 0 1) init
    [(0, Lock); (0, CallWait [1] false); (0, Go); (0, Go); (7, CallCancel 1)]) as (s & St & H).
  { vm_compute. auto. }
  exists s. split; [eexists; exact St|exact H].
Qed.
Example cancelled_result : exists s, reachable s /\ In (ERet 0 1 [1] false Cancelled) (log s) /\ In (EHandled 0 1 1) (log s).
Proof.
  destruct (exec_obs step (fun s => In (ERet 0 1 [1] false Cancelled) (log s) /\ In (EHandled 0 1 1) (log s)) init
    [(0, Lock); (0, CallWait [1] false); (0, Go); (0, Go); (7, CallCancel 1); (7, Go); (7, Go); (7, Go);
     (0, Go); (0, Go); (0, Go); (0, Go); (0, Go); (7, Go); (0, Go); (0, Go); (0, Go)]) as (s & St & H).
  { vm_compute. auto. }
  exists s. split; [eexists; exact St|exact H].
Qed.
Example broadcast_result : exists s, reachable s /\ In (ERet 0 1 [1; 2] true Broadcasted) (log s).
Proof.
  destruct (exec_obs step (fun s => In (ERet 0 1 [1; 2] true Broadcasted) (log s)) init
    [(0, Lock); (0, CallWait [1; 2] true); (0, Go); (0, Go); (0, Go); (7, Bcast); (0, Go); (0, Go); (0, Go); (0, Go)]) as (s & St & H).
  { vm_compute. auto. }
  exists s. split; [eexists; exact St|exact H].
Qed.

Print Assumptions C69_mutual_exclusion.
Print Assumptions C69_returns_with_mutex.
Print Assumptions C69_handler_alive.
Print Assumptions C69_no_stale_handler.
Print Assumptions C69_no_lost_cancel.
Print Assumptions C69_no_lost_cancel_joined_partial.
Print Assumptions C69_results.
Print Assumptions C69_one_result.
Print Assumptions C69_cancelled_can_return.
Print Assumptions C69_joined_cancel_lost_refuted.
Print Assumptions C69_cancelled_without_cancel_refuted.
Print Assumptions C69_basic_broadcast.
Print Assumptions C69_basic_stolen_wakeup_refuted.
Print Assumptions C69_basic_timeout_surplus_refuted.
