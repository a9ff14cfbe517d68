(** C18.  Any number of concurrent Cancel calls, registrations, unregistrations and
    sleeps on one token, every interleaving, spurious wake-ups and timeouts at
    arbitrary moments; no Reset (with Reset the claims are false, see the end). *)
From Coq Require Import List Arith.
From Verif Require Import Base Conc CancelTokenModel CancelTokenSpec CancelTokenProofs.
Import ListNotations.

(** a handler call is made at most once per registration, only for a registered
    handler and never after the registration was given up *)
Theorem C18_handler_called_at_most_once (s : st) (r : nat) (before : list event) :
  reachable s -> happened (log s) (EHandlerStart r) before ->
  In (ERegistered r) before /\ ~ In (EHandlerStart r) before /\ forall b, ~ In (EUnregistered r b) before.
Proof. exact (@once s r before). Qed.

(** once unregistration has returned (either way) the handler is not running, and
    never finishes later either *)
Theorem C18_quiet_after_unregister (s : st) (r : nat) (b : bool) :
  reachable s -> In (EUnregistered r b) (log s) -> ~ handler_running s r.
Proof. exact (@quiet s r b). Qed.
Theorem C18_handler_ends_before_unregister (s : st) (r : nat) (before : list event) :
  reachable s -> happened (log s) (EHandlerEnd r) before ->
  In (EHandlerStart r) before /\ ~ In (EHandlerEnd r) before /\ forall b, ~ In (EUnregistered r b) before.
Proof. exact (@end_before s r before). Qed.

(** true: never called, at any time *)
Theorem C18_true_means_never_called (s : st) (r : nat) :
  reachable s -> In (EUnregistered r true) (log s) -> ~ In (EHandlerStart r) (log s).
Proof. exact (@never_called s r). Qed.

(** false: called, and both the call and the whole Cancel had completed by then *)
Theorem C18_false_means_completed (s : st) (r : nat) (before : list event) :
  reachable s -> happened (log s) (EUnregistered r false) before ->
  In (EHandlerStart r) before /\ In (EHandlerEnd r) before /\ In ECancelDone before.
Proof. exact (@completed s r before). Qed.

(** only one Cancel call takes effect *)
Theorem C18_one_cancellation (s : st) (before : list event) :
  reachable s -> happened (log s) ECancelled before -> ~ In ECancelled before.
Proof. exact (@one_cancel s before). Qed.

(** nobody sleeps in Unregister or Sleep after the cancellation has finished *)
Theorem C18_no_lost_wakeup (s : st) :
  reachable s -> In ECancelDone (log s) ->
  (forall t r, pcs s t <> UnregWait r) /\ (forall t timed, pcs s t <> SleepWait timed).
Proof. exact (@not_asleep s). Qed.

(** Unregister can always return, by ordinary steps of the agents involved *)
Theorem C18_unregister_can_return (s : st) (t r : nat) :
  reachable s -> unregistering s t r ->
  exists ls s', steps step s ls s' /\ Forall (fun l => snd l = Go \/ snd l = DoUnregister) ls /\
    pcs s' t = Idle /\ In (EUnregistered r false) (log s').
Proof. exact (@can_unregister s t r). Qed.

(** without spurious wake-ups Sleep returns false only after a Cancel *)
Theorem C18_sleep_false_means_cancelled (s : st) (before : list event) :
  reachable_nospurious s -> happened (log s) (ESlept false) before -> In ECancelled before.
Proof. exact (@slept_false s before). Qed.

(** with a spurious wake-up it does not: Sleep (lines 38-42) does not re-check *)
Theorem C18_sleep_spurious_refuted :
  exists s, reachable s /\ In (ESlept false) (log s) /\ ~ In ECancelled (log s).
Proof.
  eexists. split; [exists [(0, DoSleep false); (0, Spurious); (0, Go)]; split|].
  - apply exec_steps. reflexivity.
  - repeat constructor; discriminate.
  - cbn. split; [auto|]. intros [H|[]]. discriminate.
Qed.

(** Reset between TryUnregister (false) and Unregister: Unregister returns true
    although the handler was called *)
Definition reset_sched : list (nat * choice) :=
  [(0, DoRegister); (1, DoCancel); (0, DoTryUnregister); (1, Go); (1, Go); (1, Go); (2, DoReset); (0, DoUnregister)].
Theorem C18_with_reset_refuted :
  exists s, steps step init reset_sched s /\ In (EUnregistered 0 true) (log s) /\ In (EHandlerStart 0) (log s).
Proof.
  apply exec_obs with (P := fun s => In (EUnregistered 0 true) (log s) /\ In (EHandlerStart 0) (log s)). vm_compute. auto 10.
Qed.
(** Reset between the broadcast and the re-check: the unregistering thread goes back
    to sleep with nobody left to wake it *)
Definition reset_sched2 : list (nat * choice) :=
  [(0, DoRegister); (1, DoCancel); (0, DoUnregister); (1, Go); (1, Go); (1, Go); (2, DoReset); (0, Go)].
Theorem C18_with_reset_deadlock_refuted :
  exists s, steps step init reset_sched2 s /\ pcs s 0 = UnregWait 0 /\ cancelled s = false /\ forall t, t <> 0 -> pcs s t = Idle.
Proof.
  apply exec_obs with (P := fun s => pcs s 0 = UnregWait 0 /\ cancelled s = false /\ forall t, t <> 0 -> pcs s t = Idle).
  cbn. repeat split. intros [|[|[|t]]] H; cbn; congruence.
Qed.

Print Assumptions C18_handler_called_at_most_once.
Print Assumptions C18_quiet_after_unregister.
Print Assumptions C18_handler_ends_before_unregister.
Print Assumptions C18_true_means_never_called.
Print Assumptions C18_false_means_completed.
Print Assumptions C18_one_cancellation.
Print Assumptions C18_no_lost_wakeup.
Print Assumptions C18_unregister_can_return.
Print Assumptions C18_sleep_false_means_cancelled.
Print Assumptions C18_sleep_spurious_refuted.
Print Assumptions C18_with_reset_refuted.
Print Assumptions C18_with_reset_deadlock_refuted.

(** Non-vacuity: a registration unregistered with true, then another whose handler
    runs while its owner sleeps in Unregister and returns false. *)
Definition sched : list (nat * choice) :=
  [(3, DoSleep true); (0, DoRegister); (0, DoTryUnregister); (0, DoRegister); (1, DoCancel); (1, Go); (0, DoTryUnregister);
   (0, DoUnregister); (0, Spurious); (0, Go); (2, DoCancel)].
Definition sched_end : list (nat * choice) := [(1, Go); (1, Go); (0, Go); (3, Go)].
Example C18_reachable_case :
  (exists s, reachable s /\ unregistering s 0 1 /\ handler_running s 1 /\ pcs s 3 = SleepWait true) /\
  (exists s, reachable s /\ log s = [ESlept false; EUnregistered 1 false; ECancelDone; EHandlerEnd 1; EHandlerStart 1; ECancelled;
                                     ERegistered 1; EUnregistered 0 true; ERegistered 0]).
Proof.
  split.
  - destruct (@exec_obs _ _ step (fun s => pcs s 0 = UnregWait 1 /\ pcs s 1 = InHandler 1 /\ pcs s 3 = SleepWait true) init sched) as (s & H1 & H2 & H3 & H4);
      [vm_compute; auto|].
    exists s. split; [|split; [right; left; auto|split; [now exists 1|auto]]]. exists sched. split; auto. repeat constructor; discriminate.
  - destruct (@exec_obs _ _ step (fun s => log s = [ESlept false; EUnregistered 1 false; ECancelDone; EHandlerEnd 1; EHandlerStart 1; ECancelled;
      ERegistered 1; EUnregistered 0 true; ERegistered 0]) init (sched ++ sched_end)) as (s & H1 & H2); [vm_compute; auto|].
    exists s. split; auto. exists (sched ++ sched_end). split; auto. repeat constructor; discriminate.
Qed.
