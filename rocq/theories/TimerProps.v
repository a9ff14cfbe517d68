(** C20: the timer. *)
From Coq Require Import List Arith Bool ZArith Lia.
From Verif Require Import Base Conc TimerModel TimerSpec TimerProofs.
Import ListNotations.
Local Open Scope Z_scope.

(** the worker takes a task only when it is due, and then the earliest one; among equals
    the one inserted first *)
Theorem C20_takes_earliest : forall s e s', reachable s -> takes s e s' ->
  e_due e <= now s /\
  forall x, In x (queue s) -> x = e \/ e_due e < e_due x \/ (e_due e = e_due x /\ (e_seq e < e_seq x)%nat).
Proof. exact takes_earliest. Qed.

(** the key of a queue entry is the time its callback was queued for *)
Theorem C20_queue_keys : forall s e, reachable s -> In e (queue s) -> last_due (log s) (e_id e) = Some (e_due e).
Proof. exact queue_due. Qed.

(** no task starts before the time it was queued for, and none starts after the reset of its
    token has returned *)
Theorem C20_start : forall s id t before, reachable s -> happened (log s) (EStart id t) before ->
  (exists d, last_due before id = Some d /\ d <= t) /\
  forall r, ~ In (EReleased r id) before.
Proof. exact start_good. Qed.

(** that time is the creation time plus the timeout, the first time; for a periodic timer the
    last dispatch plus the period, after that; a one-shot timer has no second time *)
Theorem C20_due_times : forall s id d before, reachable s -> happened (log s) (EQueued id d) before ->
  exists a t p, creation before id = Some (a, t, p) /\
    ((queuings before id = 0%nat /\ d = a + t) \/
     (exists q z, p = Some q /\ last_dispatch before id = Some z /\ d = z + q)).
Proof. exact queued_good. Qed.
Theorem C20_ids_unique : forall s id a t p before, reachable s ->
  happened (log s) (ECreated id a t p) before -> creation before id = None.
Proof. exact created_once. Qed.

(** when the reset of a token has returned (outside the timer's own tasks) the task is not running *)
Theorem C20_reset_waits : forall s id, reachable s -> In (EReleased false id) (log s) -> running (wp s) <> Some id.
Proof. exact released_not_running. Qed.

(** a one-shot task starts at most once; any task at most once per queuing *)
Theorem C20_one_shot : forall s id a t, reachable s -> creation (log s) id = Some (a, t, None) ->
  (starts (log s) id <= queuings (log s) id <= 1)%nat.
Proof. exact oneshot. Qed.
Theorem C20_starts_queuings : forall s id, reachable s -> (starts (log s) id <= queuings (log s) id)%nat.
Proof. exact starts_queuings. Qed.

(** a callback whose token was not reset is not lost: it is queued, or in the worker's hands,
    or is a one-shot task that was started exactly once - until the timer is told to stop *)
Theorem C20_never_lost : forall s id, reachable s ->
  pushed (infos s id) = true -> removed (infos s id) = false -> ~ stopping s ->
  is_queued s id \/ in_hand s id \/ (period (infos s id) = None /\ starts (log s) id = 1%nat).
Proof.
  intros s id R P Rm St. destruct (never_lost id R P Rm) as [H|[H|H]]; auto.
  - destruct (draining (wp s)) eqn:D; auto. exfalso. apply St. unfold stopping. destruct (wp s); try discriminate; eauto 6.
  - destruct (wp s) eqn:E; try discriminate H; injection H as <-; right; left; unfold in_hand; rewrite E; try (exists 0; auto; fail); try (exists start; auto; fail).
    + exfalso. apply St. unfold stopping. rewrite E. eauto 6.
    + exfalso. apply St. unfold stopping. rewrite E. eauto 6.
Qed.

(** the worker never sleeps past the earliest queued task, nor past a request to stop *)
Theorem C20_no_oversleep : forall s, reachable s ->
  (wp s = WSleep None -> queue s = [] /\ stop s = false) /\
  (forall d, wp s = WSleep (Some d) -> (forall e, In e (queue s) -> d <= e_due e) /\ stop s = false).
Proof. exact sleeps. Qed.

(** the worker is never stuck, and when the first task of the queue is due, the worker alone
    gets it started at once *)
Theorem C20_not_stuck : forall s, (forall d, wp s <> WSleep d) -> wp s <> WDone -> exists s', step s W = Some s'.
Proof. exact worker_not_stuck. Qed.
Theorem C20_due_task_runs : forall s e q, reachable s -> stop s = false -> (wp s = WLoop \/ exists d, wp s = WSleep d) ->
  queue s = e :: q -> e_due e <= now s -> removed (infos s (e_id e)) = false ->
  exists ls s', steps step s ls s' /\ Forall (fun l => l = W \/ l = Deadline) ls /\
    log s' = [EStart (e_id e) (now s); EDispatch (e_id e) (now s); EPopped (e_id e) (now s)] ++ log s.
Proof. exact due_runs. Qed.

(** ** Non-vacuity: task 0 due at 5, task 1 periodic due at 3, task 2 due at 5; clock at 6 *)
Definition sched : list label :=
  [Create 5 None; Insert 0; Create 3 (Some 4); Insert 1; Create 5 None; Insert 2; W; Tick 6; Deadline;
   W; W; W; W; W;  (* task 1 *)
   W; W; W; W; W;  (* task 0 *)
   Remove 2; Release false 2; W].
Example C20_run :
  exists s, steps step init sched s /\
    log s = [EReleased false 2; EFinish 0; EStart 0 6; EDispatch 0 6; EPopped 0 6;
             EQueued 1 10; EFinish 1; EStart 1 6; EDispatch 1 6; EPopped 1 6;
             EQueued 2 5; ECreated 2 0 5 None; EQueued 1 3; ECreated 1 0 3 (Some 4); EQueued 0 5; ECreated 0 0 5 None]
    /\ wp s = WSleep (Some 10) /\ queue s = [mk_entry 10 3 1].
Proof.
  apply (@exec_obs _ _ step (fun s => log s = _ /\ wp s = _ /\ queue s = _)). vm_compute. auto.
Qed.
(** a tie *)
Example C20_tie : exists s e s', reachable s /\ takes s e s' /\ e_id e = 0%nat /\ In (mk_entry 5 1 1) (queue s) /\ e_due e = 5.
Proof.
  destruct (@exec_obs _ _ step (fun s => wp s = WLoop /\ queue s = [mk_entry 5 0 0; mk_entry 5 1 1] /\ now s = 6 /\ stop s = false /\ due (infos s 0%nat) = 5) init [Create 5 None; Insert 0; Create 5 None; Insert 1; Tick 6]) as (s & H1 & E2 & E3 & E4 & E5 & E6); [vm_compute; auto|].
  exists s, (mk_entry 5 0 0). eexists. split; [eexists; eauto|]. unfold takes. cbn [step]. rewrite E2, E5, E3. cbn [e_id e_due e_seq]. rewrite E6, E4. unfold pop. rewrite E3.
  cbn. rewrite E4. auto 9.
Qed.

Print Assumptions C20_takes_earliest.
Print Assumptions C20_queue_keys.
Print Assumptions C20_start.
Print Assumptions C20_due_times.
Print Assumptions C20_ids_unique.
Print Assumptions C20_reset_waits.
Print Assumptions C20_one_shot.
Print Assumptions C20_starts_queuings.
Print Assumptions C20_never_lost.
Print Assumptions C20_no_oversleep.
Print Assumptions C20_not_stuck.
Print Assumptions C20_due_task_runs.
