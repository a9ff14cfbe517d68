(** C19.  Any number of threads running guarded tasks of one token (also nested in one
    thread) and releasing it, every interleaving. *)
From Coq Require Import List Arith.
From Verif Require Import Base Conc TaskLifeModel TaskLifeSpec TaskLifeProofs.
Import ListNotations.

(** no guarded task starts after any Release has returned *)
Theorem C19_no_start_after_release (a : bool) (s : st) (t : nat) (before : list event) :
  reachable a s -> happened (log s) (EStarted t) before -> forall u n, ~ In (EReleased u n) before.
Proof. exact (@no_start_after a s t before). Qed.

(** Release returned outside any guarded task: nothing is running, now or later *)
Theorem C19_nothing_running_after_release (a : bool) (s : st) (t : nat) :
  reachable a s -> In (EReleased t 0) (log s) -> forall u, ~ running s u.
Proof. exact (@none_running a s t). Qed.

(** Release called from inside a guarded task: only that thread's own tasks may
    still be running *)
Theorem C19_only_releasing_thread_running (a : bool) (s : st) (t n : nat) :
  reachable a s -> In (EReleased t n) (log s) -> forall u, running s u -> u = t.
Proof. exact (@only_releaser_running a s t n). Qed.

(** tasks of one token never run in two threads at once *)
Theorem C19_tasks_exclusive (a : bool) (s : st) (t u : nat) :
  reachable a s -> running s t -> running s u -> t = u.
Proof. exact (@exclusive a s t u). Qed.

(** a dead token never lets a task start *)
Theorem C19_dead_token_refuses (a : bool) (s : st) :
  reachable a s -> a = false -> forall t, ~ In (EStarted t) (log s).
Proof. exact (@dead_never a s). Qed.

(** a task with a dummy tester always runs, whatever the token and its mutex do *)
Theorem C19_dummy_always_runs (a : bool) (s : st) (t : nat) :
  reachable a s -> stack s t = [] -> exists s', step s (t, DoDummy) = Some s' /\ log s' = EDummy t :: log s.
Proof. intros _ E. eexists. unfold step. cbn [fst snd]. rewrite E. split; reflexivity. Qed.

(** Release can return once the tasks running at that time have finished *)
Theorem C19_release_can_return (a : bool) (s : st) (t : nat) :
  reachable a s -> stack s t = [] ->
  exists ls s', steps step s (ls ++ [(t, DoRelease); (t, Go); (t, Go)]) s' /\
    Forall (fun l => snd l = Go \/ snd l = DoFinish) ls /\ In (EReleased t 0) (log s').
Proof. exact (@release_can_return a s t). Qed.

Print Assumptions C19_no_start_after_release.
Print Assumptions C19_nothing_running_after_release.
Print Assumptions C19_only_releasing_thread_running.
Print Assumptions C19_tasks_exclusive.
Print Assumptions C19_dead_token_refuses.
Print Assumptions C19_dummy_always_runs.
Print Assumptions C19_release_can_return.

(** Non-vacuity: two tasks, one nested; Release in between; a refused start. *)
Definition sched : list (nat * choice) :=
  [(0, DoTry); (0, Go); (0, DoTry); (0, Go); (0, DoFinish); (0, DoFinish); (1, DoTry); (1, Go); (1, DoRelease); (1, Go); (1, Go)].
Example C19_reachable_case :
  (exists s, reachable true s /\ running s 1 /\ In (EReleased 1 1) (log s) /\ In (EStarted 0) (log s)) /\
  (exists s, reachable true s /\ In (EReleased 2 0) (log s) /\ In (ERefused 0) (log s)).
Proof.
  split.
  - destruct (@exec_obs _ _ step (fun s => running s 1 /\ In (EReleased 1 1) (log s) /\ In (EStarted 0) (log s)) (init true) sched) as (s & H1 & H2);
      [vm_compute; auto 10|]. exists s. split; auto. now exists sched.
  - destruct (@exec_obs _ _ step (fun s => In (EReleased 2 0) (log s) /\ In (ERefused 0) (log s)) (init true)
      (sched ++ [(1, DoFinish); (2, DoRelease); (2, Go); (2, Go); (0, DoTry); (0, Go)])) as (s & H1 & H2);
      [vm_compute; auto 10|]. exists s. split; auto. eexists; eauto.
Qed.
