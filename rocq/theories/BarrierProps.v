(** C21.  Barrier(n), any number of threads and rounds, every interleaving; condition
    variables without spurious wake-ups (with them the claim is false, see the end). *)
From Coq Require Import List Arith.
From Verif Require Import Base Conc BarrierModel BarrierSpec BarrierProofs.
Import ListNotations.

(** nobody returns from a round before n threads have entered it; true is returned to
    exactly the last one to leave *)
Theorem C21_exit_only_after_all_entered (n : nat) (s : st) (t r : nat) (b : bool) (before : list event) :
  reachable n s -> happened (log s) (EExit t r b) before ->
  length (entered before r) = n /\ length (exited before r) < n /\
  (b = true <-> S (length (exited before r)) = n).
Proof. exact (@exit_after_all n s t r b before). Qed.

(** exactly one caller per completed round gets true *)
Theorem C21_one_true_per_round (n : nat) (s : st) (r : nat) :
  0 < n -> reachable n s ->
  trues (log s) r <= 1 /\ (trues (log s) r = 1 <-> length (exited (log s) r) = n).
Proof. exact (@one_true n s r). Qed.

(** a thread enters a round only when everybody has left all earlier rounds and nobody
    this one: rounds do not overlap *)
Theorem C21_rounds_do_not_overlap (n : nat) (s : st) (t r : nat) (before : list event) :
  reachable n s -> happened (log s) (EEnter t r) before ->
  exited before r = [] /\ forall q, q < r -> length (exited before q) = n.
Proof. exact (@enter_after_previous n s t r before). Qed.

(** in a complete round every member can return at once *)
Theorem C21_full_round_can_return (n : nat) (s : st) (t r : nat) :
  0 < n -> reachable n s -> (pcs s t = WaitOpen r \/ pcs s t = WokenOpen r) ->
  length (entered (log s) r) = n ->
  exists s' b, step n s (t, Go) = Some s' /\ log s' = EExit t r b :: log s.
Proof. exact (@full_can_return n s t r). Qed.

(** nobody sleeps at the entrance unless a member of the current round is still leaving *)
Theorem C21_no_lost_wakeup (n : nat) (s : st) :
  reachable n s ->
  (forall t r, pcs s t = WaitOpen r -> length (entered (log s) r) <> n \/ n = 0) /\
  (forall t, pcs s t = WaitClosed -> exists u r, pcs s u = WokenOpen r).
Proof. exact (@no_lost n s). Qed.

(** one spurious wake-up lets a thread through a barrier for two *)
Theorem C21_spurious_refuted :
  exists s, reachable_spurious 2 s /\ In (EExit 0 0 true) (log s) /\ length (entered (log s) 0) = 1.
Proof.
  destruct (@exec_obs _ _ (step 2) (fun s => In (EExit 0 0 true) (log s) /\ length (entered (log s) 0) = 1) init
    [(0, Go); (0, Spurious); (0, Go)]) as (s & H1 & H2); [vm_compute; auto|].
  exists s. split; auto. eexists; eauto.
Qed.

Print Assumptions C21_exit_only_after_all_entered.
Print Assumptions C21_one_true_per_round.
Print Assumptions C21_rounds_do_not_overlap.
Print Assumptions C21_full_round_can_return.
Print Assumptions C21_no_lost_wakeup.
Print Assumptions C21_spurious_refuted.

(** Non-vacuity: a barrier for three, one round completed, a latecomer held outside. *)
Definition sched : list (nat * choice) :=
  [(0, Go); (1, Go); (2, Go); (3, Go); (2, Go); (0, Go); (1, Go); (3, Go)].
Example C21_reachable_case :
  (exists s, reachable 3 s /\ pcs s 3 = WaitClosed /\ pcs s 0 = WokenOpen 0) /\
  (exists s, reachable 3 s /\ log s = [EEnter 3 1; EExit 1 0 true; EExit 0 0 false; EExit 2 0 false; EEnter 2 0; EEnter 1 0; EEnter 0 0]).
Proof.
  split.
  - destruct (@exec_obs _ _ (step 3) (fun s => pcs s 3 = WaitClosed /\ pcs s 0 = WokenOpen 0) init (firstn 4 sched)) as (s & H1 & H2); [vm_compute; auto|].
    exists s. split; auto. exists (firstn 4 sched). split; auto. repeat constructor; discriminate.
  - destruct (@exec_obs _ _ (step 3) (fun s => log s = [EEnter 3 1; EExit 1 0 true; EExit 0 0 false; EExit 2 0 false; EEnter 2 0; EEnter 1 0; EEnter 0 0]) init sched) as (s & H1 & H2); [vm_compute; auto|].
    exists s. split; auto. exists sched. split; auto. repeat constructor; discriminate.
Qed.
