(** C17.  Any number of threads, every interleaving, spurious wake-ups,
    cancellations and timeouts at arbitrary moments. *)
From Coq Require Import List Arith.
From Verif Require Import Base Conc TxLockModel TxLockSpec TxLockProofs.
Import ListNotations.

Theorem C17_at_most_one_transaction (s : st) (t u : nat) :
  reachable s -> has_transaction s t -> has_transaction s u -> t = u.
Proof. exact (@at_most_one s t u). Qed.

(** when no transaction exists nobody sleeps in StartTransaction *)
Theorem C17_no_lost_wakeup (s : st) :
  reachable s -> (forall u, ~ has_transaction s u) -> forall t, pcs s t <> Asleep.
Proof. exact (@nobody_asleep s). Qed.

(** from every reachable state a thread inside StartTransaction can obtain its
    transaction by the ordinary steps of the threads involved (in particular the
    destruction of the current transaction): no spurious wake-up is needed *)
Theorem C17_waiter_can_proceed (s : st) (t : nat) :
  reachable s -> starting s t ->
  exists ls s', steps step s ls s' /\ Forall (fun l => snd l = Go) ls /\ pcs s' t = Live.
Proof. exact (@waiter_can_proceed s t). Qed.

Print Assumptions C17_at_most_one_transaction.
Print Assumptions C17_no_lost_wakeup.
Print Assumptions C17_waiter_can_proceed.

(** Non-vacuity: thread 0 owns a transaction, thread 1 sleeps. *)
Definition sched : list (nat * choice) :=
  [(0, Go); (1, Go); (0, Go); (0, Go); (0, Go); (1, Go); (1, Go)].
Fixpoint exec (s : st) (ls : list (nat * choice)) : option st :=
  match ls with [] => Some s | l :: t => match step s l with Some s' => exec s' t | None => None end end.
Lemma exec_steps ls : forall s s', exec s ls = Some s' -> steps step s ls s'.
Proof.
  induction ls as [|l ls IH]; cbn; intros s s' H; [injection H as <-; constructor|].
  destruct (step s l) eqn:E; [|discriminate]. econstructor; eauto.
Qed.
Example C17_reachable_case : exists s, reachable s /\ pcs s 0 = Live /\ pcs s 1 = Asleep /\ starting s 1 /\ has s = true.
Proof.
  destruct (exec init sched) as [s|] eqn:E; [|discriminate].
  exists s. split; [exists sched; now apply exec_steps|]. injection E as <-. repeat split; reflexivity.
Qed.
