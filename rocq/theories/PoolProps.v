(** * C76: token pools, maps and holders destroy each token once, outside their mutex, and never deadlock *)
From Coq Require Import List Arith Bool Lia Permutation.
From Verif Require Import PoolModel PoolSpec PoolProofs.
Import ListNotations.

(** every token that was put in is held, or being dropped by one thread, or its function was called: exactly one of them, once *)
Theorem C76_token_account : forall ps s, reach ps s -> Permutation (seq 0 (next s)) (held s ++ being_dropped s ++ cleaned s).
Proof.
  intros ps s R. apply (Permutation_count_occ Nat.eq_dec). intros x. fold (cnt x (seq 0 (next s))). rewrite <- (i_account s (inv_reach ps s R) x).
  fold (cnt x (held s ++ being_dropped s ++ cleaned s)). rewrite !cnt_app. lia.
Qed.
Theorem C76_cleaned_once : forall ps s, reach ps s -> NoDup (cleaned s).
Proof.
  intros ps s R. pose proof (C76_token_account ps s R) as P. pose proof (Permutation_NoDup P (seq_NoDup (next s) 0)) as D.
  rewrite app_assoc in D. revert D. generalize (held s ++ being_dropped s). intros l. induction l as [|a l IH]; cbn; [auto|]. intros D. inversion D; auto.
Qed.
(** a thread that is about to call a token's function holds no mutex of any pool: the function may use the pools *)
Theorem C76_cleanup_unlocked : forall ps s t k r p, reach ps s -> nth_error (threads s) t = Some (MClean k :: r) -> owner s p <> Some t.
Proof.
  intros ps s t k r p R E O. apply (i_lock s (inv_reach ps s R)) in O. destruct O as (m & r' & E' & L). rewrite E in E'. injection E' as <- <-. discriminate.
Qed.
(** no deadlock: while a thread has something to do, some thread can go on, although the mutexes are not recursive *)
Theorem C76_no_deadlock : forall ps s t l, reach ps s -> nth_error (threads s) t = Some l -> l <> [] -> exists u s', step s u s'.
Proof. intros ps s t l R. apply progress. exact (inv_reach ps s R). Qed.
(** and every run ends *)
Theorem C76_runs_end : forall s, exists bound, forall n s', runs n s s' -> n <= bound.
Proof. intros s. exists (measure s). intros n s' H. pose proof (runs_bound n s s' H). lia. Qed.
(** a call takes exactly the tokens it should out of the store, and leaves the others *)
Theorem C76_call_takes : forall s t o r s', nth_error (threads s) t = Some (MCrit o :: r) -> step s t s' ->
  exists l, nth_error (threads s') t = Some (MUnlock (object o) :: map MClean l ++ r) /\ Permutation (map tid l) (to_release s o) /\
    (forall e, In e (store s) -> ~ In (tid (snd e)) (to_release s o) -> In e (store s')).
Proof.
  intros s t o r s' E H. inversion H as [o' r' E' O E2|o' r' st n l E' C E2|p r' E' E2|k r' E' E2]; rewrite E in E'; try discriminate. injection E' as <- <-.
  exists l. cbn [threads store]. unfold set_todo. rewrite (nth_error_upd _ _ _ _ _ E), Nat.eqb_refl. split; [reflexivity|]. split; [exact (crit_takes s o st n l C)|].
  intros e He Ne.
  assert (K : forall (q : nat * nat * token -> bool), (forall e', In e' (store s) -> q e' = true -> In (tid (snd e')) (to_release s o)) -> In e (filter (fun x => negb (q x)) (store s))).
  { intros q Q. apply filter_In. split; [exact He|]. destruct (q e) eqn:B; [|reflexivity]. exfalso. apply Ne. now apply Q. }
  inversion C; subst.
  - apply in_or_app. now left.
  - apply K. intros e' He' B. cbn [to_release]. rewrite tokens_at_eq. apply in_map_iff. exists e'. split; [reflexivity|]. now apply filter_In.
  - apply K. intros e' He' B. cbn [to_release]. rewrite tokens_of_eq. apply in_map_iff. exists e'. split; [reflexivity|]. now apply filter_In.
  - apply in_or_app. left. apply K. intros e' He' B. cbn [to_release]. rewrite tokens_of_eq. apply in_map_iff. exists e'. split; [reflexivity|]. now apply filter_In.
  - apply K. intros e' He' B. cbn [to_release]. rewrite tokens_of_eq. apply in_map_iff. exists e'. split; [reflexivity|]. now apply filter_In.
  - exact He.
Qed.
(** when the call has returned, the functions of all tokens it took out have been called, whatever the other threads did meanwhile *)
Theorem C76_release_complete : forall s t o r s1 s2, nth_error (threads s) t = Some (MCrit o :: r) -> step s t s1 -> during t r s1 s2 ->
  nth_error (threads s2) t = Some r -> forall x, In x (to_release s o) -> In x (cleaned s2).
Proof.
  intros s t o r s1 s2 E H D E2 x X. destruct (C76_call_takes s t o r s1 E H) as (l & E1 & P & _).
  assert (E1' : nth_error (threads s1) t = Some ((MUnlock (object o) :: map MClean l) ++ r)) by (rewrite E1; reflexivity).
  destruct (during_done t r s1 s2 D (MUnlock (object o) :: map MClean l) [] E1' E2 x) as [Y|Y]; [|destruct Y|exact Y].
  left. change (dropping (MUnlock (object o) :: map MClean l)) with (dropping (map MClean l)). rewrite dropping_cleans. now apply (Permutation_in x (Permutation_sym P)).
Qed.

(** not true: when Release has returned, no function of a token that was in the pool is still to run: another thread's Release may have taken it *)
Theorem C76_release_all_gone_refuted : exists s, reach [[Add 0 0 []; ReleaseAll 0]; [ReleaseAll 0]] s /\ nth_error (threads s) 1 = Some [] /\
  held s = [] /\ next s = 1 /\ cleaned s = [].
Proof.
  assert (R0 := reach_init [[Add 0 0 []; ReleaseAll 0]; [ReleaseAll 0]]). vm_compute in R0.
  eassert (R1 : reach _ _) by (eapply reach_step; [exact R0|eapply (step_lock _ 0); reflexivity]). vm_compute in R1.
  eassert (R2 : reach _ _) by (eapply reach_step; [exact R1|eapply (step_crit _ 0); [reflexivity|apply crit_add]]). vm_compute in R2.
  eassert (R3 : reach _ _) by (eapply reach_step; [exact R2|eapply (step_unlock _ 0); reflexivity]). vm_compute in R3.
  eassert (R4 : reach _ _) by (eapply reach_step; [exact R3|eapply (step_lock _ 0); reflexivity]). vm_compute in R4.
  eassert (R5 : reach _ _) by (eapply reach_step; [exact R4|eapply (step_crit _ 0); [reflexivity|apply crit_release_all, Permutation_refl]]). vm_compute in R5.
  eassert (R6 : reach _ _) by (eapply reach_step; [exact R5|eapply (step_unlock _ 0); reflexivity]). vm_compute in R6.
  eassert (R7 : reach _ _) by (eapply reach_step; [exact R6|eapply (step_lock _ 1); reflexivity]). vm_compute in R7.
  eassert (R8 : reach _ _) by (eapply reach_step; [exact R7|eapply (step_crit _ 1); [reflexivity|apply crit_release_all, Permutation_refl]]). vm_compute in R8.
  eassert (R9 : reach _ _) by (eapply reach_step; [exact R8|eapply (step_unlock _ 1); reflexivity]). vm_compute in R9.
  eexists. split; [exact R9|]. repeat split.
Qed.

(** ** The hypotheses can be met: a token whose function releases and refills the pool that holds it *)
Definition ex_program : list (list op) := [[Add 0 0 [Release 0 0; Add 0 0 []]; Release 0 0]].
Example C76_ex : exists s t k r, reach ex_program s /\ nth_error (threads s) t = Some (MClean k :: r) /\ tbody k = [Release 0 0; Add 0 0 []] /\
  exists s', reach ex_program s' /\ cleaned s' = [0] /\ held s' = [1] /\ nth_error (threads s') 0 = Some [].
Proof.
  assert (R0 := reach_init ex_program). unfold ex_program in *. vm_compute in R0.
  eassert (R1 : reach _ _) by (eapply reach_step; [exact R0|eapply (step_lock _ 0); reflexivity]). vm_compute in R1.
  eassert (R2 : reach _ _) by (eapply reach_step; [exact R1|eapply (step_crit _ 0); [reflexivity|apply crit_add]]). vm_compute in R2.
  eassert (R3 : reach _ _) by (eapply reach_step; [exact R2|eapply (step_unlock _ 0); reflexivity]). vm_compute in R3.
  eassert (R4 : reach _ _) by (eapply reach_step; [exact R3|eapply (step_lock _ 0); reflexivity]). vm_compute in R4.
  eassert (R5 : reach _ _) by (eapply reach_step; [exact R4|eapply (step_crit _ 0); [reflexivity|apply crit_release]]). vm_compute in R5.
  eassert (R6 : reach _ _) by (eapply reach_step; [exact R5|eapply (step_unlock _ 0); reflexivity]). vm_compute in R6.
  eexists _, 0, _, _. split; [exact R6|]. split; [reflexivity|]. split; [reflexivity|].
  eassert (R7 : reach _ _) by (eapply reach_step; [exact R6|eapply (step_clean _ 0); reflexivity]). vm_compute in R7.
  eassert (R8 : reach _ _) by (eapply reach_step; [exact R7|eapply (step_lock _ 0); reflexivity]). vm_compute in R8.
  eassert (R9 : reach _ _) by (eapply reach_step; [exact R8|eapply (step_crit _ 0); [reflexivity|apply crit_release]]). vm_compute in R9.
  eassert (R10 : reach _ _) by (eapply reach_step; [exact R9|eapply (step_unlock _ 0); reflexivity]). vm_compute in R10.
  eassert (R11 : reach _ _) by (eapply reach_step; [exact R10|eapply (step_lock _ 0); reflexivity]). vm_compute in R11.
  eassert (R12 : reach _ _) by (eapply reach_step; [exact R11|eapply (step_crit _ 0); [reflexivity|apply crit_add]]). vm_compute in R12.
  eassert (R13 : reach _ _) by (eapply reach_step; [exact R12|eapply (step_unlock _ 0); reflexivity]). vm_compute in R13.
  eexists. split; [exact R13|]. repeat split.
Qed.

Print Assumptions C76_token_account.
Print Assumptions C76_cleaned_once.
Print Assumptions C76_cleanup_unlocked.
Print Assumptions C76_no_deadlock.
Print Assumptions C76_runs_end.
Print Assumptions C76_call_takes.
Print Assumptions C76_release_complete.
Print Assumptions C76_release_all_gone_refuted.
