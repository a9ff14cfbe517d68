(* C82: the watchdog of sessions (AsyncProfiler) *)
From Coq Require Import List Bool ZArith Lia.
From Verif Require Import Conc AsyncProfModel AsyncProfSpec AsyncProfProofs.
Import ListNotations.
Local Open Scope Z_scope.

(* A session is found overdue only while it is running and only when it is due: its running time is then right and is at least
   the timeout. For every schedule and every reading of the clock. *)
Theorem C82_only_overdue : forall T, 0 < T -> forall t ls m, steps (step T) (init t) ls m ->
  forall h1 s a b e h2, hist m = h1 ++ Sampled s a b e :: h2 ->
  exists born listed u, In (Started s born listed) h1 /\ due_of T h1 s = Some u /\ u <= a /\ e = a - born /\ T <= e.
Proof.
  intros T HT t ls m Hs h1 s a b e h2 Hh.
  destruct (hist_split T t ls m Hs _ _ _ Hh) as (l1 & c & l2 & m1 & m2 & R1 & R2 & R3 & R4 & R5).
  pose proof (reach_inv T HT _ _ _ R1) as Hi. rewrite <- R4 in R5.
  destruct (sampled_step T _ _ _ _ _ _ _ R2 R5) as (x & r & E1 & E2 & E3 & E4 & E5 & E6 & E7).
  assert (Hx : In x (sessions m1)) by (rewrite E1; cbn; auto).
  destruct (i_start _ _ Hi x Hx) as (ta & Hta). destruct (i_due _ _ Hi x Hx) as (D1 & D2).
  exists (born x), ta, (due x). rewrite <- R4, <- E2. repeat split; auto; [|lia].
  rewrite <- (i_dues _ _ Hi). apply In_dues; auto. apply (i_nodup _ _ Hi).
Qed.
Print Assumptions C82_only_overdue.

(* Between two findings of the same session there is at least the timeout *)
Theorem C82_not_too_often : forall T, 0 < T -> forall t ls m, steps (step T) (init t) ls m ->
  forall h1 s a b e h2 a' b' e' h3, hist m = h1 ++ Sampled s a b e :: h2 ++ Sampled s a' b' e' :: h3 ->
  a <= b /\ b + T <= a'.
Proof.
  intros T HT t ls m Hs h1 s a b e h2 a' b' e' h3 Hh. split.
  - destruct (hist_split T t ls m Hs _ _ _ Hh) as (l1 & c & l2 & m1 & m2 & R1 & R2 & R3 & R4 & R5).
    rewrite <- R4 in R5. destruct (sampled_step T _ _ _ _ _ _ _ R2 R5) as (x & r & E1 & E2 & E3 & E4 & E5 & E6 & E7). auto.
  - rewrite app_comm_cons, app_assoc in Hh.
    destruct (hist_split T t ls m Hs _ _ _ Hh) as (l1 & c & l2 & m1 & m2 & R1 & R2 & R3 & R4 & R5).
    pose proof (reach_inv T HT _ _ _ R1) as Hi. rewrite <- R4 in R5.
    destruct (sampled_step T _ _ _ _ _ _ _ R2 R5) as (x & r & E1 & E2 & E3 & E4 & E5 & E6 & E7).
    destruct (i_samp _ _ Hi s a b e) as (? & ? & H3). { rewrite R4. apply in_app_iff; cbn; auto. }
    specialize (H3 x). rewrite E1 in H3. specialize (H3 (or_introl eq_refl) E2). lia.
Qed.
Print Assumptions C82_not_too_often.

(* The log has a line for each finding, in that order and with that running time; at most the last one is not there yet *)
Theorem C82_log : forall T, 0 < T -> forall t ls m, steps (step T) (init t) ls m ->
  exists last, samples (hist m) = reports (hist m) ++ last /\ (length last <= 1)%nat.
Proof.
  intros T HT t ls m Hs. pose proof (reach_inv T HT _ _ _ Hs) as Hi. eexists. split; [apply (i_rep _ _ Hi)|].
  unfold pend. destruct (thr m); cbn; try lia. destruct (rev _); cbn; lia.
Qed.
Print Assumptions C82_log.

(* The thread sleeps without a limit only if no session is running, and otherwise until the moment when the first of those
   running is due, and no longer than that by more than passed between its two readings of the clock. Sessions may start and end
   at any time. *)
Theorem C82_sleeps_until_the_first_is_due : forall T, 0 < T -> forall t ls m, steps (step T) (init t) ls m ->
  match thr m with
  | Idle => forall s, ~ running T (hist m) s
  | Asleep _ _ wake => exists s u, due_of T (hist m) s = Some u /\ wake = u + slack (thr m) /\ u <= wake /\
                       forall s' u', due_of T (hist m) s' = Some u' -> u <= u'
  | _ => True
  end.
Proof.
  intros T HT t ls m Hs. pose proof (reach_inv T HT _ _ _ Hs) as Hi. pose proof (i_thr _ _ Hi) as Ht. unfold thr_ok in Ht.
  destruct (thr m) eqn:E; auto.
  - intros s. unfold running. rewrite <- (i_dues _ _ Hi), Ht. cbn. auto.
  - destruct Ht as (H1 & H2 & H3 & H4). destruct (sessions m) as [|x l] eqn:El; [contradiction|].
    exists (sid x), (due x). rewrite <- (i_dues _ _ Hi), El. cbn [dues slack]. rewrite Nat.eqb_refl. repeat split; auto; [lia|].
    intros s' u'. rewrite <- (i_dues _ _ Hi), El. intros Hd. destruct (dues_In _ _ _ Hd) as (y & Hy & _ & <-).
    pose proof (i_sorted _ _ Hi) as S0. rewrite El in S0. destruct Hy as [->|Hy]; [lia|]. now apply S0.
Qed.
Print Assumptions C82_sleeps_until_the_first_is_due.

(* A running session that is due is found and reported, by the thread's own steps alone, without any time passing, in at most two
   steps for each session that has started and one more. No name function throws. *)
Theorem C82_overdue_is_reported : forall T, 0 < T -> forall t ls m, steps (step T) (init t) ls m ->
  (forall b, ~ In (Begin b true) ls) -> forall s u, due_of T (hist m) s = Some u -> u + slack (thr m) <= clock m ->
  exists ls' m' e new, steps (step T) m ls' m' /\ Forall of_thread ls' /\ (length ls' <= 2 * started (hist m) + 1)%nat /\
    clock m' = clock m /\ hist m' = hist m ++ new ++ [Reported s e] /\ In (Sampled s (clock m) (clock m) e) new.
Proof. intros T HT t ls m Hs Hn s u. exact (overdue T HT t ls m s u Hn Hs). Qed.
Print Assumptions C82_overdue_is_reported.

(* The profiler can be destroyed at any time at which no session is running: its thread ends within two of its steps, however long
   it would have slept *)
Theorem C82_stops : forall T, 0 < T -> forall t ls m, steps (step T) (init t) ls m -> stopping m = true -> thr m <> Died ->
  exists ls' m', steps (step T) m ls' m' /\ Forall of_thread ls' /\ (length ls' <= 2)%nat /\ clock m' = clock m /\ thr m' = Finished.
Proof. intros T HT t ls m. exact (stops T HT t ls m). Qed.
Print Assumptions C82_stops.

(* Once a name function has thrown in the thread, no session is found or reported any more *)
Theorem C82_throwing_name_silences : forall T ls m m', thr m = Died -> steps (step T) m ls m' ->
  samples (hist m') = samples (hist m) /\ reports (hist m') = reports (hist m).
Proof. intros T ls m m' H Hs. destruct (dead_stays T _ _ _ H Hs) as (_ & H1 & H2). auto. Qed.
Print Assumptions C82_throwing_name_silences.

Definition timeout : Z := 30.
Definition silenced : list label := [Begin 0 true; Begin 0 false; Tick 31; Check 31].

(* Not true: every overdue session can still be reported, if a name function may throw *)
Theorem C82_overdue_is_reported_refuted : ~ (forall t ls m, steps (step timeout) (init t) ls m ->
  forall s u, due_of timeout (hist m) s = Some u -> u + slack (thr m) <= clock m ->
  exists ls' m', steps (step timeout) m ls' m' /\ (length (reports (hist m)) < length (reports (hist m')))%nat).
Proof.
  intros H.
  destruct (exec_obs (step timeout) (fun m => thr m = Died /\ due_of timeout (hist m) 1%nat = Some 30 /\ clock m = 31) (init 0) silenced)
    as (m & Hs & H1 & H2 & H3). { vm_compute. auto. }
  destruct (H _ _ _ Hs 1%nat 30 H2) as (ls' & m' & Hs' & Hlt). { rewrite H1, H3. cbn. lia. }
  destruct (dead_stays _ _ _ _ H1 Hs') as (_ & _ & H4). rewrite H4 in Hlt. lia.
Qed.
Print Assumptions C82_overdue_is_reported_refuted.

(* Not true: a session that is reported is still running *)
Theorem C82_reported_is_running_refuted : ~ (forall t ls m, steps (step timeout) (init t) ls m ->
  forall h1 s e h2, hist m = h1 ++ Reported s e :: h2 -> running timeout h1 s).
Proof.
  intros H. destruct (exec_obs (step timeout) (fun m => hist m = [Started 0 0 0; Sampled 0 31 31 31; Ended 0; Reported 0 31]) (init 0)
    [Begin 0 false; Tick 31; Check 31; End 0; Report]) as (m & Hs & Hm). { vm_compute. reflexivity. }
  apply (H _ _ _ Hs [Started 0 0 0; Sampled 0 31 31 31; Ended 0] 0%nat 31 []); [exact Hm|]. reflexivity.
Qed.
Print Assumptions C82_reported_is_running_refuted.

(* Three sessions; the second ends before it is due, the thread sleeps, is woken as the first ends, sleeps again, and reports the
   third twice *)
Definition day : list label :=
  [Check 0; Begin 0 false; Wake; Check 1; Tick 5; Begin 4 false; Tick 10; Begin 10 false; End 1; Tick 20; End 0; Wake; Check 20;
   Tick 40; Wake; Check 41; Report; Check 41; Tick 71; Wake; Check 71; Report; End 2; Check 71; Stop; Wake; Check 71].
Example C82_day : exists m, steps (step timeout) (init 0) day m /\
  hist m = [Started 0 0 0; Started 1 4 5; Started 2 10 10; Ended 1; Ended 0; Sampled 2 40 41 30; Reported 2 30;
            Sampled 2 71 71 61; Reported 2 61; Ended 2] /\ thr m = Finished /\ stopping m = true.
Proof. apply exec_obs. vm_compute. auto. Qed.
(* the hypotheses of the liveness theorem are met, asleep *)
Example C82_overdue_met : exists m, steps (step timeout) (init 0) [Begin 0 false; Check 1; Tick 31] m /\
  thr m = Asleep 0 1 31 /\ due_of timeout (hist m) 0 = Some 30 /\ 30 + slack (thr m) <= clock m.
Proof. apply exec_obs. vm_compute. repeat split; auto; discriminate. Qed.
