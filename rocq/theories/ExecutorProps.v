(** C42: task executors run every task once, in order, one at a time. *)
From Coq Require Import List Arith Bool Lia.
From Verif Require Import Conc ExecutorModel.
Import ListNotations.
Set Implicit Arguments.

(** ** Specification, on the log *)
Definition added (l : list ev) : list nat := flat_map (fun e => match e with EAdd i => [i] | _ => [] end) l.
(** tasks taken from the queue: run, skipped because their life token is gone, or cleared *)
Definition taken (l : list ev) : list nat := flat_map (fun e => match e with EStart i => [i] | ESkip i => [i] | EClear is => is | _ => [] end) l.
Definition is_prefix (a b : list nat) : Prop := exists r, b = a ++ r.
(** which task is running after this log; None once two have overlapped or a finish does not match *)
Definition run1 (o : option (option nat)) (e : ev) : option (option nat) :=
  match o, e with
  | None, _ => None
  | Some None, EStart i => Some (Some i)
  | Some (Some _), EStart _ => None
  | Some (Some j), EFinish i _ => if i =? j then Some None else None
  | Some None, EFinish _ _ => None
  | Some (Some _), ESkip _ => None
  | Some (Some _), EExit => None
  | o, _ => o
  end.
Definition one_at_a_time (l : list ev) : Prop := fold_left run1 l (Some None) <> None.

Lemma added_snoc l e : added (l ++ [e]) = added l ++ match e with EAdd i => [i] | _ => [] end.
Proof. unfold added. rewrite flat_map_app. cbn. now rewrite app_nil_r. Qed.
Lemma taken_snoc l e : taken (l ++ [e]) = taken l ++ match e with EStart i => [i] | ESkip i => [i] | EClear is => is | _ => [] end.
Proof. unfold taken. rewrite flat_map_app. cbn. now rewrite app_nil_r. Qed.
Lemma run_snoc l e o : fold_left run1 (l ++ [e]) o = run1 (fold_left run1 l o) e.
Proof. now rewrite fold_left_app. Qed.

Record TInv (s : tst) : Prop := {
  t_add : added (lg s) = seq 0 (nid s);
  t_take : taken (lg s) ++ q s = added (lg s);
  t_run : fold_left run1 (lg s) (Some None) = Some (match w s with WExec i => Some i | _ => None end);
  t_sleep : w s = WSleep -> q s = [] /\ cancelled s = false;
  t_gone : w s = WGone <-> In EExit (lg s);
  t_gone' : w s = WGone -> q s = [] }.
Ltac sp := cbn [q nid w cancelled lg] in *.
Lemma TInv_step s a s' : TInv s -> tstep s a = Some s' -> TInv s'.
Proof.
  intros [] H. destruct a as [|alive|exn| |]; cbn [tstep] in H.
  - destruct (w s) eqn:Ew; try discriminate; injection H as <-; constructor; sp; rewrite ?added_snoc, ?taken_snoc, ?run_snoc, ?t_run0, ?app_nil_r; auto;
      try (rewrite t_add0, seq_S; reflexivity); try (rewrite app_assoc; congruence); try discriminate;
      try (rewrite in_app_iff; split; [discriminate|intros [Hi|[Hi|[]]]; [apply t_gone0 in Hi; discriminate|discriminate]]).
  - destruct (w s) eqn:Ew; try discriminate. destruct (negb (cancelled s) || negb match q s with [] => true | _ => false end) eqn:Ec.
    + destruct (q s) as [|t r] eqn:Eq.
      * injection H as <-. constructor; sp; auto.
        -- intros _. split; auto. cbn in Ec. destruct (cancelled s); auto; discriminate.
        -- split; [discriminate|]. intros Hi. apply t_gone0 in Hi. discriminate.
      * destruct alive; injection H as <-; constructor; sp; rewrite ?added_snoc, ?taken_snoc, ?run_snoc, ?t_run0, ?app_nil_r; auto; try discriminate;
          try (rewrite <- app_assoc; assumption);
          try (rewrite in_app_iff; split; [discriminate|intros [Hi|[Hi|[]]]; [apply t_gone0 in Hi; discriminate|discriminate]]).
    + injection H as <-. assert (Eq : q s = []) by (destruct (q s); auto; rewrite orb_true_r in Ec; discriminate).
      constructor; sp; rewrite ?added_snoc, ?taken_snoc, ?run_snoc, ?t_run0, ?app_nil_r; auto; try discriminate.
      rewrite in_app_iff. cbn. tauto.
  - destruct (w s) eqn:Ew; try discriminate. injection H as <-. constructor; sp; rewrite ?added_snoc, ?taken_snoc, ?run_snoc, ?t_run0, ?app_nil_r; auto; try discriminate.
    + cbn. now rewrite Nat.eqb_refl.
    + rewrite in_app_iff; split; [discriminate|intros [Hi|[Hi|[]]]; [apply t_gone0 in Hi; discriminate|discriminate]].
  - destruct (w s) eqn:Ew; try discriminate. injection H as <-. constructor; sp; auto; try discriminate. split; [discriminate|]. intros Hi. apply t_gone0 in Hi. discriminate.
  - injection H as <-. constructor; sp; auto.
    + rewrite t_run0. destruct (w s); reflexivity.
    + destruct (w s); discriminate.
    + destruct (w s); try tauto. split; [discriminate|]. intros Hi. apply t_gone0 in Hi. discriminate.
    + intros Hw. apply t_gone'0. destruct (w s); auto; discriminate.
Qed.
Lemma TInv_init : TInv tinit.
Proof. constructor; cbn; auto; try discriminate. split; [discriminate|contradiction]. Qed.
Definition treach (s : tst) : Prop := exists acts, steps tstep tinit acts s.
Lemma treach_inv s : treach s -> TInv s.
Proof. intros [acts H]. eapply steps_inv; eauto; [apply TInv_step|apply TInv_init]. Qed.

(** ThreadTaskExecutor: at every moment the tasks taken so far are exactly the first ones added, each once, in the order added. *)
Theorem C42_thread_executor_fifo_exactly_once s : treach s ->
  added (lg s) = seq 0 (nid s) /\ is_prefix (taken (lg s)) (added (lg s)) /\ NoDup (taken (lg s)).
Proof.
  intros H. apply treach_inv in H. destruct H. split; auto. split; [exists (q s); auto|].
  assert (ND : NoDup (taken (lg s) ++ q s)) by (rewrite t_take0, t_add0; apply seq_NoDup). clear -ND.
  induction (taken (lg s)) as [|x l IH]; [constructor|]. cbn in ND. inversion ND; subst. constructor; auto. rewrite in_app_iff in H1. tauto.
Qed.
(** Never two at once; a throwing task does not disturb the rest. *)
Theorem C42_thread_executor_one_at_a_time s : treach s -> one_at_a_time (lg s).
Proof. intros H. apply treach_inv in H. unfold one_at_a_time. rewrite (t_run H). discriminate. Qed.
(** When the destructor returns, every task added before or meanwhile has been taken: none is dropped. *)
Theorem C42_thread_executor_destructor_drains s : treach s -> In EExit (lg s) -> taken (lg s) = added (lg s).
Proof. intros H He. apply treach_inv in H. destruct H. apply t_gone0 in He. rewrite <- t_take0, t_gone'0 by auto. now rewrite app_nil_r. Qed.
(** The worker sleeps only with nothing to do: no wake-up is lost. *)
Theorem C42_thread_executor_sleeps_only_when_idle s : treach s -> w s = WSleep -> taken (lg s) = added (lg s) /\ cancelled s = false.
Proof. intros H Hs. apply treach_inv in H. destruct H. destruct (t_sleep0 Hs) as [E C]. rewrite <- t_take0, E, app_nil_r. auto. Qed.
(** ... and otherwise it can go on by itself until the queue is empty. *)
Lemma drain_aux : forall n s, treach s -> length (q s) = n -> w s = WLoop -> exists acts s', steps tstep s acts s' /\ (forall a, In a acts -> a = TStep true \/ exists e, a = TDone e) /\ q s' = [] /\ w s' = WLoop.
Proof.
  induction n as [|n IH]; intros s H Hn Hw.
  - exists [], s. split; [constructor|]. split; [contradiction|]. split; auto. now destruct (q s).
  - destruct (q s) as [|t r] eqn:Eq; [discriminate|]. injection Hn as Hn.
    set (s1 := {| q := r; nid := nid s; w := WExec t; cancelled := cancelled s; lg := lg s ++ [EStart t] |}).
    set (s2 := {| q := r; nid := nid s; w := WLoop; cancelled := cancelled s; lg := lg s1 ++ [EFinish t false] |}).
    assert (S1 : tstep s (TStep true) = Some s1) by (cbn [tstep]; rewrite Hw, Eq, orb_true_r; reflexivity).
    assert (S2 : tstep s1 (TDone false) = Some s2) by reflexivity.
    destruct (IH s2) as [acts [s' [A [C D]]]]; auto.
    + destruct H as [ac H]. exists (ac ++ [TStep true; TDone false]). eapply steps_app; eauto. econstructor; eauto. econstructor; eauto. constructor.
    + exists (TStep true :: TDone false :: acts), s'. split; [econstructor; eauto; econstructor; eauto|]. split; auto. intros a [<-|[<-|Ha]]; eauto.
Qed.
Theorem C42_thread_executor_progress s : treach s -> ~ In EExit (lg s) -> exists acts s', steps tstep s acts s' /\ (forall a, In a acts -> a = TStep true \/ (exists e, a = TDone e)) /\ taken (lg s') = added (lg s') /\ nid s' = nid s.
Proof.
  intros H He. assert (G : forall s, treach s -> w s = WLoop -> exists acts s', steps tstep s acts s' /\ (forall a, In a acts -> a = TStep true \/ (exists e, a = TDone e)) /\ taken (lg s') = added (lg s') /\ nid s' = nid s).
  { clear. intros s H Hw. destruct (drain_aux H eq_refl Hw) as [acts [s' [A [C [D E]]]]]. exists acts, s'. split; auto. split; auto.
    assert (R : treach s') by (destruct H as [ac H]; exists (ac ++ acts); eapply steps_app; eauto). apply treach_inv in R. split; [rewrite <- (t_take R), D; now rewrite app_nil_r|].
    clear -A C. induction A; auto. rewrite IHA by (intros; apply C; cbn; auto). assert (Hl := C l (or_introl eq_refl)).
    destruct Hl as [->|[e ->]]; cbn [tstep] in H; destruct (w s) eqn:Ew; try discriminate; [|injection H as <-; reflexivity].
    destruct (negb (cancelled s) || _); [destruct (q s)|]; injection H as <-; reflexivity. }
  destruct (w s) eqn:Ew.
  - destruct (G s H Ew) as [acts [s' X]]; eauto.
  - exists [], s. split; [constructor|]. split; [contradiction|]. split; auto. apply C42_thread_executor_sleeps_only_when_idle; auto.
  - set (s2 := {| q := q s; nid := nid s; w := WLoop; cancelled := cancelled s; lg := lg s ++ [EFinish id false] |}).
    assert (S2 : tstep s (TDone false) = Some s2) by (cbn [tstep]; rewrite Ew; reflexivity).
    destruct (G s2) as [acts [s' [A [C [D E]]]]]; auto.
    + destruct H as [ac H]. exists (ac ++ [TDone false]). eapply steps_app; eauto. econstructor; eauto. constructor.
    + exists (TDone false :: acts), s'. split; [econstructor; eauto|]. split; auto. intros a [<-|Ha]; eauto.
  - exfalso. apply He. apply treach_inv in H. now apply (t_gone H).
Qed.

(** ** ThreadlessTaskExecutor *)
Definition begun (l : list ev) : list nat := flat_map (fun e => match e with EBegin t => [t] | _ => [] end) l.
(** who is inside ExecuteTasks: Begin and End alternate *)
Definition act1 (o : option (option nat)) (e : ev) : option (option nat) :=
  match o, e with
  | None, _ => None
  | Some None, EBegin i => Some (Some i)
  | Some (Some _), EBegin _ => None
  | Some (Some j), EEnd i _ => if i =? j then Some None else None
  | Some None, EEnd _ _ => None
  | Some None, EStart _ => None | Some None, ESkip _ => None | Some None, EFinish _ _ => None
  | o, _ => o
  end.
Lemma act_snoc l e o : fold_left act1 (l ++ [e]) o = act1 (fold_left act1 l o) e.
Proof. now rewrite fold_left_app. Qed.
Record LInv (s : lst) : Prop := {
  l_add : added (llg s) = seq 0 (lnid s);
  l_take : taken (llg s) ++ lq s = added (llg s);
  l_run : fold_left run1 (llg s) (Some None) = Some (running s);
  l_act : fold_left act1 (llg s) (Some None) = Some (active s);
  l_ra : running s <> None -> active s <> None;
  l_busy : forall l1 t l2, llg s = l1 ++ EBusy t :: l2 -> exists j, fold_left act1 l1 (Some None) = Some (Some j) }.
Ltac lsp := cbn [lq lnid active running llg] in *.
Lemma snoc_busy (P : list ev -> Prop) l e : (forall l1 t l2, l = l1 ++ EBusy t :: l2 -> P l1) -> (forall t, e = EBusy t -> P l) -> forall l1 t l2, l ++ [e] = l1 ++ EBusy t :: l2 -> P l1.
Proof.
  intros H He l1 t l2 E. destruct l2 as [|x l2] using rev_ind.
  - apply app_inj_tail in E. destruct E as [<- ->]. eauto.
  - assert (E' : l ++ [e] = (l1 ++ EBusy t :: l2) ++ [x]) by (rewrite E, <- app_assoc; reflexivity). apply app_inj_tail in E'. destruct E' as [E' _]. eauto.
Qed.
Lemma LInv_step s a s' : LInv s -> lstep s a = Some s' -> LInv s'.
Proof.
  intros [] H. destruct a as [|tid|tid alive|tid exn|tid why|]; cbn [lstep] in H.
  - injection H as <-. constructor; lsp; rewrite ?added_snoc, ?taken_snoc, ?run_snoc, ?act_snoc, ?l_run0, ?l_act0, ?app_nil_r; auto.
    + rewrite l_add0, seq_S. reflexivity.
    + rewrite app_assoc. congruence.
    + destruct (running s); reflexivity.
    + destruct (active s); reflexivity.
    + apply (@snoc_busy (fun l1 => exists j, fold_left act1 l1 (Some None) = Some (Some j))); auto. discriminate.
  - destruct (active s) as [j|] eqn:Ea; injection H as <-; constructor; lsp; rewrite ?added_snoc, ?taken_snoc, ?run_snoc, ?act_snoc, ?l_run0, ?l_act0, ?app_nil_r, ?Ea; auto.
    + destruct (running s); reflexivity.
    + apply (@snoc_busy (fun l1 => exists j, fold_left act1 l1 (Some None) = Some (Some j))); auto. eauto.
    + destruct (running s); reflexivity.
    + discriminate.
    + apply (@snoc_busy (fun l1 => exists j, fold_left act1 l1 (Some None) = Some (Some j))); auto. discriminate.
  - destruct (active s) as [j|] eqn:Ea; [|discriminate]. destruct (running s) eqn:Er; [discriminate|]. destruct (lq s) as [|x r] eqn:Eq; [discriminate|].
    destruct (j =? tid); [|discriminate]. destruct alive; injection H as <-; constructor; lsp; rewrite ?added_snoc, ?taken_snoc, ?run_snoc, ?act_snoc, ?l_run0, ?l_act0, ?app_nil_r; auto;
      try (rewrite <- app_assoc; assumption); try discriminate;
      try (apply (@snoc_busy (fun l1 => exists j, fold_left act1 l1 (Some None) = Some (Some j))); auto; discriminate).
  - destruct (active s) as [j|] eqn:Ea; [|discriminate]. destruct (running s) eqn:Er; [|discriminate].
    destruct (j =? tid); [|discriminate]. injection H as <-; constructor; lsp; rewrite ?added_snoc, ?taken_snoc, ?run_snoc, ?act_snoc, ?l_run0, ?l_act0, ?app_nil_r; auto; try discriminate.
    + cbn. now rewrite Nat.eqb_refl.
    + apply (@snoc_busy (fun l1 => exists j, fold_left act1 l1 (Some None) = Some (Some j))); auto; discriminate.
  - destruct (active s) as [j|] eqn:Ea; [|discriminate]. destruct (running s) eqn:Er; [discriminate|].
    destruct (Nat.eqb_spec j tid) as [->|]; [|discriminate]. cbn [andb] in H. destruct (match why with None => _ | _ => _ end); [|discriminate].
    injection H as <-; constructor; lsp; rewrite ?added_snoc, ?taken_snoc, ?run_snoc, ?act_snoc, ?l_run0, ?l_act0, ?app_nil_r; auto; try discriminate.
    + cbn. now rewrite Nat.eqb_refl.
    + apply (@snoc_busy (fun l1 => exists j, fold_left act1 l1 (Some None) = Some (Some j))); auto; discriminate.
  - injection H as <-. constructor; lsp; rewrite ?added_snoc, ?taken_snoc, ?run_snoc, ?act_snoc, ?l_run0, ?l_act0, ?app_nil_r; auto.
    + destruct (running s); reflexivity.
    + destruct (active s); reflexivity.
    + apply (@snoc_busy (fun l1 => exists j, fold_left act1 l1 (Some None) = Some (Some j))); auto. discriminate.
Qed.
Lemma LInv_init : LInv linit.
Proof. constructor; cbn; auto; try discriminate; intros [|]; discriminate. Qed.
Definition lreach (s : lst) : Prop := exists acts, steps lstep linit acts s.
Lemma lreach_inv s : lreach s -> LInv s.
Proof. intros [acts H]. eapply steps_inv; eauto; [apply LInv_step|apply LInv_init]. Qed.

Theorem C42_threadless_fifo_exactly_once s : lreach s ->
  added (llg s) = seq 0 (lnid s) /\ is_prefix (taken (llg s)) (added (llg s)) /\ NoDup (taken (llg s)).
Proof.
  intros H. apply lreach_inv in H. destruct H. split; auto. split; [exists (lq s); auto|].
  assert (ND : NoDup (taken (llg s) ++ lq s)) by (rewrite l_take0, l_add0; apply seq_NoDup). clear -ND.
  induction (taken (llg s)) as [|x l IH]; [constructor|]. cbn in ND. inversion ND; subst. constructor; auto. rewrite in_app_iff in H1. tauto.
Qed.
(** However many threads call ExecuteTasks, and also from inside a task, one thread at a time is in it and one task at a time runs. *)
Theorem C42_threadless_one_at_a_time s : lreach s -> one_at_a_time (llg s) /\ fold_left act1 (llg s) (Some None) <> None.
Proof. intros H. apply lreach_inv in H. unfold one_at_a_time. rewrite (l_run H), (l_act H). split; discriminate. Qed.
(** ExecuteTasks refuses only while another call is in progress: after every way of leaving it the next call is accepted. *)
Theorem C42_threadless_refuses_only_when_busy s l1 t l2 : lreach s -> llg s = l1 ++ EBusy t :: l2 -> exists j, fold_left act1 l1 (Some None) = Some (Some j).
Proof. intros H. apply lreach_inv in H. apply (l_busy H). Qed.
(** An ExecuteTasks that was not cancelled or interrupted returns with the queue empty. *)
Theorem C42_threadless_returns_when_empty s t s' : lreach s -> lstep s (LEnd t None) = Some s' -> taken (llg s) = added (llg s).
Proof.
  intros H Hs. apply lreach_inv in H. cbn in Hs. destruct (active s); [|discriminate]. destruct (running s); [discriminate|].
  destruct (lq s) eqn:Eq; [|rewrite andb_false_r in Hs; discriminate]. rewrite <- (l_take H), Eq. now rewrite app_nil_r.
Qed.

Example C42_thread_nonvacuous : exists s, treach s /\ In EExit (lg s) /\ lg s = [EAdd 0; EStart 0; EAdd 1; EFinish 0 true; EAdd 2; ESkip 1; EStart 2; EAdd 3; EFinish 2 false; EStart 3; EFinish 3 false; EExit].
Proof.
  eexists. split; [exists [TStep true; TAdd; TStep true; TAdd; TDone true; TAdd; TStep false; TStep true; TCancel; TAdd; TDone false; TStep true; TDone false; TStep true]; apply exec_steps; vm_compute; reflexivity|].
  split; [cbn; tauto|reflexivity].
Qed.
Example C42_threadless_nonvacuous : exists s, lreach s /\ llg s = [EAdd 0; EAdd 1; EBegin 7; EStart 0; EBusy 8; EAdd 2; EFinish 0 false; EEnd 7 true; EBegin 8; EStart 1; EFinish 1 true; EClear [2]; EEnd 8 false].
Proof.
  eexists. split; [exists [LAdd; LAdd; LExec 7; LTake 7 true; LExec 8; LAdd; LDone 7 false; LEnd 7 (Some true); LExec 8; LTake 8 true; LDone 8 true; LClear; LEnd 8 None]; apply exec_steps; vm_compute; reflexivity|reflexivity].
Qed.
Print Assumptions C42_thread_executor_fifo_exactly_once.
Print Assumptions C42_thread_executor_one_at_a_time.
Print Assumptions C42_thread_executor_destructor_drains.
Print Assumptions C42_thread_executor_progress.
Print Assumptions C42_threadless_fifo_exactly_once.
Print Assumptions C42_threadless_one_at_a_time.
