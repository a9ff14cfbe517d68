(* C83: threads *)
From Coq Require Import List Bool Arith Lia.
From Verif Require Import Conc ThreadModel ThreadSpec ThreadProofs.
Import ListNotations.

(* The function of a thread is run at most once, and it has ended exactly once when the destructor of the thread has returned, however
   early the destructor was called *)
Theorem C83_runs_once : forall ls s t, steps step init ls s ->
  begins t (hist s) <= 1 /\ ends t (hist s) <= begins t (hist s) /\
  forall h1 h2, hist s = h1 ++ DtorReturned t :: h2 -> begins t h1 = 1 /\ ends t h1 = 1.
Proof.
  intros ls s t Hs. pose proof (reach_inv _ _ Hs) as Hi. destruct (v_ok _ Hi t) as [B E D C DB G]. rewrite B, E.
  split; [destruct (begun _); cbn; lia|]. split.
  { unfold begun, ended. destruct (ob _), (ph _); cbn; lia. }
  intros h1 h2 Hh. assert (Hob : ob (th s t) = Destroyed) by (apply D; rewrite Hh; apply in_app_iff; cbn; auto).
  pose proof (G Hob) as Hg. unfold begun, ended in B, E. rewrite Hob, Hg in B, E. cbn in B, E.
  assert (Hq : Forall (fun e => ~ concerns t e) h2) by exact (v_quiet _ Hi _ _ _ Hh).
  assert (B2 : begins t h2 = 0 /\ ends t h2 = 0).
  { clear -Hq. induction Hq as [|e h He Hh IH]; [split; reflexivity|]. destruct IH as (I1 & I2). unfold begins, ends in *. cbn.
    destruct e; cbn in *; auto; (destruct (Nat.eqb_spec t0 t); [contradiction|auto]). }
  rewrite Hh in B, E. rewrite begins_app in B. rewrite ends_app in E. unfold begins at 2 in B. unfold ends at 2 in E. cbn in B, E.
  fold (begins t h2) in B. fold (ends t h2) in E. lia.
Qed.
Print Assumptions C83_runs_once.

(* After the destructor has returned the thread does nothing: it does not run the function, it does not use the destroyed object, and
   no signal is sent to its handle, which pthread_join has made invalid *)
Theorem C83_nothing_after_destructor : forall ls s t, steps step init ls s ->
  forall h1 h2, hist s = h1 ++ DtorReturned t :: h2 -> Forall (fun e => ~ concerns t e) h2.
Proof. intros ls s t Hs h1 h2. apply (v_quiet _ (reach_inv _ _ Hs)). Qed.
Print Assumptions C83_nothing_after_destructor.

(* When the constructor has returned the thread is registered under the kernel's id for it, until the destructor has returned; and
   the constructor does return, after at most three steps, if nothing aborts the program *)
Theorem C83_constructed : forall ls s t, steps step init ls s ->
  (In (CtorReturned t) (hist s) -> ~ In (DtorReturned t) (hist s) -> In (tid (th s t), t) (reg s)) /\
  (ob (th s t) = Constructing -> aborted s = false ->
     exists ls' s', steps step s ls' s' /\ length ls' <= 3 /\ Forall (makes t) ls' /\ In (CtorReturned t) (hist s')).
Proof.
  intros ls s t Hs. pose proof (reach_inv _ _ Hs) as Hi. split.
  - destruct (v_ok _ Hi t) as [B E D C DB G GD R1 R2 AB AD P]. intros H1 H2. apply C in H1. rewrite D in H2.
    apply R2; auto; destruct (ob (th s t)) eqn:Eo; try contradiction; try discriminate; destruct (ph (th s t)); discriminate.
  - intros H1 H2. apply ctor_completes; auto.
Qed.
Print Assumptions C83_constructed.

(* The destructor returns once the function has ended, unless the thread destroys itself *)
Theorem C83_destructor_returns : forall ls s t b, steps step init ls s -> aborted s = false ->
  In (DtorBegan t b) (hist s) -> b <> Some t -> In (FuncEnded t) (hist s) ->
  In (DtorReturned t) (hist s) \/
  exists ls' s', steps step s ls' s' /\ length ls' <= guards (th s t) + 3 /\ Forall (finishes t) ls' /\ In (DtorReturned t) (hist s').
Proof.
  intros ls s t b Hs Ha Hb Hne Hf. pose proof (reach_inv _ _ Hs) as Hi. destruct (v_ok _ Hi t) as [B E D C DB G GD R1 R2 AB AD P].
  destruct (DB b Hb) as (Hj & Ho).
  assert (He : ended (th s t) = true).
  { destruct (ended (th s t)); auto. exfalso. clear -E Hf. cbn in E. unfold ends in E. apply length_zero_iff_nil in E.
    assert (In (FuncEnded t) []) as []. rewrite <- E. apply filter_In. split; auto. apply Nat.eqb_refl. }
  destruct (ob (th s t)) eqn:Eo; try contradiction.
  - right. apply dtor_completes; auto; try congruence. unfold ended in He. rewrite Eo in He. destruct (ph (th s t)); auto; discriminate.
  - right. apply dtor_completes; auto; try congruence. unfold ended in He. rewrite Eo in He. destruct (ph (th s t)); auto; discriminate.
  - left. apply D. reflexivity.
Qed.
Print Assumptions C83_destructor_returns.

(* The program is aborted only by something that is not a std::exception leaving a function, or by a thread that destroys itself *)
Theorem C83_aborts_only : forall ls s, steps step init ls s -> aborted s = true ->
  exists t, In (Escaped t) (hist s) \/ In (JoinedSelf t) (hist s).
Proof. intros ls s Hs. apply (v_ab _ (reach_inv _ _ Hs)). Qed.
Print Assumptions C83_aborts_only.

(* GetPthreadIdFromThreadId: a running thread's id is found; what is found had that id; it is the running thread if what was found is
   running at all, or if no other registered thread has had the id *)
Theorem C83_lookup_partial : forall ls s, steps step init ls s ->
  (forall t, running_phase (ph (th s t)) = true -> ph (th s t) <> Starting -> exists u, lookup s (tid (th s t)) = Some u) /\
  (forall id u, lookup s id = Some u -> tid (th s u) = id /\ u < count s) /\
  (forall t u, running_phase (ph (th s t)) = true -> lookup s (tid (th s t)) = Some u -> running_phase (ph (th s u)) = true -> u = t) /\
  (forall t, running_phase (ph (th s t)) = true -> ph (th s t) <> Starting ->
     (forall u, registered s u = true -> tid (th s u) = tid (th s t) -> u = t) -> lookup s (tid (th s t)) = Some t).
Proof.
  intros ls s Hs. pose proof (reach_inv _ _ Hs) as Hi. repeat split.
  - intros t H1 H2. apply In_lookup with (t := t). apply (o_reg1 _ _ _ _ (v_ok _ Hi t)); auto.
  - destruct (v_reg _ Hi id u (lookup_In _ _ _ H)) as (? & ? & ?); auto.
  - destruct (v_reg _ Hi id u (lookup_In _ _ _ H)) as (? & ? & ?); auto.
  - intros t u H1 H2 H3. apply (v_ids _ Hi); auto. destruct (v_reg _ Hi _ _ (lookup_In _ _ _ H2)) as (? & ? & ?); auto.
  - intros t H1 H2 H3. destruct (In_lookup s (tid (th s t)) t) as (u & Hu).
    { apply (o_reg1 _ _ _ _ (v_ok _ Hi t)); auto. }
    rewrite Hu. f_equal. destruct (v_reg _ Hi _ _ (lookup_In _ _ _ Hu)) as (? & ? & ?). apply H3; auto.
    apply registered_In. eauto using lookup_In.
Qed.
Print Assumptions C83_lookup_partial.

Definition ended_thread (t id : nat) : list label := [New None id; Register t; Notify t; CtorReturn t; Enter t; Exit t Returned; Leave t].
(* Not true: GetPthreadIdFromThreadId gives the running thread with that id. A thread has ended, its Thread object still exists, and the
   kernel has given its id to a new thread: the handle of the ended thread is found. *)
Theorem C83_lookup_refuted : ~ (forall ls s, steps step init ls s -> forall t, running_phase (ph (th s t)) = true -> ph (th s t) <> Starting ->
  lookup s (tid (th s t)) = Some t).
Proof.
  intros H. destruct (exec_obs step (fun s => running_phase (ph (th s 1)) = true /\ ph (th s 1) <> Starting /\ lookup s (tid (th s 1)) = Some 0)
    init (ended_thread 0 5 ++ [New None 5; Register 1])) as (s & Hs & H1 & H2 & H3). { vm_compute. repeat split. discriminate. }
  rewrite (H _ _ Hs 1 H1 H2) in H3. discriminate.
Qed.
Print Assumptions C83_lookup_refuted.

(* Not true: a thread may be destroyed by itself *)
Theorem C83_self_destruction_refuted : ~ (forall ls s, steps step init ls s -> (forall t w, In (Exit t w) ls -> w <> OtherException) -> aborted s = false).
Proof.
  intros H. destruct (exec_obs step (fun s => aborted s = true) init
    [New None 5; Register 0; Notify 0; CtorReturn 0; Enter 0; Destroy 0 (Some 0); Release 0; Join 0]) as (s & Hs & H1). { vm_compute. reflexivity. }
  rewrite (H _ _ Hs) in H1; [discriminate|]. cbn. intros t w Hi. repeat (destruct Hi as [Hi|Hi]; [discriminate|]). contradiction.
Qed.
Print Assumptions C83_self_destruction_refuted.

(* Not true: a thread's function begins only after the constructor has returned *)
Theorem C83_begins_after_constructor_refuted : ~ (forall ls s t h1 h2, steps step init ls s -> hist s = h1 ++ FuncBegan t :: h2 -> In (CtorReturned t) h1).
Proof.
  intros H. destruct (exec_obs step (fun s => hist s = [Touched 0; Touched 0; Touched 0; FuncBegan 0]) init
    [New None 5; Register 0; Notify 0; Enter 0]) as (s & Hs & H1). { vm_compute. reflexivity. }
  destruct (H _ _ 0 [Touched 0; Touched 0; Touched 0] [] Hs H1) as [E|[E|[E|[]]]]; discriminate.
Qed.
Print Assumptions C83_begins_after_constructor_refuted.

(* Not true: RequestBacktrace never signals a thread that does not exist. The info of a thread that is not a PosixThread has no guard. *)
Theorem C83_foreign_signal_refuted : ~ (forall ls s l s' t, steps step init ls s -> step s l = Some s' ->
  hist s' = hist s ++ [Signalled t] -> ph (th s t) = Gone -> ob (th s t) <> NoObject).
Proof.
  intros H. destruct (exec_obs step (fun s => ph (th s 0) = Gone /\ ob (th s 0) = NoObject /\
      step s (SignalAdopted 0) = Some (upd s 0 (th s 0) [Signalled 0])) init [Adopt 7; Leave 0]) as (s & Hs & H1 & H2 & H3).
  { vm_compute. repeat split. }
  apply (H _ _ _ _ 0 Hs H3 eq_refl H1 H2).
Qed.
Print Assumptions C83_foreign_signal_refuted.

(* The processor time of a thread that has exited is counted, once, at the nearest ancestor that has not exited, if every thread exits
   after those it has made. Times are counted in the processor time of the children, ThreadStats::GetChildrenCpuStats. *)
Theorem C83_children_time : forall ls s, structured ls -> steps sstep sinit ls s -> forall p, over s p = None ->
  kids s p = sum (map (fun d => match nearest (S d) (parent s) (fun t => match over s t with Some _ => true | None => false end) d, over s d with
                                | Some q, Some cpu => if Nat.eqb q p then cpu else 0
                                | _, _ => 0 end) (seq 0 (made s))).
Proof.
  intros ls s Hst Hs p Hp. pose proof (sreach ls s Hst Hs) as Hi. rewrite (s_kids _ Hi) by (unfold exited; now rewrite Hp).
  unfold counted. apply sum_ext. intros d _. unfold at_, cost. change (fun t => match over s t with Some _ => true | None => false end) with (exited s).
  destruct (nearest (S d) (parent s) (exited s) d); auto. destruct (over s d); auto. destruct (Nat.eqb n p); auto.
Qed.
Print Assumptions C83_children_time.

(* Not true without that: the time of a thread that exits after the one that made it is counted nowhere *)
Theorem C83_children_time_refuted : ~ (forall ls s, steps sstep sinit ls s -> forall p, over s p = None ->
  kids s p = sum (map (fun d => match nearest (S d) (parent s) (fun t => match over s t with Some _ => true | None => false end) d, over s d with
                                | Some q, Some cpu => if Nat.eqb q p then cpu else 0
                                | _, _ => 0 end) (seq 0 (made s)))).
Proof.
  intros H. destruct (exec_obs sstep (fun s => over s 0 = None /\ kids s 0 = 1 /\
    sum (map (fun d => match nearest (S d) (parent s) (fun t => match over s t with Some _ => true | None => false end) d, over s d with
                                | Some q, Some cpu => if Nat.eqb q 0 then cpu else 0
                                | _, _ => 0 end) (seq 0 (made s))) = 11) sinit
    [SNew None; SNew (Some 0); SNew (Some 1); SExit 1 1; SExit 2 10]) as (s & Hs & H1 & H2 & H3). { vm_compute. auto. }
  specialize (H _ _ Hs 0 H1). rewrite H2, H3 in H. discriminate.
Qed.
Print Assumptions C83_children_time_refuted.

(* A parent makes a child; the child is destroyed while a backtrace of it is requested; both end *)
Definition day : list label :=
  [New None 5; Register 0; Notify 0; Enter 0; CtorReturn 0; New (Some 0) 6; Register 1; Notify 1; CtorReturn 1; Guard 1; Destroy 1 (Some 0);
   Enter 1; Signal 1; Exit 1 StdException; Unguard 1; Release 1; Leave 1; Join 1; Exit 0 Returned; Leave 0; Destroy 0 None; Release 0; Join 0;
   DropData 1; DropData 0].
Example C83_day : exists s, steps step init day s /\ aborted s = false /\ reg s = [] /\
  In (DtorReturned 0) (hist s) /\ In (DtorReturned 1) (hist s) /\ In (Signalled 1) (hist s).
Proof. apply exec_obs. vm_compute. repeat split; repeat (first [left; reflexivity | right]). Qed.
Definition family : list slabel := [SNew None; SNew (Some 0); SNew (Some 1); SExit 2 10; SExit 1 1; SNew (Some 0); SExit 3 5].
Example C83_family : exists s, steps sstep sinit family s /\ kids s 0 = 16 /\ over s 0 = None.
Proof. apply exec_obs. vm_compute. auto. Qed.
Example C83_family_structured : structured [SNew None; SNew (Some 0); SExit 1 3].
Proof.
  intros pre t cpu post s H Hs c Hc. destruct pre as [|a [|b [|d pre]]]; cbn in H; try discriminate.
  - injection H as <- <- <- <- <-. inversion Hs as [|? ? s1 ? ? E1 H1]; subst. inversion H1 as [|? ? s2 ? ? E2 H2]; subst.
    inversion H2; subst. cbn in E1. injection E1 as <-. cbn in E2. injection E2 as <-. cbn in Hc. unfold fupd in Hc.
    destruct c as [|[|c]]; cbn in Hc; discriminate.
  - injection H as <- <- <- H. destruct pre; discriminate.
Qed.
