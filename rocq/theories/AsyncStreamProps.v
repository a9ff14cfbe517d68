(** C45: AsyncByteStream, the write-behind stream.  "Reachable" is: from a stream constructed
    over a file [f0] with length [l0], by any schedule of the user's calls, of the worker, and of
    an underlying stream that writes any part of what it is given or throws. *)
From Verif Require Import Base Conc BithreadModel AsyncStreamModel AsyncStreamSpec AsyncStreamProofs AsyncStreamInv AsyncStreamStep.
Set Implicit Arguments.
Local Open Scope Z_scope.

Section P.
Variable A : Type.
Implicit Types (s : as_ A).
Variables (f0 : Z -> option A) (p0 l0 : Z) (storage : list A) (pre : Z) (nb : bool).
Hypothesis Hst : 0 < zlen storage.
Hypothesis Hpre : 0 < pre.
Let reach ls s := steps (@step A) (init f0 p0 l0 storage pre nb) ls s.

(** At any moment: writing the pending operations to the file gives what writing every accepted
    byte directly, in the order of the Write calls, would have given. *)
Theorem C45_linear : forall ls s, reach ls s -> forall i, replay (mem s) (pending s) (fil s) i = direct (log s) f0 i.
Proof. intros ls s H. exact (I_data (reach_Inv Hst Hpre H)). Qed.

(** When the worker has nothing left the file is exactly that. *)
Theorem C45_drained : forall ls s, reach ls s -> wp s = WIdle -> sq s = [] -> forall i, fil s i = direct (log s) f0 i.
Proof. intros ls s H Hw Hq i. rewrite <- (C45_linear H). rewrite pending_eq. unfold infl. rewrite Hw, Hq. reflexivity. Qed.

(** A blocking Sync that returns normally leaves nothing pending: everything accepted before is in the file. *)
Theorem C45_sync : forall ls s s' i, reach ls s -> step s LSyncRet = Some s' -> log s' = log s ++ [ESynced i] ->
  pending s' = [] /\ forall x, fil s' x = direct (log s') f0 x.
Proof.
  intros ls s s' i H Hs Hl. pose proof (reach_Inv Hst Hpre H) as HI. cbn [step] in Hs.
  pose proof (I_up HI) as Hup. destruct (up s) as [|j|] eqn:Eu; try discriminate.
  destruct (wexc s).
  { injection Hs as <-. cbn in Hl. apply app_inv_head in Hl. discriminate. }
  destruct (Z.leb_spec 0 (sdone s - j)); [|discriminate]. injection Hs as <-.
  destruct Hup as [(Hlt & _)|(Hq & Hw)]; [lia|].
  split; [rewrite pending_eq; unfold infl; cbn; now rewrite Hq, Hw|].
  intros x. cbn [emit set_up fil log]. rewrite direct_app. cbn. apply (C45_drained H Hw Hq).
Qed.

(** If the worker ends normally (which the destructor waits for), everything accepted is in the file. *)
Theorem C45_destroyed : forall ls s, reach ls s -> wp s = WDone -> forall i, fil s i = direct (log s) f0 i.
Proof.
  intros ls s H Hw i. pose proof (reach_Inv Hst Hpre H) as HI. pose proof (I_stop HI) as K.
  assert (Hq : sq s = []).
  { destruct (up s); try (destruct K; congruence). destruct K as [(q & _ & _ & Hn)|(_ & K)]; congruence. }
  rewrite <- (C45_linear H). rewrite pending_eq. unfold infl. rewrite Hw, Hq. reflexivity.
Qed.

(** Write accepts a prefix of what it is given and moves the position by its length; it accepts
    nothing only if there is nothing to write or the newest buffer is full. *)
Theorem C45_write_result : forall ls s d s', reach ls s -> step s (LWrite d) = Some s' -> wexc s = false ->
  exists n, log s' = log s ++ [EWrite (pos s) d n] /\ 0 <= n <= zlen d /\ pos s' = pos s + n /\
    (n = 0 <-> d = [] \/ exists k r, bufs s = k :: r /\ free_size (mem s k) = 0).
Proof.
  intros ls s d s' H Hs He. pose proof (reach_Inv Hst Hpre H) as HI. cbn [step] in Hs.
  destruct (up s) eqn:Eu; try discriminate. injection Hs as <-. destruct (write_Inv d HI Eu) as (_ & K). rewrite He in K. exact K.
Qed.

(** The length the stream works with is the length of the directly written stream. *)
Theorem C45_length : forall ls s, reach ls s -> len s = direct_len (log s) l0.
Proof. intros ls s H. exact (I_len (reach_Inv Hst Hpre H)). Qed.

(** Seek moves the position to the offset counted from the beginning, from the current position or from the end of the directly
    written stream, refuses a negative target, and touches nothing else. *)
Theorem C45_seek : forall ls s o m s', reach ls s -> step s (LSeek o m) = Some s' -> wexc s = false ->
  let target := o + match m with SBegin => 0 | SCurrent => pos s | SEnd => direct_len (log s) l0 end in
  (pos s' = (if (target <? 0) && negb (target =? pos s) then pos s else target)) /\
  log s' = log s ++ (if (target <? 0) && negb (target =? pos s) then [EThrow] else []) /\
  fil s' = fil s /\ pending s' = pending s /\ len s' = len s.
Proof.
  intros ls s o m s' H Hs He target. pose proof (C45_length H) as HL. cbn [step] in Hs.
  destruct (up s) eqn:Eu; try discriminate. injection Hs as <-. unfold seek. rewrite He, HL.
  assert (E : match m with SBegin => o | SCurrent => pos s + o | SEnd => direct_len (log s) l0 + o end = target) by (unfold target; destruct m; lia).
  rewrite E. destruct (target =? pos s) eqn:E1.
  - apply Z.eqb_eq in E1. rewrite Bool.andb_false_r, app_nil_r. repeat split; auto.
  - rewrite Bool.andb_true_r. destruct (target <? 0); cbn; rewrite ?app_nil_r; repeat split; auto.
Qed.

(** None of the internal consistency checks ever fails. *)
Theorem C45_no_internal_error : forall ls s, reach ls s -> ~ In EInternal (log s).
Proof. intros ls s H. exact (I_log (reach_Inv Hst Hpre H)). Qed.

(** Reconfigure's old buffers go: when the worker has nothing left there is exactly one, the newest. *)
Theorem C45_old_buffers_go : forall ls s, reach ls s -> bufs s <> [] /\ (pending s = [] -> length (bufs s) = 1%nat).
Proof.
  intros ls s H. destruct (I_ord (reach_Inv Hst Hpre H)) as (k & Hk). destruct (bufs_split _ Hk) as (r & Eb). split; [rewrite Eb; discriminate|].
  intros P. rewrite P in Hk. cbn [resid] in Hk. assert (E : rev (bufs s) = [k]) by congruence.
  rewrite <- rev_length, E. reflexivity.
Qed.

(** The bytes waiting in a buffer never exceed its storage. *)
Lemma segs_sum R : forall lo hi, segs lo hi R -> fold_right (fun r n => snd r + n) 0 R = hi - lo.
Proof. induction R as [|[o z] R IH]; cbn; intros lo hi H; [lia|]. destruct H as (_ & _ & H). rewrite (IH _ _ H). lia. Qed.
Lemma tile_sum (b : bcb A) R : tile b R -> fold_right (fun r n => snd r + n) 0 R <= total_size b.
Proof.
  intros [(_ & H & H1 & H2)|(_ & R1 & R2 & -> & H1 & H2 & H3 & H4)].
  - rewrite (segs_sum _ _ _ H). lia.
  - assert (E : forall l2, fold_right (fun r n => snd r + n) 0 (R1 ++ l2) = fold_right (fun r n => snd r + n) 0 R1 + fold_right (fun r n => (snd r : Z) + n) 0 l2)
      by (clear; induction R1 as [|[o z] R1 IH]; cbn; intros l2; [lia|rewrite IH; lia]).
    rewrite E, (segs_sum _ _ _ H1), (segs_sum _ _ _ H2). lia.
Qed.
Theorem C45_bounded : forall ls s k, reach ls s -> In k (bufs s) -> bytes_in k (pending s) <= total_size (mem s k).
Proof.
  intros ls s k H Hk. pose proof (reach_Inv Hst Hpre H) as HI.
  etransitivity; [|apply (tile_sum (I_tile HI k Hk))]. pose proof (I_wf HI) as Hw. clear - Hw.
  induction Hw as [|o l Ho Hl IH]; [cbn; lia|]. destruct o as [a i off z u| | |]; auto.
  change (bytes_in k (OWrite a i off z u :: l)) with (if Nat.eqb i k then u + bytes_in k l else bytes_in k l).
  change (regs k (OWrite a i off z u :: l)) with ((if Nat.eqb i k then [(off, z)] else []) ++ regs k l).
  cbn in Ho. destruct (Nat.eqb i k); cbn [app fold_right snd]; lia.
Qed.

(** While something is pending and the worker has neither stopped nor failed, the worker can go on. *)
Theorem C45_progress : forall ls s, reach ls s -> pending s <> [] -> wp s <> WDone -> (forall o, wp s <> WDead o) ->
  exists l s', worker l = true /\ step s l = Some s'.
Proof.
  intros ls s H Hp Hd Hx. pose proof (reach_Inv Hst Hpre H) as HI. pose proof (I_wf HI) as Hwf. pose proof (I_wp HI) as Hwp.
  destruct (I_ord HI) as (k & Hk).
  rewrite pending_eq in *. unfold infl in *. destruct (wp s) as [|o|o n| |o] eqn:Ew; try congruence.
  - destruct (sq s) as [|o q] eqn:Eq; [cbn in Hp; congruence|]. exists LWork. cbn [step worker]. unfold work. rewrite Ew, Eq.
    destruct o; eauto. destruct (rev (bufs s)); eauto. destruct (read_view _); eauto. destruct (_ && _); eauto.
  - pose proof (I_tile HI) as HT. inversion Hwf as [|? ? Hw ?]; subst. destruct o as [a id off z u| | |]; try discriminate. cbn in Hw.
    assert (zlen (odata (mem s) (OWrite a id off z u)) = u) as E.
    { change u with (used (OWrite a id off z u)) at 2. eapply odata_len with (P := pending s).
      - exact Hw.
      - rewrite pending_eq. unfold infl. rewrite Ew. cbn; auto.
      - intros a' id' off' z' u' Eq'. apply (I_tile HI). injection Eq' as <- <- <- <- <-. rewrite in_rev. eapply resid_in; [exact Hk|]. cbn; eauto. }
    exists (LOut 1). eexists. split; [reflexivity|]. cbn [step]. rewrite Ew, E. replace ((0 <=? 1) && (1 <=? u)) with true by lia. reflexivity.
  - destruct Hwp as (W1 & W2 & W3). destruct o as [a id off z u| | |]; try discriminate. exists LWork. cbn [step worker].
    unfold work. rewrite Ew. destruct (n =? u); destruct (pop _ _); eauto.
Qed.

(** ... and every such step brings it closer to the end: at most [todo s] of them are possible. *)
Lemma owork_pos o : wfop o -> 0 < owork o.
Proof. unfold owork, wfop. destruct o; intros; lia. Qed.
Lemma todo_nonneg s : Inv f0 l0 s -> 0 <= todo s.
Proof.
  intros HI. pose proof (I_wf HI) as Hwf. pose proof (I_wp HI) as Hwp. rewrite pending_eq in Hwf. apply Forall_app in Hwf as (H1 & H2).
  assert (0 <= fold_right (fun o n => owork o + n) 0 (sq s)).
  { clear - H2. induction H2 as [|o l Ho Hl IH]; cbn; [lia|]. apply owork_pos in Ho. lia. }
  unfold todo, infl in *. destruct (wp s); try lia.
  - inversion H1; subst. apply owork_pos in H4. lia.
  - destruct o; try lia. cbn in Hwp. lia.
Qed.
Theorem C45_worker_bound : forall ls s ls' s', reach ls s -> forallb (@worker A) ls' = true -> steps (@step A) s ls' s' ->
  zlen ls' <= todo s - todo s' /\ 0 <= todo s'.
Proof.
  intros ls s ls' s' H Hw Hs. pose proof (reach_Inv Hst Hpre H) as HI. clear H ls.
  induction Hs as [s|s l s1 ls s2 H1 H2 IH].
  - rewrite zlen_nil. pose proof (todo_nonneg HI). lia.
  - cbn in Hw. apply andb_prop in Hw as (Hl & Hw). pose proof (step_Inv _ HI H1) as HI1. specialize (IH Hw HI1).
    rewrite zlen_cons. assert (todo s1 < todo s); [|lia]. clear IH HI1 H2 Hw.
    pose proof (I_wf HI) as Hwf. pose proof (I_wp HI) as Hwp. pose proof (I_log HI) as Hlog.
    destruct l; try discriminate; cbn [step] in H1.
    + pose proof (work_Inv HI H1) as HI1. pose proof (I_log HI1) as Hlog1.
      unfold work in H1. unfold todo. destruct (wp s) as [|o|o n| |o] eqn:Ew; try discriminate.
      * destruct (sq s) as [|o q] eqn:Eq; [discriminate|]. cbn [fold_right].
        destruct o; try (injection H1 as <-; cbn [set_wp set_done set_bufs wp sq owork]; lia).
        destruct (rev (bufs s)); [injection H1 as <-; exfalso; apply Hlog1; cbn; apply in_or_app; cbn; auto|].
        destruct (read_view _); [|injection H1 as <-; exfalso; apply Hlog1; cbn; apply in_or_app; cbn; auto].
        destruct (_ && _); injection H1 as <-; [cbn [set_wp wp sq]; lia|exfalso; apply Hlog1; cbn; apply in_or_app; cbn; auto].
      * destruct Hwp as (W1 & W2 & W3). destruct o as [a id off z u| | |]; try discriminate. cbn [used] in W2.
        destruct (Z.eqb_spec n u).
        -- destruct (pop _ _); injection H1 as <-; [cbn [set_wp set_q wp sq]; lia|exfalso; apply Hlog1; cbn; apply in_or_app; cbn; auto].
        -- destruct (pop _ _); injection H1 as <-; [cbn [set_wp set_q wp sq fold_right owork]; lia|exfalso; apply Hlog1; cbn; apply in_or_app; cbn; auto].
    + unfold todo. destruct (wp s) as [|o|o m| |o] eqn:Ew; try discriminate.
      destruct ((0 <=? n) && (n <=? zlen (odata (mem s) o))); [|discriminate]. injection H1 as <-. cbn [set_fil wp sq].
      destruct o as [a id off z u| | |]; try discriminate. cbn in Hl. cbn [owork]. lia.
Qed.

(** So the worker can always finish what is pending. *)
Theorem C45_can_finish : forall ls s, reach ls s -> (forall o, wp s <> WDead o) ->
  exists ls' s', forallb (@worker A) ls' = true /\ reach (ls ++ ls') s' /\ pending s' = [].
Proof.
  intros ls s H Hx. pose proof (todo_nonneg (reach_Inv Hst Hpre H)) as Hn.
  remember (Z.to_nat (todo s)) as k eqn:Ek. revert ls s H Hx Hn Ek.
  induction k as [k IH] using lt_wf_ind. intros ls s H Hx Hn Ek.
  destruct (pending s) as [|o P] eqn:Ep.
  { exists [], s. rewrite app_nil_r. auto. }
  assert (Hnd : wp s <> WDone).
  { intros Hw. pose proof (I_stop (reach_Inv Hst Hpre H)) as K. rewrite pending_eq in Ep. unfold infl in Ep. rewrite Hw in Ep. cbn in Ep.
    destruct (up s); try (destruct K; congruence). destruct K as [(q & _ & _ & K)|(_ & K)]; congruence. }
  destruct (C45_progress H) as (l & s1 & Hl & Hs1); auto; [congruence|].
  destruct (@C45_worker_bound ls s [l] s1 H) as (B1 & B2).
  { cbn. now rewrite Hl. }
  { econstructor; [exact Hs1|constructor]. }
  rewrite zlen_cons, zlen_nil in B1.
  assert (H1 : reach (ls ++ [l]) s1) by (eapply steps_app; [exact H|econstructor; [exact Hs1|constructor]]).
  destruct (IH (Z.to_nat (todo s1))) with (ls := ls ++ [l]) (s := s1) as (ls' & s' & K1 & K2 & K3); auto; try lia.
  - intros o' Ho. pose proof (reach_Inv Hst Hpre H) as HI. destruct l; try discriminate; cbn [step] in Hs1.
    + pose proof (work_Inv HI Hs1) as HI1. unfold work in Hs1.
      destruct (wp s) as [|w|w n| |w] eqn:Ew; try discriminate.
      * destruct (sq s) as [|x q]; [discriminate|]. destruct x; try (injection Hs1 as <-; cbn in Ho; discriminate).
        destruct (rev (bufs s)); [injection Hs1 as <-; cbn in Ho; discriminate|].
        destruct (read_view _); [|injection Hs1 as <-; cbn in Ho; discriminate].
        destruct (_ && _); injection Hs1 as <-; cbn in Ho; discriminate.
      * destruct w; try discriminate. destruct (n =? used); destruct (pop _ _); injection Hs1 as <-; cbn in Ho; discriminate.
    + destruct (wp s); try discriminate. destruct (_ && _); [|discriminate]. injection Hs1 as <-. cbn in Ho. discriminate.
  - exists (l :: ls'), s'. cbn. rewrite Hl, K1. rewrite <- app_assoc in K2. auto.
Qed.

(** After the underlying stream has thrown, every call throws and the file never changes again: what
    was pending is lost. *)
Theorem C45_dead : forall ls s o, reach ls s -> wp s = WDead o ->
  forall l s', step s l = Some s' ->
    fil s' = fil s /\ wp s' = WDead o /\ wexc s' = true /\
    match l with
    | LWrite _ | LSeek _ _ | LSync | LReconf _ _ _ | LSyncRet => log s' = log s ++ [EThrow]
    | _ => True
    end.
Proof.
  intros ls s o H Hw l s' Hs. pose proof (I_dead (reach_Inv Hst Hpre H) Hw) as He. destruct l; cbn [step] in Hs.
  - destruct (up s); try discriminate. injection Hs as <-. unfold write. rewrite He. cbn. auto.
  - destruct (up s); try discriminate. injection Hs as <-. unfold seek. rewrite He. cbn. auto.
  - destruct (up s); try discriminate. injection Hs as <-. unfold sync. rewrite He. cbn. auto.
  - destruct (up s); try discriminate. destruct (_ && _); [|discriminate]. injection Hs as <-. unfold reconf. rewrite He. cbn. auto.
  - destruct (up s); try discriminate. injection Hs as <-. cbn. auto.
  - destruct (up s); try discriminate. rewrite He in Hs. injection Hs as <-. cbn. auto.
  - unfold work in Hs. rewrite Hw in Hs. discriminate.
  - rewrite Hw in Hs. discriminate.
  - rewrite Hw in Hs. discriminate.
Qed.
End P.

(** "Destroying the stream without having seen a call throw means everything accepted is in the file"
    is false: the exception of the worker is only logged. *)
Definition f_empty : Z -> option Z := fun _ => None.
Definition st4 : list Z := [0; 0; 0; 0].
Theorem C45_destroy_reports_loss_refuted :
  ~ (forall ls (s : as_ Z), steps (@step Z) (init f_empty 0 0 st4 2 false) ls s -> up s = UGone ->
       (forall l, worker l = true -> step s l = None) -> ~ In EThrow (log s) ->
       forall i, fil s i = direct (log s) f_empty i).
Proof.
  intros H.
  destruct (exec_obs (@step Z)
    (fun s => up s = UGone /\ wp s = WDead (OWrite 0 0 0 3 3) /\ ~ In EThrow (log s) /\ fil s 2 = None /\ direct (log s) f_empty 2 = Some 7)
    (init f_empty 0 0 st4 2 false) [LWrite [5; 6; 7]; LWork; LFail 1; LDestroy]) as (s & Hs & Hu & Hw & He & Hf & Hd).
  { cbn. repeat split; auto. intros [E|[]]; discriminate. }
  assert (K : fil s 2 = direct (log s) f_empty 2); [|congruence].
  apply (H _ _ Hs Hu); auto. intros l Hl. destruct l; try discriminate; cbn.
  - unfold work. now rewrite Hw.
  - now rewrite Hw.
Qed.

(** Non-vacuity: a write in the middle of a queued page is merged into it, a partial write of the
    underlying stream is resumed, the buffer wraps around, a sync returns and a reconfiguration
    moves on to a new buffer. *)
Definition run45 : list (lab Z) :=
    [LWrite [1]; LWrite [2]; LWork; LOut 1; LWrite [3; 4; 5]; LWork; LWork; LOut 1; LWork;
     LWrite [4; 5]; LSeek 0 SBegin; LWrite [9]; LReconf [0; 0; 0] 1 false; LWrite [8; 8]; LSync;
     LWork; LOut 1; LWork; LWork; LOut 2; LWork; LWork; LWork; LOut 1; LWork; LWork; LOut 1; LWork; LWork; LSyncRet;
     LDestroy; LWork].
Example C45_run :
  exists s, steps (@step Z) (init f_empty 10 10 st4 3 false) run45 s /\
  wp s = WDone /\ ~ In EThrow (log s) /\
  log s = [EWrite 10 [1] 1; EWrite 11 [2] 1; EWrite 12 [3; 4; 5] 1; EWrite 13 [4; 5] 2; EWrite 0 [9] 0; EWrite 0 [8; 8] 2; ESynced 1] /\
  map (fil s) [0; 1; 2; 10; 11; 12; 13; 14; 15] =
    [Some 8; Some 8; None; Some 1; Some 2; Some 3; Some 4; Some 5; None].
Proof.
  apply exec_obs. vm_compute. repeat split; auto. intros H. repeat (destruct H as [H|H]; [discriminate|]). exact H.
Qed.

Print Assumptions C45_linear.
Print Assumptions C45_drained.
Print Assumptions C45_sync.
Print Assumptions C45_destroyed.
Print Assumptions C45_write_result.
Print Assumptions C45_length.
Print Assumptions C45_seek.
Print Assumptions C45_old_buffers_go.
Print Assumptions C45_no_internal_error.
Print Assumptions C45_bounded.
Print Assumptions C45_progress.
Print Assumptions C45_worker_bound.
Print Assumptions C45_can_finish.
Print Assumptions C45_dead.
Print Assumptions C45_destroy_reports_loss_refuted.
