(** Every step of AsyncByteStream preserves the invariant. *)
From Verif Require Import Base Conc BithreadModel AsyncStreamModel AsyncStreamSpec AsyncStreamProofs AsyncStreamInv.
Set Implicit Arguments.
Local Open Scope Z_scope.

Section S.
Variable A : Type.
Implicit Types (s : as_ A).

(** an event that is not a write of anything *)
Lemma emit_Inv f0 l0 s e : Inv f0 l0 s -> e <> EInternal ->
  (forall p d n, e = EWrite p d n -> n = 0) -> Inv f0 l0 (emit s e).
Proof.
  intros HI He Hn.
  assert (Hd : feq (direct (log s ++ [e]) f0) (direct (log s) f0)).
  { rewrite direct_app. cbn [direct fold_left]. destruct e; try (intros i; reflexivity).
    rewrite (Hn _ _ _ eq_refl). apply fwrite_nil. }
  split; try apply HI.
  - cbn [emit log mem fil]. eapply feq_trans; [apply HI|]. apply feq_sym, Hd.
  - cbn [emit log]. intros Hi. apply in_app_or in Hi as [Hi|[Hi|[]]]; [exact (I_log HI Hi)|congruence].
  - cbn [emit log len]. rewrite direct_len_app, <- (I_len HI). cbn. destruct e; auto. now rewrite (Hn _ _ _ eq_refl).
Qed.

Lemma write_Inv f0 l0 s (d : list A) : Inv f0 l0 s -> up s = UIdle ->
  Inv f0 l0 (write s d) /\
  (if wexc s then log (write s d) = log s ++ [EThrow] /\ pos (write s d) = pos s
   else exists n, log (write s d) = log s ++ [EWrite (pos s) d n] /\ 0 <= n <= zlen d /\ pos (write s d) = pos s + n /\
        (n = 0 <-> d = [] \/ exists k r, bufs s = k :: r /\ free_size (mem s k) = 0)).
Proof.
  intros HI Hup. unfold write. destruct (wexc s) eqn:Hexc.
  { split; [apply emit_Inv; auto; congruence|cbn; auto]. }
  destruct (Z.eqb_spec (zlen d) 0) as [Ed|Ed].
  { split; [apply emit_Inv; auto; congruence|]. exists 0. cbn [emit log pos]. apply zlen_zero in Ed. subst. split; auto. split; [unfold zlen; cbn; lia|]. split; [lia|]. tauto. }
  assert (Hd : d <> []) by (intros ->; now rewrite zlen_nil in Ed).
  destruct (I_ord HI) as (k & Hk). destruct (bufs_split _ Hk) as (r & Eb). rewrite Eb.
  destruct (Z.eqb_spec (free_size (mem s k)) 0) as [Ef|Ef].
  { split; [apply emit_Inv; auto; congruence|]. exists 0. cbn. split; auto. split; [pose proof (zlen_nonneg d); lia|]. split; [lia|]. split; auto.
    intros _. right. eauto. }
  assert (Hpos : forall n, 0 < n -> n = 0 <-> d = [] \/ exists k0 r0, k :: r = k0 :: r0 /\ free_size (mem s k0) = 0).
  { intros n Hn. split; [lia|]. intros [?|(k0 & r0 & E & E')]; [contradiction|]. injection E as <- <-. contradiction. }
  assert (Hin : In k (bufs s)) by (rewrite Eb; cbn; auto).
  pose proof (I_wf HI) as Hwf. rewrite pending_eq in Hwf.
  destruct (target (pos s) (sq s)) as [[[qa x] qb]|] eqn:Et.
  - (* merged *)
    unfold target in Et. destruct (split_last _ _) as [[[a' x0] b']|] eqn:El; [|discriminate].
    destruct (Z.ltb_spec 0 (wfree x0)) as [Hfr|]; [|discriminate]. destruct (existsb _ _) eqn:Eex; [discriminate|].
    injection Et as -> -> ->. apply split_last_spec in El as (Eq & Hend). apply Z.eqb_eq in Hend.
    destruct x as [a id off z u| | |]; cbn in Hfr; try lia. cbn in Hend.
    change (match push_data (mem s) (OWrite a id off z u) d with
            | (m', x', n) => emit (set_pos (set_q s m' (qa ++ x' :: qb)) (pos s + n) (Z.max (pos s + n) (len s))) (EWrite (pos s) d n)
            end) with (wfin s (mem s) qa (OWrite a id off z u) qb d).
    assert (EP : pending s = infl s ++ qa ++ OWrite a id off z u :: qb) by (rewrite pending_eq, Eq; reflexivity).
    rewrite Eq in Hwf. apply Forall_app in Hwf as (Hw1 & Hw2). apply Forall_app in Hw2 as (Hw2 & Hw3). inversion Hw3 as [|? ? Hx Hw4]; subst.
    cbn [wfop] in Hx.
    destruct (@wfin_Inv A f0 l0 s (mem s) qa a id off z u qb d) as (H1 & n & H2 & H3 & H4); auto; try lia.
    + intros i Hi. rewrite <- EP. apply (I_tile HI), Hi.
    + rewrite in_rev. eapply resid_in; [exact Hk|]. rewrite EP. apply in_or_app. right. apply in_or_app. cbn; auto.
    + exists k. now rewrite <- EP.
    + apply Forall_app; auto.
    + rewrite <- EP. apply (I_data HI).
    + intros j Hi. rewrite Eq. apply in_app_or in Hi as [Hi|Hi]; apply in_or_app; cbn; auto.
    + intros Hi. rewrite Eq. apply in_app_or in Hi as [Hi|Hi]; apply in_or_app; cbn; auto.
    + split; auto. exists n. split; auto. split; [lia|]. split; auto. apply Hpos. lia.
  - (* a new operation *)
    pose proof (I_tile HI k Hin) as HTk. destruct (write_view_tile HTk) as (v & Ev & V1 & V2 & V3 & V4). rewrite Ev.
    specialize (V4 Ef). set (wsz := Z.min (snd v) (Z.max (prea s) (zlen d))).
    pose proof (I_prea HI) as Hprea. assert (0 < wsz <= snd v) as Hwsz by (subst wsz; lia).
    destruct (push_ok HTk Ev (n := wsz)) as (b' & Epb); [lia|]. rewrite Epb.
    destruct (tile_push HTk Ev Hwsz Epb) as (HT' & Est).
    change (match push_data (fupd (mem s) k b') (OWrite (pos s) k (fst v) wsz 0) d with
            | (m', x', n) => emit (set_pos (set_q s m' (sq s ++ [x'])) (pos s + n) (Z.max (pos s + n) (len s))) (EWrite (pos s) d n)
            end) with (wfin s (fupd (mem s) k b') (sq s) (OWrite (pos s) k (fst v) wsz 0) [] d).
    assert (Hod : forall o, odata (fupd (mem s) k b') o = odata (mem s) o).
    { intros o. destruct o; cbn; auto. destruct (Nat.eq_dec id k) as [->|]; [rewrite fupd_same, Est|rewrite fupd_other by auto]; auto. }
    assert (EP : infl s ++ sq s ++ [OWrite (pos s) k (fst v) wsz 0] = pending s ++ [OWrite (pos s) k (fst v) wsz 0])
      by (rewrite pending_eq, <- app_assoc; reflexivity).
    destruct (@wfin_Inv A f0 l0 s (fupd (mem s) k b') (sq s) (pos s) k (fst v) wsz 0 [] d) as (H1 & n & H2 & H3 & H4); auto; try lia.
    + intros i Hi. rewrite EP, regs_app. cbn [regs flat_map]. destruct (Nat.eqb_spec k i) as [<-|Hne].
      * rewrite fupd_same. exact HT'.
      * rewrite fupd_other by auto. rewrite !app_nil_r. apply (I_tile HI), Hi.
    + exists k. rewrite EP, resid_app, Hk. cbn. now rewrite Nat.eqb_refl.
    + rewrite EP, replay_app. rewrite (@replay_ext A (mem s) (fupd (mem s) k b') (pending s)) by auto. cbn [replay fold_left]. cbn [odata]. rewrite slice_nil_size.
      eapply feq_trans; [apply fwrite_nil|]. apply (I_data HI).
    + rewrite app_nil_r. auto.
    + rewrite app_nil_r. auto.
    + split; auto. exists n. split; auto. split; [lia|]. split; auto. apply Hpos. lia.
Qed.

Ltac idrop := cbn [set_q set_pos set_wp set_up set_fil set_exc set_done set_next set_bufs emit mem bufs nid sq pos len wexc snext sdone prea nbs fil wp up log] in *.

Lemma seek_Inv f0 l0 s o m : Inv f0 l0 s -> Inv f0 l0 (seek s o m).
Proof.
  intros HI. unfold seek. destruct (wexc s); [apply emit_Inv; auto; congruence|].
  destruct (_ =? _); auto. destruct (_ <? _); [apply emit_Inv; auto; congruence|].
  destruct HI. split; auto.
Qed.

(** queueing an operation that is not a write *)
Lemma enq_pend s m o : pending (set_q s m (sq s ++ [o])) = pending s ++ [o].
Proof. rewrite !pending_eq. cbn. rewrite app_assoc. reflexivity. Qed.

Lemma sync_Inv f0 l0 s : Inv f0 l0 s -> up s = UIdle -> Inv f0 l0 (sync s).
Proof.
  intros HI Hup. unfold sync. destruct (wexc s) eqn:Hexc; [apply emit_Inv; auto; congruence|].
  set (s1 := set_next _ _).
  assert (Hp : pending s1 = pending s ++ [OSync (snext s)]) by (apply enq_pend).
  assert (HH : forall u, u = UIdle \/ u = USync (snext s) -> Inv f0 l0 (set_up s1 u)).
  { intros u Hu. destruct (I_syn HI) as (S1 & S2). pose proof (I_stop HI) as K. rewrite Hup in K. destruct K as (K1 & K2).
    assert (Hpu : pending (set_up s1 u) = pending s ++ [OSync (snext s)]) by exact Hp.
    split; rewrite ?Hpu; try apply HI.
    - apply Forall_app. split; [apply HI|]. constructor; cbn; auto.
    - intros id Hi. rewrite regs_app. cbn. rewrite app_nil_r. apply (I_tile HI), Hi.
    - destruct (I_ord HI) as (k & Hk). exists k. rewrite resid_app. subst s1; idrop. rewrite Hk. reflexivity.
    - rewrite replay_app. subst s1; idrop. cbn [replay fold_left odata]. eapply feq_trans; [apply fwrite_nil|]. apply (I_data HI).
    - subst s1; idrop. split; [lia|]. intros j Hi. apply in_app_or in Hi as [Hi|[Hi|[]]]; [apply S2 in Hi; lia|]. injection Hi as <-. lia.
    - subst s1; idrop. destruct Hu as [-> | ->]; [exact I|]. left. split; auto. exists (sq s). split; auto.
    - subst s1; idrop. assert (no_stop (sq s ++ [OSync (snext s)])).
      { intros Hi. apply in_app_or in Hi as [Hi|[Hi|[]]]; [auto|discriminate]. }
      destruct Hu as [-> | ->]; auto. }
  destruct (nbs s) eqn:En.
  - replace s1 with (set_up s1 UIdle); [apply HH; auto|]. subst s1. unfold set_next, set_q, set_up; cbn. rewrite Hup, ?En. reflexivity.
  - apply HH; auto.
Qed.

Lemma destroy_Inv f0 l0 s : Inv f0 l0 s -> up s = UIdle ->
  Inv f0 l0 (set_up (set_q s (mem s) (sq s ++ [OStop])) UGone).
Proof.
  intros HI Hup. set (s1 := set_up _ _).
  assert (Hp : pending s1 = pending s ++ [OStop]) by (apply enq_pend).
  pose proof (I_stop HI) as K. rewrite Hup in K. destruct K as (K1 & K2). destruct (I_syn HI) as (S1 & S2).
  split; rewrite ?Hp; try apply HI.
  - apply Forall_app. split; [apply HI|]. constructor; cbn; auto.
  - intros id Hi. rewrite regs_app. cbn. rewrite app_nil_r. apply (I_tile HI), Hi.
  - destruct (I_ord HI) as (k & Hk). exists k. rewrite resid_app. subst s1; idrop. rewrite Hk. reflexivity.
  - rewrite replay_app. subst s1; idrop. cbn [replay fold_left odata]. eapply feq_trans; [apply fwrite_nil|]. apply (I_data HI).
  - subst s1; idrop. split; auto. intros j Hi. apply in_app_or in Hi as [Hi|[Hi|[]]]; [auto|discriminate].
  - exact I.
  - subst s1; idrop. left. exists (sq s). auto.
Qed.

Lemma reconf_Inv f0 l0 s storage p nb : Inv f0 l0 s -> up s = UIdle -> 0 < zlen storage -> 0 < p ->
  Inv f0 l0 (reconf s storage p nb).
Proof.
  intros HI Hup Hs Hpp. unfold reconf. destruct (wexc s) eqn:Hexc; [apply emit_Inv; auto; congruence|].
  destruct (I_ord HI) as (k & Hk). destruct (bufs_split _ Hk) as (r & Eb). rewrite Eb. set (s1 := mkAs _ _ _ _ _ _ _ _ _ _ _ _ _ _ _).
  assert (Hp : pending s1 = pending s ++ [OPop]) by (subst s1; rewrite !pending_eq; cbn; unfold infl; cbn; rewrite app_assoc; reflexivity).
  pose proof (I_stop HI) as K. rewrite Hup in K. destruct K as (K1 & K2). destruct (I_syn HI) as (S1 & S2).
  pose proof (I_nd HI) as Hnd. rewrite Eb in Hnd. rewrite Forall_forall in Hnd.
  assert (Hids : forall a id off z u, In (OWrite a id off z u) (pending s) -> (id < nid s)%nat).
  { intros a id off z u Hi. apply Hnd. rewrite <- Eb, in_rev. eapply resid_in; eauto. }
  assert (Hod : forall o, In o (pending s) -> odata (mem s1) o = odata (mem s) o).
  { intros o Hi. destruct o; cbn; auto. rewrite fupd_other; auto. apply Hids in Hi. lia. }
  split; rewrite ?Hp; try (subst s1; idrop).
  - apply Forall_app. split; [apply HI|]. constructor; cbn; auto.
  - intros id Hi. rewrite regs_app. cbn [regs flat_map]. rewrite app_nil_r. destruct (Nat.eq_dec id (nid s)) as [->|Hne].
    + rewrite fupd_same. replace (regs (nid s) (pending s)) with (@nil (Z * Z)); [now apply tile_init|].
      destruct (regs (nid s) (pending s)) as [|[o z] R] eqn:E; auto. exfalso.
      assert (In (o, z) (regs (nid s) (pending s))) as Hin by (rewrite E; cbn; auto). apply in_regs in Hin as (a & u & Hin).
      apply Hids in Hin. lia.
    + rewrite fupd_other by auto. destruct Hi as [Hi|Hi]; [congruence|]. apply (I_tile HI). now rewrite Eb.
  - exists (nid s). cbn [rev]. rewrite resid_app. rewrite <- Eb in *. cbn [rev] in *.
    change (rev (k :: r)) with (rev r ++ [k]) in *. rewrite Eb in Hk.
    rewrite (@resid_more (pending s) (rev r ++ [k]) [k] [nid s] Hk) by congruence. reflexivity.
  - apply Forall_forall. intros x [<-|Hx]; [lia|]. specialize (Hnd _ Hx). lia.
  - rewrite replay_app. rewrite (@replay_ext A (mem s) (fupd (mem s) (nid s) (bcb_init storage)) (pending s)) by auto. cbn [replay fold_left odata]. eapply feq_trans; [apply fwrite_nil|]. apply (I_data HI).
  - pose proof (I_wp HI) as Hw. destruct (wp s) eqn:Ew; auto. rewrite Hod; auto. rewrite pending_eq; unfold infl; rewrite Ew; cbn; auto.
  - discriminate.
  - intros o Ho. apply (I_dead HI) in Ho. congruence.
  - apply HI.
  - apply HI.
  - exact Hpp.
  - split; auto. intros j Hi. apply in_app_or in Hi as [Hi|[Hi|[]]]; [auto|discriminate].
  - rewrite Hup; exact I.
  - rewrite Hup. split; auto. intros Hi. apply in_app_or in Hi as [Hi|[Hi|[]]]; [auto|discriminate].
Qed.

(** ** The worker *)
Lemma work_Inv f0 l0 s s' : Inv f0 l0 s -> work s = Some s' -> Inv f0 l0 s'.
Proof.
  intros HI H. pose proof (I_wf HI) as Hwf. pose proof (I_data HI) as Hdat. destruct (I_ord HI) as (k & Hk).
  pose proof (I_tile HI) as HT. pose proof (I_stop HI) as Hst. pose proof (I_up HI) as Hup. destruct (I_syn HI) as (S1 & S2).
  pose proof (I_wp HI) as Hwp.
  rewrite pending_eq in *. unfold work in H. destruct (wp s) eqn:Ew; try discriminate.
  - (* WIdle *)
    unfold infl in *. rewrite Ew in *. cbn [app] in *. destruct (sq s) as [|o q] eqn:Eq; [discriminate|].
    inversion Hwf as [|? ? Hw Hwf']; subst.
    destruct o as [a id off z u| |i|].
    + cbn [resid] in Hk. destruct (rev (bufs s)) as [|b B] eqn:Er; [discriminate|].
      destruct (Nat.eqb_spec id b) as [->|]; [|discriminate].
      assert (In b (bufs s)) as Hb by (rewrite in_rev, Er; cbn; auto).
      pose proof (HT _ Hb) as HTb. cbn [regs flat_map] in HTb. rewrite Nat.eqb_refl in HTb. cbn [app] in HTb.
      destruct (read_view_tile HTb) as (n & Ev). rewrite Ev in H. pose proof (tile_head HTb) as Eo.
      cbn [fst] in H. rewrite (proj2 (Z.eqb_eq off (ro (mem s b))) Eo) in H. cbn [andb] in H.
      injection H as <-.
      assert (Hpend : pending (set_wp s q (WWrite (OWrite a b off z u))) = OWrite a b off z u :: q) by reflexivity.
      split; rewrite ?Hpend; idrop; try apply HI; auto.
      * exists k. rewrite Er. cbn. rewrite Nat.eqb_refl. exact Hk.
      * intros He. destruct (I_exc HI He) as (o & Ho). congruence.
      * intros; discriminate.
      * split; auto. intros j Hj. apply S2. cbn; auto.
      * destruct (up s) as [|i|]; auto. left. destruct Hup as [(U1 & q' & U2 & U3)|(U1 & _)]; [|discriminate].
        split; auto. destruct q' as [|x q']; cbn in U2; [discriminate|]. injection U2 as <- ->. exists q'. split; auto.
        intros j Hj. apply U3. cbn; auto.
      * destruct (up s); try (destruct Hst as (K1 & K2); split; [intros Hi; apply K1; cbn; auto|congruence]).
        left. destruct Hst as [(q' & U2 & U3 & _)|(U1 & _)]; [|discriminate].
        destruct q' as [|x q']; cbn in U2; [discriminate|]. injection U2 as <- ->. exists q'. split; auto.
        split; [|congruence]. intros Hi. apply U3. cbn; auto.
    + (* Stop *)
      injection H as <-.
      assert (Hpend : pending (set_wp s q WDone) = q) by reflexivity.
      assert (Hg : up s = UGone /\ q = []).
      { destruct (up s); try (exfalso; destruct Hst as (K1 & _); apply K1; cbn; auto; fail).
        destruct Hst as [(q' & U2 & U3 & _)|(U1 & _)]; [|discriminate]. split; auto.
        destruct q' as [|x q']; cbn in U2; [injection U2 as <-; auto|]. injection U2 as <- ->. exfalso. apply U3; cbn; auto. }
      destruct Hg as (Hg & Hq).
      split; rewrite ?Hpend; idrop; try apply HI; auto.
      * exists k. exact Hk.
      * intros i. rewrite <- Hdat. cbn [replay fold_left odata]. apply replay_feq. apply feq_sym, fwrite_nil.
      * intros He. destruct (I_exc HI He) as (o & Ho). congruence.
      * intros; discriminate.
      * split; auto. intros j Hj. apply S2. cbn; auto.
      * rewrite Hg; exact I.
      * rewrite Hg. auto.
    + (* Sync *)
      injection H as <-.
      assert (Hpend : pending (set_done (set_wp s q WIdle) i) = q) by reflexivity.
      assert (Hi : i < snext s) by (apply S2; cbn; auto).
      split; rewrite ?Hpend; idrop; try apply HI; auto.
      * exists k. exact Hk.
      * intros j. rewrite <- Hdat. cbn [replay fold_left odata]. apply replay_feq. apply feq_sym, fwrite_nil.
      * intros He. destruct (I_exc HI He) as (o & Ho). congruence.
      * intros; discriminate.
      * split; auto. intros j Hj. apply S2. cbn; auto.
      * destruct (up s) as [|i'|]; auto. destruct Hup as [(U1 & q' & U2 & U3)|(U1 & _)]; [|discriminate].
        destruct q' as [|x q']; cbn in U2; injection U2.
        -- intros -> _. right. auto.
        -- intros -> <-. left. split; [apply U3; cbn; auto|]. exists q'. split; auto. intros j Hj. apply U3. cbn; auto.
      * destruct (up s); try (destruct Hst as (K1 & K2); split; [intros Hi'; apply K1; cbn; auto|congruence]).
        left. destruct Hst as [(q' & U2 & U3 & _)|(U1 & _)]; [|discriminate].
        destruct q' as [|x q']; cbn in U2; [discriminate|]. injection U2 as <- ->. exists q'. split; auto.
        split; [|congruence]. intros Hi'. apply U3. cbn; auto.
    + (* PopBuffer *)
      injection H as <-.
      assert (Hpend : pending (set_bufs (set_wp s q WIdle) (removelast (bufs s))) = q) by reflexivity.
      cbn [resid] in Hk.
      assert (Hrl : rev (removelast (bufs s)) = tl (rev (bufs s))).
      { destruct (bufs s) as [|x l] using rev_ind; auto. rewrite removelast_last, rev_app_distr. reflexivity. }
      assert (Hsub : forall i, In i (removelast (bufs s)) -> In i (bufs s)).
      { intros i Hi. rewrite in_rev in *. rewrite Hrl in Hi. destruct (rev (bufs s)); cbn in *; auto. }
      split; rewrite ?Hpend; idrop; try apply HI; auto.
      * intros id Hi. apply HT. auto.
      * exists k. now rewrite Hrl.
      * pose proof (I_nd HI) as Hnd. rewrite Forall_forall in *. auto.
      * intros j. rewrite <- Hdat. cbn [replay fold_left odata]. apply replay_feq. apply feq_sym, fwrite_nil.
      * intros He. destruct (I_exc HI He) as (o & Ho). congruence.
      * intros; discriminate.
      * split; auto. intros j Hj. apply S2. cbn; auto.
      * destruct (up s) as [|i'|]; auto. destruct Hup as [(U1 & q' & U2 & U3)|(U1 & _)]; [|discriminate].
        destruct q' as [|x q']; cbn in U2; [discriminate|]. injection U2 as <- ->. left. split; auto.
        exists q'. split; auto. intros j Hj. apply U3. cbn; auto.
      * destruct (up s); try (destruct Hst as (K1 & K2); split; [intros Hi'; apply K1; cbn; auto|congruence]).
        left. destruct Hst as [(q' & U2 & U3 & _)|(U1 & _)]; [|discriminate].
        destruct q' as [|x q']; cbn in U2; [discriminate|]. injection U2 as <- ->. exists q'. split; auto.
        split; [|congruence]. intros Hi'. apply U3. cbn; auto.
  - (* WWrote *)
    destruct Hwp as (W1 & W2 & W3). destruct o as [a id off z u| |i|]; try discriminate. cbn [used wstart odata] in *.
    unfold infl in *. rewrite Ew in *. cbn [app] in *. cbn [resid] in Hk.
    destruct (rev (bufs s)) as [|b B] eqn:Er; [discriminate|]. destruct (Nat.eqb_spec id b) as [->|]; [|discriminate].
    assert (In b (bufs s)) as Hb by (rewrite in_rev, Er; cbn; auto).
    pose proof (HT _ Hb) as HTb. cbn [regs flat_map] in HTb. rewrite Nat.eqb_refl in HTb. cbn [app] in HTb. fold (regs b (sq s)) in HTb.
    inversion Hwf as [|? ? Hw Hwf']; subst. cbn [wfop] in Hw.
    assert (Hwexc : wexc s = true -> False) by (intros He; destruct (I_exc HI He) as (o & Ho); congruence).
    destruct (Z.eqb_spec n u) as [->|Hnu].
    + replace (u + (z - u)) with z in H by lia. destruct (tile_pop_all HTb) as (b' & Ep & Ht' & Est). rewrite Ep in H. injection H as <-.
      set (s1 := set_wp _ _ _).
      assert (Hod : forall o, odata (fupd (mem s) b b') o = odata (mem s) o).
      { intros o. destruct o; cbn; auto. destruct (Nat.eq_dec id b) as [->|]; [rewrite fupd_same, Est|rewrite fupd_other by auto]; auto. }
      assert (Hpend : pending s1 = sq s) by reflexivity. 
      split; rewrite ?Hpend; try (subst s1; idrop); try apply HI; auto.
      * intros id Hi. destruct (Nat.eq_dec id b) as [->|Hne]; [rewrite fupd_same; auto|rewrite fupd_other by auto].
        specialize (HT _ Hi). cbn [regs flat_map] in HT. destruct (Nat.eqb_spec b id); [congruence|]. exact HT.
      * exists k. now rewrite Er.
      * rewrite (@replay_ext A (mem s)) by auto. intros j. rewrite <- Hdat. cbn [replay fold_left odata wstart].
        apply replay_feq. apply feq_sym. rewrite firstn_all2 in W3; [exact W3|]. unfold slice. rewrite firstn_length. lia.
      * intros He. now apply Hwexc in He.
      * intros; discriminate.
      * destruct (up s) as [|i'|]; auto. destruct Hup as [Hup|(_ & ?)]; [auto|discriminate].
      * destruct (up s); try (destruct Hst as (K1 & K2); split; [auto|congruence]).
        destruct Hst as [(q' & U2 & U3 & _)|(U1 & _)]; [|discriminate]. left. exists q'. split; auto. split; auto. congruence.
    + destruct (@tile_pop_part A (mem s b) off z (regs b (sq s)) n HTb) as (b' & Ep & Ht' & Est); [lia|]. rewrite Ep in H. injection H as <-.
      set (s1 := set_wp _ _ _).
      assert (Hod : forall o, odata (fupd (mem s) b b') o = odata (mem s) o).
      { intros o. destruct o; cbn; auto. destruct (Nat.eq_dec id b) as [->|]; [rewrite fupd_same, Est|rewrite fupd_other by auto]; auto. }
      assert (Hpend : pending s1 = OWrite (a + n) b (off + n) (z - n) (u - n) :: sq s) by reflexivity.
      destruct (@tile_disj A (mem s b) [] off z (regs b (sq s)) HTb) as (B1 & B2 & B3 & _).
      split; rewrite ?Hpend; try (subst s1; idrop); try apply HI; auto.
      * constructor; auto. cbn. lia.
      * intros id Hi. cbn [regs flat_map]. destruct (Nat.eqb_spec b id) as [->|Hne]; [rewrite fupd_same; auto|rewrite fupd_other by auto].
        specialize (HT _ Hi). cbn [regs flat_map] in HT. destruct (Nat.eqb_spec b id); [congruence|]. exact HT.
      * exists k. rewrite Er. cbn. rewrite Nat.eqb_refl. exact Hk.
      * rewrite (@replay_ext A (mem s)) by auto. intros j. rewrite <- Hdat. cbn [replay fold_left odata wstart].
        apply replay_feq. destruct (@split_at A off (st (mem s b))) as (l1 & r1 & E1 & L1); [unfold total_size in *; lia|].
        assert (zlen r1 = total_size (mem s b) - off) as Lr by (unfold total_size; rewrite E1, zlen_app; lia).
        destruct (@split_at A n r1) as (l2 & r2 & E2 & L2); [lia|]. 
        assert (zlen r2 = total_size (mem s b) - off - n) as Lr2 by (rewrite E2, zlen_app in Lr; lia).
        destruct (@split_at A (u - n) r2) as (l3 & r3 & E3 & L3); [lia|]. subst r1 r2.
        assert (Es1 : slice off u (st (mem s b)) = l2 ++ l3).
        { rewrite E1. rewrite (app_assoc l2 l3 r3). apply slice_app_mid; [lia|rewrite zlen_app; lia]. }
        assert (Es2 : slice (off + n) (u - n) (st (mem s b)) = l3).
        { rewrite E1. rewrite (app_assoc l1 l2). apply slice_app_mid; [rewrite zlen_app; lia|lia]. }
        rewrite Es1 in *. rewrite Es2.
        assert (Ef : firstn (Z.to_nat n) (l2 ++ l3) = l2).
        { rewrite firstn_app. replace (Z.to_nat n - length l2)%nat with 0%nat by (unfold zlen in *; lia). rewrite firstn_O, app_nil_r.
          apply firstn_all2. unfold zlen in *; lia. }
        rewrite Ef in W3. replace (a + n) with (a + zlen l2) by lia.
        eapply feq_trans; [|apply fwrite_app]. apply fwrite_feq. apply feq_sym. exact W3.
      * intros He. now apply Hwexc in He.
      * intros; discriminate.
      * split; auto. intros j [Hj|Hj]; [discriminate|auto].
      * destruct (up s) as [|i'|]; auto. destruct Hup as [(U1 & q' & U2 & U3)|(_ & ?)]; [|discriminate]. left. split; auto.
        exists (OWrite (a + n) b (off + n) (z - n) (u - n) :: q'). rewrite U2. split; auto. intros j [Hj|Hj]; [discriminate|auto].
      * destruct (up s); try (destruct Hst as (K1 & K2); split; [intros [Hj|Hj]; [discriminate|auto]|congruence]).
        destruct Hst as [(q' & U2 & U3 & _)|(U1 & _)]; [|discriminate]. left.
        exists (OWrite (a + n) b (off + n) (z - n) (u - n) :: q'). rewrite U2. split; auto. split; [|congruence]. intros [Hj|Hj]; [discriminate|auto].
Qed.

Lemma out_Inv f0 l0 s o n w x : Inv f0 l0 s -> wp s = WWrite o -> 0 <= n <= zlen (odata (mem s) o) ->
  (w = WWrote o n /\ x = wexc s) \/ (w = WDead o /\ x = true) ->
  forall s', s' = mkAs (mem s) (bufs s) (nid s) (sq s) (pos s) (len s) x (snext s) (sdone s) (prea s) (nbs s)
                 (fwrite (wstart o) (firstn (Z.to_nat n) (odata (mem s) o)) (fil s)) w (up s) (log s) ->
  Inv f0 l0 s'.
Proof.
  intros HI Ew Hn Hw s' ->. set (s1 := mkAs _ _ _ _ _ _ _ _ _ _ _ _ _ _ _).
  assert (Hpend : pending s1 = pending s).
  { rewrite !pending_eq. unfold infl. rewrite Ew. subst s1. cbn. destruct Hw as [(-> & _)|(-> & _)]; reflexivity. }
  assert (Hps : pending s = o :: sq s) by (rewrite pending_eq; unfold infl; rewrite Ew; reflexivity).
  pose proof (I_wp HI) as Hwp. rewrite Ew in Hwp.
  pose proof (I_stop HI) as Hst. pose proof (I_up HI) as Hup.
  split; rewrite ?Hpend; try (subst s1; idrop); try apply HI.
  - intros i. rewrite <- (I_data HI). rewrite Hps. cbn [replay fold_left]. apply replay_feq.
    rewrite <- (firstn_skipn (Z.to_nat n) (odata (mem s) o)) at 1. eapply feq_trans; [apply fwrite_idem|]. rewrite firstn_skipn. intros j; reflexivity.
  - destruct Hw as [(-> & _)|(-> & _)]; auto. split; auto. split.
    + assert (zlen (odata (mem s) o) <= used o); [|lia]. pose proof (I_wf HI) as Hwf. rewrite Hps in Hwf. inversion Hwf as [|? ? H1 H2]; subst.
      destruct o; cbn in *; try lia. unfold slice, zlen. rewrite firstn_length. lia.
    + intros i. unfold fwrite. destruct (_ && _); auto.
  - intros He. destruct Hw as [(-> & ->)|(-> & ->)]; [|eauto]. destruct (I_exc HI He) as (o' & Ho). congruence.
  - intros o' He. destruct Hw as [(-> & _)|(_ & ->)]; [discriminate|reflexivity].
  - destruct (up s); auto. destruct Hup as [Hup|(_ & Hup)]; [auto|congruence].
  - destruct (up s).
    + destruct Hst. split; auto. destruct Hw as [(-> & _)|(-> & _)]; congruence.
    + destruct Hst. split; auto. destruct Hw as [(-> & _)|(-> & _)]; congruence.
    + destruct Hst as [(q & H1 & H2 & H3)|(H1 & _)]; [|congruence]. left. exists q. split; auto. split; auto.
      destruct Hw as [(-> & _)|(-> & _)]; congruence.
Qed.

Theorem step_Inv f0 l0 s l s' : Inv f0 l0 s -> step s l = Some s' -> Inv f0 l0 s'.
Proof.
  intros HI H. destruct l; cbn [step] in H.
  - destruct (up s) eqn:E; try discriminate. injection H as <-. now apply write_Inv.
  - destruct (up s) eqn:E; try discriminate. injection H as <-. now apply seek_Inv.
  - destruct (up s) eqn:E; try discriminate. injection H as <-. now apply sync_Inv.
  - destruct (up s) eqn:E; try discriminate. destruct ((0 <? p) && (0 <? zlen storage)) eqn:C; [|discriminate]. injection H as <-.
    apply reconf_Inv; auto; lia.
  - destruct (up s) eqn:E; try discriminate. injection H as <-. now apply destroy_Inv.
  - destruct (up s) as [|i|] eqn:E; try discriminate.
    assert (HI' : Inv f0 l0 (set_up s UIdle)).
    { pose proof (I_stop HI) as K. rewrite E in K. destruct HI. split; auto; exact I. }
    destruct (wexc s); [injection H as <-; apply emit_Inv; auto; congruence|].
    destruct (0 <=? sdone s - i); [|discriminate]. injection H as <-. apply emit_Inv; auto; congruence.
  - eapply work_Inv; eauto.
  - destruct (wp s) eqn:E; try discriminate. destruct ((0 <=? n) && (n <=? zlen (odata (mem s) o))) eqn:C; [|discriminate]. injection H as <-.
    eapply out_Inv with (n := n); [exact HI|exact E|lia|left; split; reflexivity|reflexivity].
  - destruct (wp s) eqn:E; try discriminate. destruct ((0 <=? n) && (n <=? zlen (odata (mem s) o))) eqn:C; [|discriminate]. injection H as <-.
    eapply out_Inv with (n := n); [exact HI|exact E|lia|right; split; reflexivity|reflexivity].
Qed.

Theorem reach_Inv f0 p l0 storage pre nb ls s : 0 < zlen storage -> 0 < pre ->
  steps (@step A) (init f0 p l0 storage pre nb) ls s -> Inv f0 l0 s.
Proof.
  intros Hs Hp H. eapply (@steps_inv _ _ _ (Inv f0 l0)); [|apply (@init_Inv A f0 p l0 storage pre nb Hs Hp)|exact H]. intros s0 lb s1 HI HS. eapply step_Inv; eauto.
Qed.
End S.
