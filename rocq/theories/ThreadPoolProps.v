(** C43: the thread pool. *)
From Coq Require Import List Arith Bool Lia.
From Verif Require Import Conc ThreadPoolModel ThreadPoolSpec ThreadPoolProofs.
Import ListNotations.
Set Implicit Arguments.

Section P.
  Variable maxT : nat.
  Variable itmo : bool.
  Hypothesis Hmax : maxT <> 0.
  Notation step := (step maxT itmo).
  Notation mloop := (mloop itmo).
  Notation wloop := (wloop itmo).
  Notation K := (K maxT).
  Ltac simp := cbn [mt mpc ws scan waiters can nid lg w_wt w_mt w_mpc w_scan w_waiters w_can w_nid emit sigall] in *.

  (** ** attempts *)
  Lemma can_queue_full s : can_queue maxT s = negb (full maxT s).
  Proof.
    unfold can_queue, full. rewrite !negb_andb, negb_involutive.
    replace (negb (maxT <=? length (ws s) + 1)) with (length (ws s) + 1 <? maxT) by (destruct (Nat.ltb_spec (length (ws s) + 1) maxT), (Nat.leb_spec maxT (length (ws s) + 1)); auto; lia).
    assert (E : existsb can_add (ws s) = negb (forallb (fun o => match o with Some w => negb (is_none (wt w)) | None => false end) (ws s))).
    { induction (ws s) as [|[w|] l IH]; cbn; auto. rewrite IH. destruct (wt w); cbn; auto. }
    rewrite E. destruct (is_none (mt s)), (length (ws s) + 1 <? maxT); auto.
  Qed.
  Lemma full_held s : K s -> full maxT s = true -> length (held s) = maxT.
  Proof.
    intros HK H. unfold full in H. apply andb_prop in H. destruct H as [H F]. apply andb_prop in H. destruct H as [L M]. apply Nat.leb_le in L. pose proof (k_len HK).
    unfold held. destruct (mt s); [|discriminate]. cbn. enough (length (flat_map wh (ws s)) = length (ws s)) by lia.
    clear -F. induction (ws s) as [|[w|] l IH]; cbn in *; auto; try discriminate. apply andb_prop in F. destruct F as [A B]. destruct (wt w); [|discriminate]. cbn. f_equal. auto.
  Qed.
  Lemma held_le s : K s -> length (held s) <= maxT /\ (full maxT s = false -> length (held s) < maxT).
  Proof.
    intros HK. pose proof (k_len HK) as L. assert (A : length (flat_map wh (ws s)) <= length (ws s) /\
      (forallb (fun o => match o with Some w => negb (is_none (wt w)) | None => false end) (ws s) = false -> length (flat_map wh (ws s)) < length (ws s))).
    { clear. induction (ws s) as [|[w|] l IH]; cbn; [split; auto; discriminate| |]; [destruct (wt w); cbn|]; destruct IH as [I1 I2]; split; auto; try lia. intros H. specialize (I2 H). lia. }
    destruct A as [A1 A2]. unfold held, full. rewrite app_length. destruct (mt s); cbn [olist length is_none negb]; split; try lia.
    destruct (Nat.leb_spec maxT (length (ws s) + 1)); cbn; [|lia]. intros X. specialize (A2 X). lia.
  Qed.
  Fixpoint last_try (t : nat) (l : list ev) (o : option bool) : option bool :=
    match l with [] => o | ETry u b :: r => last_try t r (if u =? t then Some b else o) | _ :: r => last_try t r o end.
  Lemma last_try_app t a : forall b o, last_try t (a ++ b) o = last_try t b (last_try t a o).
  Proof. induction a as [|[] a IH]; intros; cbn; auto. Qed.
  Lemma last_try_none t l : forall o b, last_try t l o = Some b -> (o = Some b /\ forall x, ~ In (ETry t x) l) \/ exists a r, l = a ++ ETry t b :: r /\ forall x, ~ In (ETry t x) r.
  Proof.
    induction l as [|e l IH]; intros o b H; [left; cbn in *; auto|].
    assert (G : forall o', last_try t l o' = Some b -> (o' = o /\ (forall x, e <> ETry t x)) \/ (exists y, e = ETry t y /\ o' = Some y) ->
       (o = Some b /\ (forall x, ~ In (ETry t x) (e :: l))) \/ (exists a r, e :: l = a ++ ETry t b :: r /\ (forall x, ~ In (ETry t x) r))).
    { intros o' Ho C. destruct (IH _ _ Ho) as [[E1 E2]|[a [r [E1 E2]]]].
      - destruct C as [[-> C]|[y [-> ->]]].
        + left. split; auto. intros x [X|X]; [eapply C; eauto|eapply E2; eauto].
        + right. injection E1 as ->. exists [], l. auto.
      - right. exists (e :: a), r. cbn. now rewrite E1. }
    destruct e as [u b'|i|i|i|i|i|i]; cbn in H; try (eapply G; [exact H|left; split; auto; discriminate]).
    destruct (Nat.eqb_spec u t) as [->|N]; (eapply G; [exact H|]); [right; eauto|left; split; auto]. congruence.
  Qed.
  (** while a scan is going on: what its attempt recorded, and why a free slot is still ahead *)
  Definition roomy (s : st) (j : nat) : Prop := length (ws s) + 1 < maxT \/ exists k o, j <= k /\ nth_error (ws s) k = Some o /\ can_add o = true.
  Definition F (s : st) : Prop := forall t b j, scan s = Some (t, b, j) -> exists bb, last_try t (lg s) None = Some bb /\ (bb = false -> roomy s j).
  Lemma F_begin s t b : free s = true -> F (begin_try maxT s t b).
  Proof.
    intros Hf. destruct (free_inv _ Hf) as [Hs _]. unfold begin_try. cbn [mt emit]. destruct (mt s) eqn:Em.
    - intros t0 b0 j H. simp. injection H as <- <- <-. exists (full maxT s). rewrite last_try_app. cbn. rewrite Nat.eqb_refl. split; auto.
      intros E. pose proof (can_queue_full s) as Q. rewrite E in Q. unfold can_queue in Q. rewrite Em in Q. cbn [is_none orb negb] in Q.
      apply orb_prop in Q. unfold roomy. simp. destruct Q as [Q|Q]; [left; now apply Nat.ltb_lt|right].
      apply existsb_exists in Q. destruct Q as [o [Q1 Q2]]. apply In_nth_error in Q1. destruct Q1 as [k Q1]. exists k, o. split; [lia|auto].
    - intros t0 b0 j H. simp. congruence.
  Qed.
  Lemma F_noscan s : scan s = None -> F s.
  Proof. intros H t b j E. congruence. Qed.
  Lemma mloop_scan s : scan (mloop s) = scan s.
  Proof. unfold ThreadPoolModel.mloop. destruct (can s), (mt s); reflexivity. Qed.
  Lemma wloop_notry w t o : last_try t (snd (wloop w)) o = o.
  Proof. unfold ThreadPoolModel.wloop. destruct (wcan w), (wt w), (comp w); reflexivity. Qed.
  Lemma F_upd s s' j w w' : F s -> scan s' = scan s -> nth_error (ws s) j = Some (Some w) -> ws s' = upd (ws s) j (Some w') ->
    (forall t o, last_try t (lg s') o = last_try t (lg s) o) -> (wt w = None -> wt w' = None) -> F s'.
  Proof.
    intros HF Es En Ew El Hw t b i H. rewrite Es in H. destruct (HF _ _ _ H) as [bb [A B]]. exists bb. rewrite El. split; auto. intros E. specialize (B E).
    unfold roomy in *. rewrite Ew, upd_length. destruct B as [B|[k [o [B1 [B2 B3]]]]]; auto. right.
    destruct (Nat.eq_dec j k) as [->|N].
    - exists k, (Some w'). split; auto. rewrite (nth_upd_eq _ _ _ En). split; auto. rewrite En in B2. injection B2 as <-. cbn in *. destruct (wt w); [discriminate|]. now rewrite Hw.
    - exists k, o. rewrite nth_upd_neq by auto. auto.
  Qed.
  Lemma F_step s a s' : K s -> F s -> step s a = Some s' -> F s'.
  Proof.
    intros HK HF H. destruct a as [wait| |k|k|to| |j to| |j]; cbn [ThreadPoolModel.step] in H.
    - destruct (free s) eqn:Ef; [|discriminate]. destruct (can s); [discriminate|]. injection H as <-. apply F_begin. auto.
    - destruct (scan s) as [[[t b] j]|] eqn:Es; [|discriminate]. destruct (nth_error (ws s) j) as [[w|]|] eqn:En.
      + destruct (wt w) eqn:Ew; injection H as <-; [|now apply F_noscan].
        intros t0 b0 i H. simp. injection H as <- <- <-. destruct (HF _ _ _ Es) as [bb [A B]]. exists bb. split; auto. intros E. specialize (B E).
        unfold roomy in *. simp. destruct B as [B|[k [o [B1 [B2 B3]]]]]; auto. right. exists k, o. split; auto.
        destruct (Nat.eq_dec k j) as [->|N]; [|lia]. rewrite En in B2. injection B2 as <-. cbn in B3. rewrite Ew in B3. discriminate.
      + injection H as <-. now apply F_noscan.
      + destruct (maxT <=? length (ws s) + 1); [destruct b|]; injection H as <-; now apply F_noscan.
    - destruct (free s) eqn:Ef; [|discriminate]. destruct (nth_error (waiters s) k) as [[t b]|]; [|discriminate]. injection H as <-. apply F_begin. auto.
    - destruct (free s) eqn:Ef; [|discriminate]. destruct (free_inv _ Ef) as [Hs _]. destruct (nth_error (waiters s) k) as [[t b]|]; [|discriminate]. injection H as <-. now apply F_noscan.
    - destruct (free s) eqn:Ef; [|discriminate]. destruct (free_inv _ Ef) as [Hs _]. destruct (mpc s); try discriminate; [| |destruct timed; [destruct to|]]; injection H as <-; apply F_noscan; rewrite ?mloop_scan; auto.
    - assert (Hs : match mpc s with MReap _ => True | MJoin _ => True | _ => False end -> scan s = None) by (destruct (scan s) as [[[t b] j]|] eqn:E; auto; destruct (k_scan HK E) as [A _]; destruct (mpc s); tauto).
      destruct (mpc s) eqn:Em; try discriminate.
      + destruct (nth_error (ws s) j) as [[w|]|]; [destruct (is_idle w)| |]; injection H as <-; apply F_noscan; rewrite ?mloop_scan; simp; auto.
      + destruct (nth_error (ws s) j) as [[w|]|]; try discriminate. destruct (wpc w); try discriminate. injection H as <-; apply F_noscan; simp; auto.
    - destruct (nth_error (ws s) j) as [[w|]|] eqn:En; try discriminate.
      assert (G : forall w' es, (wt w = None -> wt w' = None) -> (forall t o, last_try t es o = o) -> F (emits (emits (w_wt s (upd (ws s) j (Some (fst (wloop w'))))) es) (snd (wloop w')))).
      { intros w' es Hw He. destruct (wloop_same itmo w') as [S1 _]. set (s1 := w_wt s (upd (ws s) j (Some (fst (wloop w'))))).
        destruct (emits_same es s1) as [B1 [B2 [B3 [B4 _]]]]. destruct (emits_same (snd (wloop w')) (emits s1 es)) as [D1 [D2 [D3 [D4 _]]]].
        apply F_upd with (s := s) (j := j) (w := w) (w' := fst (wloop w')); auto.
        - now rewrite D4, B4.
        - now rewrite D3, B3.
        - intros t o. rewrite !emits_lg. unfold s1. simp. rewrite !last_try_app, wloop_notry. apply He.
        - now rewrite S1. }
      destruct (wpc w) as [|t| | |timed sig|] eqn:Ep.
      + injection H as <-. apply (G w []); auto.
      + injection H as <-. match goal with |- context [wloop ?x] => apply (G x [EFinish t]) end; auto.
      + destruct (free s) eqn:Ef; [|discriminate]. injection H as <-. destruct (free_inv _ Ef) as [Hs _]. now apply F_noscan.
      + destruct (wt w) eqn:Ew; injection H as <-; [apply (G w []); auto; congruence|]. apply F_upd with (s := s) (j := j) (w := w) (w' := go_sleep itmo w); auto.
      + injection H as <-. match goal with |- context [wloop ?x] => apply (G x []) end; auto.
      + discriminate.
    - destruct (scan s) eqn:Es; [discriminate|]. destruct (waiters s); [|discriminate]. injection H as <-. now apply F_noscan.
    - destruct (can s) eqn:Ec; [|discriminate]. destruct (match mpc s with MNone | MGone => true | _ => false end); [|discriminate].
      assert (Sc : scan s = None) by (destruct (scan s) as [[[t b] i]|] eqn:E; auto; destruct (k_scan HK E) as [_ [A _]]; congruence).
      destruct (nth_error (ws s) j) as [[w|]|]; try discriminate. injection H as <-. now apply F_noscan.
  Qed.

  (** ** the log *)
  Lemma ok_snoc l e : ok_log maxT l -> ok_event maxT l e -> ok_log maxT (l ++ [e]).
  Proof.
    intros H He l1 e' l2 E. destruct l2 as [|x l2] using rev_ind.
    - apply app_inj_tail in E. destruct E as [<- <-]. auto.
    - rewrite app_comm_cons, app_assoc in E. apply app_inj_tail in E. destruct E as [E _]. eauto.
  Qed.
  (** every ETry was honest *)
  Definition honest (l : list ev) : Prop := forall l1 t b l2, l = l1 ++ ETry t b :: l2 -> b = true -> length (accepted l1) = length (finished l1) + maxT.
  Lemma honest_snoc l e : honest l -> (forall t, e = ETry t true -> length (accepted l) = length (finished l) + maxT) -> honest (l ++ [e]).
  Proof.
    intros H He l1 t b l2 E Eb. subst b. destruct l2 as [|x l2] using rev_ind.
    - apply app_inj_tail in E. destruct E as [<- ->]. eauto.
    - rewrite app_comm_cons, app_assoc in E. apply app_inj_tail in E. destruct E as [E _]. eauto.
  Qed.
  Lemma cnt_in t l : In t l <-> cnt t l > 0.
  Proof. apply count_occ_In. Qed.
  Lemma cnt_nin t l : ~ In t l <-> cnt t l = 0.
  Proof. apply count_occ_not_In. Qed.
  Record G (s : st) : Prop := { g_k : K s; g_c : C s; g_f : F s; g_ok : ok_log maxT (lg s); g_h : honest (lg s) }.
  Lemma c_le1 s t : C s -> cnt t (accepted (lg s)) + cnt t (refused (lg s)) + cnt t (pending s) <= 1.
  Proof. intros HC. rewrite (c_pend HC). destruct (t <? nid s); lia. Qed.
  Lemma ok_refuse s t b j e : G s -> scan s = Some (t, b, j) -> nth_error (ws s) j = None -> maxT <= length (ws s) + 1 -> e = EReject t \/ e = EBlock t -> ok_event maxT (lg s) e.
  Proof.
    intros [HK HC HF Ho Hh] Es En L He. assert (X : ~ In t (accepted (lg s)) /\ last_try_full maxT t (lg s)).
    { split.
      - apply cnt_nin. pose proof (c_le1 t HC) as X. unfold pending in X. rewrite Es in X. cbn [app] in X. rewrite cnt_cons, cnt_one in X. destruct (Nat.eq_dec t t); [lia|congruence].
      - destruct (HF _ _ _ Es) as [bb [A B]]. assert (bb = true).
        { destruct bb; auto. specialize (B eq_refl). unfold roomy in B. destruct B as [B|[k [o [B1 [B2 B3]]]]]; [lia|]. apply nth_error_None in En. assert (k < length (ws s)) by (apply nth_error_Some; congruence). lia. }
        subst bb. destruct (last_try_none _ _ _ A) as [[X _]|[a [r [E1 E2]]]]; [discriminate|]. exists a, r. split; auto. split; auto. eapply Hh; eauto. }
    destruct He as [-> | ->]; exact X.
  Qed.
  Lemma ok_accept s t : K s -> C s -> length (held s) < maxT -> cnt t (pending s) > 0 -> ok_event maxT (lg s) (EAccept t).
  Proof. intros HK HC Hl Hp. pose proof (c_le1 t HC). pose proof (c_len HC). cbn [ok_event]. rewrite !cnt_nin. repeat split; lia. Qed.
  Lemma ok_start s t : C s -> cnt t (held s) > cnt t (running s) -> ok_event maxT (lg s) (EStart t).
  Proof.
    intros HC H. cbn [ok_event]. rewrite cnt_in, cnt_nin. pose proof (c_held HC t). pose proof (c_run HC t). pose proof (c_le1 t HC). lia.
  Qed.
  Lemma ok_finish s t : C s -> cnt t (held s) > 0 -> cnt t (running s) > 0 -> ok_event maxT (lg s) (EFinish t).
  Proof. intros HC H H'. cbn [ok_event]. rewrite cnt_in, cnt_nin. pose proof (c_held HC t). pose proof (c_run HC t). pose proof (c_le1 t HC). lia. Qed.
  Lemma scan_pending s t b j : scan s = Some (t, b, j) -> cnt t (pending s) > 0.
  Proof. intros Es. unfold pending. rewrite Es. cbn [app]. rewrite cnt_cons, cnt_one. destruct (Nat.eq_dec t t); [lia|congruence]. Qed.
  Lemma wh_wr s : K s -> forall t, cnt t (flat_map wr (ws s)) <= cnt t (flat_map wh (ws s)).
  Proof.
    intros HK t. pose proof (k_w HK) as W. clear HK. induction (ws s) as [|o l IH]; [auto|]. cbn [flat_map]. rewrite !cnt_app.
    assert (IHl : cnt t (flat_map wr l) <= cnt t (flat_map wh l)) by (apply IH; intros j w H; apply (W (S j)); auto).
    enough (cnt t (wr o) <= cnt t (wh o)) by lia. destruct o as [w|]; auto. destruct (W 0 w eq_refl) as [_ O]. cbn [wr wh]. destruct (wpc w); rewrite ?cnt_nil; try lia. rewrite O. auto.
  Qed.
  Lemma mr_mt s : K s -> forall t, cnt t (match mpc s with MRun u => [u] | _ => [] end) <= cnt t (olist (mt s)).
  Proof. intros HK t. pose proof (k_m HK) as M. unfold mok in M. destruct (mpc s); rewrite ?cnt_nil; try lia. rewrite M. auto. Qed.
  Lemma held_wt s j w t : nth_error (ws s) j = Some (Some w) -> wt w = Some t -> cnt t (flat_map wh (ws s)) > 0.
  Proof. intros En Ew. apply cnt_in. apply in_flat_map. exists (Some w). split; [eapply nth_error_In; eauto|]. cbn. rewrite Ew. cbn. auto. Qed.
  (** a worker or the main thread not running its task *)
  Lemma start_worker s j w t : K s -> nth_error (ws s) j = Some (Some w) -> wt w = Some t -> (forall u, wpc w <> WRun u) -> cnt t (held s) > cnt t (running s).
  Proof.
    intros HK En Ew Hp. unfold held, running. rewrite !cnt_app. pose proof (mr_mt HK t).
    enough (cnt t (flat_map wr (ws s)) < cnt t (flat_map wh (ws s))) by lia.
    pose proof (k_w HK) as W. clear HK H. revert j En. induction (ws s) as [|o l IH]; intros j En; [destruct j; discriminate|]. cbn [flat_map]. rewrite !cnt_app.
    assert (Wl : forall i x, nth_error l i = Some (Some x) -> wok x) by (intros i x Hx; apply (W (S i)); auto).
    assert (Ho : cnt t (wr o) <= cnt t (wh o)).
    { destruct o as [x|]; auto. destruct (W 0 x eq_refl) as [_ O]. cbn [wr wh]. destruct (wpc x); rewrite ?cnt_nil; try lia. rewrite O. auto. }
    destruct j as [|j].
    - cbn in En. injection En as ->. assert (cnt t (flat_map wr l) <= cnt t (flat_map wh l)).
      { clear -Wl. induction l as [|o l IH]; auto. cbn [flat_map]. rewrite !cnt_app. assert (cnt t (flat_map wr l) <= cnt t (flat_map wh l)) by (apply IH; intros i x Hx; apply (Wl (S i)); auto).
        enough (cnt t (wr o) <= cnt t (wh o)) by lia. destruct o as [w|]; auto. destruct (Wl 0 w eq_refl) as [_ O]. cbn [wr wh]. destruct (wpc w); rewrite ?cnt_nil; try lia. rewrite O. auto. }
      cbn [wr wh]. rewrite Ew. cbn [olist]. rewrite cnt_one. destruct (Nat.eq_dec t t); [|congruence]. destruct (wpc w); rewrite ?cnt_nil; try lia. exfalso. eapply Hp. eauto.
    - specialize (IH Wl _ En). lia.
  Qed.
  Lemma log_begin s t b : G s -> free s = true -> cnt t (accepted (lg s)) = 0 -> cnt t (refused (lg s)) = 0 ->
    forall s0, lg s0 = lg s -> mt s0 = mt s -> ws s0 = ws s -> ok_log maxT (lg (begin_try maxT s0 t b)) /\ honest (lg (begin_try maxT s0 t b)).
  Proof.
    intros [HK HC HF Ho Hh] Hf Ha Hr s0 E1 E2 E3. assert (Ef : full maxT s0 = full maxT s) by (unfold full; now rewrite E2, E3).
    assert (A : ok_log maxT (lg s ++ [ETry t (full maxT s)]) /\ honest (lg s ++ [ETry t (full maxT s)])).
    { split; [apply ok_snoc|apply honest_snoc]; auto.
      - cbn [ok_event]. now apply cnt_nin.
      - intros u E. injection E as _ E. rewrite (c_len HC), (full_held HK E). lia. }
    unfold begin_try. cbn [mt emit]. rewrite E2. destruct (mt s) eqn:Em; simp; rewrite E1, Ef; auto.
    destruct A as [A1 A2]. split; [apply ok_snoc|apply honest_snoc]; auto; [|discriminate].
    cbn [ok_event]. rewrite acc_app, ref_app, fin_app. cbn [accepted refused finished flat_map app]. rewrite !app_nil_r, !cnt_nin. repeat split; auto.
    assert (Nf : full maxT s = false) by (unfold full; rewrite Em; cbn; now rewrite andb_false_r).
    pose proof (proj2 (held_le HK) Nf). pose proof (c_len HC). lia.
  Qed.
  Lemma log_mloop s : C s -> K s -> scan s = None -> (forall u, mpc s <> MRun u) -> ok_log maxT (lg s) -> honest (lg s) -> ok_log maxT (lg (mloop s)) /\ honest (lg (mloop s)).
  Proof.
    intros HC HK Hs Hm Ho Hh. unfold ThreadPoolModel.mloop. destruct (can s); [auto|]. destruct (mt s) as [t|] eqn:Em; [|auto]. simp.
    split; [apply ok_snoc|apply honest_snoc]; auto; [|discriminate]. apply ok_start; auto.
    unfold held, running. rewrite Em. rewrite !cnt_app. pose proof (wh_wr HK t). cbn [olist]. rewrite cnt_one. destruct (Nat.eq_dec t t); [|congruence].
    destruct (mpc s); rewrite ?cnt_nil; try lia. exfalso. eapply Hm. eauto.
  Qed.
  Lemma log_wloop s j w w' : G s -> nth_error (ws s) j = Some (Some w) -> wt w' = wt w -> (forall u, wpc w <> WRun u) -> ok_log maxT (lg s ++ snd (wloop w')) /\ honest (lg s ++ snd (wloop w')).
  Proof.
    intros [HK HC HF Ho Hh] En Ew Hp. unfold ThreadPoolModel.wloop. destruct (wcan w'); cbn [snd]; [rewrite app_nil_r; auto|].
    destruct (wt w') as [t|] eqn:Ew'; cbn [snd].
    - split; [apply ok_snoc|apply honest_snoc]; auto; [|discriminate]. apply ok_start; auto. eapply start_worker; eauto.
    - destruct (comp w'); cbn [snd negb]; rewrite app_nil_r; auto.
  Qed.
  Lemma log_step s a s' : G s -> step s a = Some s' -> ok_log maxT (lg s') /\ honest (lg s').
  Proof.
    intros HG H. pose proof HG as [HK HC HF Ho Hh]. destruct a as [wait| |k|k|to| |j to| |j]; cbn [ThreadPoolModel.step] in H.
    - destruct (free s) eqn:Ef; [|discriminate]. destruct (can s); [discriminate|]. injection H as <-. pose proof (c_pend HC (nid s)) as P. rewrite Nat.ltb_irrefl in P.
      eapply log_begin; eauto; lia.
    - destruct (scan s) as [[[t b] j]|] eqn:Es; [|discriminate]. pose proof (k_scan HK Es) as [_ [_ [_ [Hj _]]]]. pose proof (@scan_pending s t b j Es) as Pd.
      assert (A : full maxT s = false -> ok_log maxT (lg s ++ [EAccept t]) /\ honest (lg s ++ [EAccept t])).
      { intros Nf. split; [apply ok_snoc|apply honest_snoc]; auto; [|discriminate]. apply ok_accept; auto. now apply (held_le HK). }
      assert (X : forall k o, nth_error (ws s) k = Some o -> can_add o = true -> full maxT s = false).
      { intros k o Ek Eo. pose proof (can_queue_full s) as Q. unfold can_queue in Q. assert (E : existsb can_add (ws s) = true) by (apply existsb_exists; exists o; split; auto; eapply nth_error_In; eauto).
        rewrite E, orb_true_r in Q. destruct (full maxT s); auto; discriminate. }
      destruct (nth_error (ws s) j) as [[w|]|] eqn:En.
      + destruct (wt w) eqn:Ew; injection H as <-; simp; [auto|]. apply A. eapply X; eauto. cbn. now rewrite Ew.
      + injection H as <-. simp. apply A. eapply X; eauto.
      + destruct (Nat.leb_spec maxT (length (ws s) + 1)) as [L|L]; [destruct b|]; injection H as <-; simp.
        * split; [apply ok_snoc|apply honest_snoc]; auto; [|discriminate]. eapply ok_refuse; eauto.
        * split; [apply ok_snoc|apply honest_snoc]; auto; [|discriminate]. eapply ok_refuse; eauto.
        * apply A. unfold full. destruct (Nat.leb_spec maxT (length (ws s) + 1)); auto. lia.
    - destruct (free s) eqn:Ef; [|discriminate]. destruct (nth_error (waiters s) k) as [[t b]|] eqn:En; [|discriminate]. injection H as <-.
      pose proof (c_le1 t HC) as P. unfold pending in P. rewrite cnt_app, <- (cnt_drop _ _ t En), cnt_one in P. destruct (Nat.eq_dec t t); [|congruence]. eapply log_begin; eauto; lia.
    - destruct (free s) eqn:Ef; [|discriminate]. destruct (nth_error (waiters s) k) as [[t b]|] eqn:En; [|discriminate]. injection H as <-. simp.
      pose proof (c_le1 t HC) as P. unfold pending in P. rewrite cnt_app, <- (cnt_drop _ _ t En), cnt_one in P. destruct (Nat.eq_dec t t); [|congruence].
      split; [apply ok_snoc|apply honest_snoc]; auto; [|discriminate]. cbn. apply cnt_nin. lia.
    - destruct (free s) eqn:Ef; [|discriminate]. destruct (free_inv _ Ef) as [Hs _]. pose proof (k_m HK) as M. unfold mok in M. destruct (mpc s) as [| |t|timed sig|i|i|] eqn:Em; try discriminate.
      + injection H as <-. apply log_mloop; auto. rewrite Em. discriminate.
      + injection H as <-. unfold ThreadPoolModel.mloop. simp. assert (X : ok_log maxT (lg s ++ [EFinish t]) /\ honest (lg s ++ [EFinish t])).
        { split; [apply ok_snoc|apply honest_snoc]; auto; [|discriminate]. apply ok_finish; auto; unfold held, running; rewrite ?M, ?Em, cnt_app; cbn [olist]; rewrite cnt_one; destruct (Nat.eq_dec t t); try congruence; lia. }
        destruct (can s); simp; auto.
      + destruct timed; [destruct to|]; injection H as <-.
        * auto.
        * set (s1 := w_wt s (strip (ws s))). assert (K s1) by (apply K_strip; auto; now rewrite Em). assert (C s1) by (apply (@C_change maxT Hmax s s1 []); auto; unfold held, running, s1; simp; rewrite ?app_nil_r, ?strip_flat; auto).
          apply log_mloop; auto. unfold s1. simp. rewrite Em. discriminate.
        * apply log_mloop; auto. rewrite Em. discriminate.
    - destruct (mpc s) as [| |t|timed sig|i|i|] eqn:Em; try discriminate.
      + assert (Hs : scan s = None) by (destruct (scan s) as [[[t b] j]|] eqn:E; auto; destruct (k_scan HK E) as [A _]; rewrite Em in A; contradiction).
        destruct (nth_error (ws s) i) as [[w|]|] eqn:En; [destruct (is_idle w)| |]; injection H as <-; simp; auto.
        set (s1 := w_wt s (strip (ws s))). assert (K s1) by (apply K_strip; auto; now rewrite Em). assert (C s1) by (apply (@C_change maxT Hmax s s1 []); auto; unfold held, running, s1; simp; rewrite ?app_nil_r, ?strip_flat; auto).
        apply log_mloop; auto. unfold s1. simp. rewrite Em. discriminate.
      + destruct (nth_error (ws s) i) as [[w|]|] eqn:En; try discriminate. destruct (wpc w); try discriminate. injection H as <-. auto.
    - destruct (nth_error (ws s) j) as [[w|]|] eqn:En; try discriminate. destruct (k_w HK _ En) as [O1 O2].
      destruct (wpc w) as [|t| | |timed sig|] eqn:Ep.
      + injection H as <-. rewrite emits_lg. simp. eapply log_wloop; eauto. rewrite Ep. discriminate.
      + injection H as <-. rewrite emits_lg. simp. match goal with |- context [wloop ?x] => assert (E : snd (wloop x) = []) by (unfold ThreadPoolModel.wloop; cbn; destruct (wcan w), (comp w); reflexivity) end. rewrite E, app_nil_r.
        split; [apply ok_snoc|apply honest_snoc]; auto; [|discriminate]. apply ok_finish; auto; unfold held, running; rewrite cnt_app.
        * pose proof (held_wt _ _ En O2). lia.
        * enough (cnt t (flat_map wr (ws s)) > 0) by lia. apply cnt_in. apply in_flat_map. exists (Some w). split; [eapply nth_error_In; eauto|]. cbn. rewrite Ep. cbn. auto.
      + destruct (free s); [|discriminate]. injection H as <-. auto.
      + destruct (wt w) eqn:Ew; injection H as <-; [rewrite emits_lg; simp; eapply log_wloop; eauto; rewrite Ep; discriminate|auto].
      + injection H as <-. rewrite emits_lg. simp. eapply log_wloop; eauto; rewrite Ep; discriminate.
      + discriminate.
    - destruct (scan s); [discriminate|]. destruct (waiters s); [|discriminate]. injection H as <-. auto.
    - destruct (can s && _); [|discriminate]. destruct (nth_error (ws s) j) as [[w|]|]; try discriminate. injection H as <-. auto.
  Qed.
  Lemma G_step s a s' : G s -> step s a = Some s' -> G s'.
  Proof.
    intros HG H. destruct (log_step _ HG H). destruct HG. constructor; auto; [eapply K_step|eapply C_step|eapply F_step]; eauto.
  Qed.
  Lemma G_init : G init.
  Proof.
    constructor; [now apply K_init|apply C_init|now apply F_noscan| |]; [intros [|]|intros [|]]; discriminate.
  Qed.
  Definition reach (s : st) : Prop := exists acts, steps step init acts s.
  Lemma reach_G s : reach s -> G s.
  Proof. intros [acts H]. eapply steps_inv; eauto; [apply G_step|apply G_init]. Qed.

  (** The log of every run: a task is accepted at most once and only while fewer than maxThreads are unfinished; it is started at most once,
      after it was accepted, and finished at most once, after it was started; TryQueue returns false, and WaitQueue sleeps, only if at the start of that attempt maxThreads
      accepted tasks were unfinished, and then the task is not accepted. *)
  Theorem C43_log s : reach s -> ok_log maxT (lg s).
  Proof. intros H. apply (g_ok (reach_G H)). Qed.
  Lemma NoDup_cnt l : (forall t, cnt t l <= 1) -> NoDup l.
  Proof. intros H. apply (NoDup_count_occ Nat.eq_dec). exact H. Qed.
  Theorem C43_exactly_once s : reach s -> NoDup (accepted (lg s)) /\ NoDup (started (lg s)) /\ NoDup (finished (lg s)) /\
    incl (finished (lg s)) (started (lg s)) /\ incl (started (lg s)) (accepted (lg s)).
  Proof.
    intros H. apply reach_G in H. destruct H as [HK HC HF Ho Hh].
    assert (R : forall t, cnt t (running s) <= cnt t (held s)) by (intros t; unfold running, held; rewrite !cnt_app; pose proof (wh_wr HK t); pose proof (mr_mt HK t); lia).
    assert (A : forall t, cnt t (accepted (lg s)) <= 1 /\ cnt t (finished (lg s)) <= cnt t (started (lg s)) /\ cnt t (started (lg s)) <= cnt t (accepted (lg s))).
    { intros t. pose proof (c_le1 t HC). pose proof (c_held HC t). pose proof (c_run HC t). specialize (R t). lia. }
    repeat split; try (apply NoDup_cnt; intros t; destruct (A t); lia); intros t; rewrite !cnt_in; destruct (A t); lia.
  Qed.
  (** Never more than maxThreads tasks are accepted and unfinished, let alone running. *)
  Theorem C43_at_most_max_tasks s : reach s -> length (accepted (lg s)) <= length (finished (lg s)) + maxT.
  Proof. intros H. apply reach_G in H. pose proof (c_len (g_c H)). pose proof (proj1 (held_le (g_k H))). lia. Qed.
  (** ... nor more than maxThreads threads exist. *)
  Definition threads (s : st) : nat := (match mpc s with MNone => 0 | _ => 1 end) + length (filter (fun o => negb (is_none o)) (ws s)).
  Lemma filter_len A (f : A -> bool) l : length (filter f l) <= length l.
  Proof. induction l as [|x l IH]; cbn; auto. destruct (f x); cbn; lia. Qed.
  Theorem C43_at_most_max_threads s : reach s -> threads s <= maxT.
  Proof. intros H. apply reach_G in H. pose proof (k_len (g_k H)). unfold threads. pose proof (filter_len (fun o => negb (is_none o)) (ws s)). destruct (mpc s); lia. Qed.

  (** ** no accepted task is lost *)
  Definition internal (a : act) : Prop := match a with QStep | MStep _ | MReapS | WStep _ _ => True | _ => False end.
  Lemma internal_can s a s' : step s a = Some s' -> internal a -> can s' = can s.
  Proof.
    intros H I. destruct a as [wait| |k|k|to| |j to| |j]; try contradiction; cbn [ThreadPoolModel.step] in H.
    - destruct (scan s) as [[[t b] j]|]; [|discriminate]. destruct (nth_error (ws s) j) as [[w|]|]; [destruct (wt w)| |destruct (_ <=? _); [destruct b|]]; injection H as <-; reflexivity.
    - assert (M : forall s, can (mloop s) = can s) by (intros x; unfold ThreadPoolModel.mloop; destruct (can x) eqn:E; [exact E|]; destruct (mt x); exact E).
      destruct (free s); [|discriminate]. destruct (mpc s); try discriminate; [| |destruct timed; [destruct to|]]; injection H as <-; rewrite ?M; reflexivity.
    - assert (M : forall s, can (mloop s) = can s) by (intros x; unfold ThreadPoolModel.mloop; destruct (can x) eqn:E; [exact E|]; destruct (mt x); exact E).
      destruct (mpc s); try discriminate.
      + destruct (nth_error (ws s) j) as [[w|]|]; [destruct (is_idle w)| |]; injection H as <-; rewrite ?M; reflexivity.
      + destruct (nth_error (ws s) j) as [[w|]|]; try discriminate. destruct (wpc w); try discriminate. injection H as <-. reflexivity.
    - destruct (nth_error (ws s) j) as [[w|]|]; try discriminate.
      assert (M : forall l s, can (emits s l) = can s) by (intros l x; apply (emits_same l x)).
      destruct (wpc w); try discriminate; [| |destruct (free s); [|discriminate]|destruct (wt w)|]; injection H as <-; rewrite ?M; reflexivity.
  Qed.
  Lemma lg_ext s a s' : step s a = Some s' -> exists es, lg s' = lg s ++ es.
  Proof.
    assert (B : forall x t b, exists es, lg (begin_try maxT x t b) = lg x ++ es).
    { intros x t b. unfold begin_try. cbn [mt emit]. destruct (mt x); simp; [eauto|]. rewrite <- app_assoc. eauto. }
    assert (M : forall x, exists es, lg (mloop x) = lg x ++ es).
    { intros x. unfold ThreadPoolModel.mloop. destruct (can x); [exists []; now rewrite app_nil_r|]. destruct (mt x); simp; [eauto|exists []; now rewrite app_nil_r]. }
    assert (N : exists es, lg s = lg s ++ es) by (exists []; now rewrite app_nil_r).
    intros H. destruct a as [wait| |k|k|to| |j to| |j]; cbn [ThreadPoolModel.step] in H.
    - destruct (free s && _); [|discriminate]. injection H as <-. apply (B (w_nid s)).
    - destruct (scan s) as [[[t b] j]|]; [|discriminate]. destruct (nth_error (ws s) j) as [[w|]|]; [destruct (wt w)| |destruct (_ <=? _); [destruct b|]]; injection H as <-; simp; eauto.
    - destruct (free s); [|discriminate]. destruct (nth_error (waiters s) k) as [[t b]|]; [|discriminate]. injection H as <-. apply (B (w_waiters s _)).
    - destruct (free s); [|discriminate]. destruct (nth_error (waiters s) k) as [[t b]|]; [|discriminate]. injection H as <-. simp. eauto.
    - destruct (free s); [|discriminate]. destruct (mpc s); try discriminate; [| |destruct timed; [destruct to|]]; injection H as <-; auto.
      + destruct (M (emit (w_mt s None) (EFinish id))) as [es E]. rewrite E. simp. rewrite <- app_assoc. eauto.
      + apply (M (w_wt s _)).
    - destruct (mpc s); try discriminate.
      + destruct (nth_error (ws s) j) as [[w|]|]; [destruct (is_idle w)| |]; injection H as <-; auto. apply (M (w_wt s _)).
      + destruct (nth_error (ws s) j) as [[w|]|]; try discriminate. destruct (wpc w); try discriminate. injection H as <-. auto.
    - destruct (nth_error (ws s) j) as [[w|]|]; try discriminate.
      destruct (wpc w); try discriminate; [| |destruct (free s); [|discriminate]|destruct (wt w)|]; injection H as <-; rewrite ?emits_lg; simp; rewrite <- ?app_assoc; eauto.
    - destruct (is_none (scan s) && _); [|discriminate]. injection H as <-. auto.
    - destruct (can s && _); [|discriminate]. destruct (nth_error (ws s) j) as [[w|]|]; try discriminate. injection H as <-. auto.
  Qed.
  Definition isteps (s : st) (acts : list act) (s' : st) : Prop := steps step s acts s' /\ (forall a, In a acts -> internal a).
  Lemma isteps_keep s acts s' : isteps s acts s' -> G s -> G s' /\ can s' = can s /\ exists es, lg s' = lg s ++ es.
  Proof.
    intros [H I] HG. induction H as [s|s a s1 acts s2 H1 H2 IH]; [split; [auto|]; split; [auto|]; exists []; now rewrite app_nil_r|].
    destruct IH as [A [B [es E]]]; [intros x Hx; apply I; cbn; auto|eapply G_step; eauto|]. split; auto. split; [rewrite B; apply (internal_can s a H1); apply I; cbn; auto|].
    destruct (lg_ext s a H1) as [es' E']. exists (es' ++ es). now rewrite E, E', app_assoc.
  Qed.
  Lemma isteps_app s a s1 b s2 : isteps s a s1 -> isteps s1 b s2 -> isteps s (a ++ b) s2.
  Proof. intros [A1 A2] [B1 B2]. split; [eapply steps_app; eauto|]. intros x Hx. apply in_app_or in Hx. destruct Hx; auto. Qed.
  Lemma isteps_one s a s1 : step s a = Some s1 -> internal a -> isteps s [a] s1.
  Proof. intros H I. split; [econstructor; eauto; constructor|]. intros x [<-|[]]. auto. Qed.
  Lemma isteps_nil s : isteps s [] s.
  Proof. split; [constructor|contradiction]. Qed.

  (** the pool mutex is always released again *)
  Lemma free_scan : forall n s t b j, G s -> scan s = Some (t, b, j) -> length (ws s) - j = n -> exists acts s', isteps s acts s' /\ free s' = true.
  Proof.
    induction n as [n IH] using lt_wf_ind. intros s t b j HG Es Hn. pose proof (k_scan (g_k HG) Es) as [Hm [_ [_ [Hj _]]]].
    assert (Fin : forall s', step s QStep = Some s' -> scan s' = None -> mpc s' = mpc s -> exists acts s', isteps s acts s' /\ free s' = true).
    { intros s' H1 H2 H3. exists [QStep], s'. split; [apply isteps_one; auto; exact I|]. unfold free. rewrite H2, H3. destruct (mpc s); auto; contradiction. }
    destruct (step s QStep) as [s1|] eqn:H.
    - pose proof H as H0. cbn [ThreadPoolModel.step] in H. rewrite Es in H. destruct (nth_error (ws s) j) as [[w|]|] eqn:En; [destruct (wt w)| |destruct (_ <=? _); [destruct b|]]; injection H as <-;
        try (eapply Fin; eauto; reflexivity).
      assert (L : j < length (ws s)) by (apply nth_error_Some; congruence).
      match type of H0 with _ = Some ?x => set (s1 := x) in * end.
      destruct (IH (length (ws s) - S j)) with (s := s1) (t := t) (b := b) (j := S j) as [acts [s' [A B]]]; auto; [lia|eapply G_step; eauto|].
      exists (QStep :: acts), s'. split; auto. apply (isteps_app (isteps_one _ _ H0 I) A).
    - exfalso. cbn [ThreadPoolModel.step] in H. rewrite Es in H. destruct (nth_error (ws s) j) as [[w|]|]; [destruct (wt w)| |destruct (_ <=? _); [destruct b|]]; discriminate.
  Qed.
  Lemma mloop_free s : scan s = None -> free (mloop s) = true.
  Proof. intros H. unfold ThreadPoolModel.mloop, free. destruct (can s); [simp; now rewrite H|]. destruct (mt s); simp; now rewrite H. Qed.
  Lemma reap_scan s : G s -> match mpc s with MReap _ => True | MJoin _ => True | _ => False end -> scan s = None.
  Proof. intros HG Hm. destruct (scan s) as [[[t b] j]|] eqn:E; auto. destruct (k_scan (g_k HG) E) as [A _]. destruct (mpc s); tauto. Qed.
  (** joining a reaped worker never waits for the pool mutex *)
  Lemma join_step s j : G s -> mpc s = MJoin j -> exists acts s', isteps s acts s' /\ mpc s' = MReap (S j) /\ length (ws s') = length (ws s).
  Proof.
    intros HG Em. pose proof (k_m (g_k HG)) as M. unfold mok in M. rewrite Em in M. destruct M as [w [En [M2 [M3 M4]]]].
    assert (Go : forall s, G s -> mpc s = MJoin j -> forall w, nth_error (ws s) j = Some (Some w) -> wpc w = WGone -> exists acts s', isteps s acts s' /\ mpc s' = MReap (S j) /\ length (ws s') = length (ws s)).
    { clear. intros s HG Em w En Ep. eexists [MReapS], _. split; [apply isteps_one; [cbn [ThreadPoolModel.step]; rewrite Em, En, Ep; reflexivity|exact I]|]. simp. split; auto. apply upd_length. }
    destruct (k_w (g_k HG) _ En) as [O1 O2]. destruct (wpc w) as [|t| | |timed sig|] eqn:Ep; try congruence; [|eapply Go; eauto].
    set (w' := {| wt := wt w; comp := comp w; idle := if timed then false else idle w; wcan := wcan w; wpc := WSleep timed sig |}).
    assert (H1 : step s (WStep j false) = Some (w_wt s (upd (ws s) j (Some (v_pc w' WGone))))).
    { assert (E : wloop w' = (v_pc w' WGone, [])) by (unfold ThreadPoolModel.wloop; change (wcan w') with (wcan w); now rewrite M2).
      assert (H1 : step s (WStep j false) = Some (emits (w_wt s (upd (ws s) j (Some (fst (wloop w'))))) (snd (wloop w')))) by (cbn [ThreadPoolModel.step]; rewrite En, Ep; reflexivity).
      rewrite E in H1. exact H1. }
    match type of H1 with _ = Some ?x => set (s1 := x) in * end.
    destruct (Go s1) with (w := v_pc w' WGone) as [acts [s' [A [B D]]]]; auto; [eapply G_step; eauto|apply (nth_upd_eq _ _ _ En)|].
    exists (WStep j false :: acts), s'. split; [apply (isteps_app (isteps_one _ _ H1 I) A)|]. split; auto. rewrite D. unfold s1. simp. apply upd_length.
  Qed.
  Lemma free_reap : forall n s j, G s -> mpc s = MReap j -> length (ws s) - j = n -> exists acts s', isteps s acts s' /\ free s' = true.
  Proof.
    induction n as [n IH] using lt_wf_ind. intros s j HG Em Hn. assert (Hs := reap_scan HG). rewrite Em in Hs. specialize (Hs I).
    destruct (nth_error (ws s) j) as [o|] eqn:En.
    - assert (L : j < length (ws s)) by (apply nth_error_Some; congruence).
      assert (Next : forall s1, step s MReapS = Some s1 -> mpc s1 = MReap (S j) -> length (ws s1) = length (ws s) -> exists acts s', isteps s acts s' /\ free s' = true).
      { intros s1 H1 H2 H3. destruct (IH (length (ws s) - S j)) with (s := s1) (j := S j) as [acts [s' [A B]]]; auto; try lia; [eapply G_step; eauto|]. exists (MReapS :: acts), s'. split; auto. apply (isteps_app (isteps_one _ _ H1 I) A). }
      destruct o as [w|]; [destruct (is_idle w) eqn:Ei|].
      + clear Next. destruct (step s MReapS) as [s0|] eqn:H1; cbn [ThreadPoolModel.step] in H1; rewrite Em, En, Ei in H1; [|discriminate]. injection H1 as H1.
        assert (H2 : step s MReapS = Some s0) by (cbn [ThreadPoolModel.step]; rewrite Em, En, Ei; now f_equal). rewrite <- H1 in H2. clear H1. rename H2 into H1.
        match type of H1 with _ = Some ?x => set (s1 := x) in * end.
        assert (G1 : G s1) by (eapply G_step; eauto). destruct (join_step (s := s1) (j := j) G1) as [a1 [s2 [A1 [A2 A3]]]]; auto.
        destruct (isteps_keep A1 G1) as [G2 _].
        destruct (IH (length (ws s) - S j)) with (s := s2) (j := S j) as [acts [s' [A B]]]; auto; [lia|rewrite A3; unfold s1; simp; rewrite upd_length; lia|].
        exists ([MReapS] ++ a1 ++ acts), s'. split; auto. apply isteps_app with s1; [apply isteps_one; auto; exact I|]. eapply isteps_app; eauto.
      + eapply Next; [cbn [ThreadPoolModel.step]; rewrite Em, En, Ei; reflexivity|reflexivity|reflexivity].
      + eapply Next; [cbn [ThreadPoolModel.step]; rewrite Em, En; reflexivity|reflexivity|reflexivity].
    - eexists [MReapS], _. split; [apply isteps_one; [cbn [ThreadPoolModel.step]; rewrite Em, En; reflexivity|exact I]|]. apply mloop_free. exact Hs.
  Qed.
  Lemma free_up s : G s -> exists acts s', isteps s acts s' /\ free s' = true.
  Proof.
    intros HG. destruct (scan s) as [[[t b] j]|] eqn:Es; [eapply free_scan; eauto|].
    destruct (mpc s) eqn:Em; try (exists [], s; split; [apply isteps_nil|]; unfold free; now rewrite Es, Em).
    - eapply free_reap; eauto.
    - destruct (join_step HG Em) as [a1 [s2 [A1 [A2 A3]]]]. destruct (isteps_keep A1 HG) as [G2 _]. destruct (free_reap G2 A2 eq_refl) as [acts [s' [A B]]].
      exists (a1 ++ acts), s'. split; auto. eapply isteps_app; eauto.
  Qed.
  Lemma main_fin s t : G s -> free s = true -> can s = false -> mt s = Some t -> exists acts s', isteps s acts s' /\ In t (finished (lg s')).
  Proof.
    intros HG Hf Hc Hm. destruct (free_inv _ Hf) as [Hs Hp]. pose proof (k_m (g_k HG)) as M. unfold mok in M.
    assert (Run : forall x, scan x = None -> mpc x = MRun t -> exists s', isteps x [MStep false] s' /\ In t (finished (lg s'))).
    { intros x Hx Hr. eexists. split; [apply isteps_one; [cbn [ThreadPoolModel.step]; unfold free; rewrite Hx, Hr; reflexivity|exact I]|].
      assert (E : forall y, In t (finished (lg y)) -> In t (finished (lg (mloop y)))).
      { intros y Hy. unfold ThreadPoolModel.mloop. destruct (can y); auto. destruct (mt y); simp; auto. rewrite fin_app. apply in_or_app. auto. }
      apply E. simp. rewrite fin_app. apply in_or_app. right. cbn. auto. }
    assert (ML : forall x, scan x = None -> can x = false -> mt x = Some t -> scan (mloop x) = None /\ mpc (mloop x) = MRun t).
    { intros x X1 X2 X3. unfold ThreadPoolModel.mloop. rewrite X2, X3. simp. auto. }
    assert (Two : forall s1, step s (MStep false) = Some (mloop s1) -> scan s1 = None -> can s1 = false -> mt s1 = Some t -> exists acts s', isteps s acts s' /\ In t (finished (lg s'))).
    { intros s1 H1 X1 X2 X3. destruct (ML s1 X1 X2 X3) as [Y1 Y2]. destruct (Run _ Y1 Y2) as [s' [Z1 Z2]]. exists [MStep false; MStep false], s'. split; auto. apply (isteps_app (isteps_one _ _ H1 I) Z1). }
    destruct (mpc s) as [| |u|timed sig|i|i|] eqn:Em; try contradiction.
    - destruct M. congruence.
    - apply (Two s); auto. cbn [ThreadPoolModel.step]. now rewrite Hf, Em.
    - assert (u = t) by congruence. subst u. destruct (Run s Hs Em) as [s' X]. eauto.
    - destruct timed; [apply (Two (w_wt s (strip (ws s))))|apply (Two s)]; auto; cbn [ThreadPoolModel.step]; now rewrite Hf, Em.
    - congruence.
  Qed.
  Lemma worker_fin s j w t : G s -> free s = true -> can s = false -> nth_error (ws s) j = Some (Some w) -> wt w = Some t -> exists acts s', isteps s acts s' /\ In t (finished (lg s')).
  Proof.
    intros HG Hf Hc En Ew. assert (Nc : wcan w = false).
    { destruct (wcan w) eqn:E; auto. destruct (k_c (g_k HG) _ En E) as [[X _]|[_ [X _]]]; congruence. }
    assert (Run : forall x v, nth_error (ws x) j = Some (Some v) -> wpc v = WRun t -> exists s', isteps x [WStep j false] s' /\ In t (finished (lg s'))).
    { intros x v Hv Hr. eexists. split; [apply isteps_one; [cbn [ThreadPoolModel.step]; rewrite Hv, Hr; reflexivity|exact I]|].
      rewrite emits_lg. simp. rewrite !fin_app. apply in_or_app. left. apply in_or_app. right. cbn. auto. }
    assert (WL : forall x y v', G x -> nth_error (ws x) j = Some (Some y) -> step x (WStep j false) = Some (emits (w_wt x (upd (ws x) j (Some (fst (wloop v'))))) (snd (wloop v'))) -> wcan v' = false -> wt v' = Some t -> exists acts s', isteps x acts s' /\ In t (finished (lg s'))).
    { intros x y v' Gx Hv H1 X1 X2. match type of H1 with _ = Some ?z => set (x1 := z) in * end.
      destruct (Run x1 (v_pc v' (WRun t))) as [s' [A B]]; auto.
      - unfold x1. destruct (emits_same (snd (wloop v')) (w_wt x (upd (ws x) j (Some (fst (wloop v')))))) as [_ [_ [E _]]]. rewrite E. simp. unfold ThreadPoolModel.wloop. rewrite X1, X2. cbn [fst]. apply (nth_upd_eq _ _ _ Hv).
      - exists [WStep j false; WStep j false], s'. split; auto. apply (isteps_app (isteps_one _ _ H1 I) A). }
    destruct (k_w (g_k HG) _ En) as [O1 O2]. destruct (wpc w) as [|u| | |timed sig|] eqn:Ep.
    - eapply WL; eauto. cbn [ThreadPoolModel.step]. now rewrite En, Ep.
    - assert (u = t) by congruence. subst u. destruct (Run _ _ En Ep) as [s' X]. eauto.
    - assert (H1 : step s (WStep j false) = Some (sigall (w_wt s (upd (ws s) j (Some (v_pc w WH2)))))) by (cbn [ThreadPoolModel.step]; now rewrite En, Ep, Hf).
      match type of H1 with _ = Some ?z => set (x1 := z) in * end.
      assert (E1 : nth_error (ws x1) j = Some (Some (v_pc w WH2))) by (unfold x1; simp; apply (nth_upd_eq _ _ _ En)).
      destruct (WL x1 (v_pc w WH2) (v_pc w WH2)) as [acts [s' [A B]]]; auto; [eapply G_step; eauto|cbn [ThreadPoolModel.step]; rewrite E1; cbn [wpc v_pc wt]; rewrite Ew; reflexivity|].
      exists (WStep j false :: acts), s'. split; auto. apply (isteps_app (isteps_one _ _ H1 I) A).
    - eapply WL; eauto. cbn [ThreadPoolModel.step]. now rewrite En, Ep, Ew.
    - eapply (WL s w {| wt := wt w; comp := comp w; idle := if timed then false else idle w; wcan := wcan w; wpc := WSleep timed sig |}); eauto. cbn [ThreadPoolModel.step]. now rewrite En, Ep.
    - congruence.
  Qed.
  (** Until the destructor starts every accepted task is still there and the pool's own threads can run it to its end, in whatever state everything is. *)
  Theorem C43_no_task_lost s t : reach s -> can s = false -> In t (accepted (lg s)) ->
    exists acts s', isteps s acts s' /\ In t (finished (lg s')).
  Proof.
    intros H Hc Ht. apply reach_G in H. destruct (free_up H) as [a1 [s1 [A1 A2]]]. destruct (isteps_keep A1 H) as [G1 [C1 [es E]]].
    assert (Ha : In t (accepted (lg s1))) by (rewrite E, acc_app; apply in_or_app; auto).
    assert (Goal' : exists acts s', isteps s1 acts s' /\ In t (finished (lg s'))).
    { apply cnt_in in Ha. pose proof (c_held (g_c G1) t) as Hh. destruct (Nat.eq_dec (cnt t (finished (lg s1))) 0) as [Z|Z].
      - assert (Hi : In t (held s1)) by (apply cnt_in; lia). unfold held in Hi. apply in_app_or in Hi. destruct Hi as [Hi|Hi].
        + destruct (mt s1) eqn:Em; cbn in Hi; [destruct Hi as [->|[]]|contradiction]. eapply main_fin; eauto; congruence.
        + apply in_flat_map in Hi. destruct Hi as [o [O1 O2]]. destruct o as [w|]; [|contradiction]. cbn in O2. destruct (wt w) eqn:Ew; cbn in O2; [destruct O2 as [->|[]]|contradiction].
          apply In_nth_error in O1. destruct O1 as [j O1]. eapply worker_fin; eauto; congruence.
      - exists [], s1. split; [apply isteps_nil|]. apply cnt_in. lia. }
    destruct Goal' as [acts [s' [B1 B2]]]. exists (a1 ++ acts), s'. split; auto. eapply isteps_app; eauto.
  Qed.

  (** ** WaitQueue *)
  (** A WaitQueue that sleeps and has not been broadcast sleeps for a reason: every thread has a task, or is a worker about to broadcast. *)
  Theorem C43_no_lost_wakeup s t : reach s -> In (t, false) (waiters s) ->
    can s = false /\ mt s <> None /\ maxT = length (ws s) + 1 /\ forall j, j < length (ws s) -> exists w, nth_error (ws s) j = Some (Some w) /\ (wt w <> None \/ wpc w = WH1).
  Proof.
    intros H Hi. apply reach_G in H. destruct (k_wait (g_k H) _ Hi) as [A [B D]]. split; [apply (k_wcn (g_k H)); intros E; rewrite E in Hi; destruct Hi|].
    split; auto. split; [pose proof (k_len (g_k H)); lia|exact D].
  Qed.
  Theorem C43_broadcast_pending s t : reach s -> In (t, false) (waiters s) -> can_queue maxT s = true -> exists j w, nth_error (ws s) j = Some (Some w) /\ wpc w = WH1.
  Proof.
    intros H Hi Hq. destruct (C43_no_lost_wakeup _ H Hi) as [_ [A [B D]]]. unfold can_queue in Hq. destruct (mt s); [|congruence]. cbn [is_none orb] in Hq.
    destruct (Nat.ltb_spec (length (ws s) + 1) maxT); [lia|]. cbn in Hq. apply existsb_exists in Hq. destruct Hq as [o [Q1 Q2]]. apply In_nth_error in Q1. destruct Q1 as [j Q1].
    destruct (D j) as [w [D1 D2]]; [apply nth_error_Some; congruence|]. rewrite D1 in Q1. injection Q1 as <-. cbn in Q2. destruct D2 as [D2|D2]; [destruct (wt w); [discriminate|congruence]|eauto].
  Qed.

  (** ** CanQueue *)
  (** CanQueue says whether a thread is free or may be created ... *)
  Theorem C43_can_queue_exact s : reach s -> (can_queue maxT s = true <-> length (accepted (lg s)) < length (finished (lg s)) + maxT).
  Proof.
    intros H. apply reach_G in H. rewrite can_queue_full. pose proof (c_len (g_c H)). pose proof (held_le (g_k H)) as [L1 L2]. destruct (full maxT s) eqn:E; cbn.
    - pose proof (full_held (g_k H) E). split; [discriminate|lia].
    - specialize (L2 eq_refl). split; auto. lia.
  Qed.
End P.

(** ** Not guaranteed: the destructor drops tasks that were accepted and not started. *)
Theorem C43_accepted_task_runs_refuted : exists s, reach 1 true s /\ In 0 (accepted (lg s)) /\ mpc s = MGone /\ ~ In 0 (started (lg s)) /\ (forall a s', step 1 true s a = Some s' -> started (lg s') = started (lg s)).
Proof.
  assert (X : exists s, exec (step 1 true) init [QBegin false; PCancel; MStep false] = Some s /\ In 0 (accepted (lg s)) /\ mpc s = MGone /\ ~ In 0 (started (lg s)) /\ ws s = [] /\ scan s = None /\ waiters s = [] /\ can s = true).
  { eexists. split; [vm_compute; reflexivity|]. cbn. tauto. }
  destruct X as [s [X1 [X2 [X3 [X4 [X5 [X6 [X7 X8]]]]]]]]. exists s. split; [eexists; eapply exec_steps; eauto|]. repeat (split; auto).
  intros a s' H. destruct a; cbn [step] in H; rewrite ?X3, ?X5, ?X6, ?X7, ?X8, ?andb_false_r in H; cbn in H; try discriminate.
  - destruct (free s); [|discriminate]. destruct k; discriminate.
  - destruct (free s); [|discriminate]. destruct k; discriminate.
  - destruct (free s); discriminate.
  - destruct j; discriminate.
  - injection H as <-. reflexivity.
  - destruct j; discriminate.
Qed.

(** two threads, three submissions, a waiter that is woken by a worker, and a worker reaped after idling *)
Example C43_nonvacuous : exists s, reach 2 true s /\ finished (lg s) = [1; 0; 2] /\ In (EReject 3) (lg s) /\ In (EBlock 2) (lg s) /\ ws s = [] /\ mpc s = MSleep false false.
Proof.
  assert (X : exists s, exec (step 2 true) init
    [QBegin false; MStep false; QBegin false; QStep; WStep 0 false; QBegin true; QStep; QStep; QBegin false; QStep; QStep; WStep 0 false; WStep 0 false; MStep false; WStep 0 false; QRetry 0; MStep false;
     MStep false; WStep 0 true; MStep true; MReapS; WStep 0 false; MReapS; MReapS] = Some s /\ finished (lg s) = [1; 0; 2] /\ In (EReject 3) (lg s) /\ In (EBlock 2) (lg s) /\ ws s = [] /\ mpc s = MSleep false false).
  { eexists. split; [vm_compute; reflexivity|]. cbn. tauto. }
  destruct X as [s [X1 X2]]. exists s. split; auto. eexists. eapply exec_steps; eauto.
Qed.
Print Assumptions C43_log.
Print Assumptions C43_exactly_once.
Print Assumptions C43_at_most_max_tasks.
Print Assumptions C43_at_most_max_threads.
Print Assumptions C43_no_task_lost.
Print Assumptions C43_no_lost_wakeup.
Print Assumptions C43_can_queue_exact.
Print Assumptions C43_accepted_task_runs_refuted.
