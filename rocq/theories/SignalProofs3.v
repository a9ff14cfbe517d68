From Coq Require Import List Arith Lia Bool.
From Verif Require Import Conc SignalSpec SignalModel SignalProofs SignalProofs2.
Import ListNotations.
Set Implicit Arguments.

Section P.
Variable A : Type.
Local Arguments cnt : simpl never.
Notation st := (st A). Notation obs := (obs A). Notation frame := (frame A).
Ltac fu t u := destruct (Nat.eq_dec u t) as [->|?]; [rewrite ?fupd_same in *|rewrite ?fupd_other in * by assumption].

Definition isE := @SignalProofs.isE A.
Lemma cnt1_eq p (l : list frame) f g : cnt p l <= 1 -> In f l -> In g l -> p f = true -> p g = true -> f = g.
Proof.
  intros H1 Hf Hg Pf Pg. unfold cnt in H1.
  assert (F : In f (filter p l)) by (apply filter_In; auto). assert (G : In g (filter p l)) by (apply filter_In; auto).
  destruct (filter p l) as [|x [|y r]]; cbn in *; try lia; try contradiction. intuition congruence.
Qed.
Lemma isL_isH (l : list frame) : 0 < cnt (@isL A) l -> 0 < cnt (@isH A) l.
Proof. intros H. apply cnt_in in H. destruct H as (f&H1&H2). eapply in_cnt; eauto. destruct f; auto; discriminate. Qed.

Fixpoint lockE (l : list frame) : Prop :=
  match l with [] => True | f :: r => lockE r /\ (isE f = true -> 0 < cnt (@isL A) r) end.
Lemma lockE_in l e a rem : lockE l -> In (FEmit e a rem) l -> 0 < cnt (@isL A) l.
Proof.
  induction l as [|f r IH]; cbn [lockE In]; intros L X; [contradiction|]. rewrite cnt_cons. destruct L as (L1&L2). destruct X as [->|X].
  - specialize (L2 eq_refl). lia.
  - specialize (IH L1 X). lia.
Qed.

Record knv (s : st) (tr : list obs) : Prop := {
  k_lock : forall t, lockE (stk s t);
  k_one : forall t, cnt isE (stk s t) <= 1;
  k_nd : forall t e a rem, In (FEmit e a rem) (stk s t) -> NoDup rem;
  k_conn : forall t c rem, In (FConn c rem) (stk s t) -> received c tr ++ rem = hist s;
  k_acc : forall c, In c (handlers s) ->
     (received c tr = hist s /\ forall t e a rem, In (FEmit e a rem) (stk s t) -> ~ In c rem) \/
     (exists t e a rem, In (FEmit e a rem) (stk s t) /\ In c rem /\ received c tr ++ [a] = hist s) }.

Lemma k_init : knv (init A) [].
Proof. constructor; cbn; auto; try contradiction; intros. Qed.

Lemma k_same s tr t e a rem u e' a' rem' : inv s tr -> knv s tr -> In (FEmit e a rem) (stk s t) -> In (FEmit e' a' rem') (stk s u) -> t = u /\ FEmit e a rem = FEmit e' a' rem'.
Proof.
  intros I K H1 H2. assert (t = u).
  { apply (mok_unique _ _ _ _ (i_mu I)); apply isL_isH; eapply lockE_in; eauto using (k_lock K). }
  subst u. split; auto. eapply cnt1_eq; eauto using (k_one K).
Qed.

Lemma disc_snoc tr (o : obs) : disciplined (tr ++ [o]) -> disciplined tr /\ disciplined [o].
Proof. intros H. split; intros x X; apply (H x); apply in_or_app; auto. Qed.

(** a step that touches neither emissions nor connecting nor calls *)
Lemma k_frame s tr s' o t new : knv s tr -> stk s' = fupd (stk s) t new -> (forall c, received1 c o = []) -> hist s' = hist s ->
  (forall c, In c (handlers s') -> In c (handlers s)) ->
  lockE new -> cnt isE new <= 1 ->
  (forall e a rem, In (FEmit e a rem) new <-> In (FEmit e a rem) (stk s t)) ->
  (forall c rem, In (FConn c rem) new -> In (FConn c rem) (stk s t)) ->
  knv s' (tr ++ [o]).
Proof.
  intros K Hs R Hh Hn E1 E2 E3 E4.
  assert (R' : forall c, received c (tr ++ [o]) = received c tr) by (intros; now rewrite received_snoc, R, app_nil_r).
  assert (E5 : forall u e a rem, In (FEmit e a rem) (stk s' u) <-> In (FEmit e a rem) (stk s u)).
  { intros. rewrite Hs. fu t u; auto. reflexivity. }
  constructor.
  - intros u. rewrite Hs. fu t u; auto. apply (k_lock K).
  - intros u. rewrite Hs. fu t u; auto. apply (k_one K).
  - intros u e a rem X. apply E5 in X. eapply (k_nd K); eauto.
  - intros u c rem X. rewrite R', Hh. rewrite Hs in X. fu t u. + apply E4 in X. eapply (k_conn K); eauto. + eapply (k_conn K); eauto.
  - intros c Hc. apply Hn in Hc. rewrite R', Hh. destruct (k_acc K _ Hc) as [(X&Y)|(u&e&a&rem&X&Y&Z)].
    + left. split; auto. intros u e a rem W. apply E5 in W. eauto.
    + right. exists u, e, a, rem. split; auto. now apply E5.
Qed.

Lemma step_knv s tr s' o : inv s tr -> knv s tr -> stepR s s' o -> disciplined (tr ++ [o]) -> knv s' (tr ++ [o]).
Proof.
  intros I K H D. apply disc_snoc in D. destruct D as (_&D). specialize (D o (or_introl eq_refl)).
  inversion H; subst; try contradiction.
  all: pose proof (k_lock K t) as KL; pose proof (k_one K t) as KO.
  all: try rewrite H0 in KL; try rewrite H0 in KO; cbn in KL; try rewrite cnt_cons in KO; cbn in KO.
  all: try (eapply k_frame with (s := s) (t := t); [exact K|reflexivity|reflexivity|reflexivity|cbn; intros ? Hc; try (apply in_remove in Hc); tauto|cbn; try rewrite H0; cbn; intuition discriminate|rewrite ?cnt_cons; cbn; lia| |]; try rewrite H0; cbn; intros; intuition discriminate).
  - (* add *)
    assert (FL : forall f, In f (stk s t) -> f = FLock).
    { apply wfs_flat. - apply (i_wf I). - now rewrite H0. - rewrite H0. exact D. }
    assert (L0 : 0 < cnt (@isL A) (stk s t)). { rewrite H0, cnt_cons. cbn. lia. }
    assert (NE : forall u e a' rem, ~ In (FEmit e a' rem) (stk s u)).
    { intros u e a' rem X. destruct (Nat.eq_dec u t) as [->|Hn]; [apply FL in X; discriminate|].
      apply Hn. apply (mok_unique _ _ _ _ (i_mu I)); apply isL_isH; auto. eapply lockE_in; eauto using (k_lock K). }
    assert (NC : forall u c rem, ~ In (FConn c rem) (stk s u)).
    { intros u c rem X. destruct (Nat.eq_dec u t) as [->|Hn]; [apply FL in X; discriminate|].
      apply Hn. apply (mok_unique _ _ _ _ (i_mu I)); [eapply in_cnt; eauto|apply isL_isH; auto]. }
    assert (R' : forall c, received c (tr ++ [OAdd t (ems s) a (in_slot r)]) = received c tr) by (intros; rewrite received_snoc; apply app_nil_r).
    constructor; cbn.
    + intros u. fu t u; [|apply (k_lock K)]. cbn. split; [apply (k_lock K)|auto].
    + intros u. fu t u; [|apply (k_one K)]. rewrite cnt_cons. cbn.
      enough (cnt isE (stk s t) = 0) by lia. destruct (cnt isE (stk s t)) eqn:E; auto.
      destruct (@cnt_in A isE (stk s t)) as (f&F1&F2); [lia|]. apply FL in F1. subst f. discriminate.
    + intros u e a0 rem X. fu t u; [destruct X as [X|X]|]; try (now apply NE in X). injection X as <- <- <-. apply (i_nd I).
    + intros u c rem X. fu t u; [destruct X as [X|X]|]; try (now apply NC in X). discriminate.
    + intros c Hc. right. exists t, (ems s), a, (handlers s). rewrite fupd_same. split; [now left|]. split; auto.
      rewrite R'. destruct (k_acc K _ Hc) as [(X&_)|(u&e&a1&rem&X&_)]; [now rewrite X|now apply NE in X].
  - (* connect starts *) cbn in D. subst p.
    assert (R' : forall c, received c (tr ++ [OConnecting t (next s) true]) = received c tr) by (intros; rewrite received_snoc; apply app_nil_r).
    assert (E5 : forall u e a rem, In (FEmit e a rem) (fupd (stk s) t (FConn (next s) (hist s) :: stk s t) u) <-> In (FEmit e a rem) (stk s u)).
    { intros. fu t u; [|reflexivity]. cbn. split; auto. intros [X|X]; [discriminate|auto]. }
    constructor; cbn.
    + intros u. fu t u; [|apply (k_lock K)]. cbn. split; [exact KL|discriminate].
    + intros u. fu t u; [|apply (k_one K)]. rewrite cnt_cons. cbn. exact KO.
    + intros u e a rem X. apply E5 in X. eapply (k_nd K); eauto.
    + intros u c rem X. rewrite R'. fu t u; [destruct X as [X|X]|]; try (eapply (k_conn K); eauto; fail).
      injection X as <- <-. now rewrite (i_recv I) by lia.
    + intros c Hc. rewrite R'. destruct (k_acc K _ Hc) as [(X&Y)|(u&e&a&rem&X&Y&Z)].
      * left. split; auto. intros u e a rem W. apply E5 in W. eauto.
      * right. exists u, e, a, rem. split; auto. now apply E5.
  - (* call *)
    assert (Top : In (FEmit e a (c :: rem)) (stk s t)) by (rewrite H0; now left).
    assert (Hin : forall u e' a' rem', In (FEmit e' a' rem') (fupd (stk s) t (FSlot c :: FEmit e a rem :: r) u) -> u = t /\ e' = e /\ a' = a /\ rem' = rem).
    { intros u e' a' rem' X. fu t u.
      - destruct X as [X|[X|X]]; [discriminate|injection X as <- <- <-; auto|].
        assert (0 < cnt isE r) by (eapply in_cnt; eauto). lia.
      - destruct (k_same _ _ _ _ _ _ _ _ I K Top X) as (?&_). congruence. }
    pose proof (k_nd K _ _ _ _ Top) as N. inversion N; subst.
    constructor; cbn.
    + intros u. fu t u; [|apply (k_lock K)]. cbn. intuition discriminate.
    + intros u. fu t u; [|apply (k_one K)]. rewrite !cnt_cons. cbn. lia.
    + intros u e' a' rem' X. apply Hin in X. destruct X as (_&_&_&->). auto.
    + intros u c' rem' X. rewrite received_snoc. cbn.
      assert (X' : In (FConn c' rem') (stk s u)). { fu t u; auto. destruct X as [X|[X|X]]; try discriminate. rewrite H0. now right. }
      destruct (c =? c') eqn:E; [|rewrite app_nil_r; eapply (k_conn K); eauto]. apply Nat.eqb_eq in E. subst c'.
      pose proof (i_fwas I t _ Top c (or_introl eq_refl)). pose proof (i_fwas I u _ X') as F. cbn in F. tauto.
    + intros c' Hc. rewrite received_snoc. cbn. destruct (c =? c') eqn:E.
      * apply Nat.eqb_eq in E. subst c'. left. destruct (k_acc K _ Hc) as [(X&Y)|(u&e1&a1&rem1&X&Y&Z)].
        -- exfalso. eapply Y; [exact Top|now left].
        -- destruct (k_same _ _ _ _ _ _ _ _ I K Top X) as (_&Q). injection Q as <- <- <-. split; auto.
           intros u' e' a' rem' W. apply Hin in W. destruct W as (_&_&_&->). auto.
      * apply Nat.eqb_neq in E. rewrite app_nil_r. destruct (k_acc K _ Hc) as [(X&Y)|(u&e1&a1&rem1&X&Y&Z)].
        -- left. split; auto. intros u' e' a' rem' W. apply Hin in W. destruct W as (_&_&_&->). intros W. eapply Y; [exact Top|now right].
        -- destruct (k_same _ _ _ _ _ _ _ _ I K Top X) as (_&Q). injection Q as <- <- <-. right. exists t, e, a, rem. rewrite fupd_same. split; [right; now left|]. split; auto. destruct Y; [congruence|auto].
  - (* skip *)
    assert (Top : In (FEmit e a (c :: rem)) (stk s t)) by (rewrite H0; now left).
    assert (Hin : forall u e' a' rem', In (FEmit e' a' rem') (fupd (stk s) t (FEmit e a rem :: r) u) -> u = t /\ e' = e /\ a' = a /\ rem' = rem).
    { intros u e' a' rem' X. fu t u.
      - destruct X as [X|X]; [injection X as <- <- <-; auto|].
        assert (0 < cnt isE r) by (eapply in_cnt; eauto). lia.
      - destruct (k_same _ _ _ _ _ _ _ _ I K Top X) as (?&_). congruence. }
    pose proof (k_nd K _ _ _ _ Top) as N. inversion N; subst.
    assert (R' : forall c', received c' (tr ++ [OSkip t e c]) = received c' tr) by (intros; rewrite received_snoc; apply app_nil_r).
    constructor; cbn.
    + intros u. fu t u; [|apply (k_lock K)]. cbn. intuition discriminate.
    + intros u. fu t u; [|apply (k_one K)]. rewrite !cnt_cons. cbn. lia.
    + intros u e' a' rem' X. apply Hin in X. destruct X as (_&_&_&->). auto.
    + intros u c' rem' X. rewrite R'. eapply (k_conn K u). fu t u; auto. destruct X as [X|X]; try discriminate. rewrite H0. now right.
    + intros c' Hc. rewrite R'. assert (c <> c'). { intros ->. apply (i_alive I) in H2. apply (i_dis I) in H2. tauto. }
      destruct (k_acc K _ Hc) as [(X&Y)|(u&e1&a1&rem1&X&Y&Z)].
        -- left. split; auto. intros u' e' a' rem' W. apply Hin in W. destruct W as (_&_&_&->). intros W. eapply Y; [exact Top|now right].
        -- destruct (k_same _ _ _ _ _ _ _ _ I K Top X) as (_&Q). injection Q as <- <- <-. right. exists t, e, a, rem. rewrite fupd_same. split; [now left|]. split; auto. destruct Y; [congruence|auto].
  - (* emitted *)
    assert (Top : In (FEmit e a []) (stk s t)) by (rewrite H0; now left).
    assert (Hin : forall u e' a' rem', ~ In (FEmit e' a' rem') (fupd (stk s) t r u)).
    { intros u e' a' rem' X. fu t u.
      - assert (0 < cnt isE r) by (eapply in_cnt; eauto). lia.
      - destruct (k_same _ _ _ _ _ _ _ _ I K Top X) as (?&_). congruence. }
    assert (R' : forall c', received c' (tr ++ [OEmitted t e]) = received c' tr) by (intros; rewrite received_snoc; apply app_nil_r).
    constructor; cbn.
    + intros u. fu t u; [|apply (k_lock K)]. tauto.
    + intros u. fu t u; [|apply (k_one K)]. lia.
    + intros u e' a' rem' X. now apply Hin in X.
    + intros u c' rem' X. rewrite R'. eapply (k_conn K u). fu t u; auto. rewrite H0. now right.
    + intros c' Hc. rewrite R'. left. split; [|intros u e' a' rem' X; now apply Hin in X].
      destruct (k_acc K _ Hc) as [(X&Y)|(u&e1&a1&rem1&X&Y&Z)]; auto.
      destruct (k_same _ _ _ _ _ _ _ _ I K Top X) as (_&Q). injection Q as <- <- <-. contradiction.
  - (* the populator sends an element *)
    assert (Top : In (FConn c (a :: rem)) (stk s t)) by (rewrite H0; now left).
    pose proof (k_conn K _ _ _ Top) as KC. pose proof (i_fwas I t _ Top) as (F1&F2).
    assert (E5 : forall u e a0 rem0, In (FEmit e a0 rem0) (fupd (stk s) t (FPSlot c :: FConn c rem :: r) u) <-> In (FEmit e a0 rem0) (stk s u)).
    { intros. fu t u; [|reflexivity]. rewrite H0. cbn. intuition discriminate. }
    constructor; cbn.
    + intros u. fu t u; [|apply (k_lock K)]. cbn. intuition discriminate.
    + intros u. fu t u; [|apply (k_one K)]. rewrite !cnt_cons. cbn. lia.
    + intros u e a0 rem0 X. apply E5 in X. eapply (k_nd K); eauto.
    + intros u c' rem' X. rewrite received_snoc. cbn. fu t u.
      * destruct X as [X|[X|X]]; [discriminate| |].
        -- injection X as <- <-. rewrite Nat.eqb_refl, <- app_assoc. exact KC.
        -- pose proof (i_conns I t) as N. rewrite H0 in N. cbn in N. inversion N; subst. apply conns_in in X as X'.
           destruct (c =? c') eqn:E; [apply Nat.eqb_eq in E; subst; contradiction|]. rewrite app_nil_r. eapply (k_conn K t). rewrite H0. now right.
      * exfalso. apply n. apply (mok_unique _ _ _ _ (i_mu I)); eapply in_cnt; eauto; reflexivity.
    + intros c' Hc. rewrite received_snoc. cbn. destruct (c =? c') eqn:E.
      { apply Nat.eqb_eq in E. subst. apply (i_hwas I) in Hc. tauto. }
      rewrite app_nil_r. destruct (k_acc K _ Hc) as [(X&Y)|(u&e1&a1&rem1&X&Y&Z)].
      * left. split; auto. intros u e1 a1 rem1 W. apply E5 in W. eauto.
      * right. exists u, e1, a1, rem1. split; auto. now apply E5.
  - (* connected *)
    assert (Top : In (FConn c []) (stk s t)) by (rewrite H0; now left).
    pose proof (k_conn K _ _ _ Top) as KC. rewrite app_nil_r in KC. pose proof (i_fwas I t _ Top) as (F1&F2).
    assert (E5 : forall u e a0 rem0, In (FEmit e a0 rem0) (fupd (stk s) t r u) <-> In (FEmit e a0 rem0) (stk s u)).
    { intros. fu t u; [|reflexivity]. rewrite H0. cbn. intuition discriminate. }
    assert (R' : forall c', received c' (tr ++ [OConnected t c]) = received c' tr) by (intros; rewrite received_snoc; apply app_nil_r).
    constructor; cbn.
    + intros u. fu t u; [|apply (k_lock K)]. tauto.
    + intros u. fu t u; [|apply (k_one K)]. lia.
    + intros u e a0 rem0 X. apply E5 in X. eapply (k_nd K); eauto.
    + intros u c' rem' X. rewrite R'. eapply (k_conn K u). fu t u; auto. rewrite H0. now right.
    + intros c' Hc. rewrite R'. apply in_app_or in Hc. destruct Hc as [Hc|[<-|[]]].
      * destruct (k_acc K _ Hc) as [(X&Y)|(u&e1&a1&rem1&X&Y&Z)].
        -- left. split; auto. intros u e1 a1 rem1 W. apply E5 in W. eauto.
        -- right. exists u, e1, a1, rem1. split; auto. now apply E5.
      * left. split; auto. intros u e1 a1 rem1 W X. apply E5 in W. pose proof (i_fwas I u _ W c X). tauto.
Qed.

Lemma reach_knv s tr : reach s tr -> disciplined tr -> knv s tr.
Proof.
  induction 1; intros D; [apply k_init|]. eapply step_knv; eauto using step_stepR, reach_inv.
  apply IHreach. now apply disc_snoc in D.
Qed.

(* ---- the properties ---- *)
Lemma no_call_after_disconnect s p t c q : reach s (p ++ ODisconnected t c :: q) ->
  received c q = [] /\ (forall u, u <> t -> ~ @inside A u c (p ++ [ODisconnected t c])).
Proof.
  intros R. split.
  - revert s R. induction q as [|o q IH] using rev_ind; intros s R; [reflexivity|].
    rewrite received_snoc. rewrite app_comm_cons, app_assoc in R. destruct (reach_split _ _ _ R) as (s1&s2&l&R1&S1&_).
    rewrite (IH _ R1). cbn. pose proof (reach_inv R1) as I. apply step_stepR in S1.
    assert (Dc : disconnected c (p ++ ODisconnected t c :: q)) by (exists t; apply in_or_app; right; now left).
    inversion S1; subst; cbn; auto.
    + destruct (c0 =? c) eqn:E; auto. apply Nat.eqb_eq in E. subst. apply (i_alive I) in Dc. congruence.
    + destruct (c0 =? c) eqn:E; auto. apply Nat.eqb_eq in E. subst. apply (i_dis I) in Dc. pose proof (i_fwas I t0 (FConn c (a :: rem))) as F. rewrite H in F. destruct (F (or_introl eq_refl)). tauto.
  - intros u Hu X. destruct (reach_split _ _ _ R) as (s1&s2&l&R1&S1&R2). pose proof (reach_inv R1) as I. apply step_stepR in S1.
    inversion S1; subst. unfold inside in X. rewrite entered_snoc, left_snoc in X. rewrite (i_in I) in X.
    destruct (@cnt_in A (isS c) (stk s1 u)) as (f&F1&F2); [lia|].
    destruct f; try discriminate; cbn in F2; apply Nat.eqb_eq in F2; subst.
    + pose proof (mok_others _ _ (i_tmu I c) H3 Hu) as Z. assert (0 < cnt (isT c) (stk s1 u)); [|lia]. eapply in_cnt; eauto. cbn. apply Nat.eqb_refl.
    + apply (wfs_ps _ _ (i_wf I u)) in F1. destruct F1 as (rem&F1). pose proof (i_fwas I u _ F1) as F. cbn in F.
      pose proof (i_fwas I t (FDisc c)) as G. rewrite H2 in G. specialize (G (or_introl eq_refl)). cbn in G. tauto.
Qed.

Lemma one_thread_per_slot s tr t u c : reach s tr -> @inside A t c tr -> @inside A u c tr -> t = u.
Proof.
  intros R X Y. pose proof (reach_inv R) as I. unfold inside in *. rewrite (i_in I) in X, Y.
  destruct (@cnt_in A (isS c) (stk s t)) as (f&F1&F2); [lia|]. destruct (@cnt_in A (isS c) (stk s u)) as (g&G1&G2); [lia|].
  assert (CW : forall t, In (FPSlot c) (stk s t) -> 0 < cnt (@isH A) (stk s t) /\ ~ was c tr).
  { intros v V. apply (wfs_ps _ _ (i_wf I v)) in V. destruct V as (rem&V). pose proof (i_fwas I v _ V) as F. cbn in F. split; [|tauto]. eapply in_cnt; eauto. }
  destruct f; try discriminate; cbn in F2; apply Nat.eqb_eq in F2; subst; destruct g; try discriminate; cbn in G2; apply Nat.eqb_eq in G2; subst.
  - apply (mok_unique _ _ _ _ (i_tmu I c)); eapply in_cnt; eauto; cbn; apply Nat.eqb_refl.
  - apply CW in G1. pose proof (i_fwas I t _ F1) as F. cbn in F. tauto.
  - apply CW in F1. pose proof (i_fwas I u _ G1) as F. cbn in F. tauto.
  - apply (mok_unique _ _ _ _ (i_mu I)); now apply CW.
Qed.

Lemma emission_prefix (s : st) p o q t e a : reach s (p ++ o :: q) -> emission o t e a ->
  exists rest, connected p = handled e (p ++ o :: q) ++ rest.
Proof.
  intros R E. pose proof (reach_jnv R) as J.
  destruct (j_case J (in_elt o p q) E) as [(rem&X)|X].
  - destruct (j_frame J _ _ _ _ X) as (p1&o1&q1&E1&E2&E3). destruct (j_uniq J _ _ _ _ eq_refl E1 E E2) as (->&_). eauto.
  - destruct (j_done J _ _ X) as (_&p1&o1&q1&a1&E1&E2&E3). destruct (j_uniq J _ _ _ _ eq_refl E1 E E2) as (->&_). exists []. now rewrite app_nil_r.
Qed.

Lemma emission_complete (s : st) p o q t e a t' : reach s (p ++ o :: q) -> emission o t e a -> In (OEmitted t' e) q ->
  handled e (p ++ o :: q) = connected p /\ t' = t.
Proof.
  intros R E X. pose proof (reach_jnv R) as J.
  destruct (j_done J t' e) as (_&p1&o1&q1&a1&E1&E2&E3); [apply in_or_app; right; now right|].
  destruct (j_uniq J _ _ _ _ eq_refl E1 E E2) as (->&->&_). auto.
Qed.

Lemma call_of_emission (s : st) p t e c a q : reach s (p ++ OCall t e c a :: q) ->
  (exists p1 o p2, p = p1 ++ o :: p2 /\ emission o t e a) /\ ~ disconnected c p.
Proof.
  intros R. destruct (reach_split _ _ _ R) as (s1&s2&l&R1&S1&_). pose proof (reach_inv R1) as I. pose proof (reach_jnv R1) as J. apply step_stepR in S1. inversion S1; subst. split.
  - destruct (j_frame J t e a (c :: rem)) as (p1&o1&q1&E1&E2&E3); [match goal with E : stk _ _ = _ |- _ => rewrite E end; now left|]. eauto.
  - intros D. apply (i_alive I) in D. congruence.
Qed.
Lemma skip_disconnected s p t e c q : @reach A s (p ++ OSkip t e c :: q) -> disconnected c p.
Proof.
  intros R. destruct (reach_split _ _ _ R) as (s1&s2&l&R1&S1&_). pose proof (reach_inv R1) as I. apply step_stepR in S1. inversion S1; subst. now apply (i_alive I).
Qed.

Lemma connected_nodup s tr : @reach A s tr -> NoDup (connected tr).
Proof. intros R. rewrite <- (i_h (reach_inv R)). apply (i_nd (reach_inv R)). Qed.

Lemma populated (s : st) tr c : reach s tr -> disciplined tr -> In c (connected tr) ->
  (exists p, received c tr ++ p = @added A tr /\ length p <= 1) /\
  ((forall t, ~ locking t tr) -> received c tr = added tr).
Proof.
  intros R D Hc. pose proof (reach_inv R) as I. pose proof (reach_knv R D) as K. rewrite <- (i_h I) in Hc. rewrite <- (i_hist I).
  destruct (k_acc K _ Hc) as [(X&Y)|(u&e1&a1&rem1&X&Y&Z)].
  - split; auto. exists []. rewrite app_nil_r. auto.
  - split; [exists [a1]; auto|]. intros L. exfalso. apply (L u). unfold locking. rewrite (i_lk I). pose proof (lockE_in _ _ _ _ (k_lock K u) X). lia.
Qed.
End P.
