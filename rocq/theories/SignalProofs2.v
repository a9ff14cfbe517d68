From Coq Require Import List Arith Lia Bool.
From Verif Require Import Conc SignalSpec SignalModel SignalProofs.
Import ListNotations.
Set Implicit Arguments.

Section P.
Variable A : Type.
Notation st := (st A). Notation obs := (obs A). Notation frame := (frame A).
Ltac fu t u := destruct (Nat.eq_dec u t) as [->|?]; [rewrite ?fupd_same in *|rewrite ?fupd_other in * by assumption].

Lemma snoc_split (X : Type) (p q tr : list X) x o : p ++ x :: q = tr ++ [o] ->
  (q = [] /\ p = tr /\ x = o) \/ (exists q', q = q' ++ [o] /\ tr = p ++ x :: q').
Proof.
  intros H. destruct q as [|y q] using rev_ind.
  - left. apply app_inj_tail in H. tauto.
  - right. clear IHq. rewrite app_comm_cons, app_assoc in H. apply app_inj_tail in H. destruct H as (<-&->). eauto.
Qed.
Lemma reach_split (s : st) p o q : reach s (p ++ o :: q) -> exists s1 s2 l, reach s1 p /\ step s1 l = Some (s2, o) /\ reach s2 (p ++ [o]).
Proof.
  remember (p ++ o :: q) as tr eqn:E. intros H. revert p o q E. induction H as [|s tr l s' o' H IH Hs]; intros p o q E.
  - destruct p; discriminate.
  - symmetry in E. apply snoc_split in E. destruct E as [(->&->&->)|(q'&->&->)].
    + exists s, s', l. repeat split; auto. eapply reach_step; eauto.
    + eapply IH. reflexivity.
Qed.

Definition eids (l : list frame) : list nat := flat_map (fun f => match f with FEmit e _ _ => [e] | _ => [] end) l.
Lemma eids_in e a rem (l : list frame) : In (FEmit e a rem) l -> In e (eids l).
Proof. intros H. apply in_flat_map. eexists. split; [exact H|]. now left. Qed.
Lemma in_eids e (l : list frame) : In e (eids l) -> exists a rem, In (FEmit e a rem) l.
Proof. intros H. apply in_flat_map in H. destruct H as (f&H1&H2). destruct f; cbn in H2; try contradiction. destruct H2 as [->|[]]. eauto. Qed.

Record jnv (s : st) (tr : list obs) : Prop := {
  j_lt : forall o t e a, In o tr -> emission o t e a -> e < ems s;
  j_uniq : forall p1 o1 q1 p2 o2 q2 t1 t2 e a1 a2, tr = p1 ++ o1 :: q1 -> tr = p2 ++ o2 :: q2 ->
     emission o1 t1 e a1 -> emission o2 t2 e a2 -> p1 = p2 /\ t1 = t2 /\ a1 = a2;
  j_frame : forall t e a rem, In (FEmit e a rem) (stk s t) ->
     exists p o q, tr = p ++ o :: q /\ emission o t e a /\ connected p = handled e tr ++ rem;
  j_nd : forall t, NoDup (eids (stk s t));
  j_new : forall e, ems s <= e -> handled e tr = [];
  j_done : forall t e, In (OEmitted t e) tr -> (forall u a rem, ~ In (FEmit e a rem) (stk s u)) /\
     exists p o q a, tr = p ++ o :: q /\ emission o t e a /\ connected p = handled e tr;
  j_case : forall o t e a, In o tr -> emission o t e a -> (exists rem, In (FEmit e a rem) (stk s t)) \/ In (OEmitted t e) tr }.

Lemma emission_inj (o : obs) t e a t' e' a' : emission o t e a -> emission o t' e' a' -> t = t' /\ e = e' /\ a = a'.
Proof. intros [->|(b&->)] [H|(b'&H)]; inversion H; auto. Qed.

Lemma j_init : jnv (init A) [].
Proof.
  constructor; cbn; try contradiction; auto.
  - intros. destruct p1; discriminate.
  - constructor.
Qed.

(** what a step does to the frame of an emission *)
Lemma step_emits s s' o : stepR s s' o ->
  (exists t a, emission o t (ems s) a /\ ems s' = S (ems s) /\ stk s' = fupd (stk s) t (FEmit (ems s) a (handlers s) :: stk s t) /\ user (stk s t) = true) \/
  ((forall t e a, ~ emission o t e a) /\ ems s' = ems s /\
   ((exists t e a c rem r, stk s t = FEmit e a (c :: rem) :: r /\ (stk s' = fupd (stk s) t (FSlot c :: FEmit e a rem :: r) \/ stk s' = fupd (stk s) t (FEmit e a rem :: r)) /\ handled1 e o = [c] /\ (forall e', e' <> e -> handled1 e' o = []) /\ (forall t e, o <> OEmitted t e)) \/
    (exists t e a r, stk s t = FEmit e a [] :: r /\ stk s' = fupd (stk s) t r /\ o = OEmitted t e) \/
    ((forall e, handled1 e o = []) /\ (forall t e, o <> OEmitted t e) /\ forall t, exists fs r, stk s t = fs ++ r /\ (exists fs', stk s' t = fs' ++ r /\ eids fs' = []) /\ eids fs = []))).
Proof.
  intros H.
  assert (E1 : forall t e a, ~ emission (OLocked t : obs) t e a). { intros t e a [X|(b&X)]; discriminate. }
  inversion H; subst; cbn [stk ems].
  all: try (left; exists t, a; split; [unfold emission; eauto|split; [reflexivity|split; [reflexivity|]]]; [auto; match goal with E : stk _ _ = _ |- _ => now rewrite E | _ => assumption end]).
  all: right; split; [intros ? ? ? [X|(?&X)]; discriminate|split; [reflexivity|]].
  all: try (right; right; split; [intros; reflexivity|split; [intros; discriminate|]]; intros u; fu t u;
     [first [ exists [], (stk s t); split; [reflexivity|split; [eexists [_]; split; reflexivity|reflexivity]]
            | match goal with E : stk _ _ = ?f :: ?r |- _ => exists [f], r; rewrite E; split; [reflexivity|split; [first [exists []; split; reflexivity | eexists [_; _]; split; reflexivity]|reflexivity]] end]
     |exists [], (stk s u); split; [reflexivity|split; [exists []; split; reflexivity|reflexivity]]]).
  - left. exists t, e, a, c, rem, r. split; [auto|split; [auto|]]. cbn. rewrite Nat.eqb_refl. split; auto. split; [|intros; discriminate].
    intros e' Hn. destruct (e =? e') eqn:X; auto. apply Nat.eqb_eq in X. congruence.
  - left. exists t, e, a, c, rem, r. split; [auto|split; [auto|]]. cbn. rewrite Nat.eqb_refl. split; auto. split; [|intros; discriminate].
    intros e' Hn. destruct (e =? e') eqn:X; auto. apply Nat.eqb_eq in X. congruence.
  - right. left. exists t, e, a, r. auto.
Qed.

Lemma eids_app (l1 l2 : list frame) : eids (l1 ++ l2) = eids l1 ++ eids l2.
Proof. apply flat_map_app. Qed.
Lemma noE_in e a rem (fs r : list frame) : eids fs = [] -> In (FEmit e a rem) (fs ++ r) <-> In (FEmit e a rem) r.
Proof.
  intros H. split; intros X.
  - apply in_app_or in X. destruct X as [X|X]; auto. apply eids_in in X. rewrite H in X. contradiction.
  - apply in_or_app. auto.
Qed.

Lemma em_in_snoc tr o o' t e a : In o' (tr ++ [o]) -> emission (o' : obs) t e a -> (forall t e a, ~ emission o t e a) -> In o' tr.
Proof. intros X E N. apply in_app_or in X. destruct X as [X|[<-|[]]]; auto. now apply N in E. Qed.

Lemma step_jnv s tr s' o : inv s tr -> jnv s tr -> stepR s s' o -> jnv s' (tr ++ [o]).
Proof.
  intros I J H. pose proof (step_emits H) as C.
  destruct C as [(t&a&Em&Hems&Hs&U)|(N&Hems&C)].
  - (* an emission starts *)
    assert (Hh : forall e, handled1 e o = []) by (intros; destruct Em as [->|(b&->)]; reflexivity).
    assert (Hne : forall t e, o <> OEmitted t e) by (intros; destruct Em as [->|(b&->)]; discriminate).
    constructor.
    + intros o' t' e' a' X E. rewrite Hems. apply in_app_or in X. destruct X as [X|[<-|[]]].
      * pose proof (j_lt J X E). lia.
      * destruct (emission_inj Em E) as (_&->&_). lia.
    + intros p1 o1 q1 p2 o2 q2 t1 t2 e a1 a2 X1 X2 E1 E2.
      symmetry in X1, X2. apply snoc_split in X1. apply snoc_split in X2.
      destruct X1 as [(->&->&->)|(q1'&->&X1)], X2 as [(->&->&->)|(q2'&->&X2)].
      * destruct (emission_inj E1 E2) as (->&_&->). auto.
      * destruct (emission_inj Em E1) as (_&<-&_). assert (ems s < ems s); [|lia]. eapply (j_lt J); [|exact E2]. rewrite X2. apply in_or_app; right; now left.
      * destruct (emission_inj Em E2) as (_&<-&_). assert (ems s < ems s); [|lia]. eapply (j_lt J); [|exact E1]. rewrite X1. apply in_or_app; right; now left.
      * eapply (j_uniq J); eauto.
    + intros u e a0 rem X. rewrite Hs in X. rewrite handled_snoc, Hh, app_nil_r.
      assert (K : In (FEmit e a0 rem) (stk s u) -> exists p o0 q, tr ++ [o] = p ++ o0 :: q /\ emission o0 u e a0 /\ connected p = handled e tr ++ rem).
      { intros Y. destruct (j_frame J _ _ _ _ Y) as (p&o0&q&->&Y1&Y2). exists p, o0, (q ++ [o]). rewrite <- app_assoc. auto. }
      fu t u; auto. destruct X as [X|X]; auto. injection X as <- <- <-.
      exists tr, o, []. split; auto. split; auto. rewrite (j_new J) by lia. cbn. symmetry. apply (i_h I).
    + intros u. rewrite Hs. pose proof (j_nd J u) as ND. fu t u; auto. cbn. constructor; auto. intros X.
      apply in_eids in X. destruct X as (a'&rem&X). destruct (j_frame J _ _ _ _ X) as (p&o0&q&->&Y1&Y2).
      assert (ems s < ems s); [|lia]. eapply (j_lt J); [|exact Y1]. apply in_or_app; right; now left.
    + intros e He. rewrite handled_snoc, Hh, app_nil_r. apply (j_new J). lia.
    + intros u e X. apply in_app_or in X. destruct X as [X|[X|[]]]; [|now apply Hne in X].
      destruct (j_done J _ _ X) as (D1&p&o0&q&a0&D2&D3&D4). split.
      * intros v a1 rem Y. rewrite Hs in Y. fu t v; [|now apply D1 in Y]. destruct Y as [Y|Y]; [|now apply D1 in Y]. injection Y as <- <- <-.
        assert (ems s < ems s); [|lia]. eapply (j_lt J); [|exact D3]. rewrite D2. apply in_or_app; right; now left.
      * exists p, o0, (q ++ [o]), a0. rewrite handled_snoc, Hh, app_nil_r. subst tr. rewrite <- app_assoc. auto.
    + intros o' t' e' a' X E. apply in_app_or in X. destruct X as [X|[<-|[]]].
      * destruct (j_case J X E) as [(rem&Y)|Y]; [left; exists rem|right; apply in_or_app; auto].
        rewrite Hs. fu t t'; auto. now right.
      * destruct (emission_inj Em E) as (<-&<-&<-). left. exists (handlers s). rewrite Hs, fupd_same. now left.
  - assert (Jlt : forall o' t e a, In o' (tr ++ [o]) -> emission o' t e a -> e < ems s').
    { intros o' t e a X E. rewrite Hems. eapply (j_lt J); [|exact E]. eapply em_in_snoc; eauto. }
    assert (Juq : forall p1 o1 q1 p2 o2 q2 t1 t2 e a1 a2, tr ++ [o] = p1 ++ o1 :: q1 -> tr ++ [o] = p2 ++ o2 :: q2 ->
       emission o1 t1 e a1 -> emission o2 t2 e a2 -> p1 = p2 /\ t1 = t2 /\ a1 = a2).
    { intros p1 o1 q1 p2 o2 q2 t1 t2 e a1 a2 X1 X2 E1 E2.
      symmetry in X1, X2. apply snoc_split in X1. apply snoc_split in X2.
      destruct X1 as [(->&->&->)|(q1'&->&X1)]; [now apply N in E1|]. destruct X2 as [(->&->&->)|(q2'&->&X2)]; [now apply N in E2|].
      eapply (j_uniq J); eauto. }
    assert (Uq : forall u v e a rem a' rem', In (FEmit e a rem) (stk s u) -> In (FEmit e a' rem') (stk s v) -> u = v).
    { intros u v e a rem a' rem' X1 X2. destruct (j_frame J _ _ _ _ X1) as (p1&o1&q1&E1&M1&_). destruct (j_frame J _ _ _ _ X2) as (p2&o2&q2&E2&M2&_).
      now destruct (j_uniq J _ _ _ _ E1 E2 M1 M2) as (_&?&_). }
    assert (Fr : forall e, handled1 e o = [] -> forall u a rem, In (FEmit e a rem) (stk s u) -> exists p o0 q, tr ++ [o] = p ++ o0 :: q /\ emission o0 u e a /\ connected p = handled e (tr ++ [o]) ++ rem).
    { intros e He u a rem Y. destruct (j_frame J _ _ _ _ Y) as (p&o0&q&->&Y1&Y2). exists p, o0, (q ++ [o]).
      split; [now rewrite <- app_assoc|]. split; auto. now rewrite handled_snoc, He, app_nil_r. }
    destruct C as [(t&e0&a0&c&rem0&r&E&Hs&Hh1&Hh2&Hne)|[(t&e0&a0&r&E&Hs&Ho)|(Hh&Hne&Hs)]].
    + (* one connection is dealt with *)
      assert (Hin : forall u e a rem, In (FEmit e a rem) (stk s' u) -> (u = t /\ e = e0 /\ a = a0 /\ rem = rem0) \/ (e <> e0 /\ In (FEmit e a rem) (stk s u))).
      { intros u e a rem X.
        assert (Y : (u = t /\ e = e0 /\ a = a0 /\ rem = rem0) \/ (In (FEmit e a rem) (stk s u) /\ (u = t -> In (FEmit e a rem) r))).
        { destruct Hs as [Hs|Hs]; rewrite Hs in X; fu t u; auto.
          - destruct X as [X|[X|X]]; [discriminate| |]. + injection X as <- <- <-. auto. + right. rewrite E. split; auto. now right.
          - right. split; auto. contradiction.
          - destruct X as [X|X]. + injection X as <- <- <-. auto. + right. rewrite E. split; auto. now right.
          - right. split; auto. contradiction. }
        destruct Y as [Y|(Y&Z)]; auto. right. split; auto. intros ->. assert (u = t). { eapply Uq; eauto. rewrite E. now left. } subst u.
        pose proof (j_nd J t) as ND. rewrite E in ND. cbn in ND. inversion ND; subst. specialize (Z eq_refl). apply eids_in in Z. contradiction. }
      constructor; auto.
      * intros u e a rem X. destruct (Hin _ _ _ _ X) as [(->&->&->&->)|(Hn&Y)]; [|apply Fr; auto].
        destruct (j_frame J t e0 a0 (c :: rem0)) as (p&o0&q&->&Y1&Y2); [rewrite E; now left|].
        exists p, o0, (q ++ [o]). split; [now rewrite <- app_assoc|]. split; auto. rewrite handled_snoc, Hh1, <- app_assoc. exact Y2.
      * intros u. pose proof (j_nd J u) as ND. destruct Hs as [Hs|Hs]; rewrite Hs; fu t u; auto; rewrite E in ND; exact ND.
      * intros e He. rewrite handled_snoc. rewrite (j_new J) by lia. cbn. apply Hh2. intros ->.
        destruct (j_frame J t e0 a0 (c :: rem0)) as (p&o0&q&Y0&Y1&Y2); [rewrite E; now left|].
        assert (e0 < ems s); [|lia]. eapply (j_lt J); [|exact Y1]. rewrite Y0. apply in_or_app; right; now left.
      * intros u e X. apply in_app_or in X. destruct X as [X|[X|[]]]; [|now apply Hne in X].
        destruct (j_done J _ _ X) as (D1&p&o0&q&a1&D2&D3&D4).
        assert (e <> e0). { intros ->. eapply (D1 t). rewrite E. now left. }
        split. -- intros v a2 rem Y. destruct (Hin _ _ _ _ Y) as [(_&?&_)|(_&Z)]; [congruence|]. now apply D1 in Z.
        -- exists p, o0, (q ++ [o]), a1. rewrite handled_snoc, Hh2, app_nil_r by auto. subst tr. rewrite <- app_assoc. auto.
      * intros o' t' e' a' X Em. apply em_in_snoc with (t := t') (e := e') (a := a') in X; auto.
        destruct (j_case J X Em) as [(rem&Y)|Y]; [left|right; apply in_or_app; auto].
        destruct (Nat.eq_dec t' t) as [->|Hn].
        -- rewrite E in Y. destruct Y as [Y|Y]. ++ injection Y as <- <- <-. exists rem0. destruct Hs as [Hs|Hs]; rewrite Hs, fupd_same; cbn; auto.
           ++ exists rem. destruct Hs as [Hs|Hs]; rewrite Hs, fupd_same; cbn; auto.
        -- exists rem. destruct Hs as [Hs|Hs]; rewrite Hs, fupd_other by auto; auto.
    + (* an emission ends *)
      assert (Hin : forall u e a rem, In (FEmit e a rem) (stk s' u) -> e <> e0 /\ In (FEmit e a rem) (stk s u)).
      { intros u e a rem X.
        assert (Y : In (FEmit e a rem) (stk s u) /\ (u = t -> In (FEmit e a rem) r)).
        { rewrite Hs in X; fu t u; auto. - rewrite E. split; auto. now right. - split; auto. contradiction. }
        destruct Y as (Y&Z). split; auto. intros ->. assert (u = t). { eapply Uq; eauto. rewrite E. now left. } subst u.
        pose proof (j_nd J t) as ND. rewrite E in ND. cbn in ND. inversion ND; subst. specialize (Z eq_refl). apply eids_in in Z. contradiction. }
      assert (Hh : forall e, handled1 e o = []) by (subst o; reflexivity).
      constructor; auto.
      * intros u e a rem X. apply Fr; auto. now apply Hin in X.
      * intros u. pose proof (j_nd J u) as ND. rewrite Hs; fu t u; auto; rewrite E in ND; cbn in ND; now inversion ND.
      * intros e He. rewrite handled_snoc, Hh, app_nil_r. apply (j_new J). lia.
      * intros u e X. apply in_app_or in X.
        assert (D : (forall v a2 rem, ~ In (FEmit e a2 rem) (stk s' v)) /\ exists p o0 q a, tr = p ++ o0 :: q /\ emission o0 u e a /\ connected p = handled e tr).
        { destruct X as [X|[X|[]]].
          - destruct (j_done J _ _ X) as (D1&D). split; auto. intros v a2 rem Y. apply Hin in Y. destruct Y as (_&Y). now apply D1 in Y.
          - subst o. injection X as <- <-. split. + intros v a2 rem Y. apply Hin in Y. tauto.
            + destruct (j_frame J t e0 a0 []) as (p&o0&q&Y0&Y1&Y2); [rewrite E; now left|]. rewrite app_nil_r in Y2. eauto 8. }
        destruct D as (D1&p&o0&q&a1&D2&D3&D4). split; auto.
        exists p, o0, (q ++ [o]), a1. rewrite handled_snoc, Hh, app_nil_r by auto. subst tr. rewrite <- app_assoc. auto.
      * intros o' t' e' a' X Em. apply em_in_snoc with (t := t') (e := e') (a := a') in X; auto.
        destruct (j_case J X Em) as [(rem&Y)|Y]; [|right; apply in_or_app; auto].
        destruct (Nat.eq_dec t' t) as [->|Hn].
        -- rewrite E in Y. destruct Y as [Y|Y]. ++ injection Y as <- <- <-. right. subst o. apply in_or_app. right. now left.
           ++ left. exists rem. now rewrite Hs, fupd_same.
        -- left. exists rem. now rewrite Hs, fupd_other.
    + (* anything else *)
      assert (Hin : forall u e a rem, In (FEmit e a rem) (stk s' u) <-> In (FEmit e a rem) (stk s u)).
      { intros u e a rem. destruct (Hs u) as (fs&r&->&(fs'&->&F')&F). now rewrite !noE_in. }
      constructor; auto.
      * intros u e a rem X. apply Fr; auto. now apply Hin.
      * intros u. pose proof (j_nd J u) as ND. destruct (Hs u) as (fs&r&Es&(fs'&->&F')&F). rewrite Es in ND. rewrite eids_app in *. now rewrite F' in *; rewrite F in *.
      * intros e He. rewrite handled_snoc, Hh, app_nil_r. apply (j_new J). lia.
      * intros u e X. apply in_app_or in X. destruct X as [X|[X|[]]]; [|now apply Hne in X].
        destruct (j_done J _ _ X) as (D1&p&o0&q&a1&D2&D3&D4). split.
        -- intros v a2 rem Y. apply Hin in Y. now apply D1 in Y.
        -- exists p, o0, (q ++ [o]), a1. rewrite handled_snoc, Hh, app_nil_r by auto. subst tr. rewrite <- app_assoc. auto.
      * intros o' t' e' a' X Em. apply em_in_snoc with (t := t') (e := e') (a := a') in X; auto.
        destruct (j_case J X Em) as [(rem&Y)|Y]; [left; exists rem; now apply Hin|right; apply in_or_app; auto].
Qed.

Lemma reach_jnv s tr : reach s tr -> jnv s tr.
Proof. induction 1; [apply j_init|]. eapply step_jnv; eauto using step_stepR, reach_inv. Qed.
End P.
