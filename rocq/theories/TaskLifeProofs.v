From Coq Require Import List Arith Bool Lia.
From Verif Require Import Base Conc TaskLifeModel TaskLifeSpec.
Import ListNotations.
Set Implicit Arguments.

Record inv (s : st) : Prop := {
  i_own : forall t, owner s = Some t -> depth s = length (stack s t) /\ stack s t <> [];
  i_free : forall t, owner s <> Some t -> stack s t = [];
  i_set : forall t fs, stack s t = KillSet :: fs -> alive s = false;
  i_tail : forall t f fs, stack s t = f :: fs -> Forall (eq Running) fs;
  i_rel : forall t n, In (EReleased t n) (log s) -> alive s = false;
  i_rel0 : forall t, In (EReleased t 0) (log s) -> forall u, ~ running s u;
  i_reln : forall t n, In (EReleased t n) (log s) -> forall u, running s u -> u = t;
  i_start : forall t before, happened (log s) (EStarted t) before -> forall u n, ~ In (EReleased u n) before }.

Lemma init_inv a : inv (init a).
Proof. constructor; cbn; try easy. intros t b [x H]. destruct x; discriminate. Qed.

Lemma fupd_dec A (f : nat -> A) t a u : {u = t /\ fupd f t a u = a} + {u <> t /\ fupd f t a u = f u}.
Proof.
  destruct (Nat.eq_dec u t) as [->|N]; [left|right]; split; auto; [apply fupd_same|now apply fupd_other].
Qed.
Lemma happened_cons e l x b : happened (x :: l) e b -> (e = x /\ b = l) \/ happened l e b.
Proof. intros [[|y a] H]; cbn in H; injection H as H1 H2; [left; auto|right; exists a; auto]. Qed.

Lemma rf_zero l : running_frames l = 0 -> ~ In Running l.
Proof.
  unfold running_frames. intros H X. assert (In Running (filter (fun f => match f with Running => true | _ => false end) l)) by (apply filter_In; auto).
  destruct (filter _ l); [contradiction|discriminate].
Qed.

(** pushing a non-running frame *)
Lemma lock_inv s t f s' : inv s -> user (stack s t) = true -> (f = TryLocked \/ f = KillLocked) -> lock s t f = Some s' -> inv s'.
Proof.
  intros [O F ST TL R R0 RN SB] U Hf. unfold lock.
  assert (OW : owner s = None -> stack s t = []) by (intros X; apply F; congruence).
  assert (T : Forall (eq Running) (stack s t)).
  { destruct (stack s t) as [|g gs] eqn:E; auto. destruct g; try discriminate. constructor; auto. now apply (TL t Running). }
  assert (G : forall d, (owner s = None \/ owner s = Some t) -> d = S (length (stack s t)) ->
    inv (mk_st (fupd (stack s) t (f :: stack s t)) (Some t) d (alive s) (log s))).
  { intros d Ho Hd.
    assert (RR : forall u, running (mk_st (fupd (stack s) t (f :: stack s t)) (Some t) d (alive s) (log s)) u -> running s u).
    { intros u. unfold running. cbn. destruct (fupd_dec (stack s) t (f :: stack s t) u) as [[-> X]|[N X]]; rewrite X; auto.
      intros [Y|Y]; auto. destruct Hf; congruence. }
    constructor; cbn; auto.
    - intros u [= <-]. rewrite fupd_same. cbn. split; [auto|discriminate].
    - intros u N. rewrite fupd_other by congruence. apply F. destruct Ho as [-> | ->]; congruence.
    - intros u fs. destruct (fupd_dec (stack s) t (f :: stack s t) u) as [[-> X]|[N X]]; rewrite X; [|apply ST].
      intros [= -> _]. destruct Hf; discriminate.
    - intros u g gs. destruct (fupd_dec (stack s) t (f :: stack s t) u) as [[-> X]|[N X]]; rewrite X; [|apply TL].
      intros [= _ <-]. exact T.
    - intros u H v Hv. apply (R0 u H v). auto.
    - intros u n H v Hv. apply (RN u n H v). auto. }
  destruct (owner s) as [u|] eqn:Eo.
  - destruct (u =? t) eqn:Eu; [|discriminate]. apply Nat.eqb_eq in Eu. subst. intros [= <-]. apply G; auto.
    now rewrite (proj1 (O t eq_refl)).
  - intros [= <-]. apply G; auto. now rewrite OW.
Qed.

(** popping the innermost frame *)
Lemma unlock_inv s t f fs e : inv s -> stack s t = f :: fs ->
  (forall u, e <> EStarted u) ->
  (forall u n, e = EReleased u n -> f = KillSet /\ u = t /\ n = running_frames fs) -> inv (unlock s t e).
Proof.
  intros I E NE NR. pose proof I as [O F ST TL R R0 RN SB].
  assert (Ho : owner s = Some t).
  { destruct (owner s) as [u|] eqn:Eo; [destruct (Nat.eq_dec u t) as [->|N]; auto|]; rewrite (F t) in E; congruence. }
  destruct (O t Ho) as [D _]. rewrite E in D. cbn in D.
  assert (TT : Forall (eq Running) fs) by now apply (TL t f).
  assert (RR : forall u, In Running (fupd (stack s) t fs u) -> running s u).
  { intros u. unfold running. destruct (fupd_dec (stack s) t fs u) as [[-> X]|[N X]]; rewrite X; auto. rewrite E. now right. }
  unfold unlock. rewrite E, D. cbn [tl].
  constructor; cbn [stack owner depth alive log].
  - intros u. destruct (S (length fs) =? 1) eqn:E1; [discriminate|]. rewrite Ho. intros [= <-]. rewrite fupd_same.
    apply Nat.eqb_neq in E1. split; [lia|]. intros ->. now apply E1.
  - intros u. destruct (S (length fs) =? 1) eqn:E1.
    + intros _. apply Nat.eqb_eq in E1. assert (fs = []) by (destruct fs; auto; discriminate). subst.
      destruct (fupd_dec (stack s) t [] u) as [[-> X]|[N X]]; rewrite X; auto. apply F. congruence.
    + intros N. rewrite fupd_other by congruence. now apply F.
  - intros u gs. destruct (fupd_dec (stack s) t fs u) as [[-> X]|[N X]]; rewrite X; [|apply ST].
    intros ->. inversion TT. discriminate.
  - intros u g gs. destruct (fupd_dec (stack s) t fs u) as [[-> X]|[N X]]; rewrite X; [|apply TL].
    intros ->. now inversion TT.
  - intros u n [X|X]; [|now apply (R u n)]. destruct (NR u n X) as (-> & _). now apply (ST t fs).
  - intros u [X|X] v Hv; apply RR in Hv; [|now apply (R0 u X v)].
    destruct (NR u 0 X) as (-> & -> & Hn). symmetry in Hn. apply rf_zero in Hn.
    destruct (Nat.eq_dec v t) as [->|N].
    + unfold running in Hv. rewrite E in Hv. destruct Hv; [discriminate|auto].
    + unfold running in Hv. rewrite F in Hv; [contradiction|congruence].
  - intros u n [X|X] v Hv; apply RR in Hv; [|now apply (RN u n X v)].
    destruct (NR u n X) as (-> & -> & Hn).
    destruct (Nat.eq_dec v t) as [->|N]; auto. unfold running in Hv. rewrite F in Hv; [contradiction|congruence].
  - intros u b H. apply happened_cons in H. destruct H as [[X _]|H]; [now destruct (NE u)|now apply (SB u b)].
Qed.

Lemma step_inv s l s' : inv s -> step s l = Some s' -> inv s'.
Proof.
  intros I. destruct l as [t c]. unfold step. cbn [fst snd].
  destruct c.
  - destruct (user (stack s t)) eqn:U; [|discriminate]. intros H. apply (@lock_inv s t TryLocked s' I U); auto.
  - destruct (stack s t) as [|f fs] eqn:E; [discriminate|]. destruct f; try discriminate. intros [= <-].
    eapply unlock_inv; eauto; discriminate.
  - destruct (user (stack s t)) eqn:U; [|discriminate]. intros H. apply (@lock_inv s t KillLocked s' I U); auto.
  - destruct (user (stack s t)); [|discriminate]. intros [= <-]. destruct I as [O F ST TL R R0 RN SB]. constructor; cbn; auto.
    + intros u n [X|X]; [discriminate|eauto].
    + intros u [X|X]; [discriminate|eauto].
    + intros u n [X|X]; [discriminate|eauto].
    + intros u b H. apply happened_cons in H. destruct H as [[X _]|H]; [discriminate|now apply (SB u b)].
  - destruct (stack s t) as [|f fs] eqn:E; [discriminate|]. destruct f; try discriminate.
    + destruct (alive s) eqn:A; intros [= <-]; [|eapply unlock_inv; eauto; discriminate].
      destruct I as [O F ST TL R R0 RN SB].
      assert (NR : forall u n, ~ In (EReleased u n) (log s)) by (intros u n X; apply R in X; congruence).
      assert (Ho : owner s = Some t).
      { destruct (owner s) as [u|] eqn:Eo; [destruct (Nat.eq_dec u t) as [->|N]; auto|]; rewrite (F t) in E; congruence. }
      constructor; cbn.
      * intros u Hu. rewrite Hu in Ho. injection Ho as ->. rewrite fupd_same. destruct (O t Hu) as [D _]. rewrite E in D. cbn. split; [auto|discriminate].
      * intros u N. rewrite fupd_other by congruence. now apply F.
      * intros u gs. destruct (fupd_dec (stack s) t (Running :: fs) u) as [[-> X]|[N X]]; rewrite X; [discriminate|]. rewrite <- A. apply ST.
      * intros u g gs. destruct (fupd_dec (stack s) t (Running :: fs) u) as [[-> X]|[N X]]; rewrite X; [|apply TL].
        intros [= _ <-]. now apply (TL t TryLocked).
      * intros u n [X|X]; [discriminate|]. now apply NR in X.
      * intros u [X|X]; [discriminate|]. now apply NR in X.
      * intros u n [X|X]; [discriminate|]. now apply NR in X.
      * intros u b H. apply happened_cons in H. destruct H as [[_ ->]|H]; [exact NR|now apply (SB u b)].
    + intros [= <-]. destruct I as [O F ST TL R R0 RN SB].
      assert (Ho : owner s = Some t).
      { destruct (owner s) as [u|] eqn:Eo; [destruct (Nat.eq_dec u t) as [->|N]; auto|]; rewrite (F t) in E; congruence. }
      assert (RR : forall u, In Running (fupd (stack s) t (KillSet :: fs) u) -> running s u).
      { intros u. unfold running. destruct (fupd_dec (stack s) t (KillSet :: fs) u) as [[-> X]|[N X]]; rewrite X; auto. rewrite E.
        intros [Y|Y]; [discriminate|now right]. }
      constructor; cbn; auto.
      * intros u Hu. rewrite Hu in Ho. injection Ho as ->. rewrite fupd_same. destruct (O t Hu) as [D _]. rewrite E in D. cbn. split; [auto|discriminate].
      * intros u N. rewrite fupd_other by congruence. now apply F.
      * intros u g gs. destruct (fupd_dec (stack s) t (KillSet :: fs) u) as [[-> X]|[N X]]; rewrite X; [|apply TL].
        intros [= _ <-]. now apply (TL t KillLocked).
      * intros u H v Hv. apply (R0 u H v). auto.
      * intros u n H v Hv. apply (RN u n H v). auto.
    + intros [= <-]. eapply unlock_inv; eauto; [discriminate|]. intros u n [= <- <-]. auto.
Qed.

Lemma reach_inv a s : reachable a s -> inv s.
Proof. intros [ls H]. apply (@steps_inv _ _ step inv step_inv _ _ _ (init_inv a) H). Qed.

Lemma no_start_after a s t before : reachable a s -> happened (log s) (EStarted t) before ->
  forall u n, ~ In (EReleased u n) before.
Proof. intros R. exact (@i_start s (reach_inv R) t before). Qed.
Lemma none_running a s t : reachable a s -> In (EReleased t 0) (log s) -> forall u, ~ running s u.
Proof. intros R. exact (@i_rel0 s (reach_inv R) t). Qed.
Lemma only_releaser_running a s t n : reachable a s -> In (EReleased t n) (log s) -> forall u, running s u -> u = t.
Proof. intros R. apply reach_inv in R. intros H u. now apply (@i_reln s R t n). Qed.
Lemma exclusive a s t u : reachable a s -> running s t -> running s u -> t = u.
Proof.
  intros R Ht Hu. apply reach_inv in R. unfold running in *.
  assert (X : forall v, In Running (stack s v) -> owner s = Some v).
  { intros v Hv. destruct (owner s) as [w|] eqn:Eo; [destruct (Nat.eq_dec w v) as [->|N]; auto|]; rewrite (@i_free s R v) in Hv; try congruence; contradiction. }
  apply X in Ht, Hu. congruence.
Qed.
Lemma dead_never a s : reachable a s -> a = false -> forall t, ~ In (EStarted t) (log s).
Proof.
  intros [ls H] -> t. revert t. set (J := fun s : st => alive s = false /\ forall t, ~ In (EStarted t) (log s)).
  apply (@steps_inv _ _ step J) with (s := init false) (ls := ls) (s' := s); auto; [|split; cbn; auto].
  clear. unfold J. intros s [t c] s' [A N]. unfold step. cbn [fst snd]. rewrite A.
  assert (L : forall f, lock s t f = Some s' -> alive s' = false /\ forall t, ~ In (EStarted t) (log s')).
  { intros f. unfold lock. destruct (owner s) as [u|]; [destruct (u =? t); [|discriminate]|]; intros [= <-]; cbn; auto. }
  assert (U : forall e, (forall u, e <> EStarted u) -> alive (unlock s t e) = false /\ forall t, ~ In (EStarted t) (log (unlock s t e))).
  { intros e He. cbn. split; auto. intros u [X|X]; [now apply (He u)|now apply (N u)]. }
  destruct c.
  - destruct (user (stack s t)); [apply L|discriminate].
  - destruct (stack s t) as [|[] fs]; try discriminate. intros [= <-]. apply U. discriminate.
  - destruct (user (stack s t)); [apply L|discriminate].
  - destruct (user (stack s t)); [|discriminate]. intros [= <-]. cbn. split; auto. intros u [X|X]; [discriminate|now apply (N u)].
  - destruct (stack s t) as [|[] fs]; try discriminate; intros [= <-]; try (apply U; discriminate). cbn. auto.
Qed.

(** ** Release can return *)
Definition calm (l : nat * choice) : Prop := snd l = Go \/ snd l = DoFinish.
Lemma unwind n : forall s t, inv s -> length (stack s t) <= n ->
  exists ls s', steps step s ls s' /\ Forall calm ls /\ stack s' t = [] /\ inv s' /\ (forall u, u <> t -> stack s' u = stack s u).
Proof.
  assert (POP : forall s t f fs e s', stack s t = f :: fs -> s' = unlock s t e -> stack s' t = fs /\ forall u, u <> t -> stack s' u = stack s u).
  { intros s t f fs e s' E ->. unfold unlock. cbn. rewrite E. cbn. split; [apply fupd_same|]. intros. now apply fupd_other. }
  induction n as [|n IH]; intros s t I L; destruct (stack s t) as [|f fs] eqn:E; try (cbn in L; lia);
    try (exists [], s; repeat split; auto; try constructor; fail); try (exists [], s; split; [constructor|split; [constructor|split; [auto|split; auto]]]; fail).
  cbn in L.
  assert (ONE : forall s0 c e f0, inv s0 -> stack s0 t = f0 :: fs -> (forall u, u <> t -> stack s0 u = stack s u) -> (c = Go \/ c = DoFinish) ->
     step s0 (t, c) = Some (unlock s0 t e) ->
     exists ls s', steps step s0 ls s' /\ Forall calm ls /\ stack s' t = [] /\ inv s' /\ (forall u, u <> t -> stack s' u = stack s u)).
  { intros s0 c e f0 I0 E0 OT Hc X. assert (I1 := step_inv _ I0 X). destruct (POP s0 t f0 fs e _ E0 eq_refl) as [P1 P2].
    destruct (IH _ t I1) as (ls & s' & H1 & H2 & H3 & H4 & H5); [rewrite P1; lia|].
    exists ((t, c) :: ls), s'. split; [econstructor; eauto|]. split; [constructor; auto|]. split; auto. split; auto.
    intros u Nu. rewrite H5, P2, OT; auto. }
  assert (FIN : forall s0, inv s0 -> stack s0 t = Running :: fs -> (forall u, u <> t -> stack s0 u = stack s u) ->
     exists ls s', steps step s0 ls s' /\ Forall calm ls /\ stack s' t = [] /\ inv s' /\ (forall u, u <> t -> stack s' u = stack s u)).
  { intros s0 I0 E0 OT. eapply (ONE s0 DoFinish (EFinished t)); eauto. unfold step. cbn [fst snd]. now rewrite E0. }
  assert (KS : forall s0, inv s0 -> stack s0 t = KillSet :: fs -> (forall u, u <> t -> stack s0 u = stack s u) ->
     exists ls s', steps step s0 ls s' /\ Forall calm ls /\ stack s' t = [] /\ inv s' /\ (forall u, u <> t -> stack s' u = stack s u)).
  { intros s0 I0 E0 OT. eapply (ONE s0 Go (EReleased t (running_frames fs))); eauto. unfold step. cbn [fst snd]. now rewrite E0. }
  destruct f.
  - destruct (alive s) eqn:A.
    + assert (X : step s (t, Go) = Some (mk_st (fupd (stack s) t (Running :: fs)) (owner s) (depth s) true (EStarted t :: log s))).
      { unfold step. cbn [fst snd]. now rewrite E, A. }
      assert (Y1 := step_inv _ I X). set (s1 := mk_st _ _ _ _ _) in *. assert (Y2 := FIN s1 Y1 (fupd_same _ _ _) (fun u Nu => @fupd_other _ _ _ _ _ Nu)).
      destruct Y2 as (ls & s' & H1 & H2 & H3).
      exists ((t, Go) :: ls), s'. split; [econstructor; eauto|]. split; auto. constructor; auto. now left.
    + eapply (ONE s Go (ERefused t)); eauto. unfold step. cbn [fst snd]. now rewrite E, A.
  - apply FIN; auto.
  - assert (X : step s (t, Go) = Some (mk_st (fupd (stack s) t (KillSet :: fs)) (owner s) (depth s) false (log s))).
    { unfold step. cbn [fst snd]. now rewrite E. }
    assert (Y1 := step_inv _ I X). set (s1 := mk_st _ _ _ _ _) in *. assert (Y2 := KS s1 Y1 (fupd_same _ _ _) (fun u Nu => @fupd_other _ _ _ _ _ Nu)).
      destruct Y2 as (ls & s' & H1 & H2 & H3).
    exists ((t, Go) :: ls), s'. split; [econstructor; eauto|]. split; auto. constructor; auto. now left.
  - apply KS; auto.
Qed.

Lemma release_can_return a s t : reachable a s -> stack s t = [] ->
  exists ls s', steps step s (ls ++ [(t, DoRelease); (t, Go); (t, Go)]) s' /\
    Forall (fun l => snd l = Go \/ snd l = DoFinish) ls /\ In (EReleased t 0) (log s').
Proof.
  intros R E. apply reach_inv in R.
  assert (X : exists ls s1, steps step s ls s1 /\ Forall calm ls /\ inv s1 /\ stack s1 t = [] /\ owner s1 = None).
  { destruct (owner s) as [o|] eqn:Eo.
    - assert (No : o <> t). { intros ->. destruct (i_own R Eo) as [_ X]. auto. }
      destruct (@unwind _ s o R (le_n _)) as (ls & s1 & H1 & H2 & H3 & H4 & H5).
      exists ls, s1. split; auto. split; auto. split; auto. assert (T1 : stack s1 t = []) by (rewrite H5; auto). split; auto.
      destruct (owner s1) as [v|] eqn:Ev; auto. destruct (i_own H4 Ev) as [_ X]. exfalso. apply X.
      destruct (Nat.eq_dec v o) as [->|Nv]; auto. rewrite H5; auto. apply (@i_free s R). congruence.
    - exists [], s. split; [constructor|]. split; [constructor|]. auto. }
  destruct X as (ls & s1 & H1 & H2 & I1 & T1 & O1).
  exists ls. eexists. split.
  - eapply steps_app; [exact H1|]. eapply steps_cons.
    + unfold step. cbn [fst snd]. rewrite T1. cbn [user]. unfold lock. rewrite O1, T1. reflexivity.
    + eapply steps_cons.
      * unfold step. cbn [fst snd stack]. rewrite fupd_same. cbn. reflexivity.
      * eapply steps_cons; [|constructor]. unfold step. cbn [fst snd stack]. rewrite fupd_same. reflexivity.
  - split; auto. cbn. auto.
Qed.
