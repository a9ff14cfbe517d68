(** Proofs for C65: variant and optional *)
From Verif Require Import Base LifeModel LifeSpec.

Lemma upd_same : forall (A : Type) (f : nat -> A) p a, upd f p a p = a.
Proof. intros. unfold upd. rewrite Nat.eqb_refl. reflexivity. Qed.
Lemma upd_other : forall (A : Type) (f : nat -> A) p a q, q <> p -> upd f p a q = f q.
Proof. intros. unfold upd. destruct (q =? p) eqn:E; [apply Nat.eqb_eq in E; contradiction|reflexivity]. Qed.
Ltac cases q p := destruct (Nat.eq_dec q p) as [->|?]; [rewrite ?upd_same|rewrite ?upd_other by assumption].

Section Proofs.
  Variable moved : tag -> Z -> Z.

  Section Variant.
    Variable types : nat.
    Variable empty : option tag.
    Hypothesis empty_ok : forall e, empty = Some e -> e < types.
    Notation vholds := (vholds types empty).
    Notation vspec := (vspec moved empty).
    Notation vstep := (vstep moved types empty).
    Notation receives := (receives moved empty).

    (** the variant at p has no item *)
    Definition opened (p : place) (b : bool) (s : st) (c : vcontents) : Prop :=
      mem s p = None /\ alive s p = b /\ (forall q, q <> p -> mem s q = c q) /\ (forall q, q <> p -> alive s q = match c q with Some _ => true | None => false end) /\
      (forall q t v, q <> p -> c q = Some (t, v) -> kind s q = t /\ t < types) /\ (forall o, In o (lost s) -> Some (fst o) = empty).
    (** the variant at p may still be under construction *)
    Definition filled (p : place) (b : bool) (s : st) (c : vcontents) : Prop :=
      alive s p = b /\ (forall q, mem s q = c q) /\ (forall q, q <> p -> alive s q = match c q with Some _ => true | None => false end) /\
      (forall q t v, c q = Some (t, v) -> kind s q = t /\ t < types) /\ (forall o, In o (lost s) -> Some (fst o) = empty).

    Lemma open_new : forall s c p, vholds s c -> c p = None -> opened p false s c.
    Proof.
      intros s c p [Hm [Ha [Hk Hl]]] Hp. repeat split; auto; try (rewrite Hm; exact Hp); try (rewrite Ha, Hp; reflexivity); eapply Hk; eassumption.
    Qed.
    Lemma destruct_open : forall s c p t v, vholds s c -> c p = Some (t, v) ->
      destruct_item types p s = Ok tt (set_mem s (upd (mem s) p None)) /\ opened p true (set_mem s (upd (mem s) p None)) c.
    Proof.
      intros s c p t v [Hm [Ha [Hk Hl]]] Hp. destruct (Hk _ _ _ Hp) as [Hkp Ht]. split.
      - unfold destruct_item, with_type. rewrite Hkp. replace (t <? types) with true by (symmetry; apply Nat.ltb_lt; exact Ht).
        unfold dtor. rewrite Hm, Hp, Nat.eqb_refl. reflexivity.
      - unfold opened. cbn [mem set_mem alive kind lost]. split; [apply upd_same|]. split; [rewrite Ha, Hp; reflexivity|].
        split; [intros q Hq; rewrite upd_other by exact Hq; apply Hm|]. split; [intros q Hq; apply Ha|]. split; [intros q t' v' Hq; apply Hk|exact Hl].
    Qed.

    Lemma read_open : forall p b s c a, opened p b s c -> valid_src c a -> source_is_not p a ->
      exists s', read_src moved a s = Ok (value_of c a) s' /\ opened p b s' (taken moved c a) /\ kind s' = kind s.
    Proof.
      intros p b s c a HO Hv Hn. destruct a as [v|q t|q t]; cbn [read_src value_of taken valid_src source_is_not] in *.
      - exists s. split; [reflexivity|]. auto.
      - destruct Hv as [v Hv]. exists s. pose proof HO as [_ [_ [Hm _]]]. unfold ref. rewrite Hm, Hv, Nat.eqb_refl by exact Hn. auto.
      - destruct Hv as [v Hv]. pose proof HO as [Hp [Ha [Hm [Hal [Hk Hl]]]]].
        unfold bind, ref, set_ref, ret. rewrite Hm, Hv, Nat.eqb_refl by exact Hn.
        rewrite Hm, Hv, Nat.eqb_refl by exact Hn.
        eexists. split; [reflexivity|]. split; [|reflexivity]. unfold opened. cbn [mem set_mem alive kind lost].
        split; [rewrite upd_other by (intro C; subst; contradiction); exact Hp|]. split; [exact Ha|].
        split; [intros r Hr; cases r q; [reflexivity|apply Hm; exact Hr]|].
        split; [intros r Hr; cases r q; [rewrite Hal, Hv by exact Hn; reflexivity|apply Hal; exact Hr]|].
        split; [|exact Hl]. intros r t' v' Hr. cases r q; [|apply Hk; exact Hr]. intros [= <- <-]. eapply Hk; eassumption.
    Qed.

    Lemma ctor_fills : forall p b s c t v, opened p b s c -> t < types ->
      exists s', (ctor p t v None ;;; put_kind p t) s = Ok tt s' /\ filled p b s' (upd c p (Some (t, v))).
    Proof.
      intros p b s c t v [Hp [Ha [Hm [Hal [Hk Hl]]]]] Ht. unfold bind, ctor, put_kind. rewrite Hp. eexists. split; [reflexivity|].
      unfold filled. cbn [mem set_mem alive kind lost set_kind]. split; [exact Ha|]. split; [intros q; cases q p; [reflexivity|apply Hm; assumption]|].
      split; [intros q Hq; rewrite upd_other by exact Hq; apply Hal; exact Hq|]. split; [|exact Hl].
      intros q t' v'. cases q p; [intros [= <- <-]; auto|apply Hk; assumption].
    Qed.

    Lemma bind_assoc3 : forall (A B : Type) (m : M st A) (f : A -> M st B) (g : M st unit) s, bind (bind m f) (fun _ => g) s = bind m (fun a => bind (f a) (fun _ => g)) s.
    Proof. intros. unfold bind. destruct (m s); reflexivity. Qed.

    Lemma assign_val_ok : forall p b s c t a x, opened p b s c -> valid_src c a -> source_is_not p a -> t < types -> std_only x ->
      match receives c p t a x with
      | Done c' => exists s', assign_val moved empty p t a x s = Ok tt s' /\ filled p b s' c'
      | Threw c' => exists s', assign_val moved empty p t a x s = Throw StdException s' /\ filled p b s' c'
      | Terminated => assign_val moved empty p t a x s = Abort
      end.
    Proof.
      intros p b s c t a x HO Hv Hn Ht Hx. destruct (read_open _ _ _ _ _ HO Hv Hn) as [s1 [R [HO1 _]]].
      unfold receives, assign_val, make. destruct x as [[|]|]; [| |].
      - destruct empty as [e|] eqn:Ee.
        + unfold catch_std. unfold bind at 1. unfold bind at 1. rewrite R. cbn [ctor].
          destruct (ctor_fills p b s1 (taken moved c a) e 0%Z HO1 (empty_ok e eq_refl)) as [s2 [C F]].
          unfold bind at 1. unfold assign_default. rewrite C. exists s2. split; [reflexivity|exact F].
        + unfold catch_std. unfold bind at 1. unfold bind at 1. rewrite R. reflexivity.
      - exfalso. apply Hx. reflexivity.
      - destruct (ctor_fills p b s1 (taken moved c a) t (value_of c a) HO1 Ht) as [s2 [C F]].
        exists s2. split; [|exact F]. destruct empty as [e|].
        + unfold catch_std. rewrite bind_assoc3. unfold bind at 1. rewrite R, C. reflexivity.
        + unfold catch_std. unfold bind at 1. unfold bind at 1. rewrite R. unfold bind in C. destruct (ctor p t (value_of c a) None s1); try discriminate. exact C.
    Qed.

    Lemma filled_holds : forall p s c tv, filled p true s c -> c p = Some tv -> vholds s c.
    Proof.
      intros p s c tv [Hb [Hm [Ha [Hk Hl]]]] Hp. split; [exact Hm|]. split; [|split; assumption].
      intros q. destruct (Nat.eq_dec q p) as [->|N]; [rewrite Hp; exact Hb|apply Ha; exact N].
    Qed.
    Lemma take_up_holds : forall p b s c tv, filled p b s c -> c p = Some tv -> exists s', take_up p s = Ok tt s' /\ vholds s' c.
    Proof.
      intros p b s c tv [Hb [Hm [Ha [Hk Hl]]]] Hp. unfold take_up. eexists. split; [reflexivity|]. split; [exact Hm|]. split; [|split; assumption].
      intros q. cbn [alive set_alive]. cases q p; [rewrite Hp; reflexivity|apply Ha; assumption].
    Qed.
    Lemma give_up_holds : forall p b s c e v, filled p b s c -> empty = Some e -> c p = Some (e, v) -> exists s', give_up p s = Ok tt s' /\ vholds s' (upd c p None).
    Proof.
      intros p b s c e v [Hb [Hm [Ha [Hk Hl]]]] He Hp. unfold give_up. rewrite Hm, Hp. eexists. split; [reflexivity|].
      unfold LifeSpec.vholds. cbn [mem set_mem alive kind lost set_lost set_alive]. split; [intros q; cases q p; [reflexivity|apply Hm]|].
      split; [intros q; cases q p; [reflexivity|apply Ha; assumption]|]. split.
      - intros q t' v'. cases q p; [discriminate|apply Hk].
      - intros o [<-|Ho]; [symmetry; exact He|apply Hl; exact Ho].
    Qed.
    Lemma give_up_open : forall p b s c, opened p b s c -> exists s', give_up p s = Ok tt s' /\ vholds s' (upd c p None).
    Proof.
      intros p b s c [Hp [Ha [Hm [Hal [Hk Hl]]]]]. unfold give_up. rewrite Hp. eexists. split; [reflexivity|].
      unfold LifeSpec.vholds. cbn [mem set_mem alive kind lost set_lost set_alive]. split; [intros q; cases q p; [reflexivity|apply Hm; assumption]|].
      split; [intros q; cases q p; [reflexivity|apply Hal; assumption]|]. split; [|exact Hl].
      intros q t' v'. cases q p; [discriminate|apply Hk; assumption].
    Qed.

    Lemma receives_at : forall c p t a x c', receives c p t a x = Done c' -> exists tv, c' p = Some tv.
    Proof. intros c p t a x c'. unfold receives. destruct x, empty; try discriminate; intros [= <-]; rewrite upd_same; eauto. Qed.
    Lemma receives_threw : forall c p t a x c', receives c p t a x = Threw c' -> exists e v, empty = Some e /\ c' p = Some (e, v).
    Proof. intros c p t a x c'. unfold receives. destruct x, empty; try discriminate; intros [= <-]; rewrite upd_same; eauto. Qed.

    Definition follows (m : M st unit) (s : st) (r : outcome vcontents) : Prop :=
      match r with
      | Done c' => exists s', m s = Ok tt s' /\ vholds s' c'
      | Threw c' => exists s', m s = Throw StdException s' /\ vholds s' c'
      | Terminated => m s = Abort
      end.

    Lemma constructing_ok : forall p s c t a x, vholds s c -> c p = None -> t < types -> valid_src c a -> std_only x ->
      follows (constructing p (assign_val moved empty p t a x)) s (not_built p (receives c p t a x)).
    Proof.
      intros p s c t a x H Hp Ht Hv Hx.
      assert (Hn : source_is_not p a) by (destruct a; cbn in *; [exact I| |]; destruct Hv as [? Hv]; intros ->; congruence).
      pose proof (assign_val_ok p false s c t a x (open_new _ _ _ H Hp) Hv Hn Ht Hx) as A.
      unfold follows, constructing. destruct (receives c p t a x) as [c'|c'|] eqn:E; cbn [not_built].
      - destruct A as [s' [-> F]]. destruct (receives_at _ _ _ _ _ _ E) as [tv Q]. exact (take_up_holds _ _ _ _ _ F Q).
      - destruct A as [s' [-> F]]. destruct (receives_threw _ _ _ _ _ _ E) as [e [v [Q1 Q2]]]. destruct (give_up_holds _ _ _ _ _ _ F Q1 Q2) as [s2 [-> G]].
        exists s2. auto.
      - rewrite A. reflexivity.
    Qed.
    Lemma replacing_ok : forall p s c t a x, vholds s c -> c p <> None -> t < types -> valid_src c a -> source_is_not p a -> std_only x ->
      follows (destruct_item types p ;;; assign_val moved empty p t a x) s (receives c p t a x).
    Proof.
      intros p s c t a x H Hp Ht Hv Hn Hx. destruct (c p) as [[t0 v0]|] eqn:Ep; [|contradiction].
      destruct (destruct_open _ _ _ _ _ H Ep) as [D HO].
      pose proof (assign_val_ok p true _ c t a x HO Hv Hn Ht Hx) as A. unfold follows, bind. rewrite D.
      destruct (receives c p t a x) as [c'|c'|] eqn:E.
      - destruct A as [s' [-> F]]. destruct (receives_at _ _ _ _ _ _ E) as [tv Q]. exists s'. split; [reflexivity|]. eapply filled_holds; eassumption.
      - destruct A as [s' [-> F]]. destruct (receives_threw _ _ _ _ _ _ E) as [e [v [Q1 Q2]]]. exists s'. split; [reflexivity|]. eapply filled_holds; eassumption.
      - exact A.
    Qed.

    Lemma with_type_holds : forall s c q t v f, vholds s c -> c q = Some (t, v) -> with_type types q f s = f t s.
    Proof.
      intros s c q t v f [_ [_ [Hk _]]] Hq. destruct (Hk _ _ _ Hq) as [K Ht]. unfold with_type. rewrite K.
      replace (t <? types) with true by (symmetry; apply Nat.ltb_lt; exact Ht). reflexivity.
    Qed.

    Theorem vstep_ok : forall o s c, vholds s c -> vallowed types c o -> follows (vstep o) s (vspec c o).
    Proof.
      intros [p x|p t a x|p q x|p q x|p|p q x|p q x|p t a x|p t a x] s c H Ha; cbn [vallowed LifeSpec.vspec LifeModel.vstep] in *.
      - destruct Ha as [Hp [Hx Ht]]. destruct empty as [e|] eqn:Ee.
        + unfold follows, constructing, assign_default.
          destruct (ctor_fills p false s c e 0%Z) as [s2 [C F]]; [rewrite <- Ee in H; exact (open_new _ _ _ H Hp)|exact (empty_ok e eq_refl)|].
          rewrite C. apply (take_up_holds _ _ _ _ (e, 0%Z) F). apply upd_same.
        + rewrite <- Ee in *. pose proof (constructing_ok p s c 0 (SVal 0) x H Hp Ht I Hx) as K.
          unfold receives in *. destruct x; [|exact K]. rewrite Ee in *. exact K.
      - destruct Ha as [Hp [Ht [Hv Hx]]]. apply constructing_ok; assumption.
      - destruct Ha as [Hp [Hq Hx]]. destruct (c q) as [[t v]|] eqn:Eq; [|contradiction]. unfold type_at. rewrite Eq.
        assert (Ht : t < types) by (destruct H as [_ [_ [Hk _]]]; eapply Hk; exact Eq).
        pose proof (constructing_ok p s c t (SRef q t) x H Hp Ht (ex_intro _ v Eq) Hx) as K.
        unfold follows, constructing in *. unfold assign_from. rewrite (with_type_holds _ _ _ _ _ _ H Eq). exact K.
      - destruct Ha as [Hp [Hq Hx]]. destruct (c q) as [[t v]|] eqn:Eq; [|contradiction]. unfold type_at. rewrite Eq.
        assert (Ht : t < types) by (destruct H as [_ [_ [Hk _]]]; eapply Hk; exact Eq).
        pose proof (constructing_ok p s c t (SMove q t) x H Hp Ht (ex_intro _ v Eq) Hx) as K.
        unfold follows, constructing in *. unfold assign_move. rewrite (with_type_holds _ _ _ _ _ _ H Eq). exact K.
      - destruct (c p) as [[t v]|] eqn:Ep; [|contradiction]. destruct (destruct_open _ _ _ _ _ H Ep) as [D HO]. unfold follows, bind. rewrite D.
        exact (give_up_open _ _ _ _ HO).
      - destruct Ha as [Hp [Hq [Hn Hx]]]. destruct (c q) as [[t v]|] eqn:Eq; [|contradiction]. unfold type_at. rewrite Eq.
        assert (Ht : t < types) by (destruct H as [_ [_ [Hk _]]]; eapply Hk; exact Eq).
        pose proof (replacing_ok p s c t (SRef q t) x H Hp Ht (ex_intro _ v Eq) Hn Hx) as K.
        unfold follows, bind in *. unfold assign_from. destruct (c p) as [[t0 v0]|] eqn:Ep; [|contradiction].
        destruct (destruct_open _ _ _ _ _ H Ep) as [D HO]. rewrite D in *. unfold with_type. cbn [kind set_mem].
        destruct H as [_ [_ [Hk _]]]. destruct (Hk _ _ _ Eq) as [K1 _]. rewrite K1. replace (t <? types) with true by (symmetry; apply Nat.ltb_lt; exact Ht). exact K.
      - destruct Ha as [Hp [Hq [Hn Hx]]]. destruct (c q) as [[t v]|] eqn:Eq; [|contradiction]. unfold type_at. rewrite Eq.
        assert (Ht : t < types) by (destruct H as [_ [_ [Hk _]]]; eapply Hk; exact Eq).
        pose proof (replacing_ok p s c t (SMove q t) x H Hp Ht (ex_intro _ v Eq) Hn Hx) as K.
        unfold follows, bind in *. unfold assign_move. destruct (c p) as [[t0 v0]|] eqn:Ep; [|contradiction].
        destruct (destruct_open _ _ _ _ _ H Ep) as [D HO]. rewrite D in *. unfold with_type. cbn [kind set_mem].
        destruct H as [_ [_ [Hk _]]]. destruct (Hk _ _ _ Eq) as [K1 _]. rewrite K1. replace (t <? types) with true by (symmetry; apply Nat.ltb_lt; exact Ht). exact K.
      - destruct Ha as [Hp [Ht [Hv [Hn Hx]]]]. apply replacing_ok; assumption.
      - destruct Ha as [Hp [Ht [Hv [Hn Hx]]]]. apply replacing_ok; assumption.
    Qed.

    Theorem vrun_ok : forall ops s c, vholds s c -> history vspec (vallowed types) ops c ->
      match contents vspec ops c with Some c' => exists s', run vstep ops s = Ok tt s' /\ vholds s' c' | None => run vstep ops s = Abort end.
    Proof.
      induction ops as [|o ops IH]; intros s c H Hh; cbn [contents run]; [exists s; auto|]. destruct Hh as [Ha Hh].
      pose proof (vstep_ok o s c H Ha) as K. unfold follows in K. destruct (vspec c o) as [c'|c'|].
      - destruct K as [s' [-> H']]. apply IH; assumption.
      - destruct K as [s' [-> H']]. apply IH; assumption.
      - rewrite K. reflexivity.
    Qed.
  End Variant.
End Proofs.
