(** Proofs for C63: prediction and decoding with any good model. *)
From Verif Require Import Base ArithModel ArithSpec ArithProofs PpmModel PpmSpec.
Local Open Scope Z_scope.

Fixpoint ssorted (l : list Z) : Prop := match l with [] => True | x :: t => (forall y, In y t -> x < y) /\ ssorted t end.

Definition good_slice (g : cfg) (e : Z) (l : counts) : Prop :=
  e = 1 /\ ssorted (map fst l) /\ (forall s p, In (s, p) l -> 1 <= p) /\ mass l <= 2 ^ pbits g /\ mass l + 1 <= 2 ^ 29.
Definition good_level (m : mlevel) : Prop := forall c e l, lookup m c = Some (e, l) -> good_slice (m_cfg m) e l.

Lemma mass_app a b : mass (a ++ b) = mass a + mass b.
Proof. unfold mass. induction a; cbn [app fold_right]; lia. Qed.
Lemma mass_cons s p t : mass ((s, p) :: t) = p + mass t.
Proof. reflexivity. Qed.
Lemma mass_pos l : (forall s p, In (s, p) l -> 1 <= p) -> 0 <= mass l.
Proof. induction l as [|[s p] t IH]; intros H; [cbn; lia|rewrite mass_cons]. assert (1 <= p) by (apply (H s); left; auto). assert (0 <= mass t) by (apply IH; intros; eapply H; right; eauto). lia. Qed.
Lemma total_spec l e a : 0 <= a -> (forall s p, In (s, p) l -> 1 <= p) -> 0 <= e -> a + mass l + e < 2 ^ 32 ->
  w32 (fold_left (fun a e => w32 (a + snd e)) l a + e) = a + mass l + e.
Proof.
  revert a. induction l as [|[s p] t IH]; intros a Ha H He Hb; change (mass []) with 0 in *; rewrite ?mass_cons in *; cbn [fold_left snd] in *.
  - unfold w32. rewrite Z.mod_small by lia. lia.
  - assert (1 <= p) by (apply (H s); left; auto).
    assert (0 <= mass t) by (apply mass_pos; intros; eapply H; right; eauto).
    rewrite IH; [|..]; unfold w32; try rewrite (Z.mod_small (a + p)) by lia; try lia. intros; eapply H; right; eauto.
Qed.
Lemma sum_prob_spec g l a : 0 <= a -> (forall s p, In (s, p) l -> 1 <= p) -> a + mass l < 2 ^ pbits g ->
  fold_left (fun a e => (a + snd e) mod 2 ^ pbits g) l a = a + mass l.
Proof.
  revert a. induction l as [|[s p] t IH]; intros a Ha H Hb; change (mass []) with 0 in *; rewrite ?mass_cons in *; cbn [fold_left snd] in *; [lia|].
  assert (1 <= p) by (apply (H s); left; auto).
  assert (0 <= mass t) by (apply mass_pos; intros; eapply H; right; eauto).
  rewrite Z.mod_small by lia. rewrite IH; try lia. intros; eapply H; right; eauto.
Qed.
Lemma find_symbol_some s l acc before p : find_symbol s l acc = Some (before, p) -> exists b t, before = acc ++ b /\ l = b ++ (s, p) :: t.
Proof.
  revert acc. induction l as [|[s' p'] l IH]; intros acc H; cbn [find_symbol] in H; [discriminate|].
  destruct (Z.ltb_spec s' s).
  - destruct (IH _ H) as (b & t & -> & ->). exists ((s', p') :: b), t. rewrite <- app_assoc. auto.
  - destruct (Z.eqb_spec s' s); [|discriminate]. inversion H; subst. exists [], l. rewrite app_nil_r. auto.
Qed.
Lemma find_symbol_in s l acc : ssorted (map fst l) -> In s (map fst l) -> find_symbol s l acc <> None.
Proof.
  revert acc. induction l as [|[s' p'] l IH]; intros acc So I; cbn [find_symbol map fst In ssorted] in *; [tauto|].
  destruct So as [So1 So2]. destruct I as [->|I].
  - rewrite Z.ltb_irrefl, Z.eqb_refl. discriminate.
  - pose proof (So1 _ I). rewrite (proj2 (Z.ltb_lt s' s)) by lia. apply IH; auto.
Qed.
Lemma scan_skip before l low t : 0 <= low -> (forall s p, In (s, p) before -> 1 <= p) -> low + mass before < 2 ^ 32 -> low + mass before <= t ->
  scan (before ++ l) low t = scan l (low + mass before) t.
Proof.
  revert low. induction before as [|[s p] b IH]; intros low H0 H Hb Ht; change (mass []) with 0 in *; rewrite ?mass_cons in *; cbn [app scan] in *.
  - f_equal. lia.
  - assert (1 <= p) by (apply (H s); left; auto).
    assert (0 <= mass b) by (apply mass_pos; intros; eapply H; right; eauto).
    unfold w32. rewrite (Z.mod_small (low + p)) by lia.
    rewrite (proj2 (Z.ltb_ge t (low + p))) by lia. rewrite andb_false_r. rewrite IH; try lia; [|intros; eapply H; right; eauto].
    f_equal. lia.
Qed.

Section Slice.
  Variables (g : cfg) (e : Z) (l : counts).
  Hypothesis G : good_slice g e l.
  Lemma slice_total : total l e = mass l + 1.
  Proof. destruct G as (-> & S1 & P & M1 & M2). unfold total. rewrite total_spec; auto; lia. Qed.

  (** the symbol's own interval: what comes before it, up to that and its probability *)
  Lemma do_predict_cases so y here : do_predict g l e so = (y, here) ->
    valid_sym y /\ s_scale y = mass l + 1 /\
    match here with
    | true => exists s before p after, so = Some s /\ l = before ++ (s, p) :: after /\ s_low y = mass before /\ s_high y = mass before + p
    | false => s_low y = mass l /\ s_high y = mass l + 1
    end.
  Proof.
    pose proof slice_total as T. destruct G as (E & S1 & P & M1 & M2). pose proof (mass_pos _ P) as M0. unfold do_predict. rewrite T. rewrite E.
    assert (L : forall y here, (mk_sym (w32 (mass l + 1 - 1)) (mass l + 1) (mass l + 1), false) = (y, here) ->
      valid_sym y /\ s_scale y = mass l + 1 /\ match here with
      | true => exists s before p after, so = Some s /\ l = before ++ (s, p) :: after /\ s_low y = mass before /\ s_high y = mass before + p
      | false => s_low y = mass l /\ s_high y = mass l + 1 end).
    { intros y' here' Q. injection Q as <- <-. unfold w32, valid_sym. cbn [s_low s_high s_scale]. rewrite Z.mod_small by lia. repeat split; lia. }
    destruct so as [s|]; [|auto].
    destruct (find_symbol s l []) as [[before p]|] eqn:F; [|auto].
    intros Q. injection Q as <- <-. destruct (find_symbol_some _ _ _ _ _ F) as (b & t & Eb & El). cbn [app] in Eb. subst b.
    assert (1 <= p) by (apply (P s); rewrite El; apply in_elt).
    assert (Pb : forall s p, In (s, p) before -> 1 <= p) by (intros; apply (P s0); rewrite El; apply in_or_app; auto).
    assert (Pt : forall s p, In (s, p) t -> 1 <= p) by (intros; apply (P s0); rewrite El; apply in_or_app; right; right; auto).
    pose proof (mass_pos _ Pb). pose proof (mass_pos _ Pt).
    assert (Em : mass l = mass before + (p + mass t)) by (rewrite El, mass_app; reflexivity).
    assert (SP : sum_prob g before = mass before) by (unfold sum_prob; rewrite sum_prob_spec; auto; lia).
    rewrite SP. unfold w32, valid_sym. cbn [s_low s_high s_scale]. rewrite Z.mod_small by lia. repeat split; try lia.
    exists s, before, p, t. auto.
  Qed.

  Lemma do_decode_spec so y here d d' : do_predict g l e so = (y, here) -> s_low y <= get_probability d (s_scale y) < s_high y ->
    symbol_decoded d y = Some d' -> do_decode l e d = Some (if here then so else None, d').
  Proof.
    intros H R D. pose proof slice_total as T. destruct (do_predict_cases _ _ _ H) as (V & Sc & C). pose proof G as (E & S1 & P & M1 & M2).
    pose proof (mass_pos _ P) as M0. unfold do_decode. rewrite T. rewrite Sc in R. destruct here.
    - destruct C as (s & before & p & t & -> & El & Lo & Hi).
      assert (1 <= p) by (apply (P s); rewrite El; apply in_elt).
      assert (Pb : forall s p, In (s, p) before -> 1 <= p) by (intros; apply (P s0); rewrite El; apply in_or_app; auto).
      assert (Pt : forall s p, In (s, p) t -> 1 <= p) by (intros; apply (P s0); rewrite El; apply in_or_app; right; right; auto).
      pose proof (mass_pos _ Pb). pose proof (mass_pos _ Pt).
      assert (Em : mass l = mass before + (p + mass t)) by (rewrite El, mass_app; reflexivity).
      replace (scan l 0 (get_probability d (mass l + 1))) with (Some (s, mass before, mass before + p)).
      + replace (mk_sym (mass before) (mass before + p) (mass l + 1)) with y by (destruct y; cbn in *; congruence). rewrite D. reflexivity.
      + set (q := get_probability d (mass l + 1)) in *. rewrite El. rewrite scan_skip by (auto; lia). cbn [scan]. unfold w32. rewrite Z.mod_small by lia. rewrite Z.add_0_l.
        rewrite (proj2 (Z.leb_le _ _)) by lia. rewrite (proj2 (Z.ltb_lt _ _)) by lia. reflexivity.
    - destruct C as [Lo Hi].
      replace (scan l 0 (get_probability d (mass l + 1))) with (@None (Z * Z * Z)).
      + rewrite E. unfold w32. rewrite Z.mod_small by lia.
        replace (mk_sym (mass l + 1 - 1) (mass l + 1) (mass l + 1)) with y by (destruct y; cbn in *; f_equal; lia). rewrite D. reflexivity.
      + set (q := get_probability d (mass l + 1)) in *. rewrite <- (app_nil_r l). rewrite scan_skip by (auto; lia). reflexivity.
  Qed.
End Slice.

Lemma predict_valid ms ctx so ys : Forall good_level ms -> predict ms ctx so = Some ys -> Forall valid_sym ys.
Proof.
  intros G. revert ys. induction ms as [|m t IH]; intros ys H; cbn [predict] in H.
  - destruct so; inversion H. constructor.
  - inversion G; subst. specialize (IH H3). destruct (_ <? _)%nat; [auto|]. destruct (lookup m _) as [[e l]|] eqn:L; [|auto].
    destruct (do_predict _ l e so) as [y here] eqn:D. pose proof (do_predict_cases _ _ _ (H2 _ _ _ L) _ _ _ D) as [V _].
    destruct here. { inversion H; subst. auto. }
    destruct (predict t ctx so) as [zs|]; inversion H; subst. auto.
Qed.
Lemma predict_decode ms ctx so ys zs d : Forall good_level ms -> predict ms ctx so = Some ys -> decodes d (ys ++ zs) ->
  exists d', decode_symbol ms ctx d = Some (so, d') /\ decodes d' zs.
Proof.
  intros G. revert ys d. induction ms as [|m t IH]; intros ys d H Hd; cbn [predict decode_symbol] in *.
  - destruct so; inversion H; subst. exists d. auto.
  - inversion G; subst. specialize (IH H3). destruct (_ <? _)%nat; [eauto|]. destruct (lookup m _) as [[e l]|] eqn:L; [|eauto].
    destruct (do_predict _ l e so) as [y here] eqn:D.
    pose proof (do_predict_cases _ _ _ (H2 _ _ _ L) _ _ _ D) as (V & _ & C).
    destruct here.
    + inversion H; subst. cbn [app decodes] in Hd. destruct Hd as (R & d' & Sd & Hd).
      rewrite (do_decode_spec _ _ _ (H2 _ _ _ L) _ _ _ _ _ D R Sd). destruct C as (s & _ & _ & _ & -> & _). eauto.
    + destruct (predict t ctx so) as [ys'|] eqn:Pr; inversion H; subst. cbn [app decodes] in Hd. destruct Hd as (R & d' & Sd & Hd).
      rewrite (do_decode_spec _ _ _ (H2 _ _ _ L) _ _ _ _ _ D R Sd). eauto.
Qed.

Lemma intervals_valid ms msg : Forall good_level ms -> forall ctx ys, intervals ms ctx msg = Some ys -> Forall valid_sym ys.
Proof.
  intros G. induction msg as [|s t IH]; intros ctx ys H; cbn [intervals] in H; [eapply predict_valid; eauto|].
  destruct (predict ms ctx (Some s)) eqn:Pr; [|discriminate]. destruct (intervals ms _ t) eqn:I; inversion H; subst.
  apply Forall_app. split; [eapply predict_valid; eauto|eauto].
Qed.
Lemma intervals_decompress ms msg : Forall good_level ms -> forall ctx ys d fuel, intervals ms ctx msg = Some ys -> decodes d ys ->
  (length msg < fuel)%nat -> decompress fuel ms ctx d = Some msg.
Proof.
  intros G. induction msg as [|s t IH]; intros ctx ys d fuel H D F; (destruct fuel as [|fuel]; [cbn in F; lia|]); cbn [intervals decompress] in *.
  - rewrite <- (app_nil_r ys) in D. destruct (predict_decode _ _ _ _ _ _ G H D) as (d' & -> & _). reflexivity.
  - destruct (predict ms ctx (Some s)) eqn:Pr; [|discriminate]. destruct (intervals ms _ t) eqn:I; inversion H; subst.
    destruct (predict_decode _ _ _ _ _ _ G Pr D) as (d' & -> & D'). rewrite (IH _ _ _ fuel I D'); [reflexivity|]. cbn in F. lia.
Qed.
Lemma good_roundtrip ms msg ys o c x fuel : Forall good_level ms -> intervals ms [] msg = Some ys -> encode_all coder0 ys = Some (o, c) -> completes c x ->
  (length msg < fuel)%nat -> decompress fuel ms [] (decoder_of (o ++ x)) = Some msg.
Proof. intros G H E X F. eapply intervals_decompress; eauto. apply (roundtrip ys o c); auto. eapply intervals_valid; eauto. Qed.
