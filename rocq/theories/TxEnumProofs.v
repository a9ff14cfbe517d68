(** Proofs about the overlay enumerators. *)
From Coq Require Import List Bool Arith Lia.
From Verif Require Import Base SortedMap TxEnumModel.
Import ListNotations.
Set Implicit Arguments.

Section Enum.
  Variable A : Type.
  Variable lt : A -> A -> bool.
  Hypothesis lt_irrefl : forall a, lt a a = false.
  Hypothesis lt_trans : forall a b c, lt a b = true -> lt b c = true -> lt a c = true.
  (** [equiv] elements (same key) are interchangeable for the order *)
  Definition eqv a b := lt a b = false /\ lt b a = false.
  Hypothesis eqv_lt : forall a b c, eqv a b -> lt a c = lt b c.
  Hypothesis eqv_gt : forall a b c, eqv a b -> lt c a = lt c b.

  Lemma eqv_sym a b : eqv a b -> eqv b a.
  Proof. unfold eqv; tauto. Qed.
  Lemma eqv_trans a b c : eqv a b -> eqv b c -> eqv a c.
  Proof. unfold eqv. intros H [H1 H2]. split. - now rewrite (eqv_lt _ H). - now rewrite (eqv_gt _ H). Qed.

  Record inv (i a r : list A) : Prop := {
    i_si : srt lt i; i_sa : srt lt a; i_sr : srt lt r;
    i_ri : forall x, In x r -> exists y, In y i /\ eqv x y;
    i_ai : forall x y, In x a -> In y i -> eqv x y -> exists z, In z r /\ eqv y z }.

  (** What the enumeration must be *)
  Definition overlay (i a r l : list A) : Prop :=
    srt lt l /\ forall x, In x l <-> In x a \/ (In x i /\ forall z, In z r -> ~ eqv x z).

  Lemma overlay_unique i a r l1 l2 : overlay i a r l1 -> overlay i a r l2 -> l1 = l2.
  Proof.
    intros [S1 H1] [S2 H2]. apply (srt_unique lt_irrefl lt_trans); auto.
    intros x. now rewrite H1, H2.
  Qed.

  Lemma asym a b : lt a b = true -> lt b a = false.
  Proof. apply (lt_asym lt lt_irrefl lt_trans). Qed.

  (** head of i is less than head of r or equivalent *)
  Lemma head_r x i a z r : inv (x :: i) a (z :: r) -> lt z x = false.
  Proof.
    intros H. destruct (i_ri H z (or_introl eq_refl)) as (y & [<-|Hy] & E).
    - apply E.
    - destruct (srt_inv (i_si H)) as [_ L]. apply L in Hy.
      rewrite (eqv_lt _ E). now apply asym.
  Qed.

  Lemma inv_items x i a r : inv (x :: i) a r ->
    (forall z, In z r -> ~ eqv x z) -> inv i a r.
  Proof.
    intros H N. destruct (srt_inv (i_si H)) as [S L]. constructor; auto; try apply H.
    - intros z Hz. destruct (i_ri H z Hz) as (y & [<-|Hy] & E); eauto.
      destruct (N z Hz). now apply eqv_sym.
    - intros u y Hu Hy. apply (i_ai H); auto. now right.
  Qed.

  Lemma inv_added i y a r : inv i (y :: a) r -> inv i a r.
  Proof.
    intros H. destruct (srt_inv (i_sa H)) as [S L]. constructor; auto; try apply H.
    intros u v Hu Hv. apply (i_ai H); auto. now right.
  Qed.

  Lemma inv_removed x i a z r : inv (x :: i) a (z :: r) -> eqv x z -> inv i a r.
  Proof.
    intros H E. destruct (srt_inv (i_si H)) as [S L]. destruct (srt_inv (i_sr H)) as [Sr Lr].
    constructor; auto; try apply H.
    - intros u Hu. destruct (i_ri H u (or_intror Hu)) as (y & [<-|Hy] & E2); eauto.
      exfalso. apply Lr in Hu. rewrite <- (eqv_lt u E) in Hu. destruct E2. congruence.
    - intros u y Hu Hy E2. destruct (i_ai H Hu (or_intror Hy) E2) as (w & [<-|Hw] & E3); eauto.
      exfalso. apply L in Hy. rewrite (eqv_lt y E) in Hy. destruct E3. congruence.
  Qed.

  (** Specification of one enumerator state: valid or finished, not Removed/Broken *)
  Definition ready (e : en A) : Prop :=
    e_ty e = entry_type lt (e_i e) (e_a e) (e_r e) /\ inv (e_i e) (e_a e) (e_r e)
    /\ e_ty e <> ERemoved.

  Lemma entry_not_broken i a r : inv i a r -> entry_type lt i a r <> EBroken.
  Proof.
    intros H. unfold entry_type. destruct i as [|x i]; [destruct a; discriminate|].
    destruct (match a with y :: _ => lt y x | [] => false end); [discriminate|].
    destruct r as [|z r]; [discriminate|]. destruct (lt x z); [discriminate|].
    rewrite (head_r H). discriminate.
  Qed.

  Lemma entry_removed i a r : inv i a r -> entry_type lt i a r = ERemoved ->
    exists x i' z r', i = x :: i' /\ r = z :: r' /\ eqv x z /\ inv i' a r'.
  Proof.
    intros H. unfold entry_type. destruct i as [|x i]; [destruct a; discriminate|].
    destruct (match a with y :: _ => lt y x | [] => false end); [discriminate|].
    destruct r as [|z r]; [discriminate|]. destruct (lt x z) eqn:E1; [discriminate|].
    destruct (lt z x) eqn:E2; [discriminate|]. intros _.
    assert (E : eqv x z) by now split.
    exists x, i, z, r. repeat split; auto. all: try apply E. all: apply (inv_removed H E).
  Qed.

  (** skipping removed pairs *)
  Lemma next_loop_removed n : forall e, e_ty e = entry_type lt (e_i e) (e_a e) (e_r e) ->
    inv (e_i e) (e_a e) (e_r e) -> e_ty e = ERemoved -> length (e_r e) < n ->
    exists e', next_loop lt n e = Some e' /\ ready e' /\ length (e_i e') <= length (e_i e)
      /\ e_a e' = e_a e
      /\ forall l, overlay (e_i e') (e_a e') (e_r e') l <-> overlay (e_i e) (e_a e) (e_r e) l.
  Proof.
    induction n as [|n IH]; intros [t i a r]; cbn [e_ty e_i e_a e_r]; intros Et H ER Hn; [lia|].
    subst t. cbn [next_loop next_once e_ty e_i e_a e_r]. unfold next_once; cbn [e_ty e_i e_a e_r].
    rewrite ER.
    destruct (entry_removed H ER) as (x & i' & z & r' & -> & -> & E & H').
    cbn [tl update_entry e_ty]. unfold update_entry; cbn [e_ty].
    assert (OV : forall l, overlay i' a r' l <-> overlay (x :: i') a (z :: r') l).
    { intros l. unfold overlay.
      destruct (srt_inv (i_si H)) as [Si Li]. destruct (srt_inv (i_sr H)) as [Sr Lr].
      split; intros [S HI]; split; auto; intros u; rewrite HI.
      - split; intros [Hu|[Hu Hz]]; auto; right.
        + split; [now right|]. intros w [<-|Hw]; auto.
          intros E2. apply Li in Hu. rewrite (eqv_gt x E2), (eqv_lt z E), lt_irrefl in Hu. discriminate.
        + destruct Hu as [<-|Hu]; [destruct (Hz z (or_introl eq_refl)); auto|].
          split; auto. intros w Hw. apply Hz. now right.
      - split; intros [Hu|[Hu Hz]]; auto; right.
        + destruct Hu as [<-|Hu]; [destruct (Hz z (or_introl eq_refl)); auto|].
          split; auto. intros w Hw. apply Hz. now right.
        + split; [now right|]. intros w [<-|Hw]; auto.
          intros E2. apply Li in Hu. rewrite (eqv_gt x E2), (eqv_lt z E), lt_irrefl in Hu. discriminate. }
    destruct (entry_type lt i' a r') eqn:ET.
    1,2,3: eexists; split; [reflexivity|]; cbn [e_ty e_i e_a e_r]; split;
      [repeat split; cbn [e_ty e_i e_a e_r]; auto; try apply H'; discriminate|cbn; split; [lia|split; auto]].
    - destruct (IH (mk_en ERemoved i' a r')) as (e' & E1 & E2 & E3 & E4 & E5); cbn [e_ty e_i e_a e_r]; auto.
      { cbn in Hn; lia. }
      exists e'. split; auto. split; auto. cbn in *. split; [lia|]. split; auto.
      intros l. rewrite E5. apply OV.
    - now destruct (entry_not_broken H').
  Qed.

  Lemma begin_ok i a r : inv i a r -> exists e', enum_begin lt i a r = Some e' /\ ready e'
    /\ length (e_i e') + length (e_a e') <= length i + length a
    /\ forall l, overlay (e_i e') (e_a e') (e_r e') l <-> overlay i a r l.
  Proof.
    intros H. unfold enum_begin, update_entry; cbn [e_ty].
    destruct (entry_type lt i a r) eqn:ET.
    1,2,3: eexists; split; [reflexivity|]; split;
      [repeat split; cbn [e_ty e_i e_a e_r]; auto; try apply H; discriminate|cbn; split; [lia|tauto]].
    - unfold next. destruct (@next_loop_removed (S (S (length r))) (mk_en ERemoved i a r))
        as (e' & E1 & E2 & E3 & E4 & E5); cbn [e_ty e_i e_a e_r]; auto.
      exists e'. cbn [e_i e_a e_r] in *. split; auto. split; auto. split; [rewrite E4; lia|auto].
    - now destruct (entry_not_broken H).
  Qed.

  (** the step Next from a ready, valid state *)
  Lemma next_ready e x : ready e -> enum_get e = Some x ->
    exists e', next lt e = Some e' /\ ready e'
      /\ length (e_i e') + length (e_a e') < length (e_i e) + length (e_a e)
      /\ forall l, overlay (e_i e') (e_a e') (e_r e') l -> overlay (e_i e) (e_a e) (e_r e) (x :: l).
  Proof.
    destruct e as [t i a r]. intros (Et & H & NR). unfold enum_get; cbn [e_ty e_i e_a e_r] in *.
    subst t. intros G.
    assert (EX : exists i' a' , next_once lt (mk_en (entry_type lt i a r) i a r)
               = Some (update_entry lt i' a' r) /\ inv i' a' r
               /\ length i' + length a' < length i + length a
               /\ forall l, overlay i' a' r l -> overlay i a r (x :: l)).
    { unfold next_once; cbn [e_ty e_i e_a e_r].
      destruct (entry_type lt i a r) eqn:ET; try discriminate.
      - (* items *)
        destruct i as [|y i]; [discriminate|]. cbn in G. injection G as <-.
        cbn in ET.
        destruct (match a with y0 :: _ => lt y0 y | [] => false end) eqn:EA; [discriminate|].
        assert (N : forall z, In z r -> lt y z = true).
        { destruct r as [|z r]; [easy|]. destruct (lt y z) eqn:E1.
          - intros w [<-|Hw]; auto. destruct (srt_inv (i_sr H)) as [_ Lr]. eapply lt_trans; eauto.
          - destruct (lt z y); discriminate. }
        assert (N2 : forall z, In z r -> ~ eqv y z).
        { intros z Hz [E _]. rewrite (N z Hz) in E. discriminate. }
        assert (La : forall u, In u a -> lt y u = true).
        { destruct a as [|b a]; [easy|]. destruct (srt_inv (i_sa H)) as [_ Lr].
          assert (lt y b = true).
          { destruct (lt y b) eqn:E; auto. exfalso.
            destruct (i_ai H (x:=b) (y:=y) (or_introl eq_refl) (or_introl eq_refl)) as (z & Hz & E3).
            { now split. } now apply (N2 z). }
          intros u [<-|Hu]; auto. eapply lt_trans; eauto. }
        destruct (srt_inv (i_si H)) as [Si Li].
        exists i, a. split; [reflexivity|]. split; [apply (inv_items H N2)|].
        cbn. split; [lia|]. intros l [S HI]. split.
        + apply srt_cons; auto. intros u Hu. apply HI in Hu as [Hu|[Hu _]]; auto.
        + intros u. cbn. rewrite HI. split.
          * intros [<-|[Hu|[Hu Hz]]]; auto.
          * intros [Hu|[[<-|Hu] Hz]]; auto.
      - (* added *)
        destruct a as [|y a]; [discriminate|]. cbn in G. injection G as <-.
        assert (Ly : forall u, In u i -> lt y u = true).
        { destruct i as [|b i]; [easy|]. cbn in ET. destruct (lt y b) eqn:E.
          - destruct (srt_inv (i_si H)) as [_ Li]. intros u [<-|Hu]; auto. eapply lt_trans; eauto.
          - destruct r as [|z r]; [discriminate|]. destruct (lt b z); [discriminate|].
            destruct (lt z b); discriminate. }
        destruct (srt_inv (i_sa H)) as [Sa La].
        exists i, a. split; [reflexivity|]. split; [apply (inv_added H)|].
        cbn. split; [lia|]. intros l [S HI]. split.
        + apply srt_cons; auto. intros u Hu. apply HI in Hu as [Hu|[Hu _]]; auto.
        + intros u. cbn. rewrite HI. split.
          * intros [<-|[Hu|[Hu Hz]]]; auto.
          * intros [[<-|Hu]|[Hu Hz]]; auto. }
    destruct EX as (i' & a' & E1 & H' & HL & OV).
    unfold next. cbn [next_loop e_r]. rewrite E1. unfold update_entry; cbn [e_ty].
    destruct (entry_type lt i' a' r) eqn:ET.
    1,2,3: eexists; split; [reflexivity|]; split;
      [repeat split; cbn [e_ty e_i e_a e_r]; auto; try apply H'; discriminate|cbn; split; auto].
    - destruct (@next_loop_removed (S (length r)) (mk_en ERemoved i' a' r))
        as (e' & F1 & F2 & F3 & F4 & F5); cbn [e_ty e_i e_a e_r]; auto.
      exists e'. split; auto. split; auto. cbn in F3, F4, F5. cbn [e_i e_a].
      split; [rewrite F4; lia|]. intros l Hl. apply OV. now rewrite <- F5.
    - now destruct (entry_not_broken H').
  Qed.

  Lemma drain_ok n : forall e, ready e -> length (e_i e) + length (e_a e) < n ->
    exists l, drain lt n e = Some l /\ overlay (e_i e) (e_a e) (e_r e) l.
  Proof.
    induction n as [|n IH]; intros e R Hn; [lia|]. cbn [drain].
    destruct (enum_get e) as [x|] eqn:G.
    - destruct (next_ready R G) as (e' & -> & R' & L & OV).
      destruct (IH e' R') as (l & -> & Hl); [lia|]. eauto.
    - exists []. split; auto. destruct e as [t i a r]. destruct R as (Et & H & NR).
      cbn [e_ty e_i e_a e_r] in *. unfold enum_get in G; cbn [e_ty e_i e_a e_r] in G. subst t.
      pose proof (entry_not_broken H) as NB.
      destruct i as [|y i].
      + destruct a as [|b a]; [|discriminate G].
        split; [constructor|]. cbn. tauto.
      + exfalso. cbn in *.
        destruct (match a with y0 :: _ => lt y0 y | [] => false end) eqn:EA.
        { destruct a; discriminate. }
        destruct r as [|z r]; [discriminate|]. destruct (lt y z); [discriminate|].
        destruct (lt z y); congruence.
  Qed.

  Theorem enum_list_ok i a r : inv i a r ->
    exists l, enum_list lt i a r = Some l /\ overlay i a r l.
  Proof.
    intros H. unfold enum_list. destruct (begin_ok H) as (e & -> & R & L & OV).
    destruct (@drain_ok (S (length i + length a)) e R) as (l & -> & Hl); [lia|].
    exists l. split; auto. now apply OV.
  Qed.

  (** ** diff *)
  Lemma ddrain_In n : forall a r, length a + length r <= n -> forall o x,
    In (o, x) (ddrain lt n a r) <-> (o = OpAdded /\ In x a) \/ (o = OpRemoved /\ In x r).
  Proof.
    induction n as [|n IH]; intros a r Hn o x.
    - destruct a, r; cbn in *; try lia; intuition.
    - destruct a as [|y a]; destruct r as [|z r]; cbn in Hn |- *; try tauto.
      + rewrite IH by (cbn; lia). cbn. intuition congruence.
      + rewrite IH by (cbn; lia). cbn. intuition congruence.
      + destruct (lt y z); cbn; rewrite IH by (cbn; lia); cbn; intuition congruence.
  Qed.

  Lemma diff_list_In a r o x :
    In (o, x) (diff_list lt a r) <-> (o = OpAdded /\ In x a) \/ (o = OpRemoved /\ In x r).
  Proof. apply ddrain_In; auto. Qed.

  (** Sorted by element; for equivalent elements Removed comes before Added. *)
  Definition dlt (p q : cop * A) : bool :=
    lt (snd p) (snd q) ||
    (negb (lt (snd q) (snd p)) &&
     match fst p, fst q with OpRemoved, OpAdded => true | _, _ => false end).

  Lemma ddrain_srt n : forall a r, length a + length r <= n -> srt lt a -> srt lt r ->
    srt dlt (ddrain lt n a r).
  Proof.
    assert (D : forall o x o' y, lt x y = true -> dlt (o, x) (o', y) = true).
    { intros. unfold dlt; cbn. now rewrite H. }
    induction n as [|n IH]; intros a r Hn Sa Sr; [constructor|].
    destruct a as [|y a]; destruct r as [|z r]; cbn in Hn |- *.
    - constructor.
    - destruct (srt_inv Sr) as [Sr' Lr]. apply srt_cons.
      + apply IH; auto; cbn; lia.
      + intros [o x] Hx. apply ddrain_In in Hx; [|cbn; lia].
        destruct Hx as [[_ []]|[-> Hx]]; auto.
    - destruct (srt_inv Sa) as [Sa' La]. apply srt_cons.
      + apply IH; auto; cbn; lia.
      + intros [o x] Hx. apply ddrain_In in Hx; [|cbn; lia].
        destruct Hx as [[-> Hx]|[_ []]]; auto.
    - destruct (srt_inv Sr) as [Sr' Lr]. destruct (srt_inv Sa) as [Sa' La].
      destruct (lt y z) eqn:E; cbn.
      + apply srt_cons.
        * apply IH; auto; cbn; lia.
        * intros [o x] Hx. apply ddrain_In in Hx; [|cbn; lia].
          destruct Hx as [[-> Hx]|[-> [<-|Hx]]]; auto. apply D. eapply lt_trans; eauto.
      + apply srt_cons.
        * apply IH; auto; cbn; lia.
        * intros [o x] Hx. apply ddrain_In in Hx; [|cbn; lia].
          destruct Hx as [[-> Hx]|[-> Hx]]; auto.
          unfold dlt; cbn. destruct (lt z x) eqn:E2; auto. cbn. rewrite andb_true_r.
          destruct (lt x z) eqn:E3; auto. exfalso.
          destruct Hx as [<-|Hx]; [congruence|]. apply La in Hx.
          rewrite (lt_trans Hx E3) in E. discriminate.
  Qed.
  Lemma diff_list_srt a r : srt lt a -> srt lt r -> srt dlt (diff_list lt a r).
  Proof. apply ddrain_srt; auto. Qed.
End Enum.
