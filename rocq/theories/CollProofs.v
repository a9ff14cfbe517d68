(** Proofs about the plain collections. *)
From Coq Require Import Permutation.
From Verif Require Import Base CollModel CollSpec.

Section swo.
  Variables K E : Type.
  Variable key : E -> K.
  Variable lt : K -> K -> bool.
  Hypothesis W : swo lt.
  Notation lb := (lower_bound K E key lt).
  Notation ub := (upper_bound K E key lt).

  Lemma lt_irrefl a : lt a a = false. Proof. apply W. Qed.
  Lemma lt_trans a b c : lt a b = true -> lt b c = true -> lt a c = true. Proof. apply W. Qed.
  Lemma lt_neg a b c : lt a b = false -> lt b c = false -> lt a c = false.
  Proof. intros H1 H2. destruct (lt a c) eqn:H; [ | reflexivity]. destruct (proj2 (proj2 W) a b c H); congruence. Qed.
  Lemma lt_asym a b : lt a b = true -> lt b a = false.
  Proof. intros H. destruct (lt b a) eqn:H2; [ | reflexivity]. rewrite <- (lt_irrefl a). symmetry. eapply lt_trans; eassumption. Qed.
  Lemma eqv_refl a : eqv lt a a = true. Proof. unfold eqv. rewrite lt_irrefl. reflexivity. Qed.
  Lemma eqv_sym a b : eqv lt a b = eqv lt b a. Proof. unfold eqv. apply andb_comm. Qed.
  Lemma eqv_iff a b : eqv lt a b = true <-> lt a b = false /\ lt b a = false.
  Proof. unfold eqv. rewrite andb_true_iff, !negb_true_iff. reflexivity. Qed.
  Lemma eqv_lt_l a b c : eqv lt a b = true -> lt a c = lt b c.
  Proof.
    rewrite eqv_iff. intros [H1 H2]. destruct (lt a c) eqn:A, (lt b c) eqn:B; try reflexivity; exfalso.
    - rewrite (lt_neg a b c H1 B) in A. discriminate.
    - rewrite (lt_neg b a c H2 A) in B. discriminate.
  Qed.
  Lemma eqv_lt_r a b c : eqv lt a b = true -> lt c a = lt c b.
  Proof.
    rewrite eqv_iff. intros [H1 H2]. destruct (lt c a) eqn:A, (lt c b) eqn:B; try reflexivity; exfalso.
    - rewrite (lt_neg c b a B H2) in A. discriminate.
    - rewrite (lt_neg c a b A H1) in B. discriminate.
  Qed.
  Lemma eqv_eqv a b c : eqv lt a b = true -> eqv lt a c = eqv lt b c.
  Proof. intros H. unfold eqv at 1 2. rewrite (eqv_lt_l a b c H), (eqv_lt_r a b c H). reflexivity. Qed.

  (** Sorted lists, one element at a time. *)
  Fixpoint nd (l : list E) : Prop := match l with [] => True | e :: l' => Forall (fun x => lt (key x) (key e) = false) l' /\ nd l' end.
  Fixpoint inc (l : list E) : Prop := match l with [] => True | e :: l' => Forall (fun x => lt (key e) (key x) = true) l' /\ inc l' end.
  Lemma nd_spec l : nondecreasing K E key lt l <-> nd l.
  Proof.
    induction l as [ | e l IH]; cbn [nd]; [split; [auto | ]; intros _ i j a b _ H; destruct i; discriminate | ]. rewrite <- IH. split.
    - intros H. split.
      + apply Forall_forall. intros x Hx. apply In_nth_error in Hx. destruct Hx as [j Hj]. apply (H 0 (S j) e x); [lia | reflexivity | exact Hj].
      + intros i j a b Hij Ha Hb. apply (H (S i) (S j)); [lia | exact Ha | exact Hb].
    - intros [H1 H2] i j a b Hij Ha Hb. destruct j as [ | j]; [lia | ]. destruct i as [ | i].
      + injection Ha as <-. rewrite Forall_forall in H1. apply H1. eapply nth_error_In; exact Hb.
      + apply (H2 i j); [lia | exact Ha | exact Hb].
  Qed.
  Lemma inc_spec l : increasing K E key lt l <-> inc l.
  Proof.
    induction l as [ | e l IH]; cbn [inc]; [split; [auto | ]; intros _ i j a b _ H; destruct i; discriminate | ]. rewrite <- IH. split.
    - intros H. split.
      + apply Forall_forall. intros x Hx. apply In_nth_error in Hx. destruct Hx as [j Hj]. apply (H 0 (S j) e x); [lia | reflexivity | exact Hj].
      + intros i j a b Hij Ha Hb. apply (H (S i) (S j)); [lia | exact Ha | exact Hb].
    - intros [H1 H2] i j a b Hij Ha Hb. destruct j as [ | j]; [lia | ]. destruct i as [ | i].
      + injection Ha as <-. rewrite Forall_forall in H1. apply H1. eapply nth_error_In; exact Hb.
      + apply (H2 i j); [lia | exact Ha | exact Hb].
  Qed.
  Lemma inc_nd l : inc l -> nd l.
  Proof. induction l; cbn; [auto | ]. intros [H1 H2]. split; [ | auto]. eapply Forall_impl; [ | exact H1]. cbn. intros x. apply lt_asym. Qed.
  Lemma nd_app a b : nd (a ++ b) <-> nd a /\ nd b /\ forall x y, In x a -> In y b -> lt (key y) (key x) = false.
  Proof.
    induction a as [ | e a IH]; cbn [app nd]; [split; [intros H; repeat split; [exact H | intros x y []] | tauto] | ].
    rewrite IH, Forall_app, !Forall_forall. split.
    - intros ((H1 & H2) & H3 & H4 & H5). repeat split; auto. intros x y [-> | Hx] Hy; auto.
    - intros ((H1 & H2) & H3 & H4). repeat split; auto; intros; apply H4; cbn; auto.
  Qed.
  Lemma inc_app a b : inc (a ++ b) <-> inc a /\ inc b /\ forall x y, In x a -> In y b -> lt (key x) (key y) = true.
  Proof.
    induction a as [ | e a IH]; cbn [app inc]; [split; [intros H; repeat split; [exact H | intros x y []] | tauto] | ].
    rewrite IH, Forall_app, !Forall_forall. split.
    - intros ((H1 & H2) & H3 & H4 & H5). repeat split; auto. intros x y [-> | Hx] Hy; auto.
    - intros ((H1 & H2) & H3 & H4). repeat split; auto; intros; apply H4; cbn; auto.
  Qed.

  (** The bounds split a sorted list. *)
  Lemma lb_split l k : nd l -> firstn (lb l k) l = filter (fun e => lt (key e) k) l /\ skipn (lb l k) l = from K E key lt l k.
  Proof.
    unfold from. induction l as [ | e l IH]; cbn [nd]; [split; reflexivity | ]. intros [H1 H2]. destruct (IH H2) as [I1 I2]. cbn [lower_bound filter].
    destruct (lt (key e) k) eqn:Ek; cbn [firstn skipn negb]; [split; [f_equal; exact I1 | exact I2] | ].
    rewrite Forall_forall in H1. assert (N : forall x, In x l -> lt (key x) k = false) by (intros x Hx; apply (lt_neg _ (key e)); auto).
    split.
    - symmetry. clear - N. induction l as [ | x l IHl]; [reflexivity | ]. cbn [filter]. rewrite (N x) by (left; reflexivity). apply IHl. intros; apply N; right; assumption.
    - f_equal. clear - N. induction l as [ | x l IHl]; [reflexivity | ]. cbn [filter]. rewrite (N x) by (left; reflexivity). cbn [negb]. f_equal. apply IHl. intros; apply N; right; assumption.
  Qed.
  Lemma ub_split l k : nd l -> firstn (ub l k) l = upto K E key lt l k /\ skipn (ub l k) l = filter (fun e => lt k (key e)) l.
  Proof.
    unfold upto. induction l as [ | e l IH]; cbn [nd]; [split; reflexivity | ]. intros [H1 H2]. destruct (IH H2) as [I1 I2]. cbn [upper_bound filter].
    destruct (lt k (key e)) eqn:Ek; cbn [firstn skipn negb]; [ | split; [f_equal; exact I1 | exact I2]].
    rewrite Forall_forall in H1. assert (N : forall x, In x l -> lt k (key x) = true).
    { intros x Hx. destruct (proj2 (proj2 W) k (key x) (key e) Ek) as [Q | Q]; [exact Q | ]. rewrite H1 in Q by assumption. discriminate. }
    split.
    - symmetry. clear - N. induction l as [ | x l IHl]; [reflexivity | ]. cbn [filter]. rewrite (N x) by (left; reflexivity). apply IHl. intros; apply N; right; assumption.
    - f_equal. clear - N. induction l as [ | x l IHl]; [reflexivity | ]. cbn [filter]. rewrite (N x) by (left; reflexivity). f_equal. apply IHl. intros; apply N; right; assumption.
  Qed.
  Lemma lb_len l k : lb l k <= length l. Proof. induction l; cbn; [lia | ]. destruct (lt (key a) k); lia. Qed.
  Lemma ub_len l k : ub l k <= length l. Proof. induction l; cbn; [lia | ]. destruct (lt k (key a)); lia. Qed.
  (** smaller, equivalent, greater *)
  Notation lo k l := (filter (fun e => lt (key e) k) l).
  Notation hi k l := (filter (fun e => lt k (key e)) l).
  Notation cls := (class K E key lt).
  Lemma three l k : nd l -> l = lo k l ++ cls l k ++ hi k l /\ lb l k = length (lo k l) /\ ub l k = length (lo k l ++ cls l k).
  Proof.
    intros N. assert (Hl : from K E key lt l k = cls l k ++ hi k l).
    { revert N. unfold from, class. induction l as [ | e l IH]; cbn [nd]; [reflexivity | ]. intros [H1 H2]. specialize (IH H2). cbn [filter]. rewrite Forall_forall in H1. unfold eqv at 1.
      destruct (lt (key e) k) eqn:A, (lt k (key e)) eqn:B; cbn [negb andb].
      - rewrite (lt_asym _ _ A) in B. discriminate.
      - exact IH.
      - replace (filter (fun e0 => eqv lt (key e0) k) l) with (@nil E).
        + cbn [app]. f_equal. rewrite IH. replace (filter (fun e0 => eqv lt (key e0) k) l) with (@nil E); [reflexivity | ].
          symmetry. clear IH H2. induction l as [ | x l IHl]; [reflexivity | ]. cbn [filter]. replace (eqv lt (key x) k) with false; [apply IHl; intros; apply H1; right; assumption | ].
          symmetry. unfold eqv. replace (lt k (key x)) with true; [cbn; apply andb_false_r | ]. symmetry.
          destruct (proj2 (proj2 W) k (key x) (key e) B) as [Q | Q]; [exact Q | ]. rewrite H1 in Q by (left; reflexivity). discriminate.
        + symmetry. clear IH H2. induction l as [ | x l IHl]; [reflexivity | ]. cbn [filter]. replace (eqv lt (key x) k) with false; [apply IHl; intros; apply H1; right; assumption | ].
          symmetry. unfold eqv. replace (lt k (key x)) with true; [cbn; apply andb_false_r | ]. symmetry.
          destruct (proj2 (proj2 W) k (key x) (key e) B) as [Q | Q]; [exact Q | ]. rewrite H1 in Q by (left; reflexivity). discriminate.
      - cbn [app]. f_equal. exact IH. }
    destruct (lb_split l k N) as [L1 L2]. destruct (ub_split l k N) as [U1 U2].
    assert (El : l = lo k l ++ cls l k ++ hi k l). { rewrite <- Hl, <- L1 at 1. rewrite <- L2. symmetry. apply firstn_skipn. }
    split; [exact El | ]. split.
    - rewrite <- L1, firstn_length. pose proof (lb_len l k). lia.
    - assert (Hu : length (hi k l) = length l - ub l k) by (rewrite <- U2, skipn_length; reflexivity).
      apply (f_equal (@length E)) in El. rewrite !app_length in *. pose proof (ub_len l k). lia.
  Qed.

  Lemma nth_mid (a b c : list E) : nth_error (a ++ b ++ c) (length a) = hd_error (b ++ c).
  Proof. rewrite nth_error_app2, Nat.sub_diag by lia. destruct (b ++ c); reflexivity. Qed.
  Lemma hi_head k l x r : hi k l = x :: r -> lt k (key x) = true.
  Proof. intros H. assert (I : In x (hi k l)) by (rewrite H; left; reflexivity). apply filter_In in I. apply I. Qed.
  Lemma cls_head k l x r : cls l k = x :: r -> eqv lt (key x) k = true.
  Proof. intros H. assert (I : In x (cls l k)) by (rewrite H; left; reflexivity). apply filter_In in I. apply I. Qed.
  Lemma find_pos_spec l k : nd l -> find_pos K E key lt l k = match cls l k with [] => None | _ => Some (length (lo k l)) end.
  Proof.
    intros N. destruct (three l k N) as (El & L & U). unfold find_pos. cbv zeta. rewrite L. rewrite El at 1. rewrite nth_mid.
    destruct (cls l k) as [ | x r] eqn:C; cbn [app hd_error].
    - destruct (hi k l) as [ | x r] eqn:H; cbn [hd_error]; [reflexivity | ]. rewrite (hi_head _ _ _ _ H). reflexivity.
    - apply cls_head in C. apply eqv_iff in C. destruct C as [_ ->]. reflexivity.
  Qed.
  Lemma find_elem_spec l k : nd l -> find_elem K E key lt l k = lookup K E key lt l k.
  Proof.
    intros N. destruct (three l k N) as (El & L & U). unfold find_elem, lookup. cbv zeta. rewrite find_pos_spec by assumption. destruct (cls l k) as [ | x r] eqn:C; [reflexivity | ].
    rewrite El at 1. rewrite nth_mid. reflexivity.
  Qed.
  Lemma contains_spec l k : nd l -> u_contains K E key lt l k = match lookup K E key lt l k with Some _ => true | None => false end.
  Proof. intros N. unfold u_contains, lookup. rewrite find_pos_spec by assumption. destruct (cls l k); reflexivity. Qed.
  Lemma lo_in k l x : In x (lo k l) -> In x l /\ lt (key x) k = true. Proof. apply filter_In. Qed.
  Lemma hi_in k l x : In x (hi k l) -> In x l /\ lt k (key x) = true. Proof. apply filter_In. Qed.
  Lemma cls_in k l x : In x (cls l k) -> In x l /\ eqv lt (key x) k = true. Proof. apply filter_In. Qed.

  Lemma insert_at_app (a b : list E) e : insert_at (a ++ b) (length a) e = a ++ e :: b.
  Proof. unfold insert_at. rewrite firstn_app, firstn_all, Nat.sub_diag, skipn_app, skipn_all, Nat.sub_diag. cbn. rewrite app_nil_r. reflexivity. Qed.
  Lemma erase_at_app (a b : list E) e : erase_at (a ++ e :: b) (length a) = a ++ b.
  Proof.
    unfold erase_at. rewrite firstn_app, firstn_all, Nat.sub_diag. cbn [firstn]. rewrite app_nil_r. f_equal.
    replace (a ++ e :: b) with ((a ++ [e]) ++ b) by (rewrite <- app_assoc; reflexivity). replace (S (length a)) with (length (a ++ [e])) by (rewrite app_length; cbn; lia).
    rewrite skipn_app, skipn_all, Nat.sub_diag. reflexivity.
  Qed.
  Lemma class_app a b k : cls (a ++ b) k = cls a k ++ cls b k. Proof. apply filter_app. Qed.
  Lemma lo_class l k k2 : eqv lt k k2 = true -> cls (lo k l) k2 = [].
  Proof.
    intros H. unfold class. induction l as [ | x l IH]; [reflexivity | ]. cbn [filter]. destruct (lt (key x) k) eqn:A; [ | exact IH]. cbn [filter].
    unfold eqv at 1. rewrite <- (eqv_lt_r k k2 (key x) H), A. cbn [negb andb]. exact IH.
  Qed.
  Lemma hi_class l k k2 : eqv lt k k2 = true -> cls (hi k l) k2 = [].
  Proof.
    intros H. unfold class. induction l as [ | x l IH]; [reflexivity | ]. cbn [filter]. destruct (lt k (key x)) eqn:A; [ | exact IH]. cbn [filter].
    unfold eqv at 1. rewrite <- (eqv_lt_l k k2 (key x) H), A. cbn [negb]. rewrite andb_false_r. exact IH.
  Qed.
  Lemma cls_same l k k2 : eqv lt k k2 = true -> cls l k2 = cls l k.
  Proof. intros H. unfold class. apply filter_ext. intros e. rewrite (eqv_sym (key e) k2), (eqv_sym (key e) k). symmetry. apply eqv_eqv, H. Qed.
  Lemma cls_other l k k2 : eqv lt k k2 = false -> cls (cls l k) k2 = [].
  Proof.
    intros H. unfold class. induction l as [ | x l IH]; [reflexivity | ]. cbn [filter]. destruct (eqv lt (key x) k) eqn:A; [ | exact IH]. cbn [filter].
    rewrite (eqv_eqv _ _ k2 A), H. exact IH.
  Qed.

  Lemma cls_three l k0 k : nd l -> cls l k = cls (lo k0 l) k ++ cls (cls l k0) k ++ cls (hi k0 l) k.
  Proof. intros N. destruct (three l k0 N) as (El & _ & _). rewrite <- !class_app. f_equal. exact El. Qed.
  (** Adding between the smaller or equivalent and the greater. *)
  Lemma m_add_eq l e : nd l -> m_add K E key lt l e = (lo (key e) l ++ cls l (key e)) ++ e :: hi (key e) l.
  Proof.
    intros N. destruct (three l (key e) N) as (El & L & U). unfold m_add. rewrite U. rewrite El at 1. rewrite app_assoc. apply insert_at_app.
  Qed.
  Lemma m_add_spec l e : nd l ->
    nd (m_add K E key lt l e) /\ Permutation (m_add K E key lt l e) (e :: l) /\
    forall k, cls (m_add K E key lt l e) k = if eqv lt (key e) k then cls l k ++ [e] else cls l k.
  Proof.
    intros N. rewrite m_add_eq by assumption. destruct (three l (key e) N) as (El & L & U). split; [ | split].
    - rewrite El in N. rewrite !nd_app in N. rewrite nd_app, nd_app. cbn [nd]. destruct N as (N1 & (N2 & N3 & N4) & N5).
      repeat split; auto.
      + intros x y Hx Hy. apply N5; [exact Hx | apply in_or_app; left; exact Hy].
      + apply Forall_forall. intros x Hx. apply hi_in in Hx. apply lt_asym, Hx.
      + intros x y Hx [<- | Hy]; apply in_app_or in Hx; destruct Hx as [Hx | Hx].
        * apply lo_in in Hx. apply lt_asym, Hx.
        * apply cls_in in Hx. destruct Hx as [_ Hx]. apply eqv_iff in Hx. apply Hx.
        * apply N5; [exact Hx | apply in_or_app; right; exact Hy].
        * apply N4; assumption.
    - rewrite El at 4. rewrite app_assoc. symmetry. apply Permutation_middle.
    - intros k. rewrite (cls_three l (key e) k N). rewrite !class_app. cbn [class filter]. fold (cls (hi (key e) l) k). destruct (eqv lt (key e) k) eqn:A.
      + rewrite (lo_class l _ k A), (hi_class l _ k A). rewrite !app_nil_r. reflexivity.
      + rewrite <- app_assoc. reflexivity.
  Qed.

  (** Unique keys *)
  Lemma inc_cls l k : inc l -> cls l k = [] \/ exists x, cls l k = [x].
  Proof.
    intros I. destruct (three l k (inc_nd l I)) as (El & _ & _). destruct (cls l k) as [ | x [ | y r]] eqn:C; [left; reflexivity | right; exists x; reflexivity | exfalso].
    rewrite El in I. rewrite !inc_app in I. destruct I as (_ & (I & _ & _) & _). cbn [inc] in I. destruct I as [I _]. inversion I as [ | ? ? I1 _]; subst.
    assert (Hx : In x (cls l k)) by (rewrite C; left; reflexivity). assert (Hy : In y (cls l k)) by (rewrite C; right; left; reflexivity).
    apply cls_in in Hx, Hy. destruct Hx as [_ Hx]. destruct Hy as [_ Hy]. rewrite (eqv_lt_l _ _ (key y) Hx), (eqv_lt_r _ _ k Hy), lt_irrefl in I1. discriminate.
  Qed.
  Lemma inc_insert l e : inc l -> cls l (key e) = [] -> inc (lo (key e) l ++ e :: hi (key e) l).
  Proof.
    intros I C. destruct (three l (key e) (inc_nd l I)) as (El & _ & _). rewrite C in El. cbn [app] in El. rewrite El in I. rewrite inc_app in *. cbn [inc]. destruct I as (I1 & I2 & I3).
    repeat split; auto.
    - apply Forall_forall. intros x Hx. apply hi_in in Hx. apply Hx.
    - intros x y Hx [<- | Hy]; [apply lo_in in Hx; apply Hx | apply I3; assumption].
  Qed.
  Lemma u_add_spec copied l e : inc l ->
    match cls l (key e) with
    | [] => exists l', u_add K E key lt copied l e = Some l' /\ inc l' /\ Permutation l' (e :: l) /\
              forall k, cls l' k = if eqv lt (key e) k then [e] else cls l k
    | _ => u_add K E key lt copied l e = None
    end.
  Proof.
    intros I. pose proof (inc_nd l I) as N. destruct (three l (key e) N) as (El & L & U). unfold u_add. cbv zeta. destruct (cls l (key e)) as [ | x r] eqn:C.
    - assert (Hins : insert_at l (lb l (key e)) e = lo (key e) l ++ e :: hi (key e) l). { rewrite L. rewrite El at 1. cbn [app]. apply insert_at_app. }
      exists (lo (key e) l ++ e :: hi (key e) l). split.
      + rewrite Hins. rewrite L. rewrite El at 1. cbn [app]. rewrite nth_error_app2, Nat.sub_diag by lia. destruct (hi (key e) l) as [ | x r] eqn:H; cbn [nth_error]; [destruct copied; reflexivity | ].
        rewrite (hi_head _ _ _ _ H). destruct copied; reflexivity.
      + split; [apply inc_insert; assumption | ]. split; [rewrite El at 3; cbn [app]; symmetry; apply Permutation_middle | ].
        intros k. rewrite class_app. cbn [class filter]. fold (cls (hi (key e) l) k). destruct (eqv lt (key e) k) eqn:A.
        * rewrite (lo_class l _ k A), (hi_class l _ k A). reflexivity.
        * rewrite El at 3. cbn [app]. rewrite class_app. reflexivity.
    - rewrite L. rewrite El at 1. rewrite nth_mid. cbn [app hd_error]. apply cls_head in C. apply eqv_iff in C. destruct C as [_ ->]. reflexivity.
  Qed.
  Lemma u_set_spec update l e : inc l -> (forall a b, key (update a b) = key a) ->
    let l' := u_set K E key lt update l e in
    inc l' /\ forall k, cls l' k = if eqv lt (key e) k then [match cls l (key e) with [] => e | x :: _ => update x e end] else cls l k.
  Proof.
    intros I Hk. cbv zeta. pose proof (inc_nd l I) as N. destruct (three l (key e) N) as (El & L & U). unfold u_set. cbv zeta. destruct (inc_cls l (key e) I) as [C | [x C]]; rewrite C in *.
    - assert (Hins : u_set K E key lt update l e = lo (key e) l ++ e :: hi (key e) l).
      { unfold u_set. cbv zeta. rewrite L.
        assert (Hi : insert_at l (length (lo (key e) l)) e = lo (key e) l ++ e :: hi (key e) l) by (rewrite El at 1; cbn [app]; apply insert_at_app). rewrite Hi.
        rewrite El at 1. cbn [app]. rewrite nth_error_app2, Nat.sub_diag by lia. destruct (hi (key e) l) as [ | x r] eqn:H; cbn [nth_error]; [reflexivity | ].
        rewrite (hi_head _ _ _ _ H). reflexivity. }
      unfold u_set in Hins. cbv zeta in Hins. rewrite Hins. split; [apply inc_insert; assumption | ]. intros k. rewrite class_app. cbn [class filter]. fold (cls (hi (key e) l) k). destruct (eqv lt (key e) k) eqn:A.
      + rewrite (lo_class l _ k A), (hi_class l _ k A). reflexivity.
      + rewrite El at 3. cbn [app]. rewrite class_app. reflexivity.
    - pose proof (cls_head _ _ _ _ C) as Hx.
      assert (Hset : u_set K E key lt update l e = lo (key e) l ++ update x e :: hi (key e) l).
      { unfold u_set. cbv zeta. rewrite L. rewrite El at 1. rewrite nth_mid. cbn [app hd_error]. apply eqv_iff in Hx. destruct Hx as [_ ->].
        replace (firstn (length (lo (key e) l)) l) with (lo (key e) l).
        2: { rewrite El at 3. cbn [app]. rewrite firstn_app, firstn_all, Nat.sub_diag. cbn [firstn]. rewrite app_nil_r. reflexivity. }
        f_equal. f_equal. rewrite El at 2. cbn [app].
        replace (lo (key e) l ++ x :: hi (key e) l) with ((lo (key e) l ++ [x]) ++ hi (key e) l) by (rewrite <- app_assoc; reflexivity).
        replace (S (length (lo (key e) l))) with (length (lo (key e) l ++ [x])) by (rewrite app_length; cbn; lia). rewrite skipn_app, skipn_all, Nat.sub_diag. reflexivity. }
      unfold u_set in Hset. cbv zeta in Hset. rewrite Hset. split.
      + cbn [app] in El. rewrite El in I. rewrite !inc_app in *. cbn [inc] in *. destruct I as (I1 & (I2 & I3) & I4). repeat split; auto.
        * rewrite Hk. exact I2.
        * intros a b Ha [<- | Hb]; [rewrite Hk; apply I4; [exact Ha | left; reflexivity] | apply I4; [exact Ha | right; exact Hb]].
      + intros k. rewrite class_app. cbn [class filter]. fold (cls (hi (key e) l) k). rewrite Hk, (eqv_eqv _ _ k Hx). destruct (eqv lt (key e) k) eqn:A.
        * rewrite (lo_class l _ k A), (hi_class l _ k A). reflexivity.
        * rewrite El at 3. cbn [app]. rewrite class_app. cbn [class filter]. rewrite (eqv_eqv _ _ k Hx), A. reflexivity.
  Qed.
  Lemma u_remove_spec copied l k0 : inc l ->
    match cls l k0 with
    | [] => u_remove K E key lt copied l k0 = None
    | x :: _ => exists l', u_remove K E key lt copied l k0 = Some l' /\ inc l' /\ Permutation l (x :: l') /\ forall k, cls l' k = if eqv lt k0 k then [] else cls l k
    end.
  Proof.
    intros I. pose proof (inc_nd l I) as N. destruct (three l k0 N) as (El & L & U). unfold u_remove, erase_key. rewrite find_pos_spec by assumption.
    destruct (inc_cls l k0 I) as [C | [x C]]; rewrite C in *; [reflexivity | ]. pose proof (cls_head _ _ _ _ C) as Hx.
    assert (He : erase_at l (length (lo k0 l)) = lo k0 l ++ hi k0 l). { rewrite El at 1. cbn [app]. apply erase_at_app. }
    exists (lo k0 l ++ hi k0 l). rewrite He. split; [destruct copied; reflexivity | ]. split; [ | split].
    - cbn [app] in El. rewrite El in I. rewrite !inc_app in *. cbn [inc] in I. destruct I as (I1 & (I2 & I3) & I4). repeat split; auto. intros a b Ha Hb. apply I4; [exact Ha | right; exact Hb].
    - rewrite El at 1. cbn [app]. symmetry. apply Permutation_middle.
    - intros k. rewrite class_app. destruct (eqv lt k0 k) eqn:A.
      + rewrite (lo_class l _ k A), (hi_class l _ k A). reflexivity.
      + rewrite El at 3. cbn [app]. rewrite class_app. cbn [class filter]. rewrite (eqv_eqv _ _ k Hx), A. reflexivity.
  Qed.
  Lemma u_find_spec l k : inc l -> u_find K E key lt l k = match cls l k with [] => [] | _ => from K E key lt l k end /\
    u_rfind K E key lt l k = match cls l k with [] => [] | _ => rev (upto K E key lt l k) end.
  Proof.
    intros I. pose proof (inc_nd l I) as N. destruct (three l k N) as (El & L & U). unfold u_find, u_rfind. rewrite find_pos_spec by assumption.
    destruct (inc_cls l k I) as [C | [x C]]; rewrite C in *; [split; reflexivity | ]. split.
    - rewrite <- L. apply lb_split; assumption.
    - f_equal. destruct (ub_split l k N) as [U1 _]. rewrite <- U1. f_equal. rewrite U, app_length. cbn. lia.
  Qed.
  Lemma remove_where_spec pred (l : list E) : remove_where pred l = (filter (fun e => negb (pred e)) l, length (filter pred l)).
  Proof. induction l as [ | e l IH]; [reflexivity | ]. cbn [remove_where filter]. rewrite IH. destruct (pred e); reflexivity. Qed.
  Lemma filter_inc p l : inc l -> inc (filter p l).
  Proof.
    induction l as [ | e l IH]; cbn [inc filter]; [auto | ]. intros [H1 H2]. destruct (p e); [ | auto]. cbn [inc]. split; [ | auto].
    rewrite Forall_forall in *. intros x Hx. apply filter_In in Hx. apply H1, Hx.
  Qed.
  Lemma filter_nd p l : nd l -> nd (filter p l).
  Proof.
    induction l as [ | e l IH]; cbn [nd filter]; [auto | ]. intros [H1 H2]. destruct (p e); [ | auto]. cbn [nd]. split; [ | auto].
    rewrite Forall_forall in *. intros x Hx. apply filter_In in Hx. apply H1, Hx.
  Qed.

  (** Many of a key *)
  Lemma m_reads l k : nd l -> m_range K E key lt l k = cls l k /\ m_count K E key lt l k = length (cls l k) /\ m_first K E key lt l k = hd_error (cls l k) /\
    m_find K E key lt l k = match cls l k with [] => [] | _ => from K E key lt l k end.
  Proof.
    intros N. destruct (three l k N) as (El & L & U).
    assert (Hc : ub l k - lb l k = length (cls l k)) by (rewrite L, U, app_length; lia).
    destruct (lb_split l k N) as [L1 L2].
    split; [ | split; [exact Hc | split]].
    - unfold m_range. rewrite Hc, L2. assert (Hf : from K E key lt l k = cls l k ++ hi k l).
      { rewrite <- L2. rewrite El at 2. rewrite L. rewrite skipn_app, skipn_all, Nat.sub_diag. reflexivity. }
      rewrite Hf, firstn_app, firstn_all, Nat.sub_diag. cbn. apply app_nil_r.
    - unfold m_first. rewrite L. rewrite El at 1. rewrite nth_mid. destruct (cls l k) as [ | x r] eqn:C; cbn [app hd_error].
      + destruct (hi k l) as [ | x r] eqn:H; cbn [hd_error]; [reflexivity | ]. rewrite (hi_head _ _ _ _ H). reflexivity.
      + apply cls_head in C. apply eqv_iff in C. destruct C as [_ ->]. reflexivity.
    - unfold m_find. rewrite L2. rewrite L. rewrite El at 1. rewrite nth_mid. destruct (cls l k) as [ | x r] eqn:C; cbn [app hd_error].
      + destruct (hi k l) as [ | x r] eqn:H; cbn [hd_error]; [reflexivity | ]. rewrite (hi_head _ _ _ _ H). reflexivity.
      + apply cls_head in C. apply eqv_iff in C. destruct C as [_ ->]. reflexivity.
  Qed.
  Lemma nd_del a x b : nd (a ++ x :: b) -> nd (a ++ b).
  Proof. rewrite !nd_app. cbn [nd]. intros (N1 & (N2 & N3) & N4). repeat split; auto. intros y z Hy Hz. apply N4; [exact Hy | right; exact Hz]. Qed.
  Lemma m_remove_first_spec matches copied l k : nd l ->
    match find matches (cls l k) with
    | None => m_remove_first K E key lt matches copied l k = None
    | Some x => exists a b, l = a ++ x :: b /\ eqv lt (key x) k = true /\ matches x = true /\ (forall y, In y a -> eqv lt (key y) k = true -> matches y = false) /\
                  m_remove_first K E key lt matches copied l k = Some (a ++ b)
    end.
  Proof.
    intros N. destruct (three l k N) as (El & L & U). unfold m_remove_first. replace (ub l k - lb l k) with (length (cls l k)) by (rewrite L, U, app_length; lia).
    assert (G : forall c2 c1, cls l k = c1 ++ c2 -> (forall y, In y c1 -> matches y = false) ->
      match find matches c2 with
      | None => m_remove_loop K E key lt matches copied l k (length c2) (length c1) = None
      | Some x => exists a b, l = a ++ x :: b /\ eqv lt (key x) k = true /\ matches x = true /\ (forall y, In y a -> eqv lt (key y) k = true -> matches y = false) /\
                  m_remove_loop K E key lt matches copied l k (length c2) (length c1) = Some (a ++ b)
      end).
    { induction c2 as [ | x c2 IH]; intros c1 C Hm; [reflexivity | ]. cbn [find length m_remove_loop]. rewrite L.
      assert (El2 : l = (lo k l ++ c1) ++ x :: (c2 ++ hi k l)). { rewrite <- app_assoc. rewrite El at 1. rewrite C, <- app_assoc. reflexivity. }
      replace (nth_error l (length (lo k l) + length c1)) with (Some x). 2: { rewrite El2 at 1. rewrite <- app_length, nth_error_app2, Nat.sub_diag by lia. reflexivity. }
      destruct (matches x) eqn:M.
      - exists (lo k l ++ c1), (c2 ++ hi k l). split; [exact El2 | ]. split; [ | split; [exact M | split]].
        + assert (I : In x (cls l k)) by (rewrite C; apply in_or_app; right; left; reflexivity). apply cls_in in I. apply I.
        + intros y Hy Ey. apply in_app_or in Hy. destruct Hy as [Hy | Hy]; [ | auto]. apply lo_in in Hy. apply eqv_iff in Ey. destruct Hy, Ey. congruence.
        + replace (erase_at l (length (lo k l) + length c1)) with ((lo k l ++ c1) ++ c2 ++ hi k l); [destruct copied; reflexivity | ].
          rewrite El2 at 3. rewrite <- app_length. symmetry. apply erase_at_app.
      - specialize (IH (c1 ++ [x]) ltac:(rewrite <- app_assoc; exact C)). rewrite app_length, Nat.add_1_r in IH. apply IH. intros y Hy. apply in_app_or in Hy. destruct Hy as [Hy | [<- | []]]; auto. }
    specialize (G (cls l k) [] eq_refl ltac:(intros y [])). exact G.
  Qed.
  Lemma ms_remove_first_spec copied l k : nd l ->
    match cls l k with
    | [] => ms_remove_first K E key lt copied l k = None
    | x :: _ => exists a b, l = a ++ x :: b /\ ms_remove_first K E key lt copied l k = Some (a ++ b) /\ (forall y, In y a -> lt (key y) k = true)
    end.
  Proof.
    intros N. destruct (three l k N) as (El & L & U). unfold ms_remove_first. rewrite L. replace (nth_error l (length (lo k l))) with (hd_error (cls l k ++ hi k l)) by (rewrite El at 3; rewrite nth_mid; reflexivity). destruct (cls l k) as [ | x r] eqn:C; cbn [app hd_error].
    - destruct (hi k l) as [ | x r] eqn:H; cbn [hd_error]; [reflexivity | ]. rewrite (hi_head _ _ _ _ H). reflexivity.
    - pose proof (cls_head _ _ _ _ C) as Hx. apply eqv_iff in Hx. destruct Hx as [_ ->]. exists (lo k l), (r ++ hi k l). split; [exact El | ]. split.
      + replace (erase_at l (length (lo k l))) with (lo k l ++ r ++ hi k l); [destruct copied; reflexivity | ]. rewrite El at 3. cbn [app]. symmetry. apply erase_at_app.
      + intros y Hy. apply lo_in in Hy. apply Hy.
  Qed.
  Lemma erase_times_spec (a c : list E) : forall b, erase_times E (length b) (a ++ b ++ c) (length a) = (a ++ c, length b).
  Proof.
    induction b as [ | x b IH]; [reflexivity | ]. cbn [length erase_times app]. change (x :: b ++ c) with (x :: (b ++ c)). rewrite erase_at_app, IH. reflexivity.
  Qed.
  Lemma lo_hi l k : nd l -> lo k l ++ hi k l = filter (fun e => negb (eqv lt (key e) k)) l.
  Proof.
    intros N. destruct (three l k N) as (El & _ & _). rewrite El at 3. rewrite !filter_app.
    assert (F1 : filter (fun e => negb (eqv lt (key e) k)) (lo k l) = lo k l).
    { clear. induction l as [ | x l IH]; [reflexivity | ]. cbn [filter]. destruct (lt (key x) k) eqn:A; [ | exact IH]. cbn [filter]. unfold eqv at 1. rewrite A. cbn [negb andb]. f_equal. exact IH. }
    assert (F2 : filter (fun e => negb (eqv lt (key e) k)) (hi k l) = hi k l).
    { clear. induction l as [ | x l IH]; [reflexivity | ]. cbn [filter]. destruct (lt k (key x)) eqn:A; [ | exact IH]. cbn [filter]. unfold eqv at 1. rewrite A. cbn [negb]. rewrite andb_false_r. cbn [negb]. f_equal. exact IH. }
    assert (F3 : filter (fun e => negb (eqv lt (key e) k)) (cls l k) = []).
    { clear. unfold class. induction l as [ | x l IH]; [reflexivity | ]. cbn [filter]. destruct (eqv lt (key x) k) eqn:A; [ | exact IH]. cbn [filter]. rewrite A. exact IH. }
    rewrite F1, F2, F3. reflexivity.
  Qed.
  Lemma m_remove_all_spec copied l k : nd l ->
    m_remove_all K E key lt copied l k = match cls l k with [] => None | _ => Some (filter (fun e => negb (eqv lt (key e) k)) l, length (cls l k)) end.
  Proof.
    intros N. destruct (three l k N) as (El & L & U). unfold m_remove_all, erase_all_key. rewrite <- (lo_hi l k N).
    assert (Hc : ub l k - lb l k = length (cls l k)) by (rewrite L, U, app_length; lia).
    destruct (cls l k) as [ | x r] eqn:C.
    - replace (Nat.eqb (lb l k) (ub l k)) with true by (symmetry; apply Nat.eqb_eq; rewrite L, U, app_nil_r; reflexivity). reflexivity.
    - replace (Nat.eqb (lb l k) (ub l k)) with false by (symmetry; apply Nat.eqb_neq; cbn in Hc; lia).
      destruct (lb_split l k N) as [L1 _]. destruct (ub_split l k N) as [_ U2]. rewrite L1, U2, Hc. f_equal. destruct copied; [reflexivity | ].
      rewrite L. rewrite El at 1. apply erase_times_spec.
  Qed.
End swo.

(** Lists *)
Section plain.
  Variable A : Type.
  Variable eqA : A -> A -> bool.
  Lemma index_of_spec l x :
    match index_of A eqA l x with
    | Some i => exists a y b, l = a ++ y :: b /\ length a = i /\ eqA y x = true /\ forall z, In z a -> eqA z x = false
    | None => forall z, In z l -> eqA z x = false
    end.
  Proof.
    induction l as [ | y l IH]; cbn [index_of]; [intros z [] | ]. destruct (eqA y x) eqn:Ey.
    - exists [], y, l. repeat split; auto. intros z [].
    - destruct (index_of A eqA l x) as [i | ]; cbn [option_map].
      + destruct IH as (a & y' & b & -> & <- & H1 & H2). exists (y :: a), y', b. repeat split; auto. intros z [<- | Hz]; auto.
      + intros z [<- | Hz]; auto.
  Qed.
  Lemma remove_all_count (pred : A -> bool) l : length l - length (filter (fun x => negb (pred x)) l) = length (filter pred l).
  Proof.
    assert (length (filter pred l) + length (filter (fun x => negb (pred x)) l) = length l); [ | lia].
    induction l as [ | x l IH]; [reflexivity | ]. cbn [filter]. destruct (pred x); cbn [negb length]; lia.
  Qed.
End plain.

(** Copy on write *)
Section cow.
  Variables C V : Type.
  Notation cow := (cow C V). Notation enumerator := (enumerator C V).
  Definition inv (s : cow) : Prop :=
    cur C V s < length (heap C V s) /\
    (forall h m, holder C V s = Some (h, m) -> m = cur C V s /\ h < next C V s) /\
    (forall e, In e (ens C V s) -> e_map C V e < length (heap C V s) /\ e_kept C V e = e_map C V e /\ e_id C V e < next C V s /\ e_holder C V e < next C V s /\
       (e_map C V e = cur C V s -> exists h, holder C V s = Some (h, cur C V s) /\ e_holder C V e = h) /\
       (forall h, holder C V s = Some (h, cur C V s) -> e_holder C V e = h -> e_map C V e = cur C V s)).
  Lemma expired_none s e : inv s -> expired C V s = true -> In e (ens C V s) -> e_map C V e <> cur C V s.
  Proof.
    intros (I1 & I2 & I3) X He Hm. destruct (I3 e He) as (_ & _ & _ & _ & H & _). destruct (H Hm) as (h & Hh & Eh). unfold expired in X. rewrite Hh in X.
    apply negb_true_iff in X. assert (existsb (fun e0 => Nat.eqb (e_holder C V e0) h) (ens C V s) = true); [ | congruence].
    apply existsb_exists. exists e. split; [exact He | apply Nat.eqb_eq, Eh].
  Qed.
  Lemma upd_length l i (x : C) : i < length l -> length (upd C l i x) = length l.
  Proof. intros H. unfold upd. rewrite app_length. cbn [length]. rewrite firstn_length, skipn_length. lia. Qed.
  Lemma upd_nth l i j (x : C) : i < length l -> nth_error (upd C l i x) j = if Nat.eqb j i then Some x else nth_error l j.
  Proof.
    intros H. unfold upd. destruct (Nat.eqb_spec j i) as [-> | Nj].
    - rewrite nth_error_app2; rewrite firstn_length, Nat.min_l by lia; [rewrite Nat.sub_diag; reflexivity | lia].
    - destruct (Nat.lt_ge_cases j i).
      + rewrite nth_error_app1 by (rewrite firstn_length; lia). revert i j H Nj H0. induction l; intros [ | i] [ | j] H Nj H0; cbn in *; try lia; try reflexivity. apply IHl; lia.
      + rewrite nth_error_app2; rewrite firstn_length, Nat.min_l by lia; [ | lia]. destruct (j - i) as [ | d] eqn:D; [lia | ]. cbn [nth_error].
        replace j with (S i + d) by lia. clear. revert l; induction (S i) as [ | n IH]; intros l; [reflexivity | ]. destruct l; [destruct d; reflexivity | apply IH].
  Qed.
  Lemma content_some s : inv s -> exists c, content C V s = Some c.
  Proof. intros (I1 & _). unfold content. destruct (nth_error (heap C V s) (cur C V s)) eqn:E; [eauto | ]. apply nth_error_None in E. lia. Qed.

  (** What every step keeps: the invariant, and the containers under live enumerators. *)
  Definition keeps (s s' : cow) : Prop :=
    inv s' /\ (forall e, In e (ens C V s') -> In e (ens C V s) -> nth_error (heap C V s') (e_map C V e) = nth_error (heap C V s) (e_map C V e)) /\
    (forall e, In e (ens C V s') -> In e (ens C V s) \/ e_id C V e = next C V s) /\ next C V s <= next C V s'.
  Lemma copy_keeps s c : inv s -> keeps s (copy_map C V s c) /\ content C V (copy_map C V s c) = Some c.
  Proof.
    intros (I1 & I2 & I3). split; [split; [ | split; [ | split]] | ].
    - split; [cbn; rewrite app_length; cbn; lia | ]. split; [cbn; discriminate | ]. cbn. intros e He. destruct (I3 e He) as (H1 & H2 & H3 & H4 & H5 & H6). rewrite app_length. cbn.
      repeat split; auto; try lia. discriminate.
    - cbn. intros e He _. destruct (I3 e He) as (H1 & _). apply nth_error_app1, H1.
    - cbn. auto.
    - cbn. lia.
    - unfold content, copy_map. cbn. rewrite nth_error_app2, Nat.sub_diag by lia. reflexivity.
  Qed.
  Lemma write_keeps s f : inv s -> (forall e, In e (ens C V s) -> e_map C V e <> cur C V s) -> keeps s (write C V f s) /\ content C V (write C V f s) = option_map f (content C V s).
  Proof.
    intros I X. destruct (content_some s I) as [c Hc]. pose proof I as (I1 & I2 & I3). unfold write. rewrite Hc. cbn [option_map]. split; [split; [ | split; [ | split]] | ]; cbn.
    - split; [cbn; rewrite upd_length by assumption; assumption | ]. split; [exact I2 | ]. cbn. intros e He. rewrite upd_length by assumption. apply I3, He.
    - intros e He _. rewrite upd_nth by assumption. destruct (Nat.eqb_spec (e_map C V e) (cur C V s)); [exfalso; apply (X e He); assumption | reflexivity].
    - auto.
    - lia.
    - unfold content. cbn. rewrite upd_nth, Nat.eqb_refl by assumption. reflexivity.
  Qed.
  Lemma keeps_trans s s1 s2 : keeps s s1 -> keeps s1 s2 -> ens C V s1 = ens C V s -> next C V s1 = next C V s -> keeps s s2.
  Proof.
    intros (A1 & A2 & A3 & A4) (B1 & B2 & B3 & B4) En Nx. split; [exact B1 | ]. split; [ | split; [ | lia]].
    - intros e H2 H0. assert (H1 : In e (ens C V s1)) by (rewrite En; exact H0). rewrite B2, A2 by assumption. reflexivity.
    - intros e He. rewrite <- En, <- Nx. apply B3, He.
  Qed.
  Lemma cow_keeps s : inv s -> keeps s (copy_on_write C V s) /\ content C V (copy_on_write C V s) = content C V s /\ ens C V (copy_on_write C V s) = ens C V s /\
    next C V (copy_on_write C V s) = next C V s /\ (forall e, In e (ens C V (copy_on_write C V s)) -> e_map C V e <> cur C V (copy_on_write C V s)).
  Proof.
    intros I. unfold copy_on_write. destruct (expired C V s) eqn:X.
    - split; [split; [exact I | split; [reflexivity | split; [auto | lia]]] | ]. split; [reflexivity | ]. split; [reflexivity | ]. split; [reflexivity | ]. intros e He. apply expired_none; assumption.
    - destruct (content_some s I) as [c Hc]. rewrite Hc. destruct (copy_keeps s c I) as [K1 K2]. split; [exact K1 | ]. split; [exact K2 | ]. repeat split; auto.
      cbn. intros e He. destruct I as (_ & _ & I3). destruct (I3 e He) as (H & _). lia.
  Qed.
  Lemma step_keeps s o : inv s -> keeps s (step C V s o) /\
    content C V (step C V s o) = match o with
      | OChange _ _ f => option_map (plain_change f) (content C V s) | OClear _ _ c => Some c | OAssign _ _ c => Some c | _ => content C V s end.
  Proof.
    intros I. assert (R : keeps s s). { split; [exact I | ]. repeat split; auto. } destruct (content_some s I) as [c Hc]. destruct o as [f | c0 | c0 | v | i]; cbn [step].
    - unfold change. rewrite Hc. cbn [option_map]. unfold plain_change. destruct (f c) as [c' | ]; [ | split; [exact R | exact Hc]].
      destruct (cow_keeps s I) as (K1 & K2 & K3 & K4 & K5). destruct (write_keeps (copy_on_write C V s) (fun _ => c') (proj1 K1) K5) as [W1 W2]. split; [apply (keeps_trans _ _ _ K1 W1 K3 K4) | ].
      rewrite W2, K2, Hc. reflexivity.
    - unfold clear. destruct (expired C V s) eqn:X; [ | apply copy_keeps, I]. destruct (write_keeps s (fun _ => c0) I) as [W1 W2]; [intros e He; apply expired_none; assumption | ].
      split; [exact W1 | ]. rewrite W2, Hc. reflexivity.
    - apply copy_keeps, I.
    - unfold enumerate. pose proof I as (I1 & I2 & I3).
      assert (G : exists h, (match holder C V s with Some hm => if expired C V s then (next C V s, cur C V s) else hm | None => (next C V s, cur C V s) end) = (h, cur C V s) /\
        h < S (next C V s) /\ (forall e, In e (ens C V s) -> e_map C V e = cur C V s -> e_holder C V e = h) /\ (forall e, In e (ens C V s) -> e_holder C V e = h -> e_map C V e = cur C V s)).
      { destruct (holder C V s) as [[h m] | ] eqn:Eh; [destruct (expired C V s) eqn:X | ].
        - exists (next C V s). split; [reflexivity | ]. split; [lia | ]. split; [intros e He Hm; exfalso; exact (expired_none s e I X He Hm) | ]. intros e He Hh. destruct (I3 e He) as (_ & _ & _ & H & _). lia.
        - destruct (I2 h m eq_refl) as [-> Hh]. exists h. split; [reflexivity | ]. split; [lia | ]. split.
          + intros e He Hm. destruct (I3 e He) as (_ & _ & _ & _ & H & _). destruct (H Hm) as (h' & E1 & E2). congruence.
          + intros e He Hx. destruct (I3 e He) as (_ & _ & _ & _ & _ & H). apply (H h); auto.
        - exists (next C V s). split; [reflexivity | ]. split; [lia | ]. split.
          + intros e He Hm. destruct (I3 e He) as (_ & _ & _ & _ & H & _). destruct (H Hm) as (h' & E1 & E2). discriminate.
          + intros e He Hh. destruct (I3 e He) as (_ & _ & _ & H & _). lia. }
      destruct G as (h & -> & G1 & G2 & G3). split; [ | exact Hc || reflexivity]. split; [ | split; [ | split]]; cbn.
      + split; [exact I1 | ]. split; [cbn; intros h' m' E; injection E as <- <-; split; [reflexivity | exact G1] | ]. cbn. intros e [<- | He]; cbn.
        * repeat split; auto; try lia. intros _. exists h. auto.
        * destruct (I3 e He) as (H1 & H2 & H3 & H4 & H5 & H6). repeat split; auto; try lia.
          -- intros Hm. exists h. split; [reflexivity | apply G2; assumption].
          -- intros h' E Hh. injection E as <-. apply G3; assumption.
      + reflexivity.
      + intros e [<- | He]; [right; reflexivity | left; exact He].
      + lia.
    - unfold drop. pose proof I as (I1 & I2 & I3). split; [ | reflexivity]. split; [ | split; [ | split]]; cbn.
      + split; [exact I1 | ]. split; [exact I2 | ]. cbn. intros e He. apply filter_In in He. apply I3, He.
      + reflexivity.
      + intros e He. apply filter_In in He. left. apply He.
      + lia.
  Qed.
  Lemma start_inv c : inv (start C V c).
  Proof. split; [cbn; lia | ]. split; [discriminate | ]. intros e []. Qed.
  Lemma run_inv : forall l s, inv s -> inv (run C V s l).
  Proof. induction l as [ | o l IH]; intros s I; [exact I | ]. apply IH. apply (step_keeps s o I). Qed.
  (** an enumerator that lives through a run keeps its container *)
  Lemma run_keeps : forall l s e, inv s -> In e (ens C V (run C V s l)) -> e_id C V e < next C V s -> In e (ens C V s) /\ nth_error (heap C V (run C V s l)) (e_map C V e) = nth_error (heap C V s) (e_map C V e).
  Proof.
    induction l as [ | o l IH]; intros s e I He Hid; [split; [exact He | reflexivity] | ]. cbn [run fold_left] in *. destruct (step_keeps s o I) as [(K1 & K2 & K3 & K4) _].
    destruct (IH _ e K1 He ltac:(lia)) as [H1 H2]. destruct (K3 e H1) as [H3 | H3]; [ | lia]. split; [exact H3 | ]. fold (run C V (step C V s o) l) in *. rewrite H2. apply K2; assumption.
  Qed.
End cow.
