(** Sorted containers as lists: the part of std::map / std::set that the
    stingraykit collections use.  This file models the C++ standard library, not
    code of /repo; it is used by the models of
    stingraykit/collection/TransactionalDictionary.h, TransactionalSet.h,
    flat_map.h and others. *)
From Coq Require Import List Bool Arith Lia Sorting.Sorted.
From Verif Require Import Base.
Import ListNotations.
Set Implicit Arguments.

Lemma nodup_app A (l1 l2 : list A) : NoDup l1 -> NoDup l2 ->
  (forall x, In x l1 -> In x l2 -> False) -> NoDup (l1 ++ l2).
Proof.
  induction l1 as [|a l1 IH]; cbn; auto. intros H1 H2 D. inversion H1; subst.
  constructor; [|apply IH; eauto].
  rewrite in_app_iff. intros [H|H]; [auto|]. apply (D a); auto.
Qed.

(** ** Strictly sorted lists over an arbitrary strict order on elements *)
Section Sorted.
  Variable A : Type.
  Variable lt : A -> A -> bool.
  Hypothesis lt_irrefl : forall a, lt a a = false.
  Hypothesis lt_trans : forall a b c, lt a b = true -> lt b c = true -> lt a c = true.

  Definition srt (l : list A) : Prop := StronglySorted (fun a b => lt a b = true) l.

  Lemma srt_nil : srt [].
  Proof. constructor. Qed.

  Lemma srt_inv a l : srt (a :: l) -> srt l /\ (forall x, In x l -> lt a x = true).
  Proof.
    intros H. inversion H; subst. split; auto.
    intros x Hx. rewrite Forall_forall in H3. auto.
  Qed.

  Lemma srt_cons a l : srt l -> (forall x, In x l -> lt a x = true) -> srt (a :: l).
  Proof. intros H1 H2. constructor; auto. apply Forall_forall. auto. Qed.

  Lemma lt_asym a b : lt a b = true -> lt b a = false.
  Proof.
    intros H. destruct (lt b a) eqn:E; auto.
    rewrite <- (lt_irrefl a). symmetry. eapply lt_trans; eauto.
  Qed.

  Lemma srt_unique l1 : forall l2, srt l1 -> srt l2 ->
    (forall x, In x l1 <-> In x l2) -> l1 = l2.
  Proof.
    induction l1 as [|a l1 IH]; intros [|b l2] H1 H2 HI.
    - reflexivity.
    - exfalso. apply (proj2 (HI b)). now left.
    - exfalso. apply (proj1 (HI a)). now left.
    - destruct (srt_inv H1) as [S1 L1]. destruct (srt_inv H2) as [S2 L2].
      assert (a = b) as ->.
      { destruct (proj1 (HI a) (or_introl eq_refl)) as [E|E]; auto.
        destruct (proj2 (HI b) (or_introl eq_refl)) as [F|F]; auto.
        apply L2 in E. apply L1 in F. apply lt_asym in E. congruence. }
      f_equal. apply IH; auto. intros x. split; intros Hx.
      + destruct (proj1 (HI x) (or_intror Hx)) as [<-|]; auto.
        apply L1 in Hx. rewrite lt_irrefl in Hx. discriminate.
      + destruct (proj2 (HI x) (or_intror Hx)) as [<-|]; auto.
        apply L2 in Hx. rewrite lt_irrefl in Hx. discriminate.
  Qed.

  Lemma srt_app l1 l2 : srt l1 -> srt l2 ->
    (forall x y, In x l1 -> In y l2 -> lt x y = true) -> srt (l1 ++ l2).
  Proof.
    induction l1 as [|a l1 IH]; cbn; auto.
    intros H1 H2 H. destruct (srt_inv H1) as [S1 L1]. apply srt_cons.
    - apply IH; auto.
    - intros x Hx. apply in_app_or in Hx as [Hx|Hx]; auto.
  Qed.

  Lemma srt_app_inv l1 l2 : srt (l1 ++ l2) ->
    srt l1 /\ srt l2 /\ (forall x y, In x l1 -> In y l2 -> lt x y = true).
  Proof.
    induction l1 as [|a l1 IH]; cbn; intros H.
    - split; [constructor|]. split; [exact H|easy].
    - destruct (srt_inv H) as [S L]. destruct (IH S) as (A1 & A2 & A3).
      repeat split; auto.
      + apply srt_cons; auto. intros x Hx. apply L. apply in_or_app. now left.
      + intros x y [<-|Hx] Hy; auto. apply L. apply in_or_app. now right.
  Qed.

  Lemma srt_NoDup l : srt l -> NoDup l.
  Proof.
    induction l as [|a l IH]; intros H; constructor.
    - destruct (srt_inv H) as [_ L]. intros Hi. apply L in Hi. rewrite lt_irrefl in Hi. discriminate.
    - apply IH. now destruct (srt_inv H).
  Qed.

  Lemma srt_filter p l : srt l -> srt (filter p l).
  Proof.
    induction l as [|a l IH]; cbn; intros H; auto.
    destruct (srt_inv H) as [S L]. destruct (p a); auto.
    apply srt_cons; auto. intros x Hx. apply filter_In in Hx as [Hx _]. auto.
  Qed.
End Sorted.

Lemma srt_rev A (lt : A -> A -> bool) l : srt lt l -> srt (fun a b => lt b a) (rev l).
Proof.
  induction l as [|a l IH]; cbn; intros H; [constructor|].
  apply srt_inv in H as [S L]. apply srt_app; auto.
  - apply srt_cons; [constructor|easy].
  - intros x y Hx [<-|[]]. rewrite <- in_rev in Hx. auto.
Qed.

(** ** std::map as a strictly sorted association list *)
Section Map.
  Variables K V : Type.
  Variable klt : K -> K -> bool.

  Definition keq (a b : K) : bool := negb (klt a b) && negb (klt b a).
  Definition plt (a b : K * V) : bool := klt (fst a) (fst b).
  Definition smap (l : list (K * V)) : Prop := srt plt l.

  (** std::map::find *)
  Fixpoint mfind (k : K) (l : list (K * V)) : option V :=
    match l with
    | [] => None
    | (k', v) :: t => if keq k k' then Some v else mfind k t
    end.

  (** std::map::count(k) != 0 *)
  Definition mhas (k : K) (l : list (K * V)) : bool :=
    match mfind k l with Some _ => true | None => false end.

  (** std::map::erase(k) *)
  Fixpoint merase (k : K) (l : list (K * V)) : list (K * V) :=
    match l with
    | [] => []
    | (k', v) :: t => if keq k k' then t else (k', v) :: merase k t
    end.

  (** std::map::emplace(k, v): no effect if the key is present *)
  Fixpoint memplace (k : K) (v : V) (l : list (K * V)) : list (K * V) :=
    match l with
    | [] => [(k, v)]
    | (k', v') :: t =>
        if klt k k' then (k, v) :: l
        else if klt k' k then (k', v') :: memplace k v t
        else l
    end.

  (** map[k] = v *)
  Fixpoint mput (k : K) (v : V) (l : list (K * V)) : list (K * V) :=
    match l with
    | [] => [(k, v)]
    | (k', v') :: t =>
        if klt k k' then (k, v) :: l
        else if klt k' k then (k', v') :: mput k v t
        else (k', v) :: t
    end.

  (** std::map::lower_bound(k): the elements before and from the bound *)
  Fixpoint mlower (k : K) (l : list (K * V)) : list (K * V) * list (K * V) :=
    match l with
    | [] => ([], [])
    | (k', v') :: t =>
        if klt k' k then let (a, b) := mlower k t in ((k', v') :: a, b)
        else ([], l)
    end.

  Hypothesis klt_irrefl : forall a, klt a a = false.
  Hypothesis klt_trans : forall a b c, klt a b = true -> klt b c = true -> klt a c = true.
  Hypothesis klt_total : forall a b, klt a b = false -> klt b a = false -> a = b.

  Lemma plt_irrefl a : plt a a = false.
  Proof. apply klt_irrefl. Qed.
  Lemma plt_trans a b c : plt a b = true -> plt b c = true -> plt a c = true.
  Proof. apply klt_trans. Qed.
  Lemma klt_asym a b : klt a b = true -> klt b a = false.
  Proof.
    intros H. destruct (klt b a) eqn:E; auto.
    rewrite <- (klt_irrefl a). symmetry. eapply klt_trans; eauto.
  Qed.

  Lemma keq_spec a b : keq a b = true <-> a = b.
  Proof.
    unfold keq. split.
    - rewrite andb_true_iff, !negb_true_iff. intros []. now apply klt_total.
    - intros <-. now rewrite klt_irrefl.
  Qed.
  Lemma keq_refl a : keq a a = true.
  Proof. now apply keq_spec. Qed.
  Lemma keq_neq a b : a <> b -> keq a b = false.
  Proof. intros H. destruct (keq a b) eqn:E; auto. apply keq_spec in E. contradiction. Qed.
  Lemma keq_sym a b : keq a b = keq b a.
  Proof. unfold keq. apply andb_comm. Qed.
  Lemma kdec (a b : K) : {a = b} + {a <> b}.
  Proof.
    destruct (keq a b) eqn:E; [left; now apply keq_spec|right].
    intros ->. rewrite keq_refl in E. discriminate.
  Qed.

  Lemma smap_inv k v l : smap ((k, v) :: l) ->
    smap l /\ (forall k' v', In (k', v') l -> klt k k' = true).
  Proof.
    intros H. apply srt_inv in H as [S L]. split; auto.
    intros k' v' Hi. apply (L _ Hi).
  Qed.

  Lemma smap_cons k v l : smap l -> (forall k' v', In (k', v') l -> klt k k' = true) ->
    smap ((k, v) :: l).
  Proof. intros S L. apply srt_cons; auto. intros [k' v'] Hi. apply (L _ _ Hi). Qed.
  Lemma smap_nil : smap [].
  Proof. constructor. Qed.

  Lemma mfind_In k v l : smap l -> (mfind k l = Some v <-> In (k, v) l).
  Proof.
    induction l as [|[k' v'] l IH]; cbn; intros S.
    - split; easy.
    - apply smap_inv in S as [S L]. specialize (IH S).
      destruct (keq k k') eqn:E.
      + apply keq_spec in E as ->. split.
        * intros [= ->]. now left.
        * intros [[= ->]|Hi]; auto. apply L in Hi. rewrite klt_irrefl in Hi. discriminate.
      + rewrite IH. split; auto. intros [[= -> ->]|]; auto.
        rewrite keq_refl in E. discriminate.
  Qed.

  Lemma mfind_In1 k v l : mfind k l = Some v -> In (k, v) l.
  Proof.
    induction l as [|[k' v'] l IH]; cbn; [easy|].
    destruct (keq k k') eqn:E; auto.
    apply keq_spec in E as ->. intros [= ->]. now left.
  Qed.

  Lemma mfind_None k l : mfind k l = None <-> (forall v, ~ In (k, v) l).
  Proof.
    induction l as [|[k' v'] l IH]; cbn; [now split; auto|].
    destruct (keq k k') eqn:E.
    - apply keq_spec in E as ->. split; [easy|]. intros H. exfalso. apply (H v'). now left.
    - rewrite IH. split; intros H v.
      + intros [[= -> ->]|Hi]; [rewrite keq_refl in E; discriminate|]. now apply (H v).
      + intros Hi. apply (H v). now right.
  Qed.

  Lemma smap_ext l1 l2 : smap l1 -> smap l2 ->
    (forall k, mfind k l1 = mfind k l2) -> l1 = l2.
  Proof.
    intros S1 S2 H. apply (srt_unique plt_irrefl plt_trans); auto.
    intros [k v]. rewrite <- !mfind_In by auto. now rewrite H.
  Qed.

  Lemma memplace_In k v l x : In x (memplace k v l) -> x = (k, v) \/ In x l.
  Proof.
    induction l as [|[k' v'] l IH]; cbn.
    - intros [<-|[]]. now left.
    - destruct (klt k k'); [intros [<-|]; auto|].
      destruct (klt k' k); auto. intros [<-|Hi]; auto. apply IH in Hi as [|]; auto.
  Qed.

  Lemma memplace_smap k v l : smap l -> smap (memplace k v l).
  Proof.
    induction l as [|[k' v'] l IH]; cbn; intros S.
    - apply smap_cons; [constructor|easy].
    - destruct (klt k k') eqn:E1.
      + pose proof S as S'. apply smap_inv in S as [S L]. apply smap_cons; auto.
        intros k2 v2 [[= -> ->]|Hi]; auto. apply klt_trans with k'; auto. now apply L in Hi.
      + destruct (klt k' k) eqn:E2; auto.
        apply smap_inv in S as [S L]. apply smap_cons; auto.
        intros k2 v2 Hi. apply memplace_In in Hi as [[= -> ->]|Hi]; auto. now apply L in Hi.
  Qed.

  Lemma memplace_find k v l k2 : smap l ->
    mfind k2 (memplace k v l) =
    if keq k2 k then match mfind k l with Some v' => Some v' | None => Some v end else mfind k2 l.
  Proof.
    intros S. induction l as [|[k' v'] l IH]; cbn.
    - destruct (keq k2 k); auto.
    - apply smap_inv in S as [S L]. specialize (IH S). destruct (klt k k') eqn:E1; cbn.
      + destruct (keq k2 k) eqn:E; auto.
        apply keq_spec in E as ->. rewrite (keq_neq (a:=k) (b:=k')).
        * assert (mfind k l = None) as ->; auto.
          apply mfind_None. intros w Hi. apply L in Hi.
          assert (klt k k = true) by (eapply klt_trans; eauto). rewrite klt_irrefl in H. discriminate.
        * intros ->. rewrite klt_irrefl in E1. discriminate.
      + destruct (klt k' k) eqn:E2; cbn.
        * rewrite IH. destruct (keq k2 k') eqn:E3.
          -- apply keq_spec in E3 as ->. rewrite (keq_neq (a:=k') (b:=k)); auto.
             intros ->. congruence.
          -- destruct (keq k2 k) eqn:E; auto. rewrite (keq_neq (a:=k) (b:=k')); auto.
             intros ->. congruence.
        * rewrite (klt_total E1 E2), keq_refl. destruct (keq k2 k') eqn:E; auto.
  Qed.

  Lemma mput_In k v l x : In x (mput k v l) -> x = (k, v) \/ In x l.
  Proof.
    induction l as [|[k' v'] l IH]; cbn.
    - intros [<-|[]]. now left.
    - destruct (klt k k') eqn:E1; [intros [<-|]; auto|].
      destruct (klt k' k) eqn:E2; auto.
      + intros [<-|Hi]; auto. apply IH in Hi as [|]; auto.
      + rewrite (klt_total E1 E2). intros [<-|Hi]; auto.
  Qed.

  Lemma mput_smap k v l : smap l -> smap (mput k v l).
  Proof.
    induction l as [|[k' v'] l IH]; cbn; intros S.
    - apply smap_cons; [constructor|easy].
    - destruct (klt k k') eqn:E1.
      + pose proof S as S'. apply smap_inv in S as [S L]. apply smap_cons; auto.
        intros k2 v2 [[= -> ->]|Hi]; auto. apply klt_trans with k'; auto. now apply L in Hi.
      + destruct (klt k' k) eqn:E2; auto.
        * apply smap_inv in S as [S L]. apply smap_cons; auto.
          intros k2 v2 Hi. apply mput_In in Hi as [[= -> ->]|Hi]; auto. now apply L in Hi.
        * apply smap_inv in S as [S L]. apply smap_cons; auto.
  Qed.

  Lemma mput_find k v l k2 : smap l ->
    mfind k2 (mput k v l) = if keq k2 k then Some v else mfind k2 l.
  Proof.
    intros S. induction l as [|[k' v'] l IH]; cbn.
    - destruct (keq k2 k); auto.
    - apply smap_inv in S as [S L]. specialize (IH S). destruct (klt k k') eqn:E1; cbn.
      + destruct (keq k2 k) eqn:E; auto.
      + destruct (klt k' k) eqn:E2; cbn.
        * rewrite IH. destruct (keq k2 k') eqn:E3; auto.
          apply keq_spec in E3 as ->. rewrite (keq_neq (a:=k') (b:=k)); auto.
          intros ->. congruence.
        * rewrite (klt_total E1 E2). destruct (keq k2 k') eqn:E; auto.
  Qed.

  Lemma merase_In k l x : In x (merase k l) -> In x l.
  Proof.
    induction l as [|[k' v'] l IH]; cbn; auto.
    destruct (keq k k'); auto. intros [<-|]; auto.
  Qed.

  Lemma merase_smap k l : smap l -> smap (merase k l).
  Proof.
    induction l as [|[k' v'] l IH]; cbn; intros S; auto.
    apply smap_inv in S as [S L]. destruct (keq k k'); auto.
    apply smap_cons; auto. intros k2 v2 Hi. apply merase_In in Hi. now apply L in Hi.
  Qed.

  Lemma merase_find k l k2 : smap l ->
    mfind k2 (merase k l) = if keq k2 k then None else mfind k2 l.
  Proof.
    intros S. induction l as [|[k' v'] l IH]; cbn.
    - now destruct (keq k2 k).
    - apply smap_inv in S as [S L]. specialize (IH S). destruct (keq k k') eqn:E1; cbn.
      + apply keq_spec in E1 as <-. destruct (keq k2 k) eqn:E; auto.
        apply keq_spec in E as ->. apply mfind_None. intros w Hi. apply L in Hi.
        rewrite klt_irrefl in Hi. discriminate.
      + rewrite IH. destruct (keq k2 k') eqn:E3; auto.
        apply keq_spec in E3 as ->. now rewrite keq_sym, E1.
  Qed.

  Lemma mhas_true k l : mhas k l = true <-> exists v, mfind k l = Some v.
  Proof. unfold mhas. destruct (mfind k l); split; try easy; eauto. now intros []. Qed.
  Lemma mhas_false k l : mhas k l = false <-> mfind k l = None.
  Proof. unfold mhas. now destruct (mfind k l). Qed.

  Lemma mfilter_smap p l : smap l -> smap (filter p l).
  Proof. apply srt_filter. Qed.

  Lemma mfilter_find p l k : smap l ->
    mfind k (filter p l) =
    match mfind k l with Some v => if p (k, v) then Some v else None | None => None end.
  Proof.
    intros S. induction l as [|[k' v'] l IH]; cbn; auto.
    apply smap_inv in S as [S L]. specialize (IH S).
    destruct (keq k k') eqn:E.
    - apply keq_spec in E as <-. destruct (p (k, v')); cbn.
      + now rewrite keq_refl.
      + rewrite IH. assert (mfind k l = None) as ->; auto.
        apply mfind_None. intros w Hi. apply L in Hi. rewrite klt_irrefl in Hi. discriminate.
    - destruct (p (k', v')); cbn; auto. now rewrite E.
  Qed.

  Lemma mlower_app k l : fst (mlower k l) ++ snd (mlower k l) = l.
  Proof.
    induction l as [|[k' v'] l IH]; cbn; auto.
    destruct (klt k' k); auto. destruct (mlower k l); cbn in *. now rewrite IH.
  Qed.

  Lemma mlower_fst k l x : In x (fst (mlower k l)) -> klt (fst x) k = true.
  Proof.
    induction l as [|[k' v'] l IH]; cbn; [easy|].
    destruct (klt k' k) eqn:E; [|easy]. destruct (mlower k l); cbn in *.
    intros [<-|]; auto.
  Qed.

  Lemma mlower_snd k l x : smap l -> In x (snd (mlower k l)) -> klt (fst x) k = false.
  Proof.
    induction l as [|[k' v'] l IH]; cbn; [easy|]. intros S.
    apply smap_inv in S as [S L].
    destruct (klt k' k) eqn:E.
    - destruct (mlower k l); cbn in *. auto.
    - cbn. intros [<-|Hi]; auto. destruct x as [k2 v2]. cbn. apply L in Hi.
      destruct (klt k2 k) eqn:E2; auto. rewrite (klt_trans Hi E2) in E. discriminate.
  Qed.
End Map.
