(** Proofs about TransactionalDictionary. *)
From Coq Require Import List Bool Arith Lia Permutation Sorting.Sorted.
From Verif Require Import Base SortedMap TxEnumModel TxEnumProofs CowModel CowProofs TxDictModel TxDictSpec.
Import ListNotations.
Set Implicit Arguments.

Section Dict.
  Variables K V : Type.
  Variable klt : K -> K -> bool.
  Variable veq : V -> V -> bool.
  Hypothesis klt_irrefl : forall a, klt a a = false.
  Hypothesis klt_trans : forall a b c, klt a b = true -> klt b c = true -> klt a c = true.
  Hypothesis klt_total : forall a b, klt a b = false -> klt b a = false -> a = b.
  Hypothesis veq_spec : forall a b, veq a b = true <-> a = b.

  Notation mapt := (list (K * V)).
  Notation find := (mfind klt).
  Notation has := (mhas klt).
  Notation smap := (@smap K V klt).
  Notation plt := (@plt K V klt).
  Notation st := (st K V).
  Implicit Types (i a r l m : mapt) (k : K) (v w : V) (s : st).

  Let keqs := @keq_spec K klt klt_irrefl klt_total.
  Let keqr := @keq_refl K klt klt_irrefl klt_total.
  Let kasym := @klt_asym K klt klt_irrefl klt_trans.
  Let fIn := @mfind_In K V klt klt_irrefl klt_total.
  Let fIn1 := @mfind_In1 K V klt klt_irrefl klt_total.
  Let kdec := @kdec K klt klt_irrefl klt_total.

  (** ** The overlay *)
  Record tri i a r : Prop := {
    t_i : smap i; t_a : smap a; t_r : smap r;
    t_ri : forall k v, find k r = Some v -> find k i = Some v;
    t_ai : forall k v w, find k a = Some v -> find k i = Some w -> find k r = Some w /\ v <> w }.

  Definition ov i a r k : option V :=
    match find k a with
    | Some v => Some v
    | None => if has k r then None else find k i
    end.

  Lemma upd_keq k o (m : fmap K V) k' : upd klt k o m k' = if keq klt k' k then o else m k'.
  Proof.
    unfold upd, keq. destruct (klt k k'), (klt k' k); reflexivity.
  Qed.

  Lemma has_ri i a r k : tri i a r -> find k i = None -> has k r = false.
  Proof.
    intros T H. apply mhas_false. destruct (find k r) as [w|] eqn:E; auto.
    apply (t_ri T) in E. congruence.
  Qed.

  (** every mutation keeps the invariant; the effect on the overlay *)
  Ltac keqd k' k E := destruct (keq klt k' k) eqn:E; [apply keqs in E as ->|].

  Lemma tri_erase_removed i a r k iv : tri i a r -> find k i = Some iv -> find k a = None ->
    tri i a (merase klt k r) /\ forall k', ov i a (merase klt k r) k' = upd klt k (Some iv) (ov i a r) k'.
  Proof.
    intros T Hi Ha. split.
    - constructor; try apply T.
      + now apply merase_smap, T.
      + intros k' v'. rewrite merase_find by (auto; apply T). destruct (keq klt k' k); [easy|apply T].
      + intros k' v' w' Hv Hw. destruct (t_ai T _ Hv Hw) as [H1 H2]. split; auto.
        rewrite merase_find by (auto; apply T). keqd k' k E; auto. congruence.
    - intros k'. rewrite upd_keq. unfold ov, mhas. rewrite merase_find by (auto; apply T).
      keqd k' k E; auto. rewrite Ha, Hi. auto.
  Qed.

  Lemma tri_emplace_added i a r k v : tri i a r -> find k a = None -> ov i a r k = None ->
    (forall w, find k i = Some w -> v <> w) ->
    tri i (memplace klt k v a) r /\ forall k', ov i (memplace klt k v a) r k' = upd klt k (Some v) (ov i a r) k'.
  Proof.
    intros T Ha Ho Hv. split.
    - constructor; try apply T.
      + now apply memplace_smap, T.
      + intros k' v' w'. rewrite memplace_find by (auto; apply T). keqd k' k E.
        * rewrite Ha. intros [= <-] Hw. split; auto. unfold ov in Ho. rewrite Ha in Ho.
          destruct (has k r) eqn:Er; [|congruence]. apply mhas_true in Er as [u Hu].
          pose proof (t_ri T _ Hu). congruence.
        * apply T.
    - intros k'. rewrite upd_keq. unfold ov, mhas. rewrite memplace_find by (auto; apply T).
      keqd k' k E; auto. now rewrite Ha.
  Qed.

  Lemma tri_put_added i a r k v av : tri i a r -> find k a = Some av ->
    (forall w, find k i = Some w -> v <> w) ->
    tri i (mput klt k v a) r /\ forall k', ov i (mput klt k v a) r k' = upd klt k (Some v) (ov i a r) k'.
  Proof.
    intros T Ha Hv. split.
    - constructor; try apply T.
      + now apply mput_smap, T.
      + intros k' v' w'. rewrite mput_find by (auto; apply T). keqd k' k E.
        * intros [= <-] Hw. split; auto. now apply (t_ai T _ Ha).
        * apply T.
    - intros k'. rewrite upd_keq. unfold ov, mhas. rewrite mput_find by (auto; apply T).
      keqd k' k E; auto.
  Qed.

  Lemma tri_erase_added i a r k : tri i a r ->
    tri i (merase klt k a) r.
  Proof.
    intros T. constructor; try apply T.
    - now apply merase_smap, T.
    - intros k' v' w'. rewrite merase_find by (auto; apply T). destruct (keq klt k' k); [easy|apply T].
  Qed.

  Lemma tri_emplace_removed i a r k iv : tri i a r -> find k i = Some iv -> find k r = None ->
    tri i a (memplace klt k iv r) /\
    forall k', ov i a (memplace klt k iv r) k' = upd klt k (find k a) (ov i a r) k'.
  Proof.
    intros T Hi Hr. split.
    - constructor; try apply T.
      + now apply memplace_smap, T.
      + intros k' v'. rewrite memplace_find by (auto; apply T). keqd k' k E; [|apply T].
        rewrite Hr. congruence.
      + intros k' v' w' Hv Hw. destruct (t_ai T _ Hv Hw) as [H1 H2]. split; auto.
        rewrite memplace_find by (auto; apply T). keqd k' k E; auto. rewrite Hr. congruence.
    - intros k'. rewrite upd_keq. unfold ov, mhas. rewrite memplace_find by (auto; apply T).
      keqd k' k E; auto. rewrite Hr. now destruct (find k a).
  Qed.

  Lemma tri_revert i a r : tri i a r -> tri i [] [].
  Proof. intros T. constructor; try apply T; try apply smap_nil; easy. Qed.
  Lemma tri_clear i a r : tri i a r -> tri i [] i.
  Proof. intros T. constructor; try apply T; try apply smap_nil; easy. Qed.

  (** *** Enumeration *)
  Definition dir_in (d : dir K) (x : K * V) : Prop :=
    match d with
    | DFwd | DRev => True
    | DFind k => klt (fst x) k = false
    | DRFind k => klt k (fst x) = false
    end.

  Lemma dir_elems_spec d l : smap l ->
    srt (@dir_lt K V klt d) (dir_elems klt d l) /\
    forall x, In x (dir_elems klt d l) <-> In x l /\ dir_in d x.
  Proof.
    intros S. destruct d as [| |k|k]; cbn [dir_elems dir_in].
    - split; [exact S|tauto].
    - split; [apply (srt_rev S)|]. intros x. rewrite <- in_rev. tauto.
    - pose proof (mlower_app klt k l) as E. pose proof (@mlower_fst K V klt k l) as F1.
      pose proof (@mlower_snd K V klt klt_trans k l) as F2.
      destruct (mlower klt k l) as [b f]; cbn [fst snd] in *. subst l. split.
      + apply (srt_app_inv b f S).
      + intros x. rewrite in_app_iff. split.
        * intros H. split; auto.
        * intros [[H|H] D]; auto. apply F1 in H. congruence.
    - pose proof (mlower_app klt k l) as E. pose proof (@mlower_fst K V klt k l) as F1.
      pose proof (@mlower_snd K V klt klt_trans k l) as F2.
      destruct (mlower klt k l) as [b f]; cbn [fst snd] in *. subst l.
      pose proof (srt_app_inv b f S) as (Sb & Sf & Sbf).
      assert (Ab : forall x, In x b -> klt k (fst x) = false).
      { intros x Hx. apply F1 in Hx. now apply kasym. }
      destruct f as [|y f].
      + split; [apply (srt_rev Sb)|]. intros x. rewrite <- in_rev, app_nil_r. split; auto. tauto.
      + assert (Af : forall x, In x f -> klt k (fst x) = true).
        { intros x Hx. apply srt_inv in Sf as [_ L]. apply L in Hx. unfold SortedMap.plt in Hx.
          destruct (klt k (fst y)) eqn:E; [now apply klt_trans with (fst y)|].
          assert (fst y = k) as <-; auto. apply klt_total; auto. apply F2; auto. now left. }
        destruct (klt k (fst y)) eqn:E.
        * split; [apply (srt_rev Sb)|]. intros x. rewrite <- in_rev, in_app_iff. cbn.
          split; [auto|]. intros [[H|[<-|H]] D]; auto; [congruence|]. apply Af in H. congruence.
        * split.
          -- apply (@srt_rev _ plt). change (srt plt (b ++ [y])).
             apply srt_app; auto; [apply srt_cons; [constructor|easy]|].
             intros x z Hx [<-|[]]. apply Sbf; auto. now left.
          -- intros x. rewrite <- in_rev, !in_app_iff. cbn. split.
             ++ intros [H|[<-|[]]]; auto.
             ++ intros [[H|[<-|H]] D]; auto. apply Af in H. congruence.
  Qed.

  Lemma dir_lt_irrefl d x : @dir_lt K V klt d x x = false.
  Proof. destruct d; apply klt_irrefl. Qed.
  Lemma dir_lt_trans d x y z : @dir_lt K V klt d x y = true -> dir_lt klt d y z = true -> dir_lt klt d x z = true.
  Proof. destruct d; cbn; eauto. Qed.
  Lemma dir_eqv d (x y : K * V) : eqv (dir_lt klt d) x y <-> fst x = fst y.
  Proof.
    split.
    - unfold eqv. destruct d; cbn; intros [H1 H2]; auto.
    - intros E. unfold eqv. destruct d; cbn; rewrite E, klt_irrefl; auto.
  Qed.

  Lemma dir_in_key d (x y : K * V) : fst x = fst y -> dir_in d x -> dir_in d y.
  Proof. intros E. destruct d; cbn; try rewrite E; auto. Qed.

  Lemma tri_inv d i a r : tri i a r ->
    inv (dir_lt klt d) (dir_elems klt d i) (dir_elems klt d a) (dir_elems klt d r).
  Proof.
    intros T.
    destruct (dir_elems_spec d (t_i T)) as [Si Ii].
    destruct (dir_elems_spec d (t_a T)) as [Sa Ia].
    destruct (dir_elems_spec d (t_r T)) as [Sr Ir].
    constructor; auto.
    - intros x Hx. apply Ir in Hx as [Hx D]. exists x. split; [|now apply dir_eqv].
      apply Ii. split; auto. destruct x as [k v]. apply fIn in Hx; [|apply T].
      apply fIn1; auto. now apply T.
    - intros x y Hx Hy E. apply dir_eqv in E. apply Ia in Hx as [Hx D]. apply Ii in Hy as [Hy _].
      destruct x as [k v], y as [k' w]. cbn in E. subst k'.
      apply fIn in Hx; [|apply T].
      apply fIn in Hy; [|apply T].
      exists (k, w). split; [|now apply dir_eqv]. apply Ir. split.
      + apply fIn1; auto. now apply (t_ai T _ Hx Hy).
      + now apply dir_in_key with (k, v).
  Qed.

  Lemma tri_enum d i a r : tri i a r -> exists l,
    enum_list (dir_lt klt d) (dir_elems klt d i) (dir_elems klt d a) (dir_elems klt d r) = Some l /\
    srt (@dir_lt K V klt d) l /\
    forall k v, In (k, v) l <-> dir_in d (k, v) /\ ov i a r k = Some v.
  Proof.
    intros T.
    destruct (@enum_list_ok _ (@dir_lt K V klt d) (dir_lt_irrefl d) (@dir_lt_trans d)) with
      (i := dir_elems klt d i) (a := dir_elems klt d a) (r := dir_elems klt d r) as (l & E & S & HI).
    - intros x y z E. apply dir_eqv in E. destruct d; cbn; now rewrite E.
    - intros x y z E. apply dir_eqv in E. destruct d; cbn; now rewrite E.
    - now apply tri_inv.
    - exists l. repeat split; auto.
      all: destruct (dir_elems_spec d (t_i T)) as [Si Ii];
        destruct (dir_elems_spec d (t_a T)) as [Sa Ia];
        destruct (dir_elems_spec d (t_r T)) as [Sr Ir].
      + apply HI in H as [H|[H _]]; [apply Ia in H|apply Ii in H]; apply H.
      + apply HI in H as [H|[H N]].
        * apply Ia in H as [H D]. apply fIn in H; [|apply T].
          unfold ov. now rewrite H.
        * apply Ii in H as [H D]. apply fIn in H; [|apply T].
          assert (Nr : forall u, find k r <> Some u).
          { intros u Hu. apply fIn1 in Hu; auto. apply (N (k, u)); [|now apply dir_eqv].
            apply Ir. split; [auto|now apply dir_in_key with (k, v)]. }
          unfold ov. destruct (find k a) as [u|] eqn:Ea.
          -- destruct (t_ai T _ Ea H) as [H1 _]. now apply Nr in H1.
          -- unfold mhas. destruct (find k r) eqn:Er; auto. now destruct (Nr v0).
      + intros [D H]. apply HI. unfold ov in H. destruct (find k a) as [u|] eqn:Ea.
        * injection H as ->. left. apply Ia. split; [now apply fIn1|auto].
        * right. unfold mhas in H. destruct (find k r) eqn:Er; [discriminate|].
          split; [apply Ii; split; auto; now apply fIn1 in H|].
          intros [k' u] Hz E0. apply dir_eqv in E0. cbn in E0. subst k'. apply Ir in Hz as [Hz _].
          apply fIn in Hz; [congruence|apply T].
  Qed.

  (** *** from enumeration results to the specification *)
  Lemma enum_list_spec d (m : fmap K V) l L :
    srt (@dir_lt K V klt d) l -> (forall k v, In (k, v) l <-> dir_in d (k, v) /\ m k = Some v) ->
    listing klt m L ->
    match d with
    | DFwd => enum_fwd klt m l
    | DRev => enum_rev klt m l
    | DFind k => m k <> None -> enum_find klt k m l
    | DRFind k => m k <> None -> enum_rfind klt k m l
    end.
  Proof.
    intros S HI [SL HL]. destruct d as [| |k|k].
    - split; [exact S|]. intros k v. rewrite HI. cbn. tauto.
    - split; [apply (srt_rev S)|]. intros k v. rewrite <- in_rev, HI. cbn. tauto.
    - intros N. unfold enum_find. destruct (m k) as [v|] eqn:E; [|congruence].
      assert (Hk : In (k, v) l) by (apply HI; cbn; auto).
      exists (filter (fun x => klt (fst x) k) L). destruct l as [|[k' v'] t]; [easy|].
      assert ((k', v') = (k, v)) as HH.
      { destruct Hk as [Hk|Hk]; auto. apply srt_inv in S as [_ Ls]. apply Ls in Hk. cbn in Hk.
        destruct (HI k' v') as [[F _] _]; [now left|]. cbn in F. congruence. }
      injection HH as -> ->. exists t. split; auto. split.
      + apply srt_app; auto.
        * apply srt_filter. exact SL.
        * intros x y Hx Hy. apply filter_In in Hx as [_ Hx]. destruct y as [k2 v2].
          apply HI in Hy as [Hy _]. cbn in Hy |- *.
          destruct (klt k k2) eqn:Ek; [now apply klt_trans with k|].
          assert (k2 = k) as ->; auto.
      + intros k2 v2. rewrite in_app_iff, filter_In, HI, HL. cbn.
        destruct (klt k2 k); intuition congruence.
    - intros N. unfold enum_rfind. destruct (m k) as [v|] eqn:E; [|congruence].
      assert (Hk : In (k, v) l) by (apply HI; cbn; auto).
      exists (filter (fun x => klt k (fst x)) L). destruct l as [|[k' v'] t]; [easy|].
      assert ((k', v') = (k, v)) as HH.
      { destruct Hk as [Hk|Hk]; auto. apply srt_inv in S as [_ Ls]. apply Ls in Hk. cbn in Hk.
        destruct (HI k' v') as [[F _] _]; [now left|]. cbn in F. congruence. }
      injection HH as -> ->. exists t. split; auto. split.
      + apply srt_app; auto.
        * apply (srt_rev S).
        * apply srt_filter. exact SL.
        * intros x y Hx Hy. apply filter_In in Hy as [_ Hy]. destruct x as [k2 v2].
          rewrite <- in_rev in Hx. apply HI in Hx as [Hx _]. cbn in Hx |- *.
          destruct (klt k2 k) eqn:Ek; [now apply klt_trans with k|].
          assert (k2 = k) as ->; auto.
      + intros k2 v2. rewrite in_app_iff, <- in_rev, filter_In, HI, HL. cbn.
        destruct (klt k k2); intuition congruence.
  Qed.

  Lemma tri_listing i a r : tri i a r -> exists L, listing klt (ov i a r) L.
  Proof.
    intros T. destruct (tri_enum DFwd T) as (l & _ & S & HI). exists l. split; [exact S|].
    intros k v. rewrite HI. cbn. tauto.
  Qed.
  Lemma items_listing l : smap l -> listing klt (fun k => find k l) l.
  Proof. intros S. split; [exact S|]. intros k v. symmetry. now apply mfind_In. Qed.

  Lemma listing_unique (m1 m2 : fmap K V) l1 l2 : (forall k, m1 k = m2 k) -> listing klt m1 l1 -> listing klt m2 l2 -> l1 = l2.
  Proof.
    intros E [S1 H1] [S2 H2]. apply (srt_unique (@plt_irrefl K V klt klt_irrefl) (@plt_trans K V klt klt_trans)); auto.
    intros [k v]. rewrite H1, H2, E. tauto.
  Qed.
  Lemma listing_ext (m1 m2 : fmap K V) l : (forall k, m1 k = m2 k) -> listing klt m1 l -> listing klt m2 l.
  Proof. intros E [S H]. split; auto. intros k v. now rewrite H, E. Qed.

  (** length of the overlay *)
  Lemma tri_count i a r L : tri i a r -> listing klt (ov i a r) L ->
    length L = length i - length r + length a /\ length r <= length i.
  Proof.
    intros T HL.
    set (nr := filter (fun x => negb (has (fst x) r)) i).
    set (ir := filter (fun x => has (fst x) r) i).
    assert (Er : ir = r).
    { apply smap_ext with (klt := klt); auto; [now apply mfilter_smap, T|apply T|].
      intros k. unfold ir. rewrite mfilter_find by (auto; apply T). cbn. unfold mhas.
      destruct (find k i) as [w|] eqn:Ei; destruct (find k r) as [u|] eqn:Er; auto.
      - now rewrite (t_ri T _ Er) in Ei.
      - now rewrite (t_ri T _ Er) in Ei. }
    assert (C : length i = length nr + length ir).
    { unfold nr, ir. clear. induction i as [|x i IH]; cbn; auto. destruct (has (fst x) r); cbn; lia. }
    assert (P : Permutation L (nr ++ a)).
    { apply NoDup_Permutation.
      - apply (srt_NoDup (@plt_irrefl K V klt klt_irrefl)). apply HL.
      - apply nodup_app.
        + apply (srt_NoDup (@plt_irrefl K V klt klt_irrefl)). now apply srt_filter, T.
        + apply (srt_NoDup (@plt_irrefl K V klt klt_irrefl)), T.
        + intros [k v] Hn Ha. apply filter_In in Hn as [Hi Hr]. cbn in Hr.
          apply fIn in Hi; [|apply T].
          apply fIn in Ha; [|apply T].
          destruct (t_ai T _ Ha Hi) as [H _]. unfold mhas in Hr. now rewrite H in Hr.
      - intros [k v]. rewrite (proj2 HL), in_app_iff. unfold ov, nr. rewrite filter_In. cbn.
        rewrite <- (@fIn _ _ _ (t_i T)), <- (@fIn _ _ _ (t_a T)).
        destruct (find k a) as [u|] eqn:Ea.
        + split; auto. intros [[Hi Hr]|H]; auto. destruct (t_ai T _ Ea Hi) as [H _].
          unfold mhas in Hr. now rewrite H in Hr.
        + destruct (has k r); cbn; intuition congruence. }
    apply Permutation_length in P. rewrite app_length in P. rewrite Er in C. lia.
  Qed.

  (** *** the diff *)
  Lemma tri_diff i a r : tri i a r -> exact_diff klt (fun k => find k i) (ov i a r) (diff_list plt a r).
  Proof.
    intros T.
    assert (HR : forall k v, In (OpRemoved, (k, v)) (diff_list plt a r) <-> find k i = Some v /\ ov i a r k <> Some v).
    { intros k v. rewrite diff_list_In.
      rewrite <- (@fIn _ _ _ (t_r T)). split.
      - intros [[? _]|[_ H]]; [discriminate|]. pose proof (t_ri T _ H) as Hi. split; auto.
        unfold ov, mhas. destruct (find k a) as [u|] eqn:Ea.
        + destruct (t_ai T _ Ea Hi) as [_ N]. congruence.
        + now rewrite H.
      - intros [Hi N]. right. split; auto. unfold ov, mhas in N. destruct (find k a) as [u|] eqn:Ea.
        + now apply (t_ai T _ Ea Hi).
        + destruct (find k r) as [u|] eqn:Er; [|congruence]. apply (t_ri T) in Er. congruence. }
    assert (HA : forall k v, In (OpAdded, (k, v)) (diff_list plt a r) <-> ov i a r k = Some v /\ find k i <> Some v).
    { intros k v. rewrite diff_list_In.
      rewrite <- (@fIn _ _ _ (t_a T)). split.
      - intros [[_ H]|[? _]]; [|discriminate]. unfold ov. rewrite H. split; auto.
        intros Hi. destruct (t_ai T _ H Hi) as [_ N]. congruence.
      - intros [Ho N]. left. split; auto. unfold ov, mhas in Ho. destruct (find k a) as [u|] eqn:Ea; auto.
        destruct (find k r); congruence. }
    assert (HO : StronglySorted (entry_before klt) (diff_list plt a r)).
    { pose proof (diff_list_srt (@plt_trans K V klt klt_trans) (t_a T) (t_r T)) as S.
      unfold srt in S. revert S.
      generalize (diff_list plt a r). intros d S.
      induction S as [|x d S IH F]; constructor; auto.
      eapply Forall_impl; [|exact F]. intros y. unfold dlt, entry_before, SortedMap.plt.
      destruct (klt (fst (snd x)) (fst (snd y))) eqn:E; auto. cbn.
      destruct (klt (fst (snd y)) (fst (snd x))) eqn:E2; cbn; [discriminate|].
      destruct (fst x), (fst y); try discriminate. auto. }
    constructor; auto.
    - intros x. destruct x. rewrite diff_list_In. intros [[? _]|[? _]]; discriminate.
    - (* replay *)
      assert (HU : forall x, ~ In (OpUpdated, x) (diff_list plt a r)).
      { intros x. rewrite diff_list_In. intros [[? _]|[? _]]; discriminate. }
      intros k. revert HR HA HO HU. generalize (diff_list plt a r). intros d HR HA HO HU.
      (* generalise: replay over a sorted diff *)
      assert (G : forall d (c : fmap K V), StronglySorted (entry_before klt) d ->
                forall k, replay klt d c k =
                  match List.find (fun e => match fst e with OpRemoved => false | _ => keq klt (fst (snd e)) k end) d with
                  | Some e => Some (snd (snd e))
                  | None => if existsb (fun e => keq klt (fst (snd e)) k) d then None else c k
                  end).
      { clear - klt_irrefl klt_total keqs keqr. intros d. induction d as [|[o [k1 v1]] d IH]; intros c S k; cbn; auto.
        inversion S as [|? ? S' F]; subst. unfold replay in *. cbn [fold_left]. rewrite (IH _ S').
        rewrite Forall_forall in F.
        set (fnd := List.find _ d). set (ex := existsb _ d).
        destruct o; cbn [fst].
        - destruct (keq klt k1 k) eqn:E.
          + apply keqs in E as ->.
            assert (N : forall e, In e d -> keq klt (fst (snd e)) k = false).
            { intros e He. destruct (keq klt (fst (snd e)) k) eqn:E; auto. apply keqs in E. subst k.
              apply F in He as [He|(_ & ? & _)]; [|discriminate]. cbn in He. now rewrite klt_irrefl in He. }
            assert (fnd = None) as ->.
            { unfold fnd. destruct (List.find _ d) eqn:Ef; auto. apply find_some in Ef as [Hi Hf].
              rewrite (N _ Hi) in Hf. now destruct (fst p). }
            assert (ex = false) as ->.
            { unfold ex. destruct (existsb _ d) eqn:Ee; auto. apply existsb_exists in Ee as (e & He & Hk).
              now rewrite N in Hk. }
            unfold apply_entry; cbn. now rewrite upd_keq, keqr.
          + destruct fnd; auto. unfold apply_entry; cbn. rewrite upd_keq, keq_sym, E. auto.
        - destruct fnd eqn:Ef; auto. destruct (keq klt k1 k) eqn:E.
          + apply keqs in E as ->. unfold apply_entry; cbn. rewrite upd_keq, keqr. now destruct ex.
          + cbn. unfold apply_entry; cbn. rewrite upd_keq, keq_sym, E. auto.
        - destruct (keq klt k1 k) eqn:E.
          + apply keqs in E as ->.
            assert (N : forall e, In e d -> keq klt (fst (snd e)) k = false).
            { intros e He. destruct (keq klt (fst (snd e)) k) eqn:E; auto. apply keqs in E. subst k.
              apply F in He as [He|(_ & ? & _)]; [|discriminate]. cbn in He. now rewrite klt_irrefl in He. }
            assert (fnd = None) as ->.
            { unfold fnd. destruct (List.find _ d) eqn:Ef; auto. apply find_some in Ef as [Hi Hf].
              rewrite (N _ Hi) in Hf. now destruct (fst p). }
            assert (ex = false) as ->.
            { unfold ex. destruct (existsb _ d) eqn:Ee; auto. apply existsb_exists in Ee as (e & He & Hk).
              now rewrite N in Hk. }
            unfold apply_entry; cbn. now rewrite upd_keq, keqr.
          + destruct fnd; auto. unfold apply_entry; cbn. rewrite upd_keq, keq_sym, E. auto. }
      rewrite (G d _ HO).
      destruct (List.find _ d) as [[o [k1 v1]]|] eqn:Ef.
      + apply find_some in Ef as [Hi Hf]. cbn in Hf. destruct o; try discriminate.
        * apply keqs in Hf. subst k1. apply HA in Hi as [Ho _]. cbn. auto.
        * now apply HU in Hi.
      + assert (NA : forall v, ~ In (OpAdded, (k, v)) d).
        { intros v Hv. apply (find_none _ _ Ef) in Hv. cbn in Hv. now rewrite keqr in Hv. }
        destruct (existsb _ d) eqn:Ee.
        * apply existsb_exists in Ee as ([o [k1 v1]] & He & Hk). cbn in Hk. apply keqs in Hk. subst k1.
          destruct o; [now apply NA in He| |now apply HU in He].
          apply HR in He as [Hc Ho]. destruct (ov i a r k) as [u|] eqn:Eo; auto.
          exfalso. apply (NA u). apply HA. split; auto. congruence.
        * destruct (ov i a r k) as [u|] eqn:Eo.
          -- destruct (find k i) as [v|] eqn:Ei.
             ++ destruct (veq u v) eqn:Ev; [apply veq_spec in Ev; congruence|].
                exfalso. apply (NA u). apply HA. split; auto. intros H; rewrite Ei in H; injection H as ->.
                assert (veq u u = true) by now apply veq_spec. congruence.
             ++ exfalso. apply (NA u). apply HA. split; auto. congruence.
          -- destruct (find k i) as [v|] eqn:Ei; auto. exfalso.
             assert (He : In (OpRemoved, (k, v)) d) by (apply HR; split; auto; congruence).
             assert (existsb (fun e => keq klt (fst (snd e)) k) d = true); [|congruence].
             apply existsb_exists. eexists. split; [exact He|]. cbn. apply keqr.
  Qed.

  (** ** The state *)
  Notation frame := (@frame mapt (@nil (K * V))).
  Definition wfs s := wf (hh s) [it s; ad s; rm s].

  Record pres s s' i a r : Prop := {
    p_wf : wfs s'; p_fr : frame (hh s) (hh s'); p_act : act s' = act s;
    p_i : items s' = i; p_a : added s' = a; p_r : removed s' = r }.

  Lemma pres_trans s1 s2 s3 i a r i2 a2 r2 : pres s1 s2 i a r -> pres s2 s3 i2 a2 r2 -> pres s1 s3 i2 a2 r2.
  Proof.
    intros [? ? ? ? ? ?] [? ? ? ? ? ?]. constructor; auto; [|congruence].
    eapply frame_trans; eauto.
  Qed.
  Lemma pres_refl s : wfs s -> pres s s (items s) (added s) (removed s).
  Proof. intros W. constructor; auto. apply frame_refl. Qed.

  Lemma perm2 (a b c : cell) : Permutation [a; b; c] [b; a; c].
  Proof. constructor. Qed.
  Lemma perm3 (a b c : cell) : Permutation [a; b; c] [c; a; b].
  Proof. apply Permutation_sym. change [a; b; c] with ([a; b] ++ [c]). apply Permutation_cons_append. Qed.

  Lemma val_mem (h h' : hp mapt) c c' : mem h' = mem h -> c_ptr c' = c_ptr c -> val [] h' c' = val [] h c.
  Proof. intros E1 E2. unfold val, rd. now rewrite E1, E2. Qed.

  Lemma hold_items_ok s j s' : wfs s -> hold_items s = (j, s') ->
    pres s s' (items s) (added s) (removed s) /\ halive (hh s') j /\ hval [] (hh s') j = items s.
  Proof.
    intros W. unfold hold_items. destruct (get_holder (hh s) (it s)) as [[j0 c] h] eqn:E. intros [= <- <-].
    destruct (@get_holder_ok _ [] _ _ _ _ _ _ W E) as (W' & M & P & F & A).
    split; [constructor; cbn; auto; now apply val_mem|]. split; [eexists; eauto|].
    unfold hval; cbn. rewrite A. unfold items, val, rd. now rewrite M.
  Qed.
  Lemma hold_added_ok s j s' : wfs s -> hold_added s = (j, s') ->
    pres s s' (items s) (added s) (removed s) /\ halive (hh s') j /\ hval [] (hh s') j = added s.
  Proof.
    intros W. unfold hold_added. destruct (get_holder (hh s) (ad s)) as [[j0 c] h] eqn:E. intros [= <- <-].
    apply (wf_perm (perm2 _ _ _)) in W.
    destruct (@get_holder_ok _ [] _ _ _ _ _ _ W E) as (W' & M & P & F & A).
    split; [constructor; cbn; auto; try now apply val_mem|].
    { apply (wf_perm (perm2 _ _ _)) in W'. exact W'. }
    split; [eexists; eauto|].
    unfold hval; cbn. rewrite A. unfold added, val, rd. now rewrite M.
  Qed.
  Lemma hold_removed_ok s j s' : wfs s -> hold_removed s = (j, s') ->
    pres s s' (items s) (added s) (removed s) /\ halive (hh s') j /\ hval [] (hh s') j = removed s.
  Proof.
    intros W. unfold hold_removed. destruct (get_holder (hh s) (rm s)) as [[j0 c] h] eqn:E. intros [= <- <-].
    apply (wf_perm (perm3 _ _ _)) in W.
    destruct (@get_holder_ok _ [] _ _ _ _ _ _ W E) as (W' & M & P & F & A).
    split; [constructor; cbn; auto; try now apply val_mem|].
    { apply (wf_perm (Permutation_sym (perm3 _ _ _))) in W'. exact W'. }
    split; [eexists; eauto|].
    unfold hval; cbn. rewrite A. unfold removed, val, rd. now rewrite M.
  Qed.

  Lemma mod_added_ok s f : wfs s -> pres s (mod_added s f) (items s) (f (added s)) (removed s).
  Proof.
    intros W. unfold mod_added. destruct (modify [] (hh s) (ad s) f) as [c h] eqn:E.
    apply (wf_perm (perm2 _ _ _)) in W.
    destruct (@modify_ok _ [] _ _ _ _ _ _ W E) as (W' & Vv & S & F). constructor; cbn; auto.
    - apply (wf_perm (perm2 _ _ _)) in W'. exact W'.
    - apply S. now left.
    - apply S. right. now left.
  Qed.
  Lemma mod_removed_ok s f : wfs s -> pres s (mod_removed s f) (items s) (added s) (f (removed s)).
  Proof.
    intros W. unfold mod_removed. destruct (modify [] (hh s) (rm s) f) as [c h] eqn:E.
    apply (wf_perm (perm3 _ _ _)) in W.
    destruct (@modify_ok _ [] _ _ _ _ _ _ W E) as (W' & Vv & S & F). constructor; cbn; auto.
    - apply (wf_perm (Permutation_sym (perm3 _ _ _))) in W'. exact W'.
    - apply S. now left.
    - apply S. right. now left.
  Qed.
  Lemma set_added_ok s src : wfs s ->
    pres s (set_added s src) (items s) (match src with Some m => m | None => [] end) (removed s).
  Proof.
    intros W. unfold set_added. destruct (assign [] (hh s) (ad s) src) as [c h] eqn:E.
    apply (wf_perm (perm2 _ _ _)) in W.
    destruct (@assign_ok _ [] _ _ _ _ _ _ W E) as (W' & Vv & S & F). constructor; cbn; auto.
    - apply (wf_perm (perm2 _ _ _)) in W'. exact W'.
    - apply S. now left.
    - apply S. right. now left.
  Qed.
  Lemma set_removed_ok s src : wfs s ->
    pres s (set_removed s src) (items s) (added s) (match src with Some m => m | None => [] end).
  Proof.
    intros W. unfold set_removed. destruct (assign [] (hh s) (rm s) src) as [c h] eqn:E.
    apply (wf_perm (perm3 _ _ _)) in W.
    destruct (@assign_ok _ [] _ _ _ _ _ _ W E) as (W' & Vv & S & F). constructor; cbn; auto.
    - apply (wf_perm (Permutation_sym (perm3 _ _ _))) in W'. exact W'.
    - apply S. now left.
    - apply S. right. now left.
  Qed.

  (** The whole invariant; [vw] is the private copy *)
  Definition good s : Prop := wfs s /\ tri (items s) (added s) (removed s).
  Definition vw s : fmap K V := ov (items s) (added s) (removed s).

  (** [upto s s' m]: s' is good, the collection content is unchanged, live
      snapshots are unchanged and the private copy is now [m] *)
  Record upto s s' (m : fmap K V) : Prop := {
    u_good : good s'; u_fr : frame (hh s) (hh s'); u_act : act s' = act s;
    u_items : items s' = items s; u_vw : forall k, vw s' k = m k }.

  Lemma pres_upto s s' a r (m : fmap K V) : pres s s' (items s) a r -> tri (items s) a r ->
    (forall k, ov (items s) a r k = m k) -> upto s s' m.
  Proof.
    intros [W F A I Ad R] T H. constructor; auto.
    - split; auto. now rewrite I, Ad, R.
    - intros k. unfold vw. now rewrite I, Ad, R.
  Qed.
  Lemma upto_refl s : good s -> upto s s (vw s).
  Proof. intros [W T]. constructor; auto using frame_refl. now split. Qed.
  Lemma upto_ext s s' (m m' : fmap K V) : upto s s' m -> (forall k, m k = m' k) -> upto s s' m'.
  Proof. intros [] E. constructor; auto. intros k. now rewrite u_vw0. Qed.

  Lemma upd_same k (m : fmap K V) k' : upd klt k (m k) m k' = m k'.
  Proof. rewrite upd_keq. destruct (keq klt k' k) eqn:E; auto. now apply keqs in E as ->. Qed.
  Lemma upd_upd k o1 o2 (m : fmap K V) k' : upd klt k o1 (upd klt k o2 m) k' = upd klt k o1 m k'.
  Proof. rewrite !upd_keq. now destruct (keq klt k' k). Qed.
  Lemma upd_congr k o (m m' : fmap K V) k' : m k' = m' k' -> upd klt k o m k' = upd klt k o m' k'.
  Proof. rewrite !upd_keq. now intros ->. Qed.

  Lemma tx_get_vw s k : tx_get klt s k = vw s k.
  Proof.
    unfold tx_get, vw, ov. destruct (find k (added s)); auto.
    destruct (find k (items s)), (has k (removed s)); auto.
  Qed.
  Lemma tx_contains_vw s k : tx_contains klt s k = match vw s k with Some _ => true | None => false end.
  Proof.
    unfold tx_contains, vw, ov, mhas. destruct (find k (added s)); auto. cbn.
    destruct (find k (items s)), (find k (removed s)); auto.
  Qed.

  Lemma has_some k l v : find k l = Some v -> has k l = true.
  Proof. intros H. unfold mhas. now rewrite H. Qed.
  Lemma has_none k l : find k l = None -> has k l = false.
  Proof. intros H. unfold mhas. now rewrite H. Qed.

  Lemma tx_add_ok s k v : good s ->
    snd (tx_add klt veq s k v) = match vw s k with None => true | Some _ => false end /\
    upto s (fst (tx_add klt veq s k v)) (match vw s k with None => upd klt k (Some v) (vw s) | Some _ => vw s end).
  Proof.
    intros G. pose proof G as [W T]. unfold tx_add.
    assert (Evw : vw s k = ov (items s) (added s) (removed s) k) by reflexivity.
    unfold ov in Evw.
    destruct (find k (items s)) as [iv|] eqn:Ei.
    - destruct (has k (removed s)) eqn:Er; cbn [negb orb].
      + destruct (find k (added s)) as [av|] eqn:Ea.
        * rewrite (has_some _ _ Ea). rewrite Evw. split; auto. now apply upto_refl.
        * rewrite (has_none _ _ Ea). rewrite Evw. destruct (veq v iv) eqn:Ev.
          -- apply veq_spec in Ev. subst iv. split; auto. cbn [fst].
             destruct (tri_erase_removed k T Ei Ea) as [T' H'].
             eapply pres_upto; [now apply mod_removed_ok|auto|auto].
          -- split; auto. cbn [fst].
             destruct (@tri_emplace_added (items s) (added s) (removed s) k v T Ea) as [T' H'].
             { unfold ov. now rewrite Ea, Er. }
             { intros w. rewrite Ei. intros [= <-] ->.
               assert (veq iv iv = true) by now apply veq_spec. congruence. }
             eapply pres_upto; [now apply mod_added_ok|auto|auto].
      + assert (exists u, vw s k = Some u) as [u ->] by (rewrite Evw; destruct (find k (added s)); eauto).
        split; auto. now apply upto_refl.
    - destruct (find k (added s)) as [av|] eqn:Ea.
      + rewrite (has_some _ _ Ea). rewrite Evw. split; auto. now apply upto_refl.
      + rewrite (has_none _ _ Ea). rewrite (has_ri _ T Ei) in Evw. rewrite Evw. split; auto. cbn [fst].
        destruct (@tri_emplace_added (items s) (added s) (removed s) k v T Ea) as [T' H'].
        { unfold ov. now rewrite Ea, (has_ri _ T Ei). }
        { intros w. rewrite Ei. discriminate. }
        eapply pres_upto; [now apply mod_added_ok|auto|auto].
  Qed.

  (** lines 387-400 of Set *)
  Lemma set_tail_ok s k v :
    good s -> (forall w, find k (items s) = Some w -> v <> w /\ find k (removed s) = Some w) ->
    upto s (match find k (added s) with
            | Some av => if negb (veq v av) then mod_added s (mput klt k v) else s
            | None => mod_added s (memplace klt k v)
            end) (upd klt k (Some v) (vw s)).
  Proof.
    intros [W T] H. destruct (find k (added s)) as [av|] eqn:Ea.
    - destruct (veq v av) eqn:Ev; cbn.
      + apply veq_spec in Ev. subst av. eapply upto_ext; [apply upto_refl; now split|].
        intros k'. rewrite upd_keq. destruct (keq klt k' k) eqn:E; auto. apply keqs in E as ->.
        unfold vw, ov. now rewrite Ea.
      + destruct (@tri_put_added (items s) (added s) (removed s) k v av T Ea) as [T' H'].
        { intros w Hw. now apply H. }
        eapply pres_upto; [now apply mod_added_ok|auto|auto].
    - destruct (@tri_emplace_added (items s) (added s) (removed s) k v T Ea) as [T' H'].
      { unfold ov, mhas. rewrite Ea. destruct (find k (removed s)) eqn:Er; auto.
        destruct (find k (items s)) as [w|] eqn:Ei; auto. destruct (H w eq_refl). congruence. }
      { intros w Hw. now apply H. }
      eapply pres_upto; [now apply mod_added_ok|auto|auto].
  Qed.

  Lemma upto_trans s1 s2 s3 (m m' : fmap K V) : upto s1 s2 m -> upto s2 s3 m' -> upto s1 s3 m'.
  Proof. intros [] []. constructor; auto; try congruence. eapply frame_trans; eauto. Qed.

  Lemma tx_set_ok s k v : good s -> upto s (tx_set klt veq s k v) (upd klt k (Some v) (vw s)).
  Proof.
    intros G. pose proof G as [W T]. unfold tx_set.
    destruct (find k (items s)) as [iv|] eqn:Ei.
    - destruct (veq v iv) eqn:Ev.
      + apply veq_spec in Ev. subst iv.
        set (s1 := if has k (added s) then mod_added s (merase klt k) else s).
        assert (P1 : pres s s1 (items s) (merase klt k (added s)) (removed s)).
        { unfold s1. destruct (has k (added s)) eqn:Ea; [now apply mod_added_ok|].
          apply mhas_false in Ea.
          assert (merase klt k (added s) = added s) as ->; [|now apply pres_refl].
          apply smap_ext with (klt := klt); auto; [apply merase_smap, T|apply T|].
          intros k'. rewrite merase_find by (auto; apply T). destruct (keq klt k' k) eqn:E; auto.
          apply keqs in E as ->. auto. }
        pose proof (tri_erase_added k T) as T1.
        assert (Ea1 : find k (merase klt k (added s)) = None).
        { rewrite merase_find by (auto; apply T). now rewrite keqr. }
        destruct (tri_erase_removed k T1 Ei Ea1) as [T2 H2].
        rewrite (p_r P1). destruct (has k (removed s)) eqn:Er.
        * eapply pres_upto.
          -- eapply pres_trans; [exact P1|]. pose proof (mod_removed_ok (merase klt k) (p_wf P1)) as P2.
             rewrite (p_i P1), (p_a P1), (p_r P1) in P2. exact P2.
          -- exact T2.
          -- intros k'. rewrite H2, !upd_keq. destruct (keq klt k' k) eqn:E; auto.
             unfold vw, ov. rewrite merase_find by (auto; apply T). now rewrite E.
        * eapply pres_upto; [exact P1|exact T1|].
          intros k'. rewrite upd_keq. unfold vw, ov. rewrite merase_find by (auto; apply T).
          destruct (keq klt k' k) eqn:E; auto. apply keqs in E as ->. now rewrite Er.
      + assert (Nv : v <> iv) by (intros ->; assert (veq iv iv = true) by (now apply veq_spec); congruence).
        set (s1 := if negb (has k (removed s)) then _ else s).
        assert (U1 : upto s s1 (upd klt k (find k (added s)) (vw s)) /\ find k (removed s1) = Some iv).
        { unfold s1. unfold mhas. destruct (find k (removed s)) as [rv|] eqn:Er; cbn.
          - pose proof (t_ri T _ Er) as Hr. split; [|congruence].
            eapply upto_ext; [now apply upto_refl|]. intros k'. rewrite upd_keq.
            destruct (keq klt k' k) eqn:E; auto. apply keqs in E as ->.
            unfold vw, ov, mhas. rewrite Er. now destruct (find k (added s)).
          - destruct (tri_emplace_removed k T Ei Er) as [T1 H1].
            pose proof (mod_removed_ok (memplace klt k iv) W) as P1.
            split; [eapply pres_upto; eauto|].
            rewrite (p_r P1), memplace_find by (auto; apply T). now rewrite keqr, Er. }
        destruct U1 as [U1 R1].
        eapply upto_ext.
        * eapply upto_trans; [exact U1|]. apply set_tail_ok; [apply U1|].
          intros w. rewrite (u_items U1), Ei. intros [= <-]. auto.
        * intros k'. cbn. rewrite !upd_keq. destruct (keq klt k' k) eqn:E; auto.
          rewrite (u_vw U1), upd_keq, E. auto.
    - apply set_tail_ok; auto. intros w. rewrite Ei. discriminate.
  Qed.

  Lemma tx_remove_ok s k : good s ->
    snd (tx_remove klt s k) = match vw s k with None => false | Some _ => true end /\
    upto s (fst (tx_remove klt s k)) (upd klt k None (vw s)).
  Proof.
    intros G. pose proof G as [W T]. unfold tx_remove, vw, ov, mhas.
    destruct (find k (added s)) as [av|] eqn:Ea.
    - cbn. split; auto. eapply pres_upto; [now apply mod_added_ok|now apply tri_erase_added|].
      intros k'. rewrite upd_keq. unfold ov, mhas. rewrite merase_find by (auto; apply T).
      destruct (keq klt k' k) eqn:E; auto. apply keqs in E as ->.
      destruct (find k (removed s)) eqn:Er; auto. destruct (find k (items s)) as [w|] eqn:Ei; auto.
      destruct (t_ai T _ Ea Ei). congruence.
    - assert (Esame : (forall o, ov (items s) (added s) (removed s) k = o ->
         upto s s (upd klt k o (vw s)))).
      { intros o Ho. eapply upto_ext; [now apply upto_refl|]. intros k'. rewrite upd_keq.
        destruct (keq klt k' k) eqn:E; auto. now apply keqs in E as ->. }
      destruct (find k (removed s)) as [rv|] eqn:Er.
      + cbn. split; auto. apply Esame. unfold ov, mhas. now rewrite Ea, Er.
      + destruct (find k (items s)) as [iv|] eqn:Ei; cbn.
        * split; auto. destruct (tri_emplace_removed k T Ei Er) as [T1 H1].
          eapply pres_upto; [now apply mod_removed_ok|auto|].
          intros k'. rewrite H1, Ea. auto.
        * split; auto. apply Esame. unfold ov, mhas. now rewrite Ea, Er.
  Qed.

  Lemma tx_clear_ok s : good s -> upto s (tx_clear s) (fun _ => None).
  Proof.
    intros [W T]. unfold tx_clear.
    pose proof (set_added_ok None W) as P1. pose proof (set_removed_ok (Some (items (set_added s None))) (p_wf P1)) as P2.
    rewrite (p_i P1), (p_a P1) in P2.
    eapply pres_upto; [eapply pres_trans; [exact P1|]|eapply tri_clear; exact T|].
    - rewrite (p_i P1). exact P2.
    - intros k. unfold ov, mhas. cbn. now destruct (find k (items s)).
  Qed.
  Lemma tx_revert_ok s : good s -> upto s (tx_revert s) (fun k => find k (items s)).
  Proof.
    intros [W T]. unfold tx_revert.
    pose proof (set_added_ok None W) as P1. pose proof (set_removed_ok None (p_wf P1)) as P2.
    rewrite (p_i P1), (p_a P1) in P2.
    eapply pres_upto; [eapply pres_trans; [exact P1|exact P2]|eapply tri_revert; exact T|].
    intros k. reflexivity.
  Qed.

  Lemma tx_apply_ok s e : good s -> upto s (tx_apply klt veq s e) (apply_entry klt e (vw s)).
  Proof.
    intros G. unfold tx_apply, apply_entry. destruct (fst e).
    - now apply tx_set_ok.
    - now apply tx_remove_ok.
    - now apply tx_set_ok.
  Qed.

  (** RemoveWhere *)
  Lemma perm_filter {A} (p : A -> bool) (l1 l2 : list A) : Permutation l1 l2 -> Permutation (filter p l1) (filter p l2).
  Proof.
    induction 1; cbn; auto.
    - destruct (p x); auto.
    - destruct (p x), (p y); auto. constructor.
    - eapply perm_trans; eauto.
  Qed.

  Lemma tri_perm i a r L : tri i a r -> listing klt (ov i a r) L ->
    Permutation L (filter (fun x => negb (has (fst x) r)) i ++ a).
  Proof.
    intros T HL. apply NoDup_Permutation.
    - apply (srt_NoDup (@plt_irrefl K V klt klt_irrefl)). apply HL.
    - apply nodup_app.
      + apply (srt_NoDup (@plt_irrefl K V klt klt_irrefl)). now apply srt_filter, T.
      + apply (srt_NoDup (@plt_irrefl K V klt klt_irrefl)), T.
      + intros [k v] Hn Ha. apply filter_In in Hn as [Hi Hr]. cbn in Hr.
        apply fIn in Hi; [|apply T]. apply fIn in Ha; [|apply T].
        destruct (t_ai T _ Ha Hi) as [H _]. unfold mhas in Hr. now rewrite H in Hr.
    - intros [k v]. rewrite (proj2 HL), in_app_iff. unfold ov. rewrite filter_In. cbn.
      rewrite <- (@fIn _ _ _ (t_i T)), <- (@fIn _ _ _ (t_a T)).
      destruct (find k a) as [u|] eqn:Ea.
      + split; auto. intros [[Hi Hr]|H]; auto. destruct (t_ai T _ Ea Hi) as [H _].
        unfold mhas in Hr. now rewrite H in Hr.
      + destruct (has k r); cbn; intuition congruence.
  Qed.

  Definition rw_step (p : K -> V -> bool) (acc : mapt * nat) (x : K * V) : mapt * nat :=
    let '(r, n) := acc in
    if has (fst x) r || negb (p (fst x) (snd x)) then (r, n)
    else (memplace klt (fst x) (snd x) r, S n).

  Lemma rw_fold p l : smap l -> forall r n r' n', smap r ->
    fold_left (rw_step p) l (r, n) = (r', n') ->
    smap r' /\
    (forall k, find k r' = match find k r with Some v => Some v
                           | None => match find k l with Some v => if p k v then Some v else None | None => None end end) /\
    n' = n + length (filter (fun x => negb (has (fst x) r) && p (fst x) (snd x)) l).
  Proof.
    induction l as [|[k0 v0] l IH]; intros Sl r n r' n' Sr; cbn [fold_left].
    - intros [= <- <-]. cbn. split; auto. split; [|lia]. intros k. now destruct (find k r).
    - apply smap_inv in Sl as [Sl L]. unfold rw_step at 2. cbn [fst snd].
      assert (Nk : find k0 l = None).
      { apply mfind_None; auto. intros w Hw. apply L in Hw. rewrite klt_irrefl in Hw. discriminate. }
      destruct (has k0 r) eqn:Eh; cbn [orb].
      + intros H. destruct (IH Sl _ _ _ _ Sr H) as (S' & F & N). split; auto. split.
        * intros k. rewrite F. destruct (find k r) eqn:Ek; auto. cbn.
          destruct (keq klt k k0) eqn:E; auto. apply keqs in E as ->. unfold mhas in Eh. now rewrite Ek in Eh.
        * cbn. rewrite Eh. cbn. auto.
      + destruct (p k0 v0) eqn:Ep; cbn [negb].
        * intros H. destruct (IH Sl _ _ _ _ (memplace_smap klt_trans k0 v0 Sr) H) as (S' & F & N).
          split; auto. split.
          -- intros k. rewrite F, memplace_find by auto. cbn.
             destruct (keq klt k k0) eqn:E; auto. apply keqs in E as ->.
             unfold mhas in Eh. destruct (find k0 r); [discriminate|]. now rewrite Ep.
          -- cbn. rewrite Eh, Ep. cbn. rewrite N.
             assert (E : filter (fun x => negb (has (fst x) (memplace klt k0 v0 r)) && p (fst x) (snd x)) l
                       = filter (fun x => negb (has (fst x) r) && p (fst x) (snd x)) l); [|rewrite E; lia].
             apply filter_ext_in. intros [k v] Hx. cbn. unfold mhas. rewrite memplace_find by auto.
             destruct (keq klt k k0) eqn:E; auto. apply keqs in E as ->. apply L in Hx.
             rewrite klt_irrefl in Hx. discriminate.
        * intros H. destruct (IH Sl _ _ _ _ Sr H) as (S' & F & N). split; auto. split.
          -- intros k. rewrite F. cbn. destruct (find k r) eqn:Ek; auto.
             destruct (keq klt k k0) eqn:E; auto. apply keqs in E as ->. now rewrite Nk, Ep.
          -- cbn. rewrite Eh, Ep. cbn. auto.
  Qed.

  Lemma tx_remove_where_ok s p L : good s -> listing klt (vw s) L ->
    snd (tx_remove_where klt s p) = length (filter (fun x => p (fst x) (snd x)) L) /\
    upto s (fst (tx_remove_where klt s p)) (restrict (fun k v => negb (p k v)) (vw s)).
  Proof.
    intros [W T] HL. unfold tx_remove_where.
    set (s1 := mod_added s _).
    pose proof (mod_added_ok (filter (fun x => negb (p (fst x) (snd x)))) W) as P1. fold s1 in P1.
    rewrite (p_i P1), (p_r P1).
    change (fun acc (x : K * V) => let '(r, n) := acc in
      if has (fst x) r || negb (p (fst x) (snd x)) then (r, n)
      else (memplace klt (fst x) (snd x) r, S n)) with (rw_step p).
    destruct (fold_left (rw_step p) (items s) _) as [r' n'] eqn:E.
    destruct (rw_fold p (t_i T) _ (t_r T) E) as (Sr' & F & N). cbn [fst snd]. split.
    - rewrite N. pose proof (perm_filter (fun x => p (fst x) (snd x)) (tri_perm T HL)) as P.
      apply Permutation_length in P. rewrite P, filter_app, app_length.
      assert (E2 : filter (fun x => p (fst x) (snd x)) (filter (fun x => negb (has (fst x) (removed s))) (items s))
        = filter (fun x => negb (has (fst x) (removed s)) && p (fst x) (snd x)) (items s)); [|rewrite E2; lia].
      generalize (items s). intros l. induction l as [|x l IHl]; cbn; auto.
      destruct (negb (has (fst x) (removed s))); cbn; auto. now rewrite IHl.
    - pose proof (mod_removed_ok (fun _ => r') (p_wf P1)) as P2. rewrite (p_i P1), (p_a P1) in P2.
      eapply pres_upto; [eapply pres_trans; [exact P1|exact P2]| |].
      + constructor; auto; try apply T.
        * apply mfilter_smap, T.
        * intros k v. rewrite F. destruct (find k (removed s)) as [u|] eqn:Er.
          -- intros [= ->]. now apply T.
          -- destruct (find k (items s)); [|discriminate]. destruct (p k v0); congruence.
        * intros k v w. rewrite mfilter_find by (auto; apply T).
          destruct (find k (added s)) as [u|] eqn:Ea; [|discriminate]. cbn.
          destruct (p k u); cbn; [discriminate|]. intros [= ->] Hi.
          destruct (t_ai T _ Ea Hi) as [H1 H2]. rewrite F, H1. auto.
      + intros k. unfold restrict, vw, ov, mhas. rewrite mfilter_find, F by (auto; apply T). cbn.
        destruct (find k (added s)) as [u|] eqn:Ea.
        * destruct (p k u); cbn; auto.
          destruct (find k (items s)) as [w|] eqn:Ei.
          -- destruct (t_ai T _ Ea Ei) as [-> _]. auto.
          -- destruct (find k (removed s)) as [x|]; auto.
        * destruct (find k (removed s)) as [u|] eqn:Er; auto.
          destruct (find k (items s)) as [w|] eqn:Ei; auto. destruct (p k w); auto.
  Qed.

  (** Commit *)
  Lemma erase_all_ok l : forall m, smap m ->
    smap (fold_left (fun m (x : K * V) => merase klt (fst x) m) l m) /\
    forall k, find k (fold_left (fun m (x : K * V) => merase klt (fst x) m) l m) = if has k l then None else find k m.
  Proof.
    induction l as [|[k0 v0] l IH]; intros m Sm; cbn [fold_left].
    - split; auto.
    - destruct (IH (merase klt k0 m)) as [S F]; [now apply merase_smap|]. split; auto.
      intros k. cbn [fst] in *. rewrite F, merase_find by auto. unfold mhas; cbn.
      destruct (keq klt k k0) eqn:E; auto. now destruct (find k l).
  Qed.

  Lemma emplace_all_ok l : smap l -> forall m, smap m ->
    (forall k v, find k l = Some v -> find k m = None) ->
    exists m', emplace_all klt l m = Some m' /\ smap m' /\
      forall k, find k m' = match find k l with Some v => Some v | None => find k m end.
  Proof.
    induction l as [|[k0 v0] l IH]; intros Sl m Sm D; cbn [emplace_all].
    - exists m. auto.
    - apply smap_inv in Sl as [Sl L].
      assert (Nk : find k0 l = None).
      { apply mfind_None; auto. intros w Hw. apply L in Hw. rewrite klt_irrefl in Hw. discriminate. }
      assert (D0 : find k0 m = None).
      { apply (D k0 v0). cbn. now rewrite keqr. }
      rewrite (has_none _ _ D0).
      destruct (IH Sl (memplace klt k0 v0 m)) as (m' & E & S' & F).
      + now apply memplace_smap.
      + intros k v H. rewrite memplace_find by auto. destruct (keq klt k k0) eqn:Ek.
        * apply keqs in Ek as ->. congruence.
        * apply (D k v). cbn. now rewrite Ek.
      + exists m'. split; auto. split; auto. intros k. rewrite F, memplace_find by auto. cbn.
        destruct (keq klt k k0) eqn:Ek; auto. apply keqs in Ek as ->. now rewrite Nk, D0.
  Qed.

  Lemma tri_commit i a r : tri i a r -> exists m,
    emplace_all klt a (fold_left (fun m (x : K * V) => merase klt (fst x) m) r i) = Some m /\ smap m /\
    forall k, find k m = ov i a r k.
  Proof.
    intros T. destruct (erase_all_ok r (t_i T)) as [S1 F1].
    destruct (emplace_all_ok (t_a T) S1) as (m & E & Sm & F).
    - intros k v Ha. rewrite F1. destruct (has k r) eqn:Er; auto.
      destruct (find k i) as [w|] eqn:Ei; auto. destruct (t_ai T _ Ha Ei) as [H _].
      unfold mhas in Er. now rewrite H in Er.
    - exists m. split; auto. split; auto. intros k. rewrite F, F1. reflexivity.
  Qed.

  Lemma tri_clean i a r : tri i a r -> (a = [] /\ r = []) <-> forall k, find k i = ov i a r k.
  Proof.
    intros T. split.
    - intros [-> ->] k. reflexivity.
    - intros H. split.
      + destruct a as [|[k v] a]; auto. exfalso. specialize (H k). unfold ov in H. cbn in H.
        rewrite keqr in H. destruct (@t_ai _ _ _ T k v v) as [_ N]; auto. cbn. now rewrite keqr.
      + destruct r as [|[k v] r]; auto. exfalso.
        assert (Er : find k ((k, v) :: r) = Some v) by (cbn; now rewrite keqr).
        pose proof (t_ri T _ Er) as Hi. specialize (H k). unfold ov in H. rewrite (has_some _ _ Er) in H.
        destruct (find k a) as [u|] eqn:Ea; [|congruence].
        destruct (t_ai T _ Ea Hi). congruence.
  Qed.

  Lemma tx_diff_ok s e s' : wfs s -> tx_diff s = (e, s') -> exists ja jr,
    e = EnDiff ja jr /\ pres s s' (items s) (added s) (removed s) /\
    halive (hh s') ja /\ hval [] (hh s') ja = added s /\
    halive (hh s') jr /\ hval [] (hh s') jr = removed s.
  Proof.
    intros W. unfold tx_diff. destruct (hold_added s) as [ja s1] eqn:E1.
    destruct (hold_removed s1) as [jr s2] eqn:E2. intros [= <- <-].
    destruct (hold_added_ok W E1) as (P1 & A1 & V1).
    destruct (hold_removed_ok (p_wf P1) E2) as (P2 & A2 & V2).
    rewrite (p_i P1), (p_a P1), (p_r P1) in *.
    destruct (frame_hval (p_fr P2) A1) as [A1' V1'].
    exists ja, jr. split; auto. split; [eapply pres_trans; eauto|]. split; auto. split; [congruence|auto].
  Qed.

  Lemma tx_commit_ok s : good s -> act s = true ->
    (tx_commit klt s = (s, RCommit None) /\ forall k, find k (items s) = vw s k) \/
    (exists s' d, tx_commit klt s = (s', RCommit (Some d)) /\
       exact_diff klt (fun k => find k (items s)) (vw s) d /\ (exists k, find k (items s) <> vw s k) /\
       good s' /\ frame (hh s) (hh s') /\ act s' = true /\
       (forall k, find k (items s') = vw s k) /\ (forall k, vw s' k = vw s k)).
  Proof.
    intros [W T] Act. unfold tx_commit.
    destruct (match added s with [] => match removed s with [] => true | _ => false end | _ => false end) eqn:Cl.
    - left. split; auto. apply (tri_clean T). destruct (added s), (removed s); auto; discriminate.
    - right. destruct (tx_diff s) as [e s1] eqn:E1.
      destruct (tx_diff_ok W E1) as (ja & jr & -> & P1 & Aa & Va & Ar & Vr).
      destruct (cow [] (hh s1) (it s1) (Some (items s1))) as [[b c] h] eqn:C.
      destruct (@cow_ok _ [] _ _ _ _ _ _ _ (p_wf P1) C) as (W2 & S2 & F2 & L2 & V2).
      set (s2 := mk_st h c (ad s1) (rm s1) (act s1)).
      assert (Ei : items s2 = items s).
      { unfold s2, items at 1. cbn. rewrite V2. rewrite <- (p_i P1). now destruct b. }
      assert (Ea : added s2 = added s).
      { unfold s2, added at 1. cbn. rewrite S2 by now left. apply (p_a P1). }
      assert (Er : removed s2 = removed s).
      { unfold s2, removed at 1. cbn. rewrite S2 by (right; now left). apply (p_r P1). }
      fold s2. rewrite Ei, Ea, Er.
      destruct (tri_commit T) as (m & Em & Sm & Fm). rewrite Em.
      destruct (@wr_ok _ [] _ _ _ m W2 L2) as (W3 & V3 & S3 & F3).
      set (s3 := mk_st (wr h (c_ptr c) m) c (ad s1) (rm s1) (act s1)).
      assert (Ea3 : added s3 = added s).
      { rewrite <- Ea. unfold s3, s2, added. cbn. apply S3. now left. }
      assert (Er3 : removed s3 = removed s).
      { rewrite <- Er. unfold s3, s2, removed. cbn. apply S3. right; now left. }
      assert (Ei3 : items s3 = m) by apply V3.
      assert (W3' : wfs s3) by exact W3.
      assert (F13 : frame (hh s1) (hh s3)) by (eapply frame_trans; eauto).
      destruct (frame_hval F13 Aa) as [_ Va3]. destruct (frame_hval F13 Ar) as [_ Vr3].
      pose proof (set_added_ok None W3') as P4. pose proof (set_removed_ok None (p_wf P4)) as P5.
      rewrite (p_i P4), (p_a P4), Ei3 in P5.
      exists (set_removed (set_added s3 None) None), (diff_list plt (added s) (removed s)). split; [|split; [|split; [|split; [|split; [|split; [|split]]]]]].
      + change (hh s2) with h. cbn [yields].
        change (hval [] (hh s3) ja = hval [] (hh s1) ja) in Va3.
        change (hval [] (hh s3) jr = hval [] (hh s1) jr) in Vr3.
        cbn [hh]. unfold s3 in Va3, Vr3. cbn [hh] in Va3, Vr3. rewrite Va3, Vr3, Va, Vr. reflexivity.
      + now apply tri_diff.
      + destruct (added s) as [|[k v] t] eqn:Eq.
        * destruct (removed s) as [|[k v] t] eqn:Eq2; [discriminate|]. exists k.
          rewrite (t_ri T k (v := v)) by (cbn; now rewrite keqr).
          unfold vw, ov. rewrite Eq, Eq2. cbn. unfold mhas; cbn. now rewrite keqr.
        * exists k. unfold vw, ov. rewrite Eq. cbn. rewrite keqr. intros Hi.
          destruct (t_ai T k (v:=v) (w:=v)) as [_ N]; auto. cbn. now rewrite keqr.
      + split; [apply P5|]. rewrite (p_i P5), (p_a P5), (p_r P5).
        constructor; auto; try apply smap_nil; easy.
      + eapply frame_trans; [apply P1|]. eapply frame_trans; [exact F13|].
        eapply frame_trans; [apply P4|apply P5].
      + rewrite (p_act P5), (p_act P4). cbn. now rewrite (p_act P1).
      + intros k. rewrite (p_i P5). apply Fm.
      + intros k. unfold vw at 1. rewrite (p_i P5), (p_a P5), (p_r P5). unfold ov at 1. cbn. apply Fm.
  Qed.

  (** ** Refinement *)
  Definition rel s (S : sst K V) : Prop :=
    good s /\ (forall k, content S k = find k (items s)) /\
    match private S with
    | None => act s = false
    | Some m => act s = true /\ forall k, m k = vw s k
    end.

  (** live holders of [s] not in [out] stay alive and unchanged *)
  Definition keep (out : list nat) s s' : Prop := forall j, halive (hh s) j -> ~ In j out ->
    halive (hh s') j /\ hval [] (hh s') j = hval [] (hh s) j.
  Lemma frame_keep s s' : frame (hh s) (hh s') -> keep [] s s'.
  Proof. intros F j A _. now apply frame_hval. Qed.

  Definition dropped (o : op K V) : list nat := match o with EDrop j => [j] | _ => [] end.

  Lemma enum_fwd_ext (m m' : fmap K V) l : (forall k, m k = m' k) -> enum_fwd klt m l -> enum_fwd klt m' l.
  Proof. apply listing_ext. Qed.
  Lemma enum_rev_ext (m m' : fmap K V) l : (forall k, m k = m' k) -> enum_rev klt m l -> enum_rev klt m' l.
  Proof. apply listing_ext. Qed.
  Lemma enum_find_ext k (m m' : fmap K V) l : (forall k, m k = m' k) -> enum_find klt k m l -> enum_find klt k m' l.
  Proof.
    intros E. unfold enum_find. rewrite (E k). destruct (m' k); auto.
    intros (b & t & -> & H). exists b, t. split; auto. eapply listing_ext; eauto.
  Qed.
  Lemma enum_rfind_ext k (m m' : fmap K V) l : (forall k, m k = m' k) -> enum_rfind klt k m l -> enum_rfind klt k m' l.
  Proof.
    intros E. unfold enum_rfind. rewrite (E k). destruct (m' k); auto.
    intros (b & t & -> & H). exists b, t. split; auto. eapply listing_ext; eauto.
  Qed.
  Lemma upd_ext k o (m m' : fmap K V) : (forall k, m k = m' k) -> forall k', upd klt k o m k' = upd klt k o m' k'.
  Proof. intros E k'. unfold upd. now rewrite E. Qed.
  Lemma apply_entry_ext e (m m' : fmap K V) : (forall k, m k = m' k) -> forall k, apply_entry klt e m k = apply_entry klt e m' k.
  Proof. intros E. unfold apply_entry. destruct (fst e); now apply upd_ext. Qed.
  Lemma replay_ext d : forall m m' : fmap K V, (forall k, m k = m' k) -> forall k, replay klt d m k = replay klt d m' k.
  Proof.
    induction d as [|e d IH]; intros m m' E k; cbn; auto.
    apply IH. now apply apply_entry_ext.
  Qed.
  Lemma exact_diff_ext (c c' m m' : fmap K V) d : (forall k, c k = c' k) -> (forall k, m k = m' k) ->
    exact_diff klt c m d -> exact_diff klt c' m' d.
  Proof.
    intros Ec Em [H1 H2 H3 H4 H5]. constructor; auto.
    - intros k v. now rewrite H1, Ec, Em.
    - intros k v. now rewrite H2, Ec, Em.
    - intros k. rewrite <- Em, <- H5. apply replay_ext. now intros.
  Qed.

  Definition dir_spec (d : dir K) (m : fmap K V) l : Prop :=
    match d with
    | DFwd => enum_fwd klt m l
    | DRev => enum_rev klt m l
    | DFind k => enum_find klt k m l
    | DRFind k => enum_rfind klt k m l
    end.
  Lemma dir_spec_ext d (m m' : fmap K V) l : (forall k, m k = m' k) -> dir_spec d m l -> dir_spec d m' l.
  Proof.
    destruct d; cbn; [apply enum_fwd_ext|apply enum_rev_ext|apply enum_find_ext|apply enum_rfind_ext].
  Qed.
  Definition dir_key (d : dir K) : option K := match d with DFind k | DRFind k => Some k | _ => None end.

  Lemma tx_enum_ok s d : good s -> (forall k, dir_key d = Some k -> vw s k <> None) ->
    exists s' e l, tx_enum klt s d = (s', REnum e (Some (plain l))) /\
      dir_spec d (vw s) l /\ (forall j, In j (holders_of e) -> halive (hh s') j) /\
      yields klt (hh s') e = Some (plain l) /\
      pres s s' (items s) (added s) (removed s).
  Proof.
    intros [W T] HK. unfold tx_enum.
    destruct (hold_items s) as [ji s1] eqn:E1. destruct (hold_added s1) as [ja s2] eqn:E2.
    destruct (hold_removed s2) as [jr s3] eqn:E3.
    destruct (hold_items_ok W E1) as (P1 & A1 & V1).
    destruct (hold_added_ok (p_wf P1) E2) as (P2 & A2 & V2).
    destruct (hold_removed_ok (p_wf P2) E3) as (P3 & A3 & V3).
    rewrite (p_i P1), (p_a P1), (p_r P1) in *. rewrite (p_i P2), (p_a P2), (p_r P2) in *.
    destruct (frame_hval (frame_trans (p_fr P2) (p_fr P3)) A1) as [A1' V1'].
    destruct (frame_hval (p_fr P3) A2) as [A2' V2'].
    destruct (tri_enum d T) as (l & El & Sl & Il).
    destruct (tri_listing T) as [L HL].
    assert (Y : yields klt (hh s3) (EnTx d ji ja jr) = Some (plain l)).
    { cbn. rewrite V1', V1, V2', V2, V3, El. reflexivity. }
    exists s3, (EnTx d ji ja jr), l. split; [unfold ret_enum; now rewrite Y|].
    split; [|split; [|split; [auto|]]].
    - pose proof (enum_list_spec (m := vw s) Sl Il HL) as H.
      destruct d; cbn in *; auto.
    - cbn. intuition congruence.
    - eapply pres_trans; [exact P1|]. eapply pres_trans; [exact P2|exact P3].
  Qed.

  Lemma coll_enum_ok s d : good s -> (forall k, dir_key d = Some k -> find k (items s) <> None) ->
    exists s' e l, coll_enum klt s d = (s', REnum e (Some (plain l))) /\
      dir_spec d (fun k => find k (items s)) l /\ (forall j, In j (holders_of e) -> halive (hh s') j) /\
      yields klt (hh s') e = Some (plain l) /\
      pres s s' (items s) (added s) (removed s).
  Proof.
    intros [W T] HK. unfold coll_enum.
    destruct (hold_items s) as [ji s1] eqn:E1.
    destruct (hold_items_ok W E1) as (P1 & A1 & V1).
    destruct (dir_elems_spec d (t_i T)) as [Sl Il].
    assert (Y : yields klt (hh s1) (EnColl d ji) = Some (plain (dir_elems klt d (items s)))).
    { cbn. now rewrite V1. }
    exists s1, (EnColl d ji), (dir_elems klt d (items s)). split; [unfold ret_enum; now rewrite Y|].
    split; [|split; [|split; [auto|auto]]].
    - pose proof (@enum_list_spec d (fun k => find k (items s)) _ (items s) Sl) as H.
      destruct d; cbn in *; auto; try apply H; auto using items_listing; try (apply items_listing, T);
        intros k0 v0; rewrite Il, <- (@fIn _ _ _ (t_i T)); tauto.
    - cbn. intros j [<-|[]]. auto.
  Qed.

  Lemma empty_enum_ok d (m : fmap K V) : (exists k, dir_key d = Some k /\ m k = None) -> dir_spec d m [].
  Proof. intros (k & E & H). destruct d; cbn in E; try discriminate; injection E as ->; cbn;
    unfold enum_find, enum_rfind; now rewrite H. Qed.

  Lemma rel_upto s s' S (m : fmap K V) : rel s S -> act s = true -> upto s s' m ->
    rel s' (mk_sst (content S) (Some m)).
  Proof.
    intros (G & C & P) A U. split; [apply U|]. split.
    - intros k. cbn. rewrite (u_items U). apply C.
    - cbn. split; [now rewrite (u_act U)|]. intros k. symmetry. apply (u_vw U).
  Qed.
  Lemma rel_pres s s' S : rel s S -> pres s s' (items s) (added s) (removed s) -> rel s' S.
  Proof.
    intros ((W & T) & C & P) [W' F A I Ad R]. split; [|split].
    - split; auto. now rewrite I, Ad, R.
    - intros k. rewrite I. apply C.
    - destruct (private S); [|now rewrite A]. destruct P as [PA PV]. split; [now rewrite A|].
      intros k. rewrite PV. unfold vw. now rewrite I, Ad, R.
  Qed.

  (** One call: the state relation, the results, the snapshots. *)
  Record step_ok s S (o : op K V) s' (r : res K V) : Prop := {
    so_rel : rel s' (snext klt S o);
    so_read : read_ok klt S o r;
    so_commit : commit_ok klt S o r;
    so_keep : keep (dropped o) s s';
    so_enum : forall e now, r = REnum e now ->
      (forall j, In j (holders_of e) -> halive (hh s') j) /\ yields klt (hh s') e = now }.

  Lemma step_sound s S (o : op K V) s' (r : res K V) : rel s S -> step klt veq s o = (s', r) -> step_ok s S o s' r.
  Proof.
    intros R Est. pose proof R as (G & C & P). pose proof G as [W T].
    assert (HLi := items_listing (t_i T)).
    assert (HLi' : listing klt (content S) (items s)).
    { eapply listing_ext; [|exact HLi]. intros k. now rewrite C. }
    destruct (tri_listing T) as [LV HLV].
    (* collection enumerations *)
    assert (CE : forall d, (forall k, dir_key d = Some k -> find k (items s) <> None) ->
       forall s' (r : res K V), coll_enum klt s d = (s', r) ->
         rel s' S /\ ret_list r (dir_spec d (content S)) /\ keep [] s s' /\
         (forall e now, r = REnum e now -> (forall j, In j (holders_of e) -> halive (hh s') j) /\ yields klt (hh s') e = now)).
    { intros d HK s0 r0 E0. destruct (coll_enum_ok d G HK) as (s1 & e & l & E1 & D & A & Y & P1).
      rewrite E1 in E0. injection E0 as <- <-. split; [now apply rel_pres with s|]. split.
      - exists e, l. split; auto. eapply dir_spec_ext; [|exact D]. intros k. now rewrite C.
      - split; [apply frame_keep, P1|]. intros e0 now [= <- <-]. auto. }
    assert (TE : act s = true -> forall m : fmap K V, (forall k, m k = vw s k) ->
       forall d, (forall k, dir_key d = Some k -> vw s k <> None) ->
       forall s' (r : res K V), tx_enum klt s d = (s', r) ->
         rel s' S /\ ret_list r (dir_spec d m) /\ keep [] s s' /\
         (forall e now, r = REnum e now -> (forall j, In j (holders_of e) -> halive (hh s') j) /\ yields klt (hh s') e = now)).
    { intros Act m Hm d HK s0 r0 E0. destruct (tx_enum_ok d G HK) as (s1 & e & l & E1 & D & A & Y & P1).
      rewrite E1 in E0. injection E0 as <- <-. split; [now apply rel_pres with s|]. split.
      - exists e, l. split; auto. eapply dir_spec_ext; [|exact D]. intros k. now rewrite Hm.
      - split; [apply frame_keep, P1|]. intros e0 now [= <- <-]. auto. }
    assert (EE : forall s' (r : res K V), ret_enum klt s EnEmpty = (s', r) ->
       s' = s /\ r = REnum EnEmpty (Some (plain []))).
    { intros s0 r0 [= <- <-]. auto. }
    assert (K0 : keep [] s s) by (apply frame_keep, frame_refl).
    (* a read that changes nothing *)
    assert (RD : forall r : res K V, (forall e now, r <> REnum e now) -> snext klt S o = S ->
       read_ok klt S o r -> commit_ok klt S o r -> dropped o = [] -> step_ok s S o s r).
    { intros r0 N E1 H1 H2 E2. constructor; auto; [now rewrite E1|now rewrite E2|].
      intros e now H. now destruct (N e now). }
    (* no transaction object *)
    assert (NT : act s = false -> private S = None).
    { intros A. destruct (private S); auto. destruct P. congruence. }
    destruct o; cbn [step] in Est.
    (* collection ops *)
    - injection Est as <- <-. apply RD; cbn; auto; [destruct (find k (items s)); discriminate|now rewrite C].
    - injection Est as <- <-. apply RD; cbn; auto; [discriminate|now rewrite C].
    - injection Est as <- <-. apply RD; cbn; auto; [discriminate|]. eauto.
    - injection Est as <- <-. apply RD; cbn; auto; [discriminate|].
      eexists. split; [reflexivity|]. destruct (items s) as [|[k v] t] eqn:E.
      + split; [intros _ k; now rewrite C|auto].
      + split; [discriminate|]. intros H. specialize (H k). rewrite C in H. cbn in H. now rewrite keqr in H.
    - injection Est as <- <-. apply RD; cbn; auto; [discriminate|].
      eexists. split; [reflexivity|]. rewrite C. unfold mhas. destruct (find k (items s)); split; congruence.
    - destruct (CE DFwd) with (s' := s') (r := r) as (H1 & H2 & H3 & H4); auto; [easy|]. constructor; auto; cbn; auto.
    - destruct (CE DRev) with (s' := s') (r := r) as (H1 & H2 & H3 & H4); auto; [easy|]. constructor; auto; cbn; auto.
    - destruct (has k (items s)) eqn:E.
      + destruct (CE (DFind k)) with (s' := s') (r := r) as (H1 & H2 & H3 & H4); auto.
        { cbn. intros k0 [= <-]. unfold mhas in E. now destruct (find k (items s)). }
        constructor; auto; cbn; auto.
      + apply EE in Est as [-> ->]. constructor; auto.
        * cbn. eexists _, []. split; auto. apply (@empty_enum_ok (DFind k)). exists k. split; auto.
          rewrite C. now apply mhas_false in E.
        * cbn; auto.
        * intros e now [= <- <-]. split; [easy|reflexivity].
    - destruct (has k (items s)) eqn:E.
      + destruct (CE (DRFind k)) with (s' := s') (r := r) as (H1 & H2 & H3 & H4); auto.
        { cbn. intros k0 [= <-]. unfold mhas in E. now destruct (find k (items s)). }
        constructor; auto; cbn; auto.
      + apply EE in Est as [-> ->]. constructor; auto.
        * cbn. eexists _, []. split; auto. apply (@empty_enum_ok (DRFind k)). exists k. split; auto.
          rewrite C. now apply mhas_false in E.
        * cbn; auto.
        * intros e now [= <- <-]. split; [easy|reflexivity].
    - (* populate *)
      destruct (items s) as [|x t] eqn:Ei.
      + injection Est as <- <-. apply RD; cbn; auto; discriminate.
      + destruct (hold_items s) as [j s1] eqn:E1. destruct (hold_items_ok W E1) as (P1 & A1 & V1).
        injection Est as <- <-. rewrite Ei in V1. constructor; auto.
        * cbn. now apply rel_pres with s.
        * cbn. auto.
        * cbn. right. eexists _, (x :: t). split; [cbn; rewrite V1; reflexivity|]. split; [discriminate|auto].
        * cbn. apply frame_keep, P1.
        * intros e now [= <- <-]. split; [cbn; intros i [<-|[]]; auto|reflexivity].
    - (* start *)
      destruct (act s) eqn:A.
      + injection Est as <- <-. destruct (private S) as [m|] eqn:EP; [|congruence].
        apply RD; cbn; rewrite ?EP; auto. discriminate.
      + pose proof (NT eq_refl) as EP.
        destruct (new_cell (hh s) []) as [ca h1] eqn:N1. destruct (new_cell h1 []) as [cr h2] eqn:N2.
        injection Est as <- <-.
        assert (W0 : wf (hh s) [it s]).
        { apply (wf_perm (perm3 _ _ _)) in W. apply wf_tail in W. apply (wf_perm (perm_swap _ _ _)) in W. now apply wf_tail in W. }
        destruct (@new_cell_ok _ [] _ _ _ _ _ W0 N1) as (W1 & V1 & S1 & F1).
        destruct (@new_cell_ok _ [] _ _ _ _ _ W1 N2) as (W2 & V2 & S2 & F2).
        assert (Ei : val [] h2 (it s) = items s).
        { rewrite S2 by (right; now left). apply S1. now left. }
        assert (Ea : val [] h2 ca = []).
        { rewrite S2 by now left. exact V1. }
        constructor; cbn; rewrite ?EP; auto; try discriminate.
        * split; [|split].
          -- split; unfold wfs, items, added, removed; cbn.
             ++ eapply wf_perm; [|exact W2]. apply Permutation_sym. apply perm_trans with [ca; it s; cr]; [constructor|].
                apply Permutation_sym. change [ca; it s; cr] with ([ca; it s] ++ [cr]). apply Permutation_cons_append.
             ++ rewrite Ei, Ea, V2. eapply tri_revert; eauto.
          -- intros k. cbn. unfold items at 1; cbn. rewrite Ei. auto.
          -- cbn. split; auto. intros k. unfold vw, items, added, removed; cbn. rewrite Ei, Ea, V2. cbn. auto.
        * apply frame_keep. cbn. eapply frame_trans; eauto.
    - (* end *)
      destruct (act s) eqn:A.
      + destruct (private S) as [m|] eqn:EP; [|congruence]. injection Est as <- <-.
        constructor; cbn; rewrite ?EP; auto; try discriminate.
        split; [exact G|]. split; [exact C|reflexivity].
      + pose proof (NT eq_refl) as EP. injection Est as <- <-. apply RD; cbn; rewrite ?EP; auto. discriminate.
    (* reads in the transaction *)
    - destruct (act s) eqn:A; [|pose proof (NT eq_refl) as EP; injection Est as <- <-; apply RD; cbn; rewrite ?EP; auto; discriminate].
      destruct (private S) as [m|] eqn:EP; [|congruence]. destruct P as [_ HM]. injection Est as <- <-.
      rewrite tx_get_vw. apply RD; cbn; rewrite ?EP; auto; [destruct (vw s k); discriminate|now rewrite HM].
    - destruct (act s) eqn:A; [|pose proof (NT eq_refl) as EP; injection Est as <- <-; apply RD; cbn; rewrite ?EP; auto; discriminate].
      destruct (private S) as [m|] eqn:EP; [|congruence]. destruct P as [_ HM]. injection Est as <- <-.
      rewrite tx_get_vw. apply RD; cbn; rewrite ?EP; auto; [discriminate|now rewrite HM].
    - destruct (act s) eqn:A; [|pose proof (NT eq_refl) as EP; injection Est as <- <-; apply RD; cbn; rewrite ?EP; auto; discriminate].
      destruct (private S) as [m|] eqn:EP; [|congruence]. destruct P as [_ HM]. injection Est as <- <-.
      apply RD; cbn; rewrite ?EP; auto; [discriminate|].
      exists LV. destruct (tri_count T HLV) as [<- _]. split; auto. eapply listing_ext; [|exact HLV].
      intros k. now rewrite HM.
    - destruct (act s) eqn:A; [|pose proof (NT eq_refl) as EP; injection Est as <- <-; apply RD; cbn; rewrite ?EP; auto; discriminate].
      destruct (private S) as [m|] eqn:EP; [|congruence]. destruct P as [_ HM]. injection Est as <- <-.
      apply RD; cbn; rewrite ?EP; auto; [discriminate|].
      eexists. split; [reflexivity|]. destruct (tri_count T HLV) as [Cn Cl].
      assert (E : LV = [] <-> forall k, m k = None).
      { split.
        - intros -> k. rewrite HM. destruct (vw s k) eqn:E; auto. apply (proj2 HLV) in E. easy.
        - intros H. destruct LV as [|[k v] t]; auto. exfalso.
          assert (vw s k = Some v) by (apply (proj2 HLV); now left). rewrite <- HM, H in H0. discriminate. }
      rewrite <- E. rewrite andb_true_iff, Nat.eqb_eq. destruct (added s) eqn:Ead; cbn in Cn.
      + split.
        * intros [_ H]. destruct LV; auto. cbn in Cn. lia.
        * intros ->. cbn in Cn. split; auto. lia.
      + split; [easy|]. intros ->. cbn in Cn. lia.
    - destruct (act s) eqn:A; [|pose proof (NT eq_refl) as EP; injection Est as <- <-; apply RD; cbn; rewrite ?EP; auto; discriminate].
      destruct (private S) as [m|] eqn:EP; [|congruence]. destruct P as [_ HM]. injection Est as <- <-.
      apply RD; cbn; rewrite ?EP; auto; [discriminate|].
      eexists. split; [reflexivity|]. rewrite tx_contains_vw, HM. destruct (vw s k); split; congruence.
    - destruct (act s) eqn:A; [|pose proof (NT eq_refl) as EP; injection Est as <- <-; apply RD; cbn; rewrite ?EP; auto; discriminate].
      destruct (private S) as [m|] eqn:EP; [|congruence]. destruct P as [_ HM].
      destruct (TE eq_refl m HM DFwd) with (s' := s') (r := r) as (H1 & H2 & H3 & H4); auto; [easy|].
      constructor; cbn; rewrite ?EP; auto.
    - destruct (act s) eqn:A; [|pose proof (NT eq_refl) as EP; injection Est as <- <-; apply RD; cbn; rewrite ?EP; auto; discriminate].
      destruct (private S) as [m|] eqn:EP; [|congruence]. destruct P as [_ HM].
      destruct (TE eq_refl m HM DRev) with (s' := s') (r := r) as (H1 & H2 & H3 & H4); auto; [easy|].
      constructor; cbn; rewrite ?EP; auto.
    - destruct (act s) eqn:A; [|pose proof (NT eq_refl) as EP; injection Est as <- <-; apply RD; cbn; rewrite ?EP; auto; discriminate].
      destruct (private S) as [m|] eqn:EP; [|congruence]. destruct P as [_ HM].
      rewrite tx_contains_vw in Est. destruct (vw s k) as [v|] eqn:E.
      + destruct (TE eq_refl m HM (DFind k)) with (s' := s') (r := r) as (H1 & H2 & H3 & H4); auto.
        { cbn. intros k0 [= <-]. congruence. }
        constructor; cbn; rewrite ?EP; auto.
      + apply EE in Est as [-> ->]. constructor; cbn; rewrite ?EP; auto.
        * eexists _, []. split; auto. apply (@empty_enum_ok (DFind k)). exists k. split; auto. congruence.
        * intros e now [= <- <-]. split; [easy|reflexivity].
    - destruct (act s) eqn:A; [|pose proof (NT eq_refl) as EP; injection Est as <- <-; apply RD; cbn; rewrite ?EP; auto; discriminate].
      destruct (private S) as [m|] eqn:EP; [|congruence]. destruct P as [_ HM].
      rewrite tx_contains_vw in Est. destruct (vw s k) as [v|] eqn:E.
      + destruct (TE eq_refl m HM (DRFind k)) with (s' := s') (r := r) as (H1 & H2 & H3 & H4); auto.
        { cbn. intros k0 [= <-]. congruence. }
        constructor; cbn; rewrite ?EP; auto.
      + apply EE in Est as [-> ->]. constructor; cbn; rewrite ?EP; auto.
        * eexists _, []. split; auto. apply (@empty_enum_ok (DRFind k)). exists k. split; auto. congruence.
        * intros e now [= <- <-]. split; [easy|reflexivity].
    (* updates *)
    - destruct (act s) eqn:A; [|pose proof (NT eq_refl) as EP; injection Est as <- <-; apply RD; cbn; rewrite ?EP; auto; discriminate].
      destruct (private S) as [m|] eqn:EP; [|congruence]. destruct P as [_ HM].
      destruct (tx_add_ok k v G) as [H1 U]. destruct (tx_add klt veq s k v) as [s1 b]. cbn [fst snd] in *.
      injection Est as <- <-. constructor; cbn; rewrite ?EP; auto; try discriminate.
      + apply (rel_upto R A) . eapply upto_ext; [exact U|]. intros k'. rewrite HM.
        destruct (vw s k); auto. apply upd_ext. auto.
      + rewrite H1, HM. auto.
      + apply frame_keep, U.
    - destruct (act s) eqn:A; [|pose proof (NT eq_refl) as EP; injection Est as <- <-; apply RD; cbn; rewrite ?EP; auto; discriminate].
      destruct (private S) as [m|] eqn:EP; [|congruence]. destruct P as [_ HM].
      pose proof (tx_set_ok k v G) as U. injection Est as <- <-. constructor; cbn; rewrite ?EP; auto; try discriminate.
      + apply (rel_upto R A). eapply upto_ext; [exact U|]. apply upd_ext. auto.
      + apply frame_keep, U.
    - destruct (act s) eqn:A; [|pose proof (NT eq_refl) as EP; injection Est as <- <-; apply RD; cbn; rewrite ?EP; auto; discriminate].
      destruct (private S) as [m|] eqn:EP; [|congruence]. destruct P as [_ HM].
      destruct (tx_remove_ok k G) as [H1 U]. destruct (tx_remove klt s k) as [s1 b]. cbn [fst snd] in *.
      injection Est as <- <-. constructor; cbn; rewrite ?EP; auto; try discriminate.
      + apply (rel_upto R A). eapply upto_ext; [exact U|]. apply upd_ext. auto.
      + rewrite H1, HM. auto.
      + apply frame_keep, U.
    - destruct (act s) eqn:A; [|pose proof (NT eq_refl) as EP; injection Est as <- <-; apply RD; cbn; rewrite ?EP; auto; discriminate].
      destruct (private S) as [m|] eqn:EP; [|congruence]. destruct P as [_ HM].
      destruct (tx_remove_where_ok p G HLV) as [H1 U]. destruct (tx_remove_where klt s p) as [s1 n]. cbn [fst snd] in *.
      injection Est as <- <-. constructor; cbn; rewrite ?EP; auto; try discriminate.
      + apply (rel_upto R A). eapply upto_ext; [exact U|]. intros k. unfold restrict. now rewrite HM.
      + exists LV. split; [|now rewrite H1]. eapply listing_ext; [|exact HLV]. intros k. now rewrite HM.
      + apply frame_keep, U.
    - destruct (act s) eqn:A; [|pose proof (NT eq_refl) as EP; injection Est as <- <-; apply RD; cbn; rewrite ?EP; auto; discriminate].
      destruct (private S) as [m|] eqn:EP; [|congruence]. destruct P as [_ HM].
      pose proof (tx_clear_ok G) as U. injection Est as <- <-. constructor; cbn; rewrite ?EP; auto; try discriminate.
      + apply (rel_upto R A). exact U.
      + apply frame_keep, U.
    - destruct (act s) eqn:A; [|pose proof (NT eq_refl) as EP; injection Est as <- <-; apply RD; cbn; rewrite ?EP; auto; discriminate].
      destruct (private S) as [m|] eqn:EP; [|congruence]. destruct P as [_ HM].
      pose proof (tx_apply_ok e G) as U. injection Est as <- <-. constructor; cbn; rewrite ?EP; auto; try discriminate.
      + apply (rel_upto R A). eapply upto_ext; [exact U|]. apply apply_entry_ext. auto.
      + apply frame_keep, U.
    - (* Diff *)
      destruct (act s) eqn:A; [|pose proof (NT eq_refl) as EP; injection Est as <- <-; apply RD; cbn; rewrite ?EP; auto; discriminate].
      destruct (private S) as [m|] eqn:EP; [|congruence]. destruct P as [_ HM].
      destruct (tx_diff s) as [d s1] eqn:E1.
      destruct (tx_diff_ok W E1) as (ja & jr & -> & P1 & Aa & Va & Ar & Vr).
      injection Est as <- <-. constructor; cbn; rewrite ?EP; auto.
      + now apply rel_pres with s.
      + rewrite Va, Vr. eexists _, _. split; [reflexivity|].
        eapply exact_diff_ext; [| |exact (tri_diff T)]; intros k; [now rewrite C|now rewrite HM].
      + apply frame_keep, P1.
      + intros e now [= <- <-]. split; [|reflexivity]. cbn. intuition congruence.
    - (* IsDirty *)
      destruct (act s) eqn:A; [|pose proof (NT eq_refl) as EP; injection Est as <- <-; apply RD; cbn; rewrite ?EP; auto; discriminate].
      destruct (private S) as [m|] eqn:EP; [|congruence]. destruct P as [_ HM].
      injection Est as <- <-. apply RD; cbn; rewrite ?EP; auto; [discriminate|].
      eexists. split; [reflexivity|].
      destruct (match added s with [] => match removed s with [] => false | _ => true end | _ => true end) eqn:D.
      + split; auto. intros _.
        destruct (added s) as [|[k v] t] eqn:Eq.
        * destruct (removed s) as [|[k v] t] eqn:Eq2; [discriminate|]. exists k.
          rewrite C, HM, (t_ri T k (v := v)) by (cbn; now rewrite keqr).
          unfold vw, ov. rewrite Eq, Eq2. cbn. unfold mhas; cbn. now rewrite keqr.
        * exists k. rewrite C, HM. unfold vw, ov. rewrite Eq. cbn. rewrite keqr. intros Hi.
          destruct (t_ai T k (v:=v) (w:=v)) as [_ N]; auto. cbn. now rewrite keqr.
      + split; [discriminate|]. intros [k Hk]. exfalso. apply Hk. rewrite C, HM.
        apply (tri_clean T). destruct (added s), (removed s); auto; discriminate.
    - (* Commit *)
      destruct (act s) eqn:A; [|pose proof (NT eq_refl) as EP; injection Est as <- <-; apply RD; cbn; rewrite ?EP; auto; discriminate].
      destruct (private S) as [m|] eqn:EP; [|congruence]. destruct P as [_ HM].
      destruct (tx_commit_ok G A) as [[E H]|(s1 & d & E & D & N & G' & F & A' & I' & V')]; rewrite E in Est; injection Est as <- <-.
      + constructor; cbn; rewrite ?EP; auto; try discriminate.
        * split; auto. cbn. split; [|auto]. intros k. now rewrite HM, H.
        * left. split; auto. intros k. now rewrite C, HM.
      + constructor; cbn; rewrite ?EP; auto; try discriminate.
        * split; auto. cbn. split; [intros k; now rewrite HM, I'|split; auto]. intros k. now rewrite HM, V'.
        * right. exists d. split; auto. split.
          -- eapply exact_diff_ext; [| |exact D]; intros k; [now rewrite C|now rewrite HM].
          -- destruct N as [k Hk]. exists k. now rewrite C, HM.
        * now apply frame_keep.
    - destruct (act s) eqn:A; [|pose proof (NT eq_refl) as EP; injection Est as <- <-; apply RD; cbn; rewrite ?EP; auto; discriminate].
      destruct (private S) as [m|] eqn:EP; [|congruence]. destruct P as [_ HM].
      pose proof (tx_revert_ok G) as U. injection Est as <- <-. constructor; cbn; rewrite ?EP; auto; try discriminate.
      + apply (rel_upto R A). eapply upto_ext; [exact U|]. intros k. now rewrite C.
      + apply frame_keep, U.
    - (* drop *)
      injection Est as <- <-. destruct (drop_ok (i) W) as [W' M'].
      assert (VM : forall c, val [] (drop_holder (hh s) i) c = val [] (hh s) c).
      { intros c. unfold val, rd. now rewrite M'. }
      constructor; cbn; auto; try discriminate.
      + split; [|split].
        * split; [exact W'|]. unfold items, added, removed; cbn. now rewrite !VM.
        * intros k. unfold items; cbn. rewrite VM. apply C.
        * cbn. destruct (private S); auto. destruct P as [P1 P2]. split; [exact P1|]. intros k.
          unfold vw, items, added, removed; cbn. rewrite !VM. apply P2.
      + intros j [p Hp] Nj. cbn.
        assert (Nji : j <> i) by (intros ->; apply Nj; now left).
        assert (Hp' : nth_error (hold (drop_holder (hh s) i)) j = Some (p, true)) by now apply drop_frame.
        split; [exists p; exact Hp'|].
        unfold hval. rewrite Hp, Hp'. unfold rd. now rewrite M'.
  Qed.

  Lemma init_rel : rel (init K V) (@sinit K V).
  Proof.
    split; [|split; [intros; reflexivity|reflexivity]].
    split.
    - constructor; cbn.
      + intros c [<-|[<-|[<-|[]]]]; cbn; lia.
      + repeat constructor; cbn; intuition discriminate.
      + intros [|i] p b; discriminate.
      + intros c i [<-|[<-|[<-|[]]]]; discriminate.
      + intros c [|i] p; discriminate.
    - constructor; try apply smap_nil; easy.
  Qed.

  Lemma run_sound ops : forall s S, rel s S ->
    history klt (read_ok klt) S ops (snd (run klt veq s ops)) /\
    history klt (commit_ok klt) S ops (snd (run klt veq s ops)) /\
    (exists S', rel (fst (run klt veq s ops)) S') /\
    keep (flat_map dropped ops) s (fst (run klt veq s ops)).
  Proof.
    induction ops as [|o ops IH]; intros s S R; cbn.
    - repeat split; eauto.
    - destruct (step klt veq s o) as [s1 r] eqn:E. pose proof (step_sound _ R E) as [H1 H2 H3 H4 H5].
      destruct (IH s1 _ H1) as (I1 & I2 & I3 & I4). destruct (run klt veq s1 ops) as [s2 rs]. cbn in *.
      split; [|split; [|split]]; auto.
      intros j Aj Nj. rewrite in_app_iff in Nj. destruct (H4 j Aj) as [A1 V1]; [tauto|].
      destruct (I4 j A1) as [A2 V2]; [tauto|]. split; auto. congruence.
  Qed.

  Lemma yields_keep s s' e : (forall j, In j (holders_of e) -> hval [] (hh s') j = hval [] (hh s) j) ->
    yields klt (hh s') e = yields klt (hh s) e.
  Proof.
    intros H. destruct e; cbn in *; rewrite ?H by auto; auto.
  Qed.

  Theorem snapshot_stable ops1 o ops2 s1 rs1 s2 e now s3 rs3 :
    run klt veq (init K V) ops1 = (s1, rs1) ->
    step klt veq s1 o = (s2, REnum e now) ->
    run klt veq s2 ops2 = (s3, rs3) ->
    (forall j, In (EDrop j) ops2 -> ~ In j (holders_of e)) ->
    yields klt (hh s3) e = now.
  Proof.
    intros R1 R2 R3 ND.
    destruct (run_sound ops1 init_rel) as (_ & _ & [S1 H1] & _). rewrite R1 in H1.
    pose proof (step_sound _ H1 R2) as [H2 _ _ _ HE]. destruct (HE e now eq_refl) as [A Y].
    destruct (run_sound ops2 H2) as (_ & _ & _ & HK). rewrite R3 in HK. cbn in HK.
    rewrite <- Y. apply yields_keep. intros j Hj. apply HK; auto.
    rewrite in_flat_map. intros (o' & Ho & Hd). destruct o'; cbn in Hd; try easy.
    destruct Hd as [->|[]]. now apply (ND j).
  Qed.
End Dict.
