From Coq Require Import Sorted.
From Verif Require Import Base QueueCacheModel QueueCacheSpec.
Set Implicit Arguments.
Local Open Scope Z_scope.

Section P.
Variables K V : Type.
Variable keq : K -> K -> bool.
Hypothesis keq_spec : forall a b, keq a b = true <-> a = b.
Variable size_mapper : V -> Z.
Hypothesis size_nonneg : forall v, 0 <= size_mapper v.

Notation sumsz := (@sum_sizes K V size_mapper).
Notation lf := (@lfind K V keq).
Notation ld := (@l_del K V keq).

Lemma keq_refl k : keq k k = true.
Proof. apply keq_spec; reflexivity. Qed.
Lemma keq_neq a b : a <> b -> keq a b = false.
Proof. intros H. destruct (keq a b) eqn:E; [apply keq_spec in E; contradiction|reflexivity]. Qed.
Lemma keq_dec (a b : K) : {a = b} + {a <> b}.
Proof. destruct (keq a b) eqn:E; [left; apply keq_spec; exact E | right; intros ->; rewrite keq_refl in E; discriminate]. Qed.

(** *** dictionary *)
Lemma dfind_derase k k' (d : dict K V) : dfind keq k' (derase keq k d) = if keq k k' then None else dfind keq k' d.
Proof.
  unfold derase. induction d as [|[a x] d IH]; cbn; [destruct (keq k k'); reflexivity|].
  destruct (keq_dec a k) as [->|Hne].
  - rewrite keq_refl. cbn [negb]. rewrite IH. destruct (keq k k'); reflexivity.
  - rewrite (keq_neq Hne). cbn [negb dfind]. destruct (keq_dec a k') as [->|Hne'].
    + rewrite keq_refl. rewrite (keq_neq (not_eq_sym Hne)). reflexivity.
    + rewrite (keq_neq Hne'). exact IH.
Qed.

Lemma dfind_dput k k' x (d : dict K V) : dfind keq k' (dput keq k x d) = if keq k k' then Some x else dfind keq k' d.
Proof. unfold dput. cbn [dfind]. rewrite dfind_derase. destruct (keq k k'); reflexivity. Qed.

(** *** lists of pairs *)
Lemma sum_app a b : sumsz (a ++ b) = sumsz a + sumsz b.
Proof. induction a as [|x a IH]; cbn; [reflexivity|]. unfold sum_sizes in *. rewrite IH. lia. Qed.
Lemma sum_nonneg a : 0 <= sumsz a.
Proof. induction a as [|x a IH]; cbn; [lia|]. unfold sum_sizes in *. pose proof (size_nonneg (snd x)). lia. Qed.

Lemma lfind_app k a b : lf k (a ++ b) = match lf k a with Some v => Some v | None => lf k b end.
Proof. induction a as [|[k' v] a IH]; cbn; [reflexivity|]. destruct (keq k' k); [reflexivity|exact IH]. Qed.

Lemma lfind_notin k l : ~ In k (map fst l) -> lf k l = None.
Proof.
  induction l as [|[k' v] l IH]; cbn; intros H; [reflexivity|].
  rewrite keq_neq by (intros ->; apply H; left; reflexivity). apply IH. tauto.
Qed.

Lemma lfind_in k v l : NoDup (map fst l) -> (lf k l = Some v <-> In (k, v) l).
Proof.
  induction l as [|[k' v'] l IH]; cbn; intros H; [split; [discriminate|tauto]|].
  inversion H as [|? ? Hn Hnd]; subst. destruct (keq_dec k' k) as [->|Hne].
  - rewrite keq_refl. split.
    + intros E; injection E as ->. left; reflexivity.
    + intros [E|E]; [injection E as ->; reflexivity|].
      exfalso. apply Hn. apply in_map_iff. exists (k, v). auto.
  - rewrite (keq_neq Hne). rewrite IH by exact Hnd. split; [auto|]. intros [E|E]; [congruence|exact E].
Qed.

Lemma lfind_none k l : lf k l = None <-> ~ In k (map fst l).
Proof.
  split; [|apply lfind_notin]. induction l as [|[k' v] l IH]; cbn; [tauto|].
  destruct (keq_dec k' k) as [->|Hne]; [rewrite keq_refl; discriminate|]. rewrite (keq_neq Hne).
  intros H [E|E]; [contradiction|]. apply IH; auto.
Qed.

Lemma l_del_notin k l : ~ In k (map fst l) -> ld k l = l.
Proof.
  induction l as [|[k' v] l IH]; cbn; intros H; [reflexivity|].
  rewrite keq_neq by (intros ->; apply H; left; reflexivity). cbn [negb]. f_equal. apply IH; tauto.
Qed.

Lemma l_del_app k a b : ld k (a ++ b) = ld k a ++ ld k b.
Proof. apply filter_app. Qed.

Lemma l_del_mid k v a b : NoDup (map fst (a ++ (k, v) :: b)) -> ld k (a ++ (k, v) :: b) = a ++ b.
Proof.
  intros H. rewrite map_app in H. cbn [map fst] in H. apply NoDup_remove_2 in H.
  rewrite l_del_app. unfold l_del at 2. cbn [filter fst]. rewrite keq_refl. cbn [negb]. fold (ld k b).
  rewrite in_app_iff in H. rewrite !l_del_notin by tauto. reflexivity.
Qed.

Lemma lfind_l_del k k' l : lf k' (ld k l) = if keq k k' then None else lf k' l.
Proof.
  unfold l_del. induction l as [|[a v] l IH]; cbn; [destruct (keq k k'); reflexivity|].
  destruct (keq_dec a k) as [->|Hne].
  - rewrite keq_refl. cbn [negb]. rewrite IH. destruct (keq k k'); reflexivity.
  - rewrite (keq_neq Hne). cbn [negb lfind]. destruct (keq_dec a k') as [->|Hne'].
    + rewrite keq_refl, (keq_neq (not_eq_sym Hne)). reflexivity.
    + rewrite (keq_neq Hne'). exact IH.
Qed.

Lemma in_l_del k x l : In x (ld k l) <-> In x l /\ fst x <> k.
Proof.
  unfold l_del. rewrite filter_In. rewrite negb_true_iff. split; intros [H1 H2]; split; auto.
  - intros E. rewrite E, keq_refl in H2. discriminate.
  - apply keq_neq; exact H2.
Qed.

Lemma nodup_l_del k (l : list (K * V)) : NoDup (map fst l) -> NoDup (map fst (ld k l)) /\ ~ In k (map fst (ld k l)).
Proof.
  intros H. split.
  - induction l as [|[a v] l IH]; cbn; [constructor|]. inversion H as [|? ? Hn Hnd]; subst.
    destruct (keq a k); cbn [negb map]; [apply IH; exact Hnd|]. constructor; [|apply IH; exact Hnd].
    intros Hin. apply Hn. cbn in Hin. apply in_map_iff in Hin. destruct Hin as (y & Hy & Hin).
    apply in_l_del in Hin. apply in_map_iff. exists y; tauto.
  - intros Hin. apply in_map_iff in Hin. destruct Hin as (y & Hy & Hin). apply in_l_del in Hin. tauto.
Qed.

Lemma nodup_snoc {B} (l : list B) x : NoDup l -> ~ In x l -> NoDup (l ++ [x]).
Proof.
  intros H Hn. induction l as [|y l IH]; cbn; [constructor; [tauto|constructor]|].
  inversion H; subst. constructor.
  - rewrite in_app_iff. cbn in *. intros [?|[?|[]]]; [contradiction|subst; tauto].
  - apply IH; [assumption|]. cbn in Hn. tauto.
Qed.

Lemma nodup_touch k v (l : list (K * V)) : NoDup (map fst l) -> NoDup (map fst (l_touch keq k v l)).
Proof.
  intros H. destruct (nodup_l_del k _ H) as [H1 H2]. unfold l_touch. rewrite map_app. cbn.
  apply nodup_snoc; auto.
Qed.

Lemma lfind_touch k v k' (l : list (K * V)) : lf k' (l_touch keq k v l) = if keq k k' then Some v else lf k' l.
Proof.
  unfold l_touch. rewrite lfind_app, lfind_l_del. cbn. destruct (keq k k'); [reflexivity|].
  destruct (lf k' l); reflexivity.
Qed.

(** *** stamped lists *)
Definition slist := list (Z * (K * V)).
Definition sq (sl : slist) : queue K := map (fun e => (fst e, fst (snd e))) sl.

Record Rep (c : qc K V) (sl : slist) : Prop := {
  r_que : que c = sq sl;
  r_sorted : StronglySorted Z.lt (map fst sl);
  r_mono : Forall (fun e => fst e < mono c) sl;
  r_nodup : NoDup (map fst (map snd sl));
  r_dict : forall k v t, dfind keq k (dic c) = Some (v, t) <-> In (t, (k, v)) sl;
  r_size : csize c = sumsz (map snd sl)
}.

Lemma qemplace_last t k (q : queue K) : Forall (fun e => fst e < t) q -> qemplace t k q = q ++ [(t, k)].
Proof.
  induction 1 as [|[t' k'] q Hlt _ IH]; cbn; [reflexivity|]. cbn in Hlt.
  replace (t <? t') with false by (symmetry; apply Z.ltb_ge; lia).
  replace (t =? t') with false by (symmetry; apply Z.eqb_neq; lia). f_equal. exact IH.
Qed.

Lemma sorted_app_inv a b : StronglySorted Z.lt (a ++ b) ->
  StronglySorted Z.lt a /\ StronglySorted Z.lt b /\ (forall x y, In x a -> In y b -> x < y).
Proof.
  induction a as [|z a IH]; cbn; intros H.
  - split; [constructor|]. split; [exact H|]. tauto.
  - inversion H as [|? ? Hs Hf]; subst. destruct (IH Hs) as (H1 & H2 & H3).
    rewrite Forall_app in Hf. destruct Hf as [Hf1 Hf2].
    split; [constructor; auto|]. split; [auto|]. intros x y [->|Hx] Hy; [|auto].
    rewrite Forall_forall in Hf2. auto.
Qed.

Lemma sorted_app a b : StronglySorted Z.lt a -> StronglySorted Z.lt b ->
  (forall x y, In x a -> In y b -> x < y) -> StronglySorted Z.lt (a ++ b).
Proof.
  induction 1 as [|z a Hs IH Hf]; cbn; intros Hb Hlt; [exact Hb|].
  constructor; [apply IH; auto|]. apply Forall_app. split; [exact Hf|].
  apply Forall_forall. intros y Hy. apply Hlt; auto.
Qed.

Lemma qerase_notin t (q : queue K) : Forall (fun e => fst e <> t) q -> qerase t q = q.
Proof.
  induction 1 as [|[t' k'] q Hne _ IH]; cbn; [reflexivity|]. cbn in Hne.
  replace (t' =? t) with false by (symmetry; apply Z.eqb_neq; exact Hne). cbn [negb]. f_equal. exact IH.
Qed.

Lemma qerase_mid t k v a b :
  StronglySorted Z.lt (map fst (a ++ (t, (k, v)) :: b)) ->
  qerase t (sq (a ++ (t, (k, v)) :: b)) = sq (a ++ b).
Proof.
  intros H. rewrite map_app in H. destruct (sorted_app_inv _ _ H) as (_ & Hb & Hlt).
  cbn in Hb. inversion Hb as [|? ? _ Hf]; subst.
  unfold sq. rewrite !map_app. unfold qerase. rewrite filter_app. cbn [map filter fst snd].
  rewrite Z.eqb_refl. cbn [negb]. fold (qerase t (sq a)). fold (qerase t (sq b)).
  assert (forall (l : slist), (forall x, In x (map fst l) -> x <> t) -> qerase t (sq l) = sq l) as E.
  { intros l Hl. apply qerase_notin. apply Forall_forall. intros e He. unfold sq in He.
    apply in_map_iff in He. destruct He as (y & <- & Hy). cbn. apply Hl. apply in_map. exact Hy. }
  f_equal; apply E.
  - intros x Hx. specialize (Hlt x t Hx (or_introl eq_refl)). lia.
  - intros x Hx. rewrite Forall_forall in Hf. specialize (Hf x Hx). lia.
Qed.

Lemma qfind_in t k v (sl : slist) : In (t, (k, v)) sl -> exists k', qfind t (sq sl) = Some k'.
Proof.
  induction sl as [|[t' [k' v']] sl IH]; cbn; [tauto|]. intros [E|E].
  - injection E as -> -> ->. rewrite Z.eqb_refl. eexists; reflexivity.
  - destruct (t' =? t); [eexists; reflexivity|]. auto.
Qed.

Lemma rep_in_unique c sl k v t v' t' : Rep c sl -> In (t, (k, v)) sl -> In (t', (k, v')) sl -> t = t' /\ v = v'.
Proof.
  intros H H1 H2. apply (r_dict H) in H1. apply (r_dict H) in H2. rewrite H1 in H2. injection H2; auto.
Qed.

Lemma rep_lfind c sl k : Rep c sl ->
  lf k (map snd sl) = match dfind keq k (dic c) with Some (v, _) => Some v | None => None end.
Proof.
  intros H. destruct (dfind keq k (dic c)) as [[v t]|] eqn:E.
  - apply lfind_in; [apply (r_nodup H)|]. apply (r_dict H) in E. apply in_map_iff. exists (t, (k, v)). auto.
  - apply lfind_notin. intros Hin. apply in_map_iff in Hin. destruct Hin as ([k' v'] & Hk & Hin). cbn in Hk. subst k'.
    apply in_map_iff in Hin. destruct Hin as ([t' kv] & Hkv & Hin). cbn in Hkv. subst kv.
    apply (r_dict H) in Hin. congruence.
Qed.

(** removing one entry *)
Lemma rep_remove c a t k v b : Rep c (a ++ (t, (k, v)) :: b) ->
  Rep (do_remove keq size_mapper c k v t) (a ++ b).
Proof.
  intros H. destruct H as [Hq Hs Hm Hn Hd Hz]. constructor; cbn [do_remove que mono dic csize].
  - rewrite Hq. apply qerase_mid; exact Hs.
  - rewrite map_app in *. destruct (sorted_app_inv _ _ Hs) as (H1 & H2 & H3). cbn in H2. inversion H2; subst.
    apply sorted_app; auto. intros x y Hx Hy. apply H3; [exact Hx|right; exact Hy].
  - apply Forall_app in Hm. destruct Hm as [M1 M2]. inversion M2; subst. apply Forall_app; auto.
  - rewrite !map_app in *. cbn in Hn. apply NoDup_remove_1 in Hn. exact Hn.
  - assert (Hk : forall t' v', ~ In (t', (k, v')) (a ++ b)).
    { intros t' v' Hin. rewrite !map_app in Hn. cbn in Hn. apply NoDup_remove_2 in Hn. apply Hn.
      apply in_app_iff. apply in_app_iff in Hin.
      destruct Hin as [Hin|Hin]; [left|right]; apply in_map_iff; exists (k, v'); (split; [reflexivity|]);
        apply in_map_iff; exists (t', (k, v')); auto. }
    intros k' v' t'. rewrite dfind_derase. destruct (keq_dec k k') as [<-|Hne].
    + rewrite keq_refl. split; [discriminate|]. intros Hin. exfalso. eapply Hk; eauto.
    + rewrite (keq_neq Hne), Hd. rewrite !in_app_iff. cbn. split; [intros [?|[E|?]]; auto; congruence|tauto].
  - rewrite Hz. rewrite !map_app, !sum_app. cbn. unfold sum_sizes. lia.
Qed.

(** appending a fresh entry *)
Lemma rep_append c sl k v sz :
  Rep c sl -> ~ In k (map fst (map snd sl)) -> sz = size_mapper v ->
  Rep (mkQc (capacity c) (csize c + sz) (mono c + 1) (dput keq k (v, mono c) (dic c))
            (qemplace (mono c) k (que c))) (sl ++ [(mono c, (k, v))]).
Proof.
  intros [Hq Hs Hm Hn Hd Hz] Hk ->. constructor; cbn [que mono dic csize].
  - rewrite Hq, qemplace_last; [unfold sq; rewrite map_app; reflexivity|].
    unfold sq. apply Forall_map. exact Hm.
  - rewrite map_app. apply sorted_app; [exact Hs|repeat constructor|]. intros x y Hx [<-|[]].
    apply in_map_iff in Hx. destruct Hx as (e & <- & He). rewrite Forall_forall in Hm. apply Hm; exact He.
  - apply Forall_app. split; [|repeat constructor; cbn; lia]. eapply Forall_impl; [|exact Hm]. cbn. intros; lia.
  - rewrite !map_app. cbn. apply nodup_snoc; auto.
  - intros k' v' t'. rewrite dfind_dput, in_app_iff. cbn. destruct (keq_dec k k') as [<-|Hne].
    + rewrite keq_refl. split; [intros E; injection E as -> ->; auto|]. intros [Hin|[E|[]]]; [|congruence].
      exfalso. apply Hk. apply in_map_iff. exists (k, v'). split; [reflexivity|]. apply in_map_iff. exists (t', (k, v')). auto.
    + rewrite (keq_neq Hne), Hd. split; [tauto|]. intros [?|[E|[]]]; [auto|congruence].
  - rewrite Hz. rewrite !map_app, sum_app. cbn. lia.
Qed.

(** [dput] of an existing key = remove then put *)
Lemma rep_ext c c' sl : Rep c sl -> que c' = que c -> mono c' = mono c -> csize c' = csize c ->
  (forall k, dfind keq k (dic c') = dfind keq k (dic c)) -> Rep c' sl.
Proof.
  intros [Hq Hs Hm Hn Hd Hz] E1 E2 E3 E4. constructor; rewrite ?E1, ?E2, ?E3; auto.
  intros k v t. rewrite E4. apply Hd.
Qed.

Lemma in_split_stamp (x : Z * (K * V)) (sl : slist) : In x sl -> exists a b, sl = a ++ x :: b.
Proof. apply in_split. Qed.

(** touching an entry: erase its stamp, emplace a new one with value [v] *)
Lemma rep_touch c sl k v v0 t0 :
  Rep c sl -> dfind keq k (dic c) = Some (v0, t0) ->
  exists sl', map snd sl' = l_touch keq k v (map snd sl) /\
  Rep (mkQc (capacity c) (csize c - size_mapper v0 + size_mapper v) (mono c + 1)
            (dput keq k (v, mono c) (dic c)) (qemplace (mono c) k (qerase t0 (que c)))) sl'.
Proof.
  intros HR Hd. pose proof Hd as Hin. apply (r_dict HR) in Hin. apply in_split in Hin. destruct Hin as (a & b & ->).
  pose proof (rep_remove a t0 k v0 b HR) as H1.
  assert (Hnd := r_nodup HR). rewrite !map_app in Hnd. cbn in Hnd. apply NoDup_remove_2 in Hnd.
  assert (Hk : ~ In k (map fst (map snd (a ++ b)))) by (rewrite !map_app; exact Hnd).
  pose proof (@rep_append _ _ k v _ H1 Hk eq_refl) as H2. cbn [do_remove capacity csize mono dic que] in H2.
  exists ((a ++ b) ++ [(mono c, (k, v))]). split.
  - rewrite !map_app. cbn [map snd]. unfold l_touch. f_equal. symmetry. apply l_del_mid.
    pose proof (r_nodup HR) as Hn. rewrite map_app in Hn. exact Hn.
  - eapply rep_ext; [exact H2|reflexivity..|]. intros k'. cbn [dic]. rewrite !dfind_dput, dfind_derase.
    destruct (keq k k'); reflexivity.
Qed.

(** *** eviction *)
Lemma shortest_nil cap l : sumsz l <= cap -> shortest_eviction size_mapper cap l [] l.
Proof. intros H. split; [reflexivity|]. split; [exact H|]. cbn. lia. Qed.

Lemma shortest_cons cap x l evs l' : cap < sumsz (x :: l) ->
  shortest_eviction size_mapper cap l evs l' -> shortest_eviction size_mapper cap (x :: l) (x :: evs) l'.
Proof.
  intros Hlt (H1 & H2 & H3). split; [cbn; congruence|]. split; [exact H2|].
  intros [|y p] s E Hl; cbn in E.
  - subst s. exact Hlt.
  - injection E as <- E. apply (H3 p); [exact E|]. cbn in Hl. lia.
Qed.

Lemma evict_ok c sl : Rep c sl -> 0 <= capacity c -> exists c' sl' evs,
  evict_expired keq size_mapper c = Ok c' tt evs /\ Rep c' sl' /\ capacity c' = capacity c /\
  shortest_eviction size_mapper (capacity c) (map snd sl) evs (map snd sl').
Proof.
  unfold evict_expired. revert c. induction sl as [|[t [k v]] sl IH]; intros c HR Hc; rewrite (r_que HR); cbn [sq map evict_loop fst snd].
  - rewrite (r_size HR). cbn [map sum_sizes fold_right]. unfold sum_sizes; cbn.
    replace (capacity c <? 0) with false by (symmetry; apply Z.ltb_ge; exact Hc).
    exists c, [], []. split; [reflexivity|]. split; [exact HR|]. split; [reflexivity|]. apply shortest_nil. cbn. exact Hc.
  - destruct (Z.ltb_spec (capacity c) (csize c)) as [Hlt|Hge].
    + assert (Hd : dfind keq k (dic c) = Some (v, t)) by (apply (r_dict HR); left; reflexivity).
      rewrite Hd. pose proof (rep_remove [] t k v sl HR) as H1. cbn [app] in H1.
      destruct (IH _ H1) as (c' & sl' & evs & E & HR' & Hcap & Hsh); [exact Hc|].
      rewrite (r_que H1) in E. fold (sq sl). rewrite E.
      exists c', sl', ((k, v) :: evs). split; [reflexivity|]. split; [exact HR'|]. split; [exact Hcap|].
      cbn [do_remove capacity] in Hsh. apply shortest_cons; [|exact Hsh]. rewrite (r_size HR) in Hlt. exact Hlt.
    + exists c, ((t, (k, v)) :: sl), []. split; [reflexivity|]. split; [exact HR|]. split; [reflexivity|].
      apply shortest_nil. rewrite (r_size HR) in Hge. exact Hge.
Qed.

(** *** operations against the recency list *)
Definition QInv (cap : Z) (c : qc K V) (l : list (K * V)) : Prop :=
  (exists sl, Rep c sl /\ l = map snd sl) /\ capacity c = cap /\ sumsz l <= cap.

Lemma qinv_nodup cap c l : QInv cap c l -> NoDup (map fst l).
Proof. intros [(sl & HR & ->) _]. apply (r_nodup HR). Qed.

Lemma qinv_size cap c l : QInv cap c l -> csize c = sumsz l.
Proof. intros [(sl & HR & ->) _]. apply (r_size HR). Qed.

Lemma qset_ok cap c l k v : 0 <= cap -> QInv cap c l ->
  exists c' evs l', qset keq size_mapper c k v = Ok c' tt evs /\ QInv cap c' l' /\
    shortest_eviction size_mapper cap (l_touch keq k v l) evs l'.
Proof.
  intros Hcap [(sl & HR & ->) [Hc Hs]]. unfold qset.
  assert (exists sl1 c1, Rep c1 sl1 /\ map snd sl1 = l_touch keq k v (map snd sl) /\ capacity c1 = cap /\
    c1 = (let c1 :=
    match dfind keq k (dic c) with
    | Some (v0, t0) =>
        mkQc (capacity c) (csize c - size_mapper v0) (mono c + 1)
             (dput keq k (v, mono c) (dic c)) (qerase t0 (que c))
    | None =>
        mkQc (capacity c) (csize c) (mono c + 1) (dput keq k (v, mono c) (dic c)) (que c)
    end in mkQc (capacity c1) (csize c1 + size_mapper v) (mono c1) (dic c1)
                      (qemplace (mono c) k (que c1)))) as (sl1 & c1 & HR1 & Hm & Hc1 & E1).
  { destruct (dfind keq k (dic c)) as [[v0 t0]|] eqn:Ed.
    - destruct (@rep_touch _ _ k v _ _ HR Ed) as (sl' & H1 & H2). exists sl'; eexists. split; [exact H2|]. split; [exact H1|]. split; [exact Hc|reflexivity].
    - assert (Hk : ~ In k (map fst (map snd sl))).
      { apply lfind_none. rewrite (rep_lfind k HR), Ed. reflexivity. }
      exists (sl ++ [(mono c, (k, v))]); eexists. split; [apply (@rep_append c sl k v _ HR Hk eq_refl)|].
      split; [|split; [exact Hc|reflexivity]].
      rewrite map_app. cbn. unfold l_touch. rewrite l_del_notin by exact Hk. reflexivity. }
  cbv zeta in E1. rewrite <- E1.
  destruct (evict_ok HR1) as (c' & sl' & evs & E & HR' & Hc' & Hsh); [lia|].
  exists c', evs, (map snd sl'). split; [exact E|]. rewrite Hc1 in *. rewrite Hm in Hsh. split; [|exact Hsh].
  split; [exists sl'; auto|]. split; [exact Hc'|]. apply Hsh.
Qed.

Lemma qremove_ok cap c l k : QInv cap c l ->
  exists c', qremove keq size_mapper c k = Ok c' (if lf k l then true else false) [] /\ QInv cap c' (ld k l).
Proof.
  intros [(sl & HR & ->) [Hc Hs]]. unfold qremove. rewrite (rep_lfind k HR).
  destruct (dfind keq k (dic c)) as [[v t]|] eqn:Ed.
  - pose proof Ed as Hin. apply (r_dict HR) in Hin. destruct (qfind_in _ _ _ _ Hin) as [k' Hq].
    rewrite (r_que HR), Hq. eexists. split; [reflexivity|].
    apply in_split in Hin. destruct Hin as (a & b & ->).
    pose proof (rep_remove a t k v b HR) as H1. split.
    + exists (a ++ b). split; [exact H1|]. rewrite !map_app. cbn. rewrite l_del_mid; [reflexivity|].
      pose proof (r_nodup HR) as Hn. rewrite map_app in Hn. exact Hn.
    + split; [exact Hc|]. rewrite map_app in *. cbn in *. rewrite l_del_mid.
      * rewrite sum_app in *. unfold sum_sizes in *. cbn in Hs. pose proof (size_nonneg v). lia.
      * pose proof (r_nodup HR) as Hn. rewrite map_app in Hn. exact Hn.
  - exists c. split; [reflexivity|]. rewrite l_del_notin.
    + split; [exists sl; auto|]. auto.
    + apply lfind_none. rewrite (rep_lfind k HR), Ed. reflexivity.
Qed.

Lemma qtryget_ok p cap c l k : QInv cap c l ->
  exists c', qtryget keq p c k = Ok c' (lf k l) [] /\
    QInv cap c' (match p, lf k l with Lru, Some v => l_touch keq k v l | _, _ => l end).
Proof.
  intros [(sl & HR & ->) [Hc Hs]]. unfold qtryget. rewrite (rep_lfind k HR).
  destruct (dfind keq k (dic c)) as [[v t]|] eqn:Ed.
  - destruct p.
    + exists c. split; [reflexivity|]. split; [exists sl; auto|]. auto.
    + eexists. split; [reflexivity|]. destruct (@rep_touch _ _ k v _ _ HR Ed) as (sl' & H1 & H2).
      replace (csize c - size_mapper v + size_mapper v) with (csize c) in H2 by lia.
      split; [exists sl'; split; [exact H2|symmetry; exact H1]|]. split; [exact Hc|].
      rewrite <- H1, <- (r_size H2). cbn. rewrite (r_size HR). exact Hs.
  - exists c. split; [reflexivity|]. destruct p; (split; [exists sl; auto|]; auto).
Qed.

Lemma qclear_ok cap c l : 0 <= cap -> QInv cap c l -> QInv cap (qclear c) [].
Proof.
  intros Hc [_ [Hcap _]]. split; [|split; [exact Hcap|exact Hc]]. exists []. split; [|reflexivity].
  constructor; cbn; try constructor; auto; try discriminate; try tauto.
Qed.

Lemma qinit_ok cap : 0 <= cap -> QInv cap (qc_init K V cap) [].
Proof.
  intros Hc. split; [|split; [reflexivity|exact Hc]]. exists []. split; [|reflexivity].
  constructor; cbn; try constructor; auto; try discriminate; try tauto.
Qed.

Lemma qstep_ok p cap c l o : 0 <= cap -> QInv cap c l ->
  exists l', queue_allowed keq size_mapper p cap l o (snd (qstep keq size_mapper p c o)) l' /\
    QInv cap (fst (qstep keq size_mapper p c o)) l'.
Proof.
  intros Hcap HI. destruct o as [k|k v|k| |]; cbn [qstep].
  - destruct (qtryget_ok p k HI) as (c' & E & HI'). rewrite E. cbn [fst snd]. eexists. split; [|exact HI'].
    destruct (lf k l) as [v|] eqn:El.
    + destruct p; [apply qa_hit_fifo; auto | apply qa_hit_lru; auto].
    + destruct p; apply qa_miss; exact El.
  - destruct (qset_ok k v Hcap HI) as (c' & evs & l' & E & HI' & Hsh). rewrite E. cbn [fst snd].
    exists l'. split; [apply qa_set; exact Hsh | exact HI'].
  - destruct (qremove_ok k HI) as (c' & E & HI'). rewrite E. cbn [fst snd]. eexists. split; [apply qa_remove|exact HI'].
  - eexists. split; [apply qa_clear|]. cbn [fst]. eapply qclear_ok; eauto.
  - exists l. cbn [fst snd]. rewrite (qinv_size HI). split; [apply qa_size; apply HI|exact HI].
Qed.

Lemma qrun_ok p cap os : 0 <= cap -> forall c l, QInv cap c l ->
  exists l', queue_run keq size_mapper p cap l os (snd (crun (qstep keq size_mapper p) c os)) l' /\
    QInv cap (fst (crun (qstep keq size_mapper p) c os)) l'.
Proof.
  intros Hcap. induction os as [|o os IH]; intros c l HI; cbn [crun].
  - exists l. split; [constructor|exact HI].
  - destruct (qstep_ok p o Hcap HI) as (l1 & H1 & HI1). destruct (qstep keq size_mapper p c o) as [c1 r]. cbn [fst snd] in *.
    destruct (IH c1 l1 HI1) as (l2 & H2 & HI2). destruct (crun (qstep keq size_mapper p) c1 os) as [c2 rs]. cbn [fst snd] in *.
    exists l2. split; [econstructor; eauto|exact HI2].
Qed.

Lemma queue_refines p cap os : 0 <= cap ->
  exists l', queue_run keq size_mapper p cap [] os (snd (crun (qstep keq size_mapper p) (qc_init K V cap) os)) l'.
Proof. intros Hc. destruct (qrun_ok p os Hc (qinit_ok Hc)) as (l' & H & _). eauto. Qed.

Lemma queue_bounded p cap os : 0 <= cap ->
  0 <= csize (fst (crun (qstep keq size_mapper p) (qc_init K V cap) os)) <= cap.
Proof.
  intros Hc. destruct (qrun_ok p os Hc (qinit_ok Hc)) as (l' & _ & HI).
  rewrite (qinv_size HI). split; [apply sum_nonneg|apply HI].
Qed.

(** *** from recency lists to maps *)
Lemma evictions_app (l' : list (K * V)) : forall evs m, NoDup (map fst (evs ++ l')) ->
  (forall k, m k = lf k (evs ++ l')) ->
  exists m', evictions keq m evs m' /\ forall k, m' k = lf k l'.
Proof.
  induction evs as [|[k v] evs IH]; intros m Hnd Hm; cbn [app] in *.
  - exists m. split; [constructor|exact Hm].
  - cbn in Hnd. inversion Hnd as [|? ? Hn Hnd']; subst.
    destruct (IH (m_del keq m k)) as (m' & He & Hm'); [exact Hnd'| |].
    + intros k'. unfold m_del. destruct (keq_dec k k') as [<-|Hne].
      * rewrite keq_refl. symmetry. apply lfind_notin. exact Hn.
      * rewrite (keq_neq Hne), Hm. cbn. rewrite (keq_neq Hne). reflexivity.
    + exists m'. split; [|exact Hm']. constructor; [|exact He]. rewrite Hm. cbn. rewrite keq_refl. reflexivity.
Qed.

Lemma queue_to_map p cap l o r l' (m : kmap K V) :
  queue_allowed keq size_mapper p cap l o r l' -> NoDup (map fst l) -> (forall k, m k = lf k l) ->
  exists m', cache_allowed keq size_mapper m o r m' /\ (forall k, m' k = lf k l') /\ NoDup (map fst l').
Proof.
  intros Ha Hnd Hm. destruct Ha as [k Hf|k v Hp Hf|k v Hp Hf|k v evs l' Hsh|k| |Hs].
  - exists m. rewrite <- Hf, <- Hm. split; [apply ca_get; constructor|auto].
  - exists m. rewrite <- Hf, <- Hm. split; [apply ca_get; constructor|auto].
  - exists m. rewrite <- Hf, <- Hm. split; [apply ca_get; constructor|]. split; [|apply nodup_touch; exact Hnd].
    intros k'. rewrite lfind_touch, Hm. destruct (keq_dec k k') as [<-|Hne]; [rewrite keq_refl; exact Hf|rewrite (keq_neq Hne); reflexivity].
  - destruct Hsh as (Hl & _ & _). pose proof (nodup_touch k v _ Hnd) as Hnd'. rewrite Hl in Hnd'.
    destruct (@evictions_app l' evs (m_put keq m k v) Hnd') as (m' & He & Hm').
    + intros k'. rewrite <- Hl, lfind_touch. unfold m_put. rewrite Hm. reflexivity.
    + exists m'. split; [apply ca_set; exact He|]. split; [exact Hm'|].
      rewrite map_app in Hnd'. clear - Hnd'. induction (map fst evs) as [|x a IH]; cbn in *; [exact Hnd'|]. inversion Hnd'; auto.
  - exists (m_del keq m k). rewrite <- Hm. split; [apply ca_remove|]. split; [|apply nodup_l_del; exact Hnd].
    intros k'. unfold m_del. rewrite lfind_l_del, Hm. reflexivity.
  - exists (@m_empty K V). split; [constructor|]. split; [reflexivity|constructor].
  - exists m. split; [|auto]. apply ca_size. exists l. auto.
Qed.

Lemma queue_is_map p cap os : 0 <= cap ->
  exists m', cache_run keq size_mapper (@m_empty K V) os (snd (crun (qstep keq size_mapper p) (qc_init K V cap) os)) m'.
Proof.
  intros Hc. destruct (queue_refines p os Hc) as (l' & H).
  assert (G : forall l os rs l', queue_run keq size_mapper p cap l os rs l' -> forall m : kmap K V, NoDup (map fst l) -> (forall k, m k = lf k l) ->
     exists m', cache_run keq size_mapper m os rs m').
  { induction 1 as [l|l o r l1 os' rs l2 Ha Hr IH]; intros m Hn Hm; [eexists; constructor|].
    destruct (@queue_to_map _ _ _ _ _ _ m Ha Hn Hm) as (m1 & H1 & H2 & H3). destruct (IH m1 H3 H2) as (m2 & H4).
    eexists. econstructor; eauto. }
  eapply G; [exact H|constructor|reflexivity].
Qed.

(** *** TwoQueueCache *)
Definition disj (a b : list (K * V)) : Prop := forall k, In k (map fst a) -> In k (map fst b) -> False.

Record TInv (ci co ch : Z) (x : tq K V) (li lo lh : list (K * V)) : Prop := {
  t_in : QInv ci (inq x) li;
  t_out : QInv co (outq x) lo;
  t_hot : QInv ch (hot x) lh;
  t_io : disj li lo; t_ih : disj li lh; t_oh : disj lo lh
}.

Definition tmap (li lo lh : list (K * V)) : kmap K V := fun k => lf k (lh ++ li ++ lo).

Lemma disj_sym a b : disj a b -> disj b a.
Proof. intros H k H1 H2. exact (H k H2 H1). Qed.

Lemma disj_nodup a b : NoDup (map fst a) -> NoDup (map fst b) -> disj a b -> NoDup (map fst (a ++ b)).
Proof.
  intros Ha Hb Hd. rewrite map_app. unfold disj in Hd. revert Hd. induction (map fst a) as [|x l IH]; intros Hd; cbn; [exact Hb|].
  inversion Ha; subst. constructor.
  - rewrite in_app_iff. intros [H|H]; [contradiction|]. apply (Hd x); [left; reflexivity|exact H].
  - apply IH; auto. intros k G1 G3. apply (Hd k); [right; exact G1|exact G3].
Qed.

Lemma disj_incl a b c : disj a b -> (forall k, In k (map fst c) -> In k (map fst a)) -> disj c b.
Proof. intros H Hi k H1 H2. apply (H k); auto. Qed.

Lemma in_keys_del k k' l : In k' (map fst (ld k l)) <-> In k' (map fst l) /\ k' <> k.
Proof.
  split.
  - intros H. apply in_map_iff in H. destruct H as (y & <- & H). apply in_l_del in H. split; [|tauto].
    apply in_map. tauto.
  - intros [H Hne]. apply in_map_iff in H. destruct H as (y & <- & H). apply in_map. apply in_l_del. auto.
Qed.

Lemma in_keys_touch k v k' (l : list (K * V)) : In k' (map fst (l_touch keq k v l)) <-> In k' (map fst l) \/ k' = k.
Proof.
  unfold l_touch. rewrite map_app, in_app_iff, in_keys_del. cbn.
  destruct (keq_dec k' k); [subst; tauto|]. intuition congruence.
Qed.

Lemma some_in k v l : lf k l = Some v -> In k (map fst l).
Proof.
  intros H. destruct (in_dec keq_dec k (map fst l)); [assumption|]. apply lfind_none in n. congruence.
Qed.

(** All the keys that ever leave a list by eviction come from it. *)
Lemma shortest_keys cap (l evs l' : list (K * V)) : shortest_eviction size_mapper cap l evs l' ->
  (forall k, In k (map fst l') -> In k (map fst l)) /\ (forall k, In k (map fst evs) -> In k (map fst l)).
Proof. intros (-> & _ & _). rewrite map_app. split; intros k H; apply in_app_iff; auto. Qed.

Lemma nodup_app_inv {B} (a b : list B) : NoDup (a ++ b) -> NoDup a /\ NoDup b /\ (forall x, In x a -> In x b -> False).
Proof.
  induction a as [|x a IH]; cbn; intros H; [repeat split; auto; constructor|].
  inversion H as [|? ? Hn Hnd]; subst. destruct (IH Hnd) as (H1 & H2 & H3). rewrite in_app_iff in Hn.
  repeat split; auto; [constructor; tauto|]. intros y [->|Hy] Hy2; [tauto|]. eapply H3; eauto.
Qed.

(** Routing evicted pairs into the out queue: [lo'] are the pairs it holds afterwards. *)
Lemma route_ok co : 0 <= co -> forall evs o lo, QInv co o lo -> disj evs lo -> NoDup (map fst evs) ->
  exists o' lo' evs', route keq size_mapper evs o = Ok o' tt evs' /\ QInv co o' lo' /\
    NoDup (map fst (evs' ++ lo')) /\ (forall k, lf k (lo ++ evs) = lf k (evs' ++ lo')).
Proof.
  intros Hco. induction evs as [|[k v] evs IH]; intros o lo HI Hd Hn; cbn [route].
  - exists o, lo, []. split; [reflexivity|]. split; [exact HI|]. split; [apply (qinv_nodup HI)|]. intros k. rewrite app_nil_r. reflexivity.
  - cbn in Hn. inversion Hn as [|? ? Hnk Hn']; subst.
    destruct (qset_ok k v Hco HI) as (o1 & e1 & lo1 & E1 & HI1 & Hsh). rewrite E1.
    assert (Hkl : ~ In k (map fst lo)) by (intros H; apply (Hd k); [left; reflexivity|exact H]).
    assert (Hlt : l_touch keq k v lo = lo ++ [(k, v)]) by (unfold l_touch; rewrite l_del_notin by exact Hkl; reflexivity).
    rewrite Hlt in Hsh. destruct Hsh as (Hl & Hs1 & Hs2).
    assert (Hnd1 : NoDup (map fst (lo ++ [(k, v)]))) by (rewrite <- Hlt; apply nodup_touch, (qinv_nodup HI)).
    assert (Hd1 : disj evs (lo ++ [(k, v)])).
    { intros k' H1 H2. rewrite map_app, in_app_iff in H2. cbn in H2. destruct H2 as [H2|[<-|[]]].
      - apply (Hd k'); [right; exact H1|exact H2].
      - contradiction. }
    destruct (IH o1 lo1 HI1) as (o2 & lo2 & e2 & E2 & HI2 & Hnd2 & Hlf); [|exact Hn'|].
    + eapply disj_sym, disj_incl; [apply disj_sym; exact Hd1|]. intros k' Hk'. rewrite Hl, map_app, in_app_iff. auto.
    + rewrite E2. exists o2, lo2, (e1 ++ e2). split; [reflexivity|]. split; [exact HI2|].
      assert (Hdis : forall x, In x (map fst e1) -> In x (map fst (e2 ++ lo2)) -> False).
      { intros x Hx1 Hx2. assert (exists w, lf x (e2 ++ lo2) = Some w) as [w Hw].
        { destruct (lf x (e2 ++ lo2)) eqn:Ef; [eauto|]. apply lfind_none in Ef. contradiction. }
        rewrite <- Hlf in Hw. apply some_in in Hw. rewrite map_app, in_app_iff in Hw.
        rewrite Hl, map_app in Hnd1. destruct (nodup_app_inv _ _ Hnd1) as (_ & _ & Hx).
        destruct Hw as [Hw|Hw]; [eapply Hx; eauto|].
        apply (Hd1 x Hw). rewrite Hl, map_app, in_app_iff. auto. }
      split.
      * rewrite <- app_assoc, map_app. rewrite Hl, map_app in Hnd1. destruct (nodup_app_inv _ _ Hnd1) as (Hna & _ & _).
        revert Hna Hdis. clear - Hnd2. induction (map fst e1) as [|x a IHa]; cbn; intros Ha Hdis; [exact Hnd2|].
        inversion Ha; subst. constructor; [|apply IHa; [assumption|intros z Hz; apply (Hdis z); auto]]. rewrite in_app_iff. intros [H|H]; [contradiction|]. apply (Hdis x); auto.
      * intros x. rewrite <- app_assoc.
        replace (lo ++ (k, v) :: evs) with ((lo ++ [(k, v)]) ++ evs) by (rewrite <- app_assoc; reflexivity).
        rewrite Hl, <- app_assoc, (lfind_app x e1), (lfind_app x e1), Hlf. reflexivity.
Qed.

Lemma tinv_nodup ci co ch x li lo lh : TInv ci co ch x li lo lh -> NoDup (map fst (lh ++ li ++ lo)).
Proof.
  intros [H1 H2 H3 H4 H5 H6]. apply disj_nodup; [apply (qinv_nodup H3)| |].
  - apply disj_nodup; [apply (qinv_nodup H1)|apply (qinv_nodup H2)|exact H4].
  - intros k Ha Hb. rewrite map_app, in_app_iff in Hb. destruct Hb as [Hb|Hb]; [apply (H5 k)|apply (H6 k)]; auto.
Qed.

Lemma tsize_ok ci co ch x li lo lh : TInv ci co ch x li lo lh -> tsize x = sumsz (lh ++ li ++ lo).
Proof.
  intros [H1 H2 H3 _ _ _]. unfold tsize. rewrite (qinv_size H1), (qinv_size H2), (qinv_size H3), !sum_app. lia.
Qed.

Lemma disj_del k a b : disj a b -> disj (ld k a) b.
Proof. intros H. eapply disj_incl; [exact H|]. intros k' Hk. apply in_keys_del in Hk. tauto. Qed.

Lemma del_disj_of_in k a b : In k (map fst a) -> disj a b -> ld k b = b.
Proof. intros Hin Hd. apply l_del_notin. intros H. apply (Hd k); auto. Qed.

Lemma tstep_ok ci co ch x li lo lh (m : kmap K V) o :
  0 <= ci -> 0 <= co -> 0 <= ch -> TInv ci co ch x li lo lh -> (forall k, m k = tmap li lo lh k) ->
  exists m' li' lo' lh', cache_allowed keq size_mapper m o (snd (tstep keq size_mapper x o)) m' /\
    TInv ci co ch (fst (tstep keq size_mapper x o)) li' lo' lh' /\ (forall k, m' k = tmap li' lo' lh' k).
Proof.
  intros Hci Hco Hch HI Hm. pose proof HI as [Hi Ho Hh Hio Hih Hoh]. pose proof (tinv_nodup HI) as Hnd.
  destruct o as [k|k v|k| |]; cbn [tstep].
  - (* TryGet *)
    unfold ttryget. destruct (qtryget_ok Lru k Hh) as (h & Eh & HIh). rewrite Eh.
    assert (Hmk : m k = match lf k lh with Some v => Some v | None => match lf k li with Some v => Some v | None => lf k lo end end)
      by (rewrite Hm; unfold tmap; rewrite !lfind_app; reflexivity).
    destruct (lf k lh) as [v|] eqn:Flh.
    + cbn [fst snd]. exists m, li, lo, (l_touch keq k v lh). rewrite <- Hmk. split; [apply ca_get; constructor|].
      assert (Hkl : forall k', In k' (map fst (l_touch keq k v lh)) -> In k' (map fst lh)).
      { intros k' Hk'. apply in_keys_touch in Hk'. destruct Hk' as [?| ->]; [auto|]. eapply some_in; eauto. }
      split; [constructor; cbn; auto; [intros k' G1 G2; apply (Hih k' G1), Hkl, G2 | intros k' G1 G2; apply (Hoh k' G1), Hkl, G2]|].
      intros k'. rewrite Hm. unfold tmap. rewrite !(lfind_app k'), lfind_touch.
      destruct (keq_dec k k') as [<-|Hne]; [rewrite keq_refl, Flh; reflexivity|rewrite (keq_neq Hne); reflexivity].
    + destruct (qtryget_ok Fifo k Hi) as (i & Ei & HIi). rewrite Ei.
      destruct (lf k li) as [v|] eqn:Fli.
      * cbn [fst snd]. exists m, li, lo, lh. rewrite <- Hmk. split; [apply ca_get; constructor|]. split; [constructor; auto|exact Hm].
      * destruct (qtryget_ok Fifo k Ho) as (o & Eo & HIo). rewrite Eo.
        destruct (lf k lo) as [v|] eqn:Flo.
        2:{ cbn [fst snd]. exists m, li, lo, lh. rewrite <- Hmk. split; [apply ca_get; constructor|]. split; [constructor; auto|exact Hm]. }
        destruct (qremove_ok k HIo) as (o' & Eo' & HIo'). rewrite Eo'.
        destruct (qset_ok k v Hch HIh) as (h' & evs & lh' & Eh' & HIh' & Hsh). rewrite Eh'. cbn [fst snd].
        destruct Hsh as (Hl & _ & _).
        assert (Hlt : l_touch keq k v lh = lh ++ [(k, v)]) by (unfold l_touch; rewrite l_del_notin; [reflexivity|apply lfind_none; exact Flh]).
        rewrite Hlt in Hl.
        assert (Hkeys : forall k', In k' (map fst (lh ++ [(k, v)])) -> ~ In k' (map fst (li ++ ld k lo))).
        { intros k' H1 H2. rewrite map_app, in_app_iff in H1, H2. cbn in H1. rewrite in_keys_del in H2.
          destruct H1 as [H1|[<-|[]]].
          - destruct H2 as [H2|[H2 _]]; [apply (Hih k')|apply (Hoh k')]; auto.
          - destruct H2 as [H2|[_ H2]]; [|congruence]. apply lfind_none in Fli. contradiction. }
        assert (Hnd2 : NoDup (map fst (evs ++ lh' ++ li ++ ld k lo))).
        { rewrite (app_assoc evs), <- Hl. apply disj_nodup.
          - rewrite <- Hlt. apply nodup_touch, (qinv_nodup Hh).
          - apply disj_nodup; [apply (qinv_nodup Hi)|apply nodup_l_del, (qinv_nodup Ho)|apply disj_sym, disj_del, disj_sym; exact Hio].
          - intros k' H1 H2. eapply Hkeys; eauto. }
        destruct (@evictions_app (lh' ++ li ++ ld k lo) evs m Hnd2) as (m' & He & Hm').
        { intros k'. rewrite (app_assoc evs), <- Hl, Hm. unfold tmap. rewrite !lfind_app. rewrite lfind_l_del. cbn.
          destruct (keq_dec k k') as [<-|Hne].
          - rewrite keq_refl, Flh, Fli. exact Flo.
          - rewrite (keq_neq Hne). destruct (lf k' lh); reflexivity. }
        exists m', li, (ld k lo), lh'. rewrite <- Hmk. split; [apply ca_get; exact He|]. split; [|exact Hm'].
        assert (Hsub : forall k', In k' (map fst lh') -> ~ In k' (map fst (li ++ ld k lo))).
        { intros k' Hk'. apply Hkeys. rewrite Hl, map_app, in_app_iff. auto. }
        constructor; cbn; auto.
        -- apply disj_sym, disj_del, disj_sym; exact Hio.
        -- intros k' H1 H2. apply (Hsub k' H2). rewrite map_app, in_app_iff. auto.
        -- intros k' H1 H2. apply (Hsub k' H2). rewrite map_app, in_app_iff. auto.
  - (* Set *)
    unfold tset. destruct (qremove_ok k Hh) as (h & Eh & HIh). rewrite Eh.
    assert (exists o, (if (if lf k lh then true else false) then Ok (outq x) false [] else qremove keq size_mapper (outq x) k)
             = Ok o (if lf k lh then false else if lf k lo then true else false) [] /\ QInv co o (ld k lo)) as (o & Eo & HIo).
    { destruct (lf k lh) as [w|] eqn:F.
      - exists (outq x). split; [reflexivity|]. rewrite (@del_disj_of_in k lh lo); [exact Ho|eapply some_in; eauto|apply disj_sym; exact Hoh].
      - destruct (qremove_ok k Ho) as (o & E & HIo). exists o. auto. }
    rewrite Eo.
    destruct (qset_ok k v Hci Hi) as (i & ievs & li' & Ei & HIi & Hsh). rewrite Ei.
    destruct Hsh as (Hl & _ & _).
    pose proof (nodup_touch k v _ (qinv_nodup Hi)) as Hnt. rewrite Hl in Hnt. rewrite map_app in Hnt.
    destruct (nodup_app_inv _ _ Hnt) as (Hn1 & Hn2 & Hn3).
    assert (Htk : forall k', In k' (map fst ievs) \/ In k' (map fst li') <-> In k' (map fst li) \/ k' = k).
    { intros k'. rewrite <- (in_keys_touch k v k' li), Hl, map_app, in_app_iff. tauto. }
    destruct (@route_ok co Hco ievs o (ld k lo) HIo) as (o' & lo' & evs & Er & HIo' & Hndo & Hlfo).
    { intros k' H1 H2. apply in_keys_del in H2. destruct (proj1 (Htk k') (or_introl H1)) as [H3|H3]; [|tauto]. apply (Hio k'); tauto. }
    { exact Hn1. }
    rewrite Er. cbn [fst snd].
    assert (Hlo' : forall k', In k' (map fst lo') \/ In k' (map fst evs) <-> In k' (map fst (ld k lo)) \/ In k' (map fst ievs)).
    { intros k'. assert (In k' (map fst (evs ++ lo')) <-> In k' (map fst (ld k lo ++ ievs))) as Hiff.
      { split; intros H0; (destruct (in_dec keq_dec k' (map fst (ld k lo ++ ievs))) as [|Hno]; [auto|]);
          (destruct (in_dec keq_dec k' (map fst (evs ++ lo'))) as [|Hno']; [auto|]); auto;
          exfalso; try contradiction.
        - apply lfind_none in Hno. rewrite Hlfo in Hno. apply lfind_none in Hno. contradiction.
        - apply lfind_none in Hno'. rewrite <- Hlfo in Hno'. apply lfind_none in Hno'. contradiction. }
      rewrite !map_app, !in_app_iff in Hiff. tauto. }
    assert (HT : TInv ci co ch (mkTq i o' h) li' lo' (ld k lh)).
    { constructor; cbn; auto.
      - intros k' H1 H2. destruct (proj1 (Hlo' k') (or_introl H2)) as [H3|H3].
        + apply in_keys_del in H3. destruct (proj1 (Htk k') (or_intror H1)); [apply (Hio k'); tauto|tauto].
        + eapply Hn3; eauto.
      - intros k' H1 H2. apply in_keys_del in H2. destruct (proj1 (Htk k') (or_intror H1)); [apply (Hih k'); tauto|tauto].
      - intros k' H1 H2. apply in_keys_del in H2. destruct (proj1 (Hlo' k') (or_introl H1)) as [H3|H3].
        + apply in_keys_del in H3. apply (Hoh k'); tauto.
        + destruct (proj1 (Htk k') (or_introl H3)); [apply (Hih k'); tauto|tauto]. }
    assert (Hnd2 : NoDup (map fst (evs ++ (ld k lh ++ li' ++ lo')))).
    { pose proof (tinv_nodup HT) as Ht. rewrite map_app in Hndo. destruct (nodup_app_inv _ _ Hndo) as (He1 & He2 & He3).
      apply disj_nodup; [exact He1|exact Ht|]. intros k' H1 H2. rewrite !map_app, !in_app_iff in H2.
      destruct H2 as [H2|[H2|H2]].
      - apply in_keys_del in H2. destruct (proj1 (Hlo' k') (or_intror H1)) as [H3|H3].
        + apply in_keys_del in H3. apply (Hoh k'); tauto.
        + destruct (proj1 (Htk k') (or_introl H3)); [apply (Hih k'); tauto|tauto].
      - destruct (proj1 (Hlo' k') (or_intror H1)) as [H3|H3].
        + apply in_keys_del in H3. destruct (proj1 (Htk k') (or_intror H2)); [apply (Hio k'); tauto|tauto].
        + eapply Hn3; eauto.
      - eapply He3; eauto. }
    destruct (@evictions_app _ evs (m_put keq m k v) Hnd2) as (m' & He & Hm').
    { intros k'. unfold m_put. rewrite Hm. unfold tmap.
      assert (Hl1 : lf k' (ievs ++ li') = if keq k k' then Some v else lf k' li) by (rewrite <- Hl; apply lfind_touch).
      assert (Hlh : lf k' (ld k lh) = if keq k k' then None else lf k' lh) by apply lfind_l_del.
      assert (Hll : lf k' (ld k lo) = if keq k k' then None else lf k' lo) by apply lfind_l_del.
      specialize (Hlfo k'). rewrite !lfind_app in *. rewrite Hlh. rewrite Hll in Hlfo.
      destruct (keq_dec k k') as [<-|Hne].
      - rewrite keq_refl in *. destruct (lf k ievs) as [w|] eqn:F1.
        + injection Hl1 as ->. destruct (lf k evs) eqn:F2; [congruence|].
          destruct (lf k li') eqn:F3; [|exact Hlfo]. exfalso. eapply Hn3; eapply some_in; eauto.
        + destruct (lf k evs) eqn:F2; [discriminate|]. rewrite Hl1. reflexivity.
      - rewrite (keq_neq Hne) in *.
        destruct (lf k' lh) as [w|] eqn:F0.
        + destruct (lf k' evs) as [w'|] eqn:F1; [|reflexivity]. exfalso.
          apply some_in in F0. apply some_in in F1. destruct (proj1 (Hlo' k') (or_intror F1)) as [H3|H3].
          * apply in_keys_del in H3. apply (Hoh k'); tauto.
          * destruct (proj1 (Htk k') (or_introl H3)); [apply (Hih k'); tauto|congruence].
        + rewrite <- Hl1. destruct (lf k' ievs) as [w|] eqn:F1.
          * assert (F2 : lf k' lo = None).
            { apply lfind_none. intros H3. apply some_in in F1. destruct (proj1 (Htk k') (or_introl F1)); [apply (Hio k'); tauto|congruence]. }
            rewrite F2 in Hlfo. destruct (lf k' evs) as [w'|] eqn:F4; [exact Hlfo|].
            destruct (lf k' li') eqn:F3; [|exact Hlfo]. exfalso. eapply Hn3; eapply some_in; eauto.
          * destruct (lf k' li') as [w|] eqn:F3.
            -- destruct (lf k' evs) as [w'|] eqn:F4; [|reflexivity]. exfalso. apply some_in in F3. apply some_in in F4.
               destruct (proj1 (Hlo' k') (or_intror F4)) as [H3|H3].
               ++ apply in_keys_del in H3. destruct (proj1 (Htk k') (or_intror F3)); [apply (Hio k'); tauto|congruence].
               ++ eapply Hn3; eauto.
            -- rewrite <- Hlfo. destruct (lf k' lo); reflexivity. }
    exists m', li', lo', (ld k lh). split; [apply ca_set; exact He|]. split; [exact HT|exact Hm'].
  - (* Remove *)
    unfold tremove. destruct (qremove_ok k Hh) as (h & Eh & HIh). rewrite Eh.
    destruct (qremove_ok k Ho) as (o & Eo & HIo). rewrite Eo. destruct (qremove_ok k Hi) as (i & Ei & HIi). rewrite Ei.
    assert (Hmk : m k = match lf k lh with Some v => Some v | None => match lf k li with Some v => Some v | None => lf k lo end end)
      by (rewrite Hm; unfold tmap; rewrite !lfind_app; reflexivity).
    assert (HD : forall k', m_del keq m k k' = tmap (ld k li) (ld k lo) (ld k lh) k').
    { intros k'. unfold m_del, tmap. rewrite Hm. unfold tmap. rewrite !lfind_app, !lfind_l_del.
      destruct (keq k k'); reflexivity. }
    destruct (lf k lh) as [v|] eqn:Flh.
    + apply some_in in Flh. cbn [fst snd]. exists (m_del keq m k), (ld k li), (ld k lo), (ld k lh).
      rewrite (@del_disj_of_in k lh li Flh (disj_sym Hih)) in *. rewrite (@del_disj_of_in k lh lo Flh (disj_sym Hoh)) in *.
      split; [|split; [constructor; cbn; auto; apply disj_sym, disj_del, disj_sym; auto|exact HD]].
      replace true with (if m k then true else false) by (rewrite Hmk; reflexivity). apply ca_remove.
    + rewrite (l_del_notin _ _ (proj1 (lfind_none _ _) Flh)) in *.
      destruct (lf k lo) as [v|] eqn:Flo.
      * apply some_in in Flo. cbn [fst snd]. exists (m_del keq m k), (ld k li), (ld k lo), lh.
        rewrite (@del_disj_of_in k lo li Flo (disj_sym Hio)) in *.
        split; [|split; [constructor; cbn; auto; [apply disj_sym, disj_del, disj_sym; auto|apply disj_del; auto]|exact HD]].
        replace true with (if m k then true else false) by (rewrite Hmk; destruct (lf k li); reflexivity). apply ca_remove.
      * rewrite (l_del_notin _ _ (proj1 (lfind_none _ _) Flo)) in *. cbn [fst snd]. exists (m_del keq m k), (ld k li), lo, lh.
        split; [|split; [constructor; cbn; auto; apply disj_del; auto|exact HD]].
        replace (if lf k li then true else false) with (if m k then true else false) by (rewrite Hmk; destruct (lf k li); reflexivity).
        apply ca_remove.
  - (* Clear *)
    cbn [fst snd]. exists (@m_empty K V), [], [], []. split; [constructor|]. split; [|reflexivity].
    unfold tclear. constructor; cbn; try (eapply qclear_ok; eauto); intros k' [].
  - (* Size *)
    cbn [fst snd]. exists m, li, lo, lh. split; [|split; [exact HI|exact Hm]]. apply ca_size.
    exists (lh ++ li ++ lo). split; [exact Hnd|]. split; [exact Hm|]. eapply tsize_ok; eauto.
Qed.

Lemma tinit_ok ci co ch : 0 <= ci -> 0 <= co -> 0 <= ch -> TInv ci co ch (tq_init K V ci co ch) [] [] [].
Proof. intros. constructor; cbn; try (apply qinit_ok; assumption); intros k []. Qed.

Lemma trun_ok ci co ch os : 0 <= ci -> 0 <= co -> 0 <= ch -> forall x li lo lh (m : kmap K V),
  TInv ci co ch x li lo lh -> (forall k, m k = tmap li lo lh k) ->
  exists m' li' lo' lh', cache_run keq size_mapper m os (snd (crun (tstep keq size_mapper) x os)) m' /\
    TInv ci co ch (fst (crun (tstep keq size_mapper) x os)) li' lo' lh' /\ (forall k, m' k = tmap li' lo' lh' k).
Proof.
  intros Hci Hco Hch. induction os as [|o os IH]; intros x li lo lh m HI Hm; cbn [crun].
  - exists m, li, lo, lh. split; [constructor|auto].
  - destruct (@tstep_ok _ _ _ _ _ _ _ m o Hci Hco Hch HI Hm) as (m1 & li1 & lo1 & lh1 & Ha & HI1 & Hm1).
    destruct (tstep keq size_mapper x o) as [x1 r]. cbn [fst snd] in *.
    destruct (IH x1 li1 lo1 lh1 m1 HI1 Hm1) as (m2 & li2 & lo2 & lh2 & Hr & HI2 & Hm2).
    destruct (crun (tstep keq size_mapper) x1 os) as [x2 rs]. cbn [fst snd] in *.
    exists m2, li2, lo2, lh2. split; [econstructor; eauto|auto].
Qed.

Lemma two_queue_is_map ci co ch os : 0 <= ci -> 0 <= co -> 0 <= ch ->
  exists m', cache_run keq size_mapper (@m_empty K V) os (snd (crun (tstep keq size_mapper) (tq_init K V ci co ch) os)) m'.
Proof.
  intros Hci Hco Hch. destruct (@trun_ok ci co ch os Hci Hco Hch _ _ _ _ (@m_empty K V) (tinit_ok Hci Hco Hch)) as (m' & li & lo & lh & H & _); [reflexivity|].
  exists m'. exact H.
Qed.

Lemma two_queue_bounded ci co ch os x : 0 <= ci -> 0 <= co -> 0 <= ch ->
  x = fst (crun (tstep keq size_mapper) (tq_init K V ci co ch) os) ->
  csize (inq x) <= ci /\ csize (outq x) <= co /\ csize (hot x) <= ch /\ 0 <= tsize x <= ci + co + ch.
Proof.
  intros Hci Hco Hch ->. destruct (@trun_ok ci co ch os Hci Hco Hch _ _ _ _ (@m_empty K V) (tinit_ok Hci Hco Hch)) as (m' & li & lo & lh & _ & HI & _); [reflexivity|].
  pose proof (tsize_ok HI) as Ht. pose proof (sum_nonneg (lh ++ li ++ lo)).
  destruct HI as [H1 H2 H3 _ _ _]. unfold tsize in *.
  rewrite (qinv_size H1), (qinv_size H2), (qinv_size H3) in *. destruct H1 as (_ & _ & ?), H2 as (_ & _ & ?), H3 as (_ & _ & ?). lia.
Qed.

End P.
