From Verif Require Import Base Conc BithreadModel AsyncStreamModel AsyncStreamSpec.
Set Implicit Arguments.
Local Open Scope Z_scope.

(** ** Regions of a circular buffer *)
Fixpoint segs (lo hi : Z) (R : list (Z * Z)) : Prop :=
  match R with [] => lo = hi | (o, z) :: r => o = lo /\ 0 < z /\ segs (lo + z) hi r end.

Lemma segs_app R1 : forall lo hi R2, segs lo hi (R1 ++ R2) <-> exists m, segs lo m R1 /\ segs m hi R2.
Proof.
  induction R1 as [|[o z] R1 IH]; cbn; intros lo hi R2.
  - split; [intros H; exists lo; auto | intros (m & -> & H); auto].
  - rewrite IH. split.
    + intros (E & Hz & m & H1 & H2). exists m. auto.
    + intros (m & (E & Hz & H1) & H2). split; auto. split; auto. exists m; auto.
Qed.
Lemma segs_le R : forall lo hi, segs lo hi R -> lo <= hi.
Proof. induction R as [|[o z] R IH]; cbn; intros lo hi H; [lia|]. destruct H as (_ & Hz & H). apply IH in H. lia. Qed.
Lemma segs_in R : forall lo hi o z, segs lo hi R -> In (o, z) R -> lo <= o /\ o + z <= hi /\ 0 < z.
Proof.
  induction R as [|[o' z'] R IH]; cbn; intros lo hi o z H Hi; [destruct Hi|].
  destruct H as (-> & Hz & H). pose proof (segs_le _ _ _ H). destruct Hi as [E|Hi].
  - injection E as -> ->. lia.
  - specialize (IH _ _ _ _ H Hi). lia.
Qed.
Lemma segs_disj R1 o z R2 lo hi o' z' : segs lo hi (R1 ++ (o, z) :: R2) -> In (o', z') (R1 ++ R2) ->
  o' + z' <= o \/ o + z <= o'.
Proof.
  intros H Hi. apply segs_app in H as (m & H1 & H2). cbn in H2. destruct H2 as (-> & Hz & H2).
  apply in_app_or in Hi as [Hi|Hi].
  - pose proof (segs_in _ _ _ _ _ H1 Hi). lia.
  - pose proof (segs_in _ _ _ _ _ H2 Hi). lia.
Qed.

Section T.
Variable A : Type.
Implicit Types (b : bcb A) (R : list (Z * Z)).

Definition tile b R : Prop :=
  (contig b = true /\ segs (ro b) (wo b) R /\ 0 <= ro b /\ wo b < total_size b) \/
  (contig b = false /\ exists R1 R2, R = R1 ++ R2 /\ segs (ro b) (total_size b) R1 /\ segs 0 (wo b) R2 /\
     ro b < total_size b /\ 0 <= wo b <= ro b).

Lemma tile_geom b b' R : contig b' = contig b -> ro b' = ro b -> wo b' = wo b -> total_size b' = total_size b ->
  tile b R -> tile b' R.
Proof. intros E1 E2 E3 E4. unfold tile. rewrite E1, E2, E3, E4. auto. Qed.

Lemma tile_init storage : 0 < zlen storage -> tile (bcb_init storage) [].
Proof. intros H. left. cbn. unfold total_size. cbn. lia. Qed.

Lemma tile_disj b R1 o z R2 : tile b (R1 ++ (o, z) :: R2) ->
  0 <= o /\ o + z <= total_size b /\ 0 < z /\
  forall o' z', In (o', z') (R1 ++ R2) -> o' + z' <= o \/ o + z <= o'.
Proof.
  intros [(Hc & Hs & Hr & Hw)|(Hc & L1 & L2 & E & H1 & H2 & Hr & Hw)].
  - assert (In (o, z) (R1 ++ (o, z) :: R2)) as Hi by (apply in_or_app; cbn; auto).
    pose proof (segs_in _ _ _ _ _ Hs Hi). repeat split; try lia. intros o' z' Hi'. eapply segs_disj; eauto.
  - assert (HH : forall o' z', In (o', z') (L1 ++ L2) ->
       (In (o', z') L1 /\ ro b <= o' /\ o' + z' <= total_size b /\ 0 < z') \/ (In (o', z') L2 /\ 0 <= o' /\ o' + z' <= wo b /\ 0 < z')).
    { intros o' z' Hi. apply in_app_or in Hi as [Hi|Hi].
      - left. split; auto. exact (segs_in _ _ _ _ _ H1 Hi).
      - right. split; auto. exact (segs_in _ _ _ _ _ H2 Hi). }
    assert (In (o, z) (L1 ++ L2)) as Hi by (rewrite <- E; apply in_or_app; cbn; auto).
    assert (0 <= o /\ o + z <= total_size b /\ 0 < z) as (B1 & B2 & B3) by (destruct (HH _ _ Hi); lia).
    repeat split; auto. intros o' z' Hi'.
    assert (Hsplit : (exists K, L1 = R1 ++ (o, z) :: K /\ R2 = K ++ L2) \/ (exists K, R1 = L1 ++ K /\ L2 = K ++ (o, z) :: R2)).
    { clear - E. revert L1 E. induction R1 as [|r R1 IH]; intros L1 E.
      - destruct L1 as [|l L1]; cbn in E.
        + right. exists []. auto.
        + injection E as <- E. left. exists L1. auto.
      - destruct L1 as [|l L1]; cbn in E.
        + right. exists (r :: R1). auto.
        + injection E as <- E. destruct (IH _ E) as [(K & -> & ->)|(K & -> & ->)]; [left|right]; exists K; auto. }
    destruct Hsplit as [(K & -> & ->)|(K & -> & ->)].
    + apply in_app_or in Hi' as [Hi'|Hi']; [|apply in_app_or in Hi' as [Hi'|Hi']].
      * eapply segs_disj; eauto. apply in_or_app; auto.
      * eapply segs_disj; eauto. apply in_or_app; auto.
      * pose proof (segs_in _ _ _ _ _ H2 Hi'). assert (In (o, z) (R1 ++ (o, z) :: K)) as Hx by (apply in_or_app; cbn; auto).
        pose proof (segs_in _ _ _ _ _ H1 Hx). lia.
    + apply in_app_or in Hi' as [Hi'|Hi']; [apply in_app_or in Hi' as [Hi'|Hi']|].
      * pose proof (segs_in _ _ _ _ _ H1 Hi'). assert (In (o, z) (K ++ (o, z) :: R2)) as Hx by (apply in_or_app; cbn; auto).
        pose proof (segs_in _ _ _ _ _ H2 Hx). lia.
      * eapply segs_disj; eauto. apply in_or_app; auto.
      * eapply segs_disj; eauto. apply in_or_app; auto.
Qed.

Lemma tile_bounds b R : tile b R -> 0 <= ro b < total_size b /\ 0 <= wo b < total_size b.
Proof.
  intros [(Hc & Hs & Hr & Hw)|(Hc & L1 & L2 & E & H1 & H2 & Hr & Hw)].
  - pose proof (segs_le _ _ _ Hs). lia.
  - lia.
Qed.

Lemma tile_push b R v n b' : tile b R -> write_view b = Some v -> 0 < n <= snd v -> push b n = Some b' ->
  tile b' (R ++ [(fst v, n)]) /\ st b' = st b.
Proof.
  intros HT Hv Hn Hp. pose proof (tile_bounds HT) as HB.
  unfold write_view, mk_view in Hv. destruct (_ && _); [|discriminate]. injection Hv as <-. cbn [fst snd] in *.
  unfold push in Hp. destruct (_ <=? _); [|discriminate]. injection Hp as <-.
  destruct HT as [(Hc & Hs & Hr & Hw)|(Hc & L1 & L2 & E & H1 & H2 & Hr & Hw)]; rewrite Hc in *.
  - destruct (Z.eqb_spec (wo b + n) (total_size b)) as [Ee|Ee]; (split; [|reflexivity]).
    + right. cbn. split; auto. exists (R ++ [(wo b, n)]), []. rewrite app_nil_r. split; auto.
      split; [apply segs_app; exists (wo b); split; auto; cbn; unfold total_size in *; cbn; lia|].
      cbn. unfold total_size in *. cbn. pose proof (segs_le _ _ _ Hs). lia.
    + left. cbn. split; auto. split; [|unfold total_size in *; cbn; lia].
      apply segs_app. exists (wo b). split; auto. cbn. lia.
  - destruct (Z.eqb_spec (wo b + n) (total_size b)) as [Ee|Ee]; [exfalso; lia|]. split; [|reflexivity].
    right. cbn. split; auto. exists L1, (L2 ++ [(wo b, n)]). split; [rewrite E, app_assoc; auto|].
    split; [exact H1|]. split; [apply segs_app; exists (wo b); split; auto; cbn; lia|]. unfold total_size in *; cbn. lia.
Qed.

Lemma write_view_tile b R : tile b R -> exists v, write_view b = Some v /\ 0 <= fst v /\ 0 <= snd v /\ fst v + snd v <= total_size b /\
  (free_size b <> 0 -> 0 < snd v).
Proof.
  intros HT. pose proof (tile_bounds HT) as HB. unfold write_view, mk_view, free_size, data_size.
  destruct HT as [(Hc & Hs & Hr & Hw)|(Hc & L1 & L2 & E & H1 & H2 & Hr & Hw)]; rewrite Hc.
  - replace ((0 <=? total_size b - wo b) && (wo b + (total_size b - wo b) <=? total_size b)) with true by lia.
    eexists; split; [reflexivity|]. cbn. lia.
  - replace ((0 <=? ro b - wo b) && (wo b + (ro b - wo b) <=? total_size b)) with true by lia.
    eexists; split; [reflexivity|]. cbn. lia.
Qed.

Lemma push_ok b R v n : tile b R -> write_view b = Some v -> n <= snd v -> exists b', push b n = Some b'.
Proof.
  intros HT Hv Hn. pose proof (tile_bounds HT) as HB.
  unfold write_view, mk_view in Hv. destruct (_ && _) eqn:E; [|discriminate]. injection Hv as <-. cbn [fst snd] in *.
  unfold push. replace (wo b + n <=? total_size b) with true; [eauto|]. lia.
Qed.

Lemma read_view_tile b R : tile b R -> exists n, read_view b = Some (ro b, n).
Proof.
  intros HT. pose proof (tile_bounds HT) as HB. unfold read_view, mk_view.
  destruct HT as [(Hc & Hs & Hr & Hw)|(Hc & L1 & L2 & E & H1 & H2 & Hr & Hw)]; rewrite Hc.
  - pose proof (segs_le _ _ _ Hs).
    replace ((0 <=? wo b - ro b) && (ro b + (wo b - ro b) <=? total_size b)) with true by lia. eauto.
  - replace ((0 <=? total_size b - ro b) && (ro b + (total_size b - ro b) <=? total_size b)) with true by lia. eauto.
Qed.

Lemma tile_head b o z R : tile b ((o, z) :: R) -> o = ro b.
Proof.
  intros [(Hc & Hs & Hr & Hw)|(Hc & L1 & L2 & E & H1 & H2 & Hr & Hw)].
  - apply Hs.
  - destruct L1 as [|l L1]; cbn in *; [lia|]. injection E as <- _. apply H1.
Qed.

Lemma tile_pop_all b o z R : tile b ((o, z) :: R) -> exists b', pop b z = Some b' /\ tile b' R /\ st b' = st b.
Proof.
  intros HT. pose proof (tile_head HT) as ->. pose proof (tile_bounds HT) as HB.
  pose proof (@tile_disj b [] (ro b) z R HT) as (_ & B2 & B3 & _).
  unfold pop. replace (ro b + z <=? total_size b) with true by lia. eexists; split; [reflexivity|].
  destruct HT as [(Hc & Hs & Hr & Hw)|(Hc & L1 & L2 & E & H1 & H2 & Hr & Hw)]; rewrite Hc.
  - cbn in Hs. destruct Hs as (_ & Hz & Hs). pose proof (segs_le _ _ _ Hs).
    destruct (Z.eqb_spec (ro b + z) (total_size b)); [lia|]. split; [|reflexivity].
    left. cbn. unfold total_size in *; cbn. split; auto. split; auto. lia.
  - destruct L1 as [|l L1]; cbn in *; [lia|]. injection E as <- ->. destruct H1 as (_ & Hz & H1).
    pose proof (segs_le _ _ _ H1). destruct (Z.eqb_spec (ro b + z) (total_size b)) as [Ee|Ee]; (split; [|reflexivity]).
    + left. cbn. split; auto. rewrite Ee in H1. destruct L1 as [|[o1 z1] L1].
      * cbn. unfold total_size in *; cbn. split; auto. lia.
      * cbn in H1. destruct H1 as (_ & Hz1 & H1). pose proof (segs_le _ _ _ H1). lia.
    + right. cbn. split; auto. exists L1, L2. unfold total_size in *; cbn. repeat split; auto; lia.
Qed.

Lemma tile_pop_part b o z R n : tile b ((o, z) :: R) -> 0 <= n < z ->
  exists b', pop b n = Some b' /\ tile b' ((o + n, z - n) :: R) /\ st b' = st b.
Proof.
  intros HT Hn. pose proof (tile_head HT) as ->. pose proof (tile_bounds HT) as HB.
  pose proof (@tile_disj b [] (ro b) z R HT) as (_ & B2 & B3 & _).
  unfold pop. replace (ro b + n <=? total_size b) with true by lia. eexists; split; [reflexivity|].
  destruct (Z.eqb_spec (ro b + n) (total_size b)); [lia|]. split; [|reflexivity].
  destruct HT as [(Hc & Hs & Hr & Hw)|(Hc & L1 & L2 & E & H1 & H2 & Hr & Hw)].
  - left. cbn in *. rewrite Hc. unfold total_size in *; cbn. destruct Hs as (_ & Hz & Hs). split; auto.
    split; [|lia]. split; auto. split; [lia|]. replace (ro b + n + (z - n)) with (ro b + z) by lia. auto.
  - right. cbn. rewrite Hc. split; auto. destruct L1 as [|l L1]; cbn in *; [lia|]. injection E as <- ->.
    destruct H1 as (_ & Hz & H1). exists ((ro b + n, z - n) :: L1), L2. unfold total_size in *; cbn. split; auto.
    split; [|repeat split; auto; lia]. split; auto. split; [lia|]. replace (ro b + n + (z - n)) with (ro b + z) by lia. auto.
Qed.

(** ** Slices under memcpy *)
Lemma slice_splice_disj (l bs : list A) o z p : 0 <= o -> 0 <= p -> p + zlen bs <= zlen l ->
  o + z <= p \/ p + zlen bs <= o -> slice o z (splice p bs l) = slice o z l.
Proof.
  intros Ho Hp Hl Hd. destruct (@split_at A p l) as (a & r & -> & Ha); [pose proof (zlen_nonneg bs); lia|]. rewrite zlen_app in Hl.
  destruct (@split_at A (zlen bs) r) as (m & c & -> & Hm); [pose proof (zlen_nonneg bs); lia|].
  rewrite splice_app_mid; [|lia|unfold zlen in *; lia].
  unfold slice. destruct (Z_le_gt_dec z 0) as [Hz|Hz].
  { replace (Z.to_nat z) with 0%nat by lia. now rewrite !firstn_O. }
  destruct Hd as [Hd|Hd].
  - rewrite !skipn_app. replace (Z.to_nat o - length a)%nat with 0%nat by (unfold zlen in *; lia). cbn [skipn].
    rewrite !firstn_app. rewrite !skipn_length.
    replace (Z.to_nat z - (length a - Z.to_nat o))%nat with 0%nat by (unfold zlen in *; lia). reflexivity.
  - rewrite !app_assoc. rewrite (skipn_app (Z.to_nat o) (a ++ bs) c), (skipn_app (Z.to_nat o) (a ++ m) c).
    rewrite (@skipn_all2 _ (Z.to_nat o) (a ++ bs)) by (rewrite app_length; unfold zlen in *; lia).
    rewrite (@skipn_all2 _ (Z.to_nat o) (a ++ m)) by (rewrite app_length; unfold zlen in *; lia).
    rewrite !app_length. replace (length m) with (length bs) by (unfold zlen in *; lia). reflexivity.
Qed.

Lemma slice_extend (l bs : list A) off k :
  0 <= off -> 0 <= k -> off + k + zlen bs <= zlen l ->
  slice off (k + zlen bs) (splice (off + k) bs l) = slice off k l ++ bs.
Proof.
  intros Ho Hk Hle. pose proof (zlen_nonneg bs).
  destruct (@split_at A off l) as (a & r & -> & Ha); [lia|]. rewrite zlen_app in Hle.
  destruct (@split_at A k r) as (m & r2 & -> & Hm); [lia|]. rewrite zlen_app in Hle.
  destruct (@split_at A (zlen bs) r2) as (n & r3 & -> & Hn); [lia|].
  rewrite (@slice_app_mid A a m (n ++ r3)) by lia.
  replace (a ++ m ++ n ++ r3) with ((a ++ m) ++ n ++ r3) by (rewrite <- app_assoc; reflexivity).
  rewrite splice_app_mid; [|rewrite zlen_app; lia|unfold zlen in *; lia].
  replace ((a ++ m) ++ bs ++ r3) with (a ++ (m ++ bs) ++ r3) by (rewrite <- !app_assoc; reflexivity).
  apply slice_app_mid; [lia|]. rewrite zlen_app; lia.
Qed.

(** ** Files *)
Definition feq (f g : Z -> option A) : Prop := forall i, f i = g i.

Lemma fwrite_feq p bs f g : feq f g -> feq (fwrite p bs f) (fwrite p bs g).
Proof. intros H i. unfold fwrite. destruct (_ && _); auto. Qed.
Lemma fwrite_nil p f : feq (fwrite p [] f) f.
Proof. intros i. unfold fwrite. rewrite zlen_nil. replace ((p <=? i) && (i <? p + 0)) with false by lia. auto. Qed.

Lemma fwrite_app p (a b : list A) f : feq (fwrite (p + zlen a) b (fwrite p a f)) (fwrite p (a ++ b) f).
Proof.
  intros i. unfold fwrite. rewrite zlen_app. pose proof (zlen_nonneg a). pose proof (zlen_nonneg b).
  destruct ((p + zlen a <=? i) && (i <? p + zlen a + zlen b)) eqn:E1.
  - replace ((p <=? i) && (i <? p + (zlen a + zlen b))) with true by lia.
    rewrite nth_error_app2 by (unfold zlen in *; lia). f_equal. unfold zlen in *; lia.
  - destruct ((p <=? i) && (i <? p + zlen a)) eqn:E2.
    + replace ((p <=? i) && (i <? p + (zlen a + zlen b))) with true by lia.
      rewrite nth_error_app1 by (unfold zlen in *; lia). reflexivity.
    + replace ((p <=? i) && (i <? p + (zlen a + zlen b))) with false by lia. reflexivity.
Qed.

Lemma fwrite_comm p (a : list A) r (b : list A) f : p + zlen a <= r \/ r + zlen b <= p ->
  feq (fwrite p a (fwrite r b f)) (fwrite r b (fwrite p a f)).
Proof.
  intros H i. unfold fwrite. destruct ((p <=? i) && (i <? p + zlen a)) eqn:E1; auto.
  destruct ((r <=? i) && (i <? r + zlen b)) eqn:E2; auto. lia.
Qed.

Lemma fwrite_idem p (a b : list A) f : feq (fwrite p (a ++ b) (fwrite p a f)) (fwrite p (a ++ b) f).
Proof.
  intros i. unfold fwrite. rewrite zlen_app. pose proof (zlen_nonneg b).
  destruct ((p <=? i) && (i <? p + (zlen a + zlen b))) eqn:E1; auto.
  replace ((p <=? i) && (i <? p + zlen a)) with false by lia. auto.
Qed.

Lemma replay_feq (m : nat -> bcb A) l : forall f g, feq f g -> feq (replay m l f) (replay m l g).
Proof. induction l as [|o l IH]; cbn; intros f g H; auto. apply IH. now apply fwrite_feq. Qed.
Lemma replay_ext (m m' : nat -> bcb A) l : (forall o, In o l -> odata m' o = odata m o) -> forall f, replay m' l f = replay m l f.
Proof. induction l as [|o l IH]; cbn; intros H f; auto. rewrite (H o) by auto. apply IH. auto. Qed.
Lemma replay_app (m : nat -> bcb A) l1 l2 f : replay m (l1 ++ l2) f = replay m l2 (replay m l1 f).
Proof. unfold replay. apply fold_left_app. Qed.
Lemma feq_trans f g h : feq f g -> feq g h -> feq f h.
Proof. intros H1 H2 i. now rewrite H1. Qed.
Lemma feq_sym f g : feq f g -> feq g f.
Proof. intros H i. now rewrite H. Qed.

(** a write commutes with the replay of operations that do not touch its range *)
Lemma replay_comm (m : nat -> bcb A) l p bs : forall f,
  (forall o, In o l -> odata m o = [] \/ p + zlen bs <= wstart o \/ wstart o + zlen (odata m o) <= p) ->
  feq (replay m l (fwrite p bs f)) (fwrite p bs (replay m l f)).
Proof.
  induction l as [|o l IH]; cbn; intros f H; [intros i; reflexivity|].
  eapply feq_trans; [|apply IH; auto]. apply replay_feq.
  destruct (H o (or_introl eq_refl)) as [E|E].
  - rewrite E. eapply feq_trans; [apply fwrite_nil|]. apply fwrite_feq. apply feq_sym, fwrite_nil.
  - apply feq_sym, fwrite_comm. lia.
Qed.
End T.
