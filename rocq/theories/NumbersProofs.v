From Coq Require Import List Bool ZArith QArith Lia Field.
From Verif Require Import NumbersModel NumbersSpec.
Import ListNotations.
Open Scope Z_scope.

Lemma quot_floor a b : 0 <= a -> 0 < b -> Z.quot a b = a / b.
Proof. intros. now rewrite Z.quot_div_nonneg. Qed.

Lemma percents_floor p : 0 <= Current p -> 0 < Total p -> InPercents p = 100 * Current p / Total p.
Proof. intros. unfold InPercents. destruct (Z.eqb_spec (Total p) 0); [lia|]. cbn [negb]. apply quot_floor; lia. Qed.
Lemma percents_range p : 0 <= Current p <= Total p -> 0 <= InPercents p <= 100.
Proof.
  intros H. destruct (Z.eq_dec (Total p) 0) as [E|E].
  - unfold InPercents. rewrite E. cbn. lia.
  - rewrite percents_floor by lia. split; [apply Z.div_pos; lia|]. apply Z.div_le_upper_bound; lia.
Qed.

Lemma u64_small z : 0 <= z < 2 ^ 64 -> u64 z = z.
Proof. apply Z.mod_small. Qed.
Lemma s64_small z : 0 <= z < 2 ^ 63 -> s64 z = z.
Proof. intros H. unfold s64. rewrite u64_small by lia. destruct (Z.ltb_spec z (2 ^ 63)); lia. Qed.

Lemma report_value a p : 0 <= actionIndex a -> 0 <= actionSize a -> actionIndex a + actionSize a <= actionCount a -> 0 < actionCount a ->
  100 * actionCount a < 2 ^ 64 -> 0 <= InPercents p <= 100 ->
  report a p = mk_progress ((actionIndex a * 100 + actionSize a * InPercents p) / actionCount a) 100 /\
  0 <= (actionIndex a * 100 + actionSize a * InPercents p) / actionCount a <= 100.
Proof.
  intros H1 H2 H3 H4 H5 H6. set (v := InPercents p) in *. pose proof (Z.mul_le_mono_nonneg_l v 100 (actionSize a) H2 ltac:(lia)) as M.
  pose proof (Z.mul_nonneg_nonneg (actionSize a) v H2 ltac:(lia)) as N.
  assert (R : 0 <= (actionIndex a * 100 + actionSize a * v) / actionCount a <= 100).
  { split; [apply Z.div_pos; lia|]. apply Z.div_le_upper_bound; lia. }
  split; auto. unfold report. fold v. destruct (Z.eqb_spec (actionCount a) 0); [lia|]. cbn [negb].
  rewrite (u64_small v) by lia. rewrite (u64_small (actionIndex a * 100)) by lia. rewrite (u64_small (actionSize a * v)) by lia.
  rewrite u64_small by lia. rewrite s64_small by lia. reflexivity.
Qed.

Definition bounds (lo hi : Z) (l : list Z) : Prop := Forall (fun x => lo <= x <= hi) l.
Lemma zsum_app l l' : zsum (l ++ l') = zsum l + zsum l'.
Proof. induction l; cbn; lia. Qed.
Lemma zsum_bounds lo hi l : bounds lo hi l -> lo * Z.of_nat (length l) <= zsum l <= hi * Z.of_nat (length l).
Proof. induction 1; cbn [zsum length]; lia. Qed.

Lemma average_fold l : forall a, fold_left Accumulate l a = mk_average (accum a + zsum l) (count a + Z.of_nat (length l)).
Proof.
  induction l as [|x l IH]; intros a; cbn [fold_left zsum length].
  - destruct a; cbn. f_equal; lia.
  - rewrite IH. cbn. f_equal; lia.
Qed.

Lemma quot_between d c : 1 <= c -> Z.min d 0 <= Z.quot d c <= Z.max d 0.
Proof.
  intros H. destruct (Z.le_gt_cases 0 d).
  - rewrite quot_floor by lia. split; [pose proof (Z.div_pos d c); lia|]. pose proof (Z.div_le_upper_bound d c d). nia.
  - replace d with (- (- d)) at 2 3 by lia. rewrite Z.quot_opp_l by lia. rewrite quot_floor by lia.
    pose proof (Z.div_pos (- d) c). pose proof (Z.div_le_upper_bound (- d) c (- d)). nia.
Qed.

Lemma mean_fold_bounds lo hi l : forall s, 0 <= m_count s -> (m_count s = 0 -> m_mean s = 0) -> (0 < m_count s -> lo <= m_mean s <= hi) -> bounds lo hi l ->
  m_count (fold_left mean_process l s) = m_count s + Z.of_nat (length l) /\
  (0 < m_count (fold_left mean_process l s) -> lo <= m_mean (fold_left mean_process l s) <= hi).
Proof.
  induction l as [|x l IH]; intros s H0 Hz H1 Hb; cbn [fold_left].
  - cbn. split; [lia|auto].
  - inversion Hb as [|? ? H2 H3]; subst. assert (K : lo <= m_mean (mean_process s x) <= hi).
    { cbn. destruct (Z.eq_dec (m_count s) 0) as [E|E].
      - rewrite (Hz E), E. cbn. rewrite Z.sub_0_r, Z.quot_1_r. lia.
      - pose proof (quot_between (x - m_mean s) (m_count s + 1) ltac:(lia)). specialize (H1 ltac:(lia)). lia. }
    destruct (IH (mean_process s x)) as (I1 & I2); auto; cbn [mean_process m_count]; try lia.
    split; [rewrite I1; cbn [mean_process m_count length]; lia|auto].
Qed.

Lemma mean_stuck n m : forall s, m_mean s = 0 -> Z.of_nat n <= m_count s -> m_mean (fold_left mean_process (repeat (Z.of_nat n) m) s) = 0.
Proof.
  induction m as [|m IH]; intros s H1 H2; cbn [repeat fold_left]; auto. apply IH; cbn; [|lia].
  rewrite H1, Z.sub_0_r, quot_floor by lia. rewrite Z.div_small by lia. reflexivity.
Qed.
Lemma mean_zeros n : forall s, m_mean s = 0 -> 0 <= m_count s ->
  m_mean (fold_left mean_process (repeat 0 n) s) = 0 /\ m_count (fold_left mean_process (repeat 0 n) s) = m_count s + Z.of_nat n.
Proof.
  induction n as [|n IH]; intros s H1 H2; cbn [repeat fold_left]; [split; auto; lia|].
  destruct (IH (mean_process s 0)) as (I1 & I2); cbn; try lia.
  - rewrite H1. reflexivity.
  - split; auto. rewrite I2. cbn. lia.
Qed.

Lemma deviation_nonneg l : forall s, 0 <= d_dev s -> 0 <= d_count s -> 0 <= d_dev (fold_left deviation_process l s) /\ 0 <= d_count (fold_left deviation_process l s).
Proof.
  induction l as [|x l IH]; intros s H1 H2; cbn [fold_left]; auto. apply IH; cbn; [|lia].
  pose proof (quot_between (x - d_mean s) (d_count s + 1) ltac:(lia)). set (q := Z.quot _ _) in *. nia.
Qed.

(** rational *)
Open Scope Q_scope.
Lemma qsum_app l l' : qsum (l ++ l') == qsum l + qsum l'.
Proof. induction l as [|x l IH]; cbn; [ring|]. rewrite IH. ring. Qed.
Definition qsq (l : list Q) : Q := qsum (map (fun x => x * x) l).
Lemma qsum_dist m l : qsum (map (fun x => (x - m) * (x - m)) l) == qsq l - (2 # 1) * m * qsum l + qlen l * m * m.
Proof.
  unfold qsq, qlen. induction l as [|x l IH]; cbn [map qsum length].
  - cbn. ring.
  - rewrite IH. rewrite Nat2Z.inj_succ. unfold Z.succ. rewrite inject_Z_plus. ring.
Qed.
Lemma qlen_pos l x : ~ qlen (l ++ [x]) == 0.
Proof. unfold qlen. rewrite app_length. cbn. intros H. unfold Qeq in H. cbn in H. lia. Qed.
Lemma qlen_app l x : qlen (l ++ [x]) == qlen l + 1.
Proof. unfold qlen. rewrite app_length. cbn [length]. rewrite Nat2Z.inj_add, inject_Z_plus. reflexivity. Qed.

Lemma qdev_inv l : let s := fold_left qdeviation_process l qdeviation0 in
  q_count s = Z.of_nat (length l) /\ q_mean s * qlen l == qsum l /\ q_dev s == qsq l - q_mean s * q_mean s * qlen l.
Proof.
  induction l as [|x l IH] using rev_ind; cbn zeta.
  - cbn. repeat split; reflexivity.
  - rewrite fold_left_app. cbn zeta in IH. set (s := fold_left qdeviation_process l qdeviation0) in *. cbn [fold_left].
    destruct IH as (I1 & I2 & I3). unfold qdeviation_process. cbn [q_count q_mean q_dev].
    assert (Hc : inject_Z (q_count s + 1) == qlen l + 1). { rewrite I1, inject_Z_plus. reflexivity. }
    assert (Hp : ~ qlen l + 1 == 0). { rewrite <- (qlen_app l x). apply qlen_pos. }
    split; [rewrite I1, app_length; cbn; lia|].
    assert (E1 : (q_mean s + (x - q_mean s) / inject_Z (q_count s + 1)) * (qlen l + 1) == qsum l + x).
    { rewrite Hc, <- I2. field. auto. }
    split; [rewrite qlen_app, E1, qsum_app; cbn; ring|].
    assert (Hq : qsq (l ++ [x]) == qsq l + x * x). { unfold qsq. rewrite map_app, qsum_app. cbn. ring. }
    rewrite qlen_app, Hq, I3, Hc. field. auto.
Qed.
