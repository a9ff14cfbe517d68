(* C85: rectangles, percents, progress of parts and means *)
From Coq Require Import List Bool ZArith QArith Lia.
From Verif Require Import NumbersModel NumbersSpec NumbersProofs.
Import ListNotations.
Open Scope Z_scope.

(** * Rectangles *)
Ltac bz := repeat rewrite ?andb_true_iff, ?orb_true_iff, ?Z.ltb_lt, ?Z.leb_le, ?Z.geb_le, ?Z.eqb_eq in *.

(* A rectangle is valid if it has a point; the points of an intersection are those of both *)
Theorem C85_intersect : forall a b,
  (Valid a = true <-> exists x y, contains a x y) /\ (forall x y, contains (Intersect a b) x y <-> contains a x y /\ contains b x y) /\
  Intersect a b = Intersect b a /\ Intersect a a = a /\ (forall c, Intersect a (Intersect b c) = Intersect (Intersect a b) c) /\
  (forall d x y, contains (Move a d) x y <-> contains a (x - PX d) (y - PY d)) /\ (forall d, Move (Intersect a b) d = Intersect (Move a d) (Move b d)).
Proof.
  intros [a1 a2 a3 a4] [b1 b2 b3 b4]. unfold Valid, contains, Intersect, Move. cbn. split.
  { bz. split; [intros (? & ?); exists a1, a2; lia|intros (x & y & ?); lia]. }
  split; [intros; lia|]. split; [f_equal; lia|]. split; [f_equal; lia|]. split; [intros; f_equal; lia|]. split; [intros; lia|]. intros; f_equal; lia.
Qed.
Print Assumptions C85_intersect.

(* Intersects says whether two valid rectangles with all their sides have a point in common, so it is true if they intersect *)
Theorem C85_intersects : forall a b, Valid a = true -> Valid b = true ->
  (Intersects a b = true <-> exists x y, touches a x y /\ touches b x y) /\ (Valid (Intersect a b) = true -> Intersects a b = true) /\
  Intersects a b = Intersects b a.
Proof.
  intros [a1 a2 a3 a4] [b1 b2 b3 b4]. unfold Valid, touches, Intersect, Intersects. cbn. intros H1 H2. bz. split.
  { split; [intros H; exists (Z.max a1 b1), (Z.max a2 b2); lia|intros (x & y & ?); lia]. }
  split; [intros; lia|]. apply eq_true_iff_eq. bz. lia.
Qed.
Print Assumptions C85_intersects.
(* Not true: if Intersects, the intersection is valid. It is not for rectangles that lie side by side. *)
Theorem C85_intersects_refuted : ~ (forall a b, Valid a = true -> Valid b = true -> Intersects a b = true -> Valid (Intersect a b) = true).
Proof. intros H. specialize (H (mk_rect 0 0 2 2) (mk_rect 2 0 4 2) eq_refl eq_refl eq_refl). discriminate. Qed.
Print Assumptions C85_intersects_refuted.
(* nor even, without validity of both, that anything is common: an empty rectangle intersects what it lies in *)
Theorem C85_intersects_empty_refuted : ~ (forall a b, Intersects a b = true -> exists x y, contains a x y).
Proof. intros H. destruct (H (mk_rect 1 1 1 1) (mk_rect 0 0 2 2) eq_refl) as (x & y & ?). unfold contains in *. cbn in *. lia. Qed.
Print Assumptions C85_intersects_empty_refuted.

Lemma rect_less_lex a b : rect_less a b = true <->
  X1 a < X1 b \/ (X1 a = X1 b /\ (Y1 a < Y1 b \/ (Y1 a = Y1 b /\ (X2 a < X2 b \/ (X2 a = X2 b /\ Y2 a < Y2 b))))).
Proof.
  unfold rect_less. destruct (Z.ltb_spec (X1 a) (X1 b)); [intuition|]. destruct (Z.ltb_spec (X1 b) (X1 a)); [split; [discriminate|lia]|].
  destruct (Z.ltb_spec (Y1 a) (Y1 b)); [intuition lia|]. destruct (Z.ltb_spec (Y1 b) (Y1 a)); [split; [discriminate|lia]|].
  destruct (Z.ltb_spec (X2 a) (X2 b)); [intuition lia|]. destruct (Z.ltb_spec (X2 b) (X2 a)); [split; [discriminate|lia]|]. bz. lia.
Qed.
(* The order of rectangles is a strict total order, and == is equality *)
Theorem C85_rect_order : forall a b c, rect_less a a = false /\ (rect_less a b = true -> rect_less b c = true -> rect_less a c = true) /\
  (rect_less a b = true \/ a = b \/ rect_less b a = true) /\ (rect_equal a b = true <-> a = b).
Proof.
  intros a b c.
  assert (I : forall r, rect_less r r = false). { intros r. destruct (rect_less r r) eqn:E; auto. apply rect_less_lex in E. lia. }
  assert (T : rect_less a b = true \/ a = b \/ rect_less b a = true).
  { rewrite !rect_less_lex. destruct a as [a1 a2 a3 a4], b as [b1 b2 b3 b4]. cbn.
    assert (K : (a1 = b1 /\ a2 = b2 /\ a3 = b3 /\ a4 = b4) \/ ~ (a1 = b1 /\ a2 = b2 /\ a3 = b3 /\ a4 = b4)) by lia.
    destruct K as [(-> & -> & -> & ->)|K]; auto. lia. }
  split; [auto|]. split; [rewrite !rect_less_lex; lia|]. split; [auto|].
  unfold rect_equal. split.
  - intros H. rewrite andb_true_iff, !negb_true_iff in H. destruct H as (H1 & H2). destruct T as [E|[E|E]]; congruence.
  - intros ->. rewrite I. reflexivity.
Qed.
Print Assumptions C85_rect_order.
(* The width of a valid rectangle is positive; it fits int if the left side is not negative. Not in general. *)
Theorem C85_width : forall r, Valid r = true -> 0 < GetWidth r /\ 0 < GetHeight r /\ (0 <= X1 r -> X2 r < 2 ^ 31 -> GetWidth r < 2 ^ 31).
Proof. intros [a b c d]. unfold Valid, GetWidth, GetHeight. cbn [X1 X2 Y1 Y2]. intros H. bz. lia. Qed.
Print Assumptions C85_width.
Theorem C85_width_refuted : ~ (forall r, Valid r = true -> - 2 ^ 31 <= X1 r -> X2 r < 2 ^ 31 -> GetWidth r < 2 ^ 31).
Proof. intros H. specialize (H (mk_rect (- 2 ^ 31) 0 (2 ^ 31 - 1) 1) eq_refl). cbn in H. lia. Qed.
Print Assumptions C85_width_refuted.

(** * Percents *)
(* The percents of a part are those of the part, rounded down; 100 only if it is the whole; they do not decrease; no intermediate result
   leaves s64 if the whole is not more than a hundredth of it; InPercents of r of 100 is r *)
Theorem C85_percents : forall c t, 0 <= c <= t -> 0 < t ->
  InPercents (mk_progress c t) * t <= 100 * c < (InPercents (mk_progress c t) + 1) * t /\
  0 <= InPercents (mk_progress c t) <= 100 /\ (InPercents (mk_progress c t) = 100 <-> c = t) /\
  (forall c', c <= c' <= t -> InPercents (mk_progress c t) <= InPercents (mk_progress c' t)) /\
  (t <= (2 ^ 63 - 1) / 100 -> 100 * c < 2 ^ 63) /\ (forall r, 0 <= r -> InPercents (mk_progress r 100) = r).
Proof.
  intros c t H1 H2. pose proof (percents_range (mk_progress c t) H1) as R. assert (F : InPercents (mk_progress c t) = 100 * c / t) by (apply percents_floor; cbn [Current Total]; lia). rewrite F in R |- *.
  pose proof (Z.div_mod (100 * c) t ltac:(lia)) as D. pose proof (Z.mod_pos_bound (100 * c) t H2) as M.
  split; [lia|]. split; [auto|]. split; [split; intros; [nia|subst; apply Z.div_mul; lia]|]. split.
  { intros c' H. rewrite percents_floor by (cbn [Current Total]; lia). cbn [Current Total]. apply Z.div_le_mono; lia. }
  split.
  { intros H. assert (100 * t <= 2 ^ 63 - 1). { pose proof (Z.mul_div_le (2 ^ 63 - 1) 100 ltac:(lia)). lia. } lia. }
  intros r Hr. rewrite percents_floor by (cbn [Current Total]; lia). cbn [Current Total]. rewrite Z.mul_comm. apply Z.div_mul. lia.
Qed.
Print Assumptions C85_percents.
(* Not true: of two progress values that are not equal one is less. < compares percents; == the numbers. *)
Theorem C85_progress_order_refuted : ~ (forall a b, 0 <= Current a <= Total a -> 0 <= Current b <= Total b ->
  progress_less a b = true \/ progress_equal a b = true \/ progress_less b a = true).
Proof.
  intros H. destruct (H (mk_progress 1 2) (mk_progress 2 4)) as [E|[E|E]]; cbn; try lia; discriminate.
Qed.
Print Assumptions C85_progress_order_refuted.
Theorem C85_progress_order : forall a b c, progress_less a a = false /\ (progress_less a b = true -> progress_less b c = true -> progress_less a c = true) /\
  (progress_less a b = false -> progress_less b c = false -> progress_less a c = false) /\ (progress_equal a b = true <-> a = b) /\
  (progress_equal a b = true -> progress_less a b = false).
Proof.
  intros a b c. unfold progress_less, progress_equal. rewrite !Z.ltb_ge. bz. split; [lia|]. split; [lia|]. split; [lia|]. split.
  - destruct a as [a1 a2], b as [b1 b2]. cbn. split; [intros (-> & ->); auto|intros [= -> ->]; auto].
  - destruct a as [a1 a2], b as [b1 b2]. cbn [Current Total]. intros (-> & ->). lia.
Qed.
Print Assumptions C85_progress_order.

(** * Progress of parts *)
(* What is reported of a part that takes the actions index .. index + size - 1 of count, while it makes proper progress: of 100, between
   what belongs to its first action and to the one after its last; it does not decrease; at the end of the last one it is 100, and at the
   beginning of each part it is what it was at the end of the part before. *)
Theorem C85_aggregate : forall index size count a, 0 <= index -> 0 < size -> index + size < 2 ^ 64 -> 0 < count -> 100 * count < 2 ^ 64 ->
  new_aggregate index size count = Some a ->
  (forall c t, 0 <= c <= t -> Total (report a (mk_progress c t)) = 100 /\
     100 * index / count <= Current (report a (mk_progress c t)) <= 100 * (index + size) / count /\ 0 <= InPercents (report a (mk_progress c t)) <= 100) /\
  (forall c c' t, 0 <= c <= c' -> c' <= t -> Current (report a (mk_progress c t)) <= Current (report a (mk_progress c' t))) /\
  (forall t, 0 < t -> Current (report a (mk_progress 0 t)) = 100 * index / count /\ Current (report a (mk_progress t t)) = 100 * (index + size) / count).
Proof.
  intros index size count a H1 H2 H3 H4 H5 Ha. unfold new_aggregate in Ha. rewrite (u64_small (index + size)) in Ha by lia.
  rewrite u64_small in Ha by lia. destruct (Z.ltb_spec (index + size - 1) count); [|discriminate]. injection Ha as <-.
  set (a := mk_aggregate index size count).
  assert (V : forall p, 0 <= InPercents p <= 100 -> report a p = mk_progress ((index * 100 + size * InPercents p) / count) 100).
  { intros p Hp. apply (report_value a p); cbn [a actionIndex actionSize actionCount]; lia. }
  split; [|split].
  - intros c t H6. pose proof (percents_range (mk_progress c t) H6) as R. rewrite V by auto. cbn [Current Total].
    set (v := InPercents (mk_progress c t)) in *. destruct (report_value a (mk_progress c t)) as (_ & R'); cbn [a actionIndex actionSize actionCount]; try lia; auto.
    cbn [a actionIndex actionSize actionCount] in R'. fold v in R'. split; auto. split.
    + split; apply Z.div_le_mono; nia.
    + rewrite percents_floor by (cbn [Current Total]; lia). cbn [Current Total]. rewrite Z.mul_comm, Z.div_mul by lia. auto.
  - intros c c' t H6 H7. rewrite !V by (apply percents_range; cbn [Current Total]; lia). cbn [Current]. apply Z.div_le_mono; [lia|].
    assert (L : InPercents (mk_progress c t) <= InPercents (mk_progress c' t)).
    { destruct (Z.eq_dec t 0) as [->|]; [reflexivity|]. rewrite !percents_floor by (cbn [Current Total]; lia). cbn [Current Total]. apply Z.div_le_mono; lia. }
    nia.
  - intros t Ht. rewrite !V by (apply percents_range; cbn [Current Total]; lia). cbn [Current]. rewrite !percents_floor by (cbn [Current Total]; lia). cbn [Current Total].
    rewrite Z.div_mul by lia. assert (K : 100 * 0 / t = 0) by (apply Z.div_0_l; lia). try rewrite K. try rewrite Z.div_0_l by lia. split; f_equal; lia.
Qed.
Print Assumptions C85_aggregate.
(* So parts that follow one another give one progress: a part begins where the one before it ended, the first at 0, the last ends at 100.
   The constructor with three arguments makes the part of one action. *)
Theorem C85_aggregate_chain : forall i s s' n a b t t', 0 <= i -> 0 < s -> 0 < s' -> i + s + s' <= n -> 100 * n < 2 ^ 64 -> 0 < t -> 0 < t' ->
  new_aggregate i s n = Some a -> new_aggregate (i + s) s' n = Some b ->
  Current (report b (mk_progress 0 t')) = Current (report a (mk_progress t t)) /\
  (i = 0 -> Current (report a (mk_progress 0 t)) = 0) /\ (i + s + s' = n -> Current (report b (mk_progress t' t')) = 100) /\
  new_aggregate1 i n = new_aggregate i 1 n.
Proof.
  intros i s s' n a b t t' H1 H2 H3 H4 H5 Ht Ht' Ha Hb.
  destruct (C85_aggregate i s n a) as (_ & _ & A); auto; try lia. destruct (C85_aggregate (i + s) s' n b) as (_ & _ & B); auto; try lia.
  destruct (A t Ht) as (A1 & A2). destruct (B t' Ht') as (B1 & B2). rewrite A1, A2, B1, B2. split; [auto|]. split.
  { intros ->. apply Z.div_0_l. lia. }
  split; [intros <-; apply Z.div_mul; lia|]. unfold new_aggregate, new_aggregate1. rewrite (u64_small (i + 1)) by lia. rewrite u64_small by lia.
  replace (i + 1 - 1) with i by lia. reflexivity.
Qed.
Print Assumptions C85_aggregate_chain.
(* Not true: a part that is accepted lies within the actions. The sum wraps. *)
Theorem C85_aggregate_accepted_refuted : ~ (forall index size count a, 0 <= index < 2 ^ 64 -> 0 <= size < 2 ^ 64 -> 0 < count < 2 ^ 64 ->
  new_aggregate index size count = Some a -> index + size <= count).
Proof.
  intros H. specialize (H (2 ^ 64 - 1) 2 1 (mk_aggregate (2 ^ 64 - 1) 2 1)). assert (E : 2 ^ 64 - 1 + 2 <= 1). { apply H; try lia. reflexivity. } lia.
Qed.
Print Assumptions C85_aggregate_accepted_refuted.
(* Not true: every part within the actions is accepted. The part of no action before the first one is not. *)
Theorem C85_aggregate_empty_refuted : ~ (forall index size count, 0 <= index -> 0 <= size -> index + size <= count -> 0 < count < 2 ^ 64 ->
  new_aggregate index size count <> None).
Proof. intros H. apply (H 0 0 1); try lia. reflexivity. Qed.
Print Assumptions C85_aggregate_empty_refuted.
(* Not true for all progress: what is reported is at most 100. A negative progress of the first of two parts is reported as 2^63 - 1. *)
Theorem C85_aggregate_negative_refuted : ~ (forall a p, new_aggregate1 0 2 = Some a -> InPercents p <= 100 -> Current (report a p) <= 100).
Proof. intros H. specialize (H (mk_aggregate 0 1 2) (mk_progress (-1) 100) eq_refl ltac:(vm_compute; discriminate)). vm_compute in H. apply H. reflexivity. Qed.
Print Assumptions C85_aggregate_negative_refuted.

(** * Means *)
(* Average: the sum divided by the number, the remainder dropped; between the least and the greatest value *)
Theorem C85_average : forall l, average_get (fold_left Accumulate l average0) = (if Nat.eqb (length l) 0 then 0 else Z.quot (zsum l) (Z.of_nat (length l))) /\
  (forall lo hi, l <> [] -> bounds lo hi l -> lo <= average_get (fold_left Accumulate l average0) <= hi).
Proof.
  intros l. rewrite average_fold. unfold average_get. cbn [accum count average0]. rewrite !Z.add_0_l.
  assert (E : (Z.of_nat (length l) >? 0) = negb (Nat.eqb (length l) 0)).
  { destruct l; reflexivity. }
  rewrite E. split; [destruct (Nat.eqb _ 0); reflexivity|]. intros lo hi Hl Hb. pose proof (zsum_bounds _ _ _ Hb) as B.
  destruct l as [|x l]; [contradiction|]. cbn [length Nat.eqb negb]. set (n := Z.of_nat (S (length l))) in *. change (Z.of_nat (length (x :: l))) with n in B.
  assert (Hn : 0 < n) by (unfold n; lia). destruct (Z.le_gt_cases 0 (zsum (x :: l))).
  - pose proof (Z.quot_div_nonneg (zsum (x :: l)) n ltac:(lia) ltac:(lia)) as ->. split; [apply Z.div_le_lower_bound|apply Z.div_le_upper_bound]; nia.
  - set (z := zsum (x :: l)) in *. replace z with (- (- z)) by lia. rewrite Z.quot_opp_l by lia. rewrite Z.quot_div_nonneg by lia.
    assert (- z / n <= - lo) by (apply Z.div_le_upper_bound; nia). assert (- hi <= - z / n) by (apply Z.div_le_lower_bound; nia). lia.
Qed.
Print Assumptions C85_average.

(* Accumulators of a signed integral type: the mean lies between the least and the greatest value; the deviation is not negative *)
Theorem C85_mean_partial : forall l, (forall lo hi, l <> [] -> bounds lo hi l -> lo <= m_mean (fold_left mean_process l mean0) <= hi) /\
  (forall x n, m_mean (fold_left mean_process (repeat x (S n)) mean0) = x) /\ 0 <= deviation_get (fold_left deviation_process l deviation0).
Proof.
  intros l. split; [|split].
  - intros lo hi Hl Hb. destruct (mean_fold_bounds lo hi l mean0) as (H1 & H2); cbn; auto; try lia. apply H2. rewrite H1. destruct l; [contradiction|]. cbn. lia.
  - intros x n. destruct (mean_fold_bounds x x (repeat x (S n)) mean0) as (H1 & H2); cbn; auto; try lia.
    + apply Forall_forall. intros y Hy. apply (repeat_spec (S n) x) in Hy. subst. lia.
    + specialize (H2 ltac:(rewrite H1; rewrite repeat_length; cbn; lia)). cbn in H2. lia.
  - destruct (deviation_nonneg l deviation0) as (H1 & H2); cbn; try lia. unfold deviation_get. destruct (Z.eqb_spec (d_count (fold_left deviation_process l deviation0)) 0); cbn [negb]; [lia|].
    rewrite Z.quot_div_nonneg by lia. apply Z.div_pos; lia.
Qed.
Print Assumptions C85_mean_partial.
(* Not true, whatever error is allowed: the mean of integers is the sum divided by the number, up to that error *)
Theorem C85_mean_refuted : forall e, 0 <= e -> ~ (forall l, Z.abs (m_mean (fold_left mean_process l mean0) * Z.of_nat (length l) - zsum l) <= e * Z.of_nat (length l)).
Proof.
  intros e He H. set (n := Z.to_nat (2 * e + 1)). specialize (H (repeat 0 n ++ repeat (Z.of_nat n) n)).
  rewrite fold_left_app in H. destruct (mean_zeros n mean0 eq_refl ltac:(cbn; lia)) as (H1 & H2).
  rewrite mean_stuck in H; auto; [|rewrite H2; cbn; lia].
  assert (S1 : forall k m, zsum (repeat k m) = k * Z.of_nat m). { intros k m. induction m; cbn [repeat zsum]; lia. }
  rewrite zsum_app, !S1, app_length, !repeat_length in H. assert (E : Z.of_nat n = 2 * e + 1) by (unfold n; lia).
  rewrite Nat2Z.inj_add, E in H. nia.
Qed.
Print Assumptions C85_mean_refuted.

(* Without rounding: Mean is the mean and Deviation the variance of the values *)
Theorem C85_variance : forall l, l <> [] ->
  (q_mean (fold_left qdeviation_process l qdeviation0) == qmean l)%Q /\ (qdeviation_get (fold_left qdeviation_process l qdeviation0) == qvariance l)%Q.
Proof.
  intros l Hl. pose proof (qdev_inv l) as H. cbn zeta in H. set (s := fold_left qdeviation_process l qdeviation0) in *. destruct H as (H1 & H2 & H3).
  assert (Hn : ~ (qlen l == 0)%Q). { unfold qlen, Qeq. cbn. destruct l; [contradiction|]. cbn. lia. }
  assert (E : (q_mean s == qmean l)%Q). { unfold qmean. rewrite <- H2. field. auto. }
  split; auto. unfold qdeviation_get, qvariance. rewrite H1. destruct (Z.eqb_spec (Z.of_nat (length l)) 0); [destruct l; [contradiction|discriminate]|]. cbn [negb].
  change (inject_Z (Z.of_nat (length l))) with (qlen l). rewrite qsum_dist, H3, E. unfold qmean. field. auto.
Qed.
Print Assumptions C85_variance.

Example C85_rects : Intersect (mk_rect 0 0 4 4) (mk_rect 2 (-1) 6 3) = mk_rect 2 0 4 3 /\ Valid (mk_rect 2 0 4 3) = true /\
  Intersects (mk_rect 0 0 4 4) (mk_rect 2 (-1) 6 3) = true /\ rect_less (mk_rect 0 0 4 4) (mk_rect 0 1 2 2) = true.
Proof. vm_compute. repeat split. Qed.
Example C85_parts : exists a, new_aggregate 1 2 4 = Some a /\ report a (mk_progress 1 3) = mk_progress 41 100 /\
  report a (mk_progress 3 3) = mk_progress 75 100 /\ new_aggregate 3 2 4 = None.
Proof. exists (mk_aggregate 1 2 4). split; [vm_compute; reflexivity|]. split; [vm_compute; reflexivity|]. split; vm_compute; reflexivity. Qed.
Example C85_means : m_mean (fold_left mean_process [10; 20; 30] mean0) = 20 /\ average_get (fold_left Accumulate [1; 2; -5] average0) = 0 /\
  deviation_get (fold_left deviation_process [10; 20; 30] deviation0) = 66.
Proof. vm_compute. repeat split. Qed.
