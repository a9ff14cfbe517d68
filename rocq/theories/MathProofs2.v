From Verif Require Import Base ITextModel ITextSpec ITextProofs MathModel MathSpec MathProofs.
From Coq Require Import Lia ZArith.
Local Open Scope Z_scope.

(** * RoundFraction *)
Definition half_up (r : Z) : Z := r / 2 + r mod 2.
Lemma half_up_bounds r : 2 <= r -> 1 <= half_up r <= r.
Proof. intros H. unfold half_up. pose proof (Z.div_mod r 2 ltac:(lia)). pose proof (Z.mod_pos_bound r 2 ltac:(lia)). lia. Qed.
Definition round_step (r : Z) (s : Z * bool) : Z * bool :=
  let over := half_up r <=? fst s mod r in (fst s / r + (if over then 1 else 0), snd s || over).
Lemma round_loop_snoc r : forall k f was, round_loop (S k) r f was = round_step r (round_loop k r f was).
Proof.
  induction k as [|k IH]; intros f was; [reflexivity|].
  change (round_loop (S (S k)) r f was) with (round_loop (S k) r (f / r + (if half_up r <=? f mod r then 1 else 0)) (was || (half_up r <=? f mod r))).
  rewrite IH. reflexivity.
Qed.
Lemma round_up_from_bounds r k : 2 <= r -> 1 <= round_up_from k r <= r ^ Z.of_nat k.
Proof.
  intros Hr. pose proof (half_up_bounds r Hr) as Hh. unfold half_up in Hh. induction k as [|k IH]; [cbn; lia|]. cbn [round_up_from].
  rewrite Nat2Z.inj_succ, Z.pow_succ_r by lia. assert (0 < r ^ Z.of_nat k) by (apply Z.pow_pos_nonneg; lia).
  set (h := r / 2 + r mod 2) in *. set (P := r ^ Z.of_nat k) in *. nia.
Qed.
Definition carry (r f : Z) (k : nat) : Z := if round_up_from k r <=? f mod r ^ Z.of_nat k then 1 else 0.
Lemma round_loop_spec r f was : 2 <= r -> 0 <= f -> forall k,
  fst (round_loop k r f was) = f / r ^ Z.of_nat k + carry r f k /\
  (carry r f k = 1 -> snd (round_loop k r f was) = true).
Proof.
  intros Hr Hf. pose proof (half_up_bounds r Hr) as Hh. induction k as [|k [IH1 IH2]].
  - cbn [round_loop fst snd]. unfold carry. cbn [round_up_from]. change (r ^ Z.of_nat 0) with 1. rewrite Z.mod_1_r, Z.div_1_r. cbn. split; [lia|discriminate].
  - rewrite round_loop_snoc. unfold round_step. cbn [fst snd]. rewrite IH1.
    pose proof (round_up_from_bounds r k Hr) as HT. assert (HP : 0 < r ^ Z.of_nat k) by (apply Z.pow_pos_nonneg; lia).
    assert (Eq : f / r ^ Z.of_nat (S k) = f / r ^ Z.of_nat k / r).
    { rewrite Nat2Z.inj_succ, Z.pow_succ_r by lia. rewrite Z.div_div by lia. f_equal. ring. }
    assert (Em : f mod r ^ Z.of_nat (S k) = (f / r ^ Z.of_nat k) mod r * r ^ Z.of_nat k + f mod r ^ Z.of_nat k).
    { rewrite Nat2Z.inj_succ, Z.pow_succ_r by lia. rewrite (Z.mul_comm r), Z.rem_mul_r by lia. ring. }
    rewrite Eq. unfold carry at 2 3 4. rewrite Em. cbn [round_up_from]. fold (half_up r). unfold carry in *.
    set (P := r ^ Z.of_nat k) in *. set (T := round_up_from k r) in *. set (q := f / P) in *. set (m := f mod P) in *.
    assert (Bm : 0 <= m < P) by (apply Z.mod_pos_bound; exact HP).
    pose proof (Z.div_mod q r ltac:(lia)) as Dq. pose proof (Z.mod_pos_bound q r ltac:(lia)) as Bq.
    set (d := q mod r) in *. set (h := half_up r) in *. set (Q := q / r) in *.
    destruct (Z.leb_spec T m) as [L|L].
    + (* a carry comes in *)
      assert (Hc : (h - 1) * P + T <= d * P + m <-> h <= d + 1) by (split; intros; nia).
      destruct (Z.eq_dec d (r - 1)) as [Ed|Ed].
      * assert (E1 : (q + 1) / r = Q + 1) by (symmetry; apply Z.div_unique with 0; lia).
        assert (E2 : (q + 1) mod r = 0) by (symmetry; apply Z.mod_unique with (Q + 1); lia).
        rewrite E1, E2. destruct (Z.leb_spec h 0); [lia|]. destruct (Z.leb_spec ((h - 1) * P + T) (d * P + m)) as [L2|L2]; [|exfalso; lia].
        split; [lia|]. intros _. rewrite IH2 by reflexivity. reflexivity.
      * assert (E1 : (q + 1) / r = Q) by (symmetry; apply Z.div_unique with (d + 1); lia).
        assert (E2 : (q + 1) mod r = d + 1) by (symmetry; apply Z.mod_unique with Q; lia).
        rewrite E1, E2. rewrite IH2 by reflexivity. cbn [orb].
        destruct (Z.leb_spec ((h - 1) * P + T) (d * P + m)) as [L2|L2], (Z.leb_spec h (d + 1)); split; auto; exfalso; lia.
    + assert (Hc : (h - 1) * P + T <= d * P + m <-> h <= d) by (split; intros; nia).
      rewrite Z.add_0_r. fold d Q.
      destruct (Z.leb_spec ((h - 1) * P + T) (d * P + m)) as [L2|L2], (Z.leb_spec h d); split; auto; try (exfalso; lia); try discriminate.
      intros _. apply orb_true_r.
Qed.
Lemma precision_base_spec r : 2 <= r -> forall n b, precision_base n r b = if (n =? 0)%nat then b else (b * r ^ Z.of_nat n) mod 2 ^ 64.
Proof.
  intros Hr. induction n as [|n IH]; intros b; [reflexivity|]. cbn [precision_base]. rewrite IH.
  rewrite Nat2Z.inj_succ, Z.pow_succ_r by lia. cbn [Nat.eqb]. destruct n as [|n]; cbn [Nat.eqb].
  - change (r ^ Z.of_nat 0) with 1. rewrite Z.mul_1_r. reflexivity.
  - rewrite Z.mul_mod_idemp_l by discriminate. f_equal. ring.
Qed.
Lemma precision_base_small r n : 2 <= r -> r ^ Z.of_nat n < 2 ^ 64 -> precision_base n r 1 = r ^ Z.of_nat n.
Proof.
  intros Hr Hn. rewrite precision_base_spec by exact Hr. destruct (Nat.eqb_spec n 0) as [->|_]; [reflexivity|].
  rewrite Z.mul_1_l. apply Z.mod_small. split; [apply Z.pow_nonneg; lia|exact Hn].
Qed.

(** The result is the number rounded once, at the given remainder. *)
Lemma round_fraction_spec f p target r : 2 <= r -> 0 <= f < r ^ Z.of_nat p -> r ^ Z.of_nat target < 2 ^ 64 -> (target <= p)%nat ->
  let k := (p - target)%nat in
  proper r (round_fraction f p target r) target /\
  stands_for r (round_fraction f p target r) target = f / r ^ Z.of_nat k + carry r f k.
Proof.
  intros Hr Hf Ht Hp. cbv zeta. unfold round_fraction. replace (Nat.min p target) with target by lia. set (k := (p - target)%nat).
  pose proof (round_loop_spec r f false Hr ltac:(lia) k) as [E1 E2]. destruct (round_loop k r f false) as [fr was]. cbn [fst snd] in *.
  assert (HP : 0 < r ^ Z.of_nat k) by (apply Z.pow_pos_nonneg; lia). assert (HT : 0 < r ^ Z.of_nat target) by (apply Z.pow_pos_nonneg; lia).
  assert (Ep : r ^ Z.of_nat p = r ^ Z.of_nat k * r ^ Z.of_nat target) by (rewrite <- Z.pow_add_r by lia; f_equal; lia).
  assert (Bq : 0 <= f / r ^ Z.of_nat k < r ^ Z.of_nat target).
  { split; [apply Z.div_pos; lia|]. apply Z.div_lt_upper_bound; lia. }
  assert (Bc : carry r f k = 0 \/ carry r f k = 1) by (unfold carry; destruct (_ <=? _); auto).
  unfold proper, stands_for. destruct was; cbn [negb].
  - rewrite precision_base_small by assumption. destruct (Z.leb_spec (r ^ Z.of_nat target) fr) as [L|L]; cbn [f_fraction f_precision f_overflow].
    + assert (fr - r ^ Z.of_nat target = 0) as -> by lia. cbn [Z.eqb]. split; [split; [lia|cbn; lia]|]. lia.
    + destruct (Z.eqb_spec fr 0) as [->|N].
      * split; [split; [lia|cbn; lia]|]. lia.
      * rewrite Nat.sub_diag. change (r ^ Z.of_nat 0) with 1. split; [split; [lia|lia]|]. lia.
  - cbn [f_fraction f_precision f_overflow]. rewrite Nat.sub_diag. change (r ^ Z.of_nat 0) with 1.
    destruct Bc as [Bc|Bc]; [|specialize (E2 Bc); discriminate]. split; [split; [lia|lia]|]. lia.
Qed.
(** Nothing to drop: the number itself. *)
Lemma round_fraction_same f p target r : (p <= target)%nat -> round_fraction f p target r = mkF f p false.
Proof. intros H. unfold round_fraction. replace (p - target)%nat with 0%nat by lia. cbn. f_equal. lia. Qed.

(** * CalculateFractionRemainder *)
Lemma scale_loop_spec r : 2 <= r -> forall fuel x p, 1 <= x < 2 ^ 64 -> 2 ^ 64 <= x * 2 ^ (Z.of_nat fuel - 1) -> (1 <= fuel)%nat ->
  exists n, scale_loop fuel r x p = Some (x * r ^ Z.of_nat n, (p + n)%nat) /\ x * r ^ Z.of_nat n < 2 ^ 64 <= x * r ^ Z.of_nat (S n).
Proof.
  intros Hr. induction fuel as [|fuel IH]; intros x p Hx Hf H1; [lia|]. cbn [scale_loop].
  destruct (Z.leb_spec x ((2 ^ 64 - 1) / r)) as [L|L].
  - apply le_div_max in L; [|lia]. assert (fuel <> 0)%nat by (intros ->; change (Z.of_nat 1 - 1) with 0 in Hf; rewrite Z.pow_0_r in Hf; lia).
    rewrite Z.mod_small by lia.
    assert (Ef : 2 ^ (Z.of_nat (S fuel) - 1) = 2 * 2 ^ (Z.of_nat fuel - 1)).
    { replace (Z.of_nat (S fuel) - 1) with (Z.succ (Z.of_nat fuel - 1)) by lia. rewrite Z.pow_succ_r by lia. reflexivity. }
    assert (0 <= 2 ^ (Z.of_nat fuel - 1)) by (apply Z.pow_nonneg; lia).
    rewrite Ef in Hf. destruct (IH (x * r) (S p) ltac:(nia) ltac:(nia) ltac:(lia)) as (n & E & A & B).
    exists (S n). rewrite E. replace (x * r ^ Z.of_nat (S n)) with (x * r * r ^ Z.of_nat n) by (rewrite Nat2Z.inj_succ, Z.pow_succ_r by lia; ring).
    split; [f_equal; f_equal; lia|]. split; [exact A|].
    replace (x * r ^ Z.of_nat (S (S n))) with (x * r * r ^ Z.of_nat (S n)) by (rewrite (Nat2Z.inj_succ (S n)), Z.pow_succ_r by lia; ring). exact B.
  - exists 0%nat. rewrite Nat.add_0_r. change (r ^ Z.of_nat 0) with 1. change (Z.of_nat 1) with 1. rewrite Z.mul_1_r, Z.pow_1_r. split; [reflexivity|]. split; [lia|].
    destruct (Z.lt_ge_cases (x * r) (2 ^ 64)) as [H|H]; [|exact H]. exfalso. exact (Zlt_not_le _ _ L (proj2 (le_div_max x r ltac:(lia)) H)).
Qed.
Lemma div_shift x n k r d : 2 <= r -> 0 < d -> (k <= n)%nat -> x * r ^ Z.of_nat n / d / r ^ Z.of_nat k = x * r ^ Z.of_nat (n - k) / d.
Proof.
  intros Hr Hd Hk. assert (HP : 0 < r ^ Z.of_nat k) by (apply Z.pow_pos_nonneg; lia). rewrite Z.div_div by lia.
  replace (x * r ^ Z.of_nat n) with (x * r ^ Z.of_nat (n - k) * r ^ Z.of_nat k).
  - apply Z.div_mul_cancel_r; lia.
  - rewrite <- Z.mul_assoc, <- Z.pow_add_r by lia. f_equal. f_equal. lia.
Qed.
(** The digits that fit into 64 bits, at least as many as asked for exactly if remainder * radix^target fits. *)
Lemma fraction_remainder_spec dividend divisor target r : 0 <= dividend -> 0 < divisor < 2 ^ 64 -> 2 <= r ->
  dividend mod divisor <> 0 ->
  exists n, let x := dividend mod divisor in
    x * r ^ Z.of_nat n < 2 ^ 64 <= x * r ^ Z.of_nat (S n) /\
    fraction_remainder dividend divisor target r = IOk (round_fraction (x * r ^ Z.of_nat n / divisor) n target r).
Proof.
  intros Hd Hv Hr Hx. pose proof (Z.mod_pos_bound dividend divisor ltac:(lia)) as B. set (x := dividend mod divisor) in *.
  destruct (scale_loop_spec r Hr 65 x 0 ltac:(lia) ltac:(change (Z.of_nat 65 - 1) with 64; lia) ltac:(lia)) as (n & E & A).
  exists n. cbv zeta. split; [exact A|]. unfold fraction_remainder. fold x.
  destruct (Z.eqb_spec divisor 0); [lia|]. destruct (Z.ltb_spec 1 r); [|lia]. cbn [negb]. destruct (Z.eqb_spec x 0); [lia|].
  rewrite E. reflexivity.
Qed.
Lemma enough_digits x r n t : 2 <= r -> 1 <= x -> 2 ^ 64 <= x * r ^ Z.of_nat (S n) -> x * r ^ Z.of_nat t < 2 ^ 64 -> (t <= n)%nat.
Proof.
  intros Hr Hx H1 H2. destruct (Nat.le_gt_cases t n); [assumption|]. exfalso.
  assert (r ^ Z.of_nat (S n) <= r ^ Z.of_nat t) by (apply Z.pow_le_mono_r; lia). nia.
Qed.
