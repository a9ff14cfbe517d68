(** Proofs for C66: fixed_point *)
From Coq Require Import QArith Qabs.
From Verif Require Import Base ITextModel ITextSpec ITextProofs DecModel DecSpec DecProofs DecProofs2 FixModel FixSpec.
Local Open Scope Z_scope.

Lemma fits_vt : forall w a, fits_w w a <-> fits (vt w) a. Proof. intros. unfold fits, fits_w, vt, signed_t. cbn [t_min t_max]. tauto. Qed.
Lemma arith_ok : forall t z, fits t z -> arith t z = DOk z.
Proof. intros t z [H1 H2]. unfold arith, in_t. rewrite (proj2 (Z.leb_le _ _) H1), (proj2 (Z.leb_le _ _) H2). reflexivity. Qed.
Lemma arith_bad : forall t z, ~ fits t z -> arith t z = DUndef.
Proof. intros t z H. unfold arith, in_t. destruct (Z.leb_spec (t_min t) z), (Z.leb_spec z (t_max t)); try reflexivity. exfalso. apply H. split; assumption. Qed.
Lemma pow2_pos : forall n, 0 <= n -> 0 < 2 ^ n. Proof. intros; apply Z.pow_pos_nonneg; lia. Qed.
Lemma Qle_same_den : forall a b p, (a # p <= b # p)%Q <-> a <= b.
Proof. intros a b p. unfold Qle. cbn [Qnum Qden]. split; intros H; nia. Qed.

Section Proofs.
  Variables N w : Z.
  Hypothesis S : sizes N w.
  Lemma P : 0 < 2 ^ N. Proof. apply pow2_pos. destruct S. lia. Qed.
  Lemma fval_plus_ulp : forall a, (fval N a + ulp N == fval N (a + 1))%Q.
  Proof. intros a. unfold fval, ulp, Qeq, Qplus. cbn [Qnum Qden]. rewrite Pos2Z.inj_mul. ring. Qed.
  Lemma fval_int : forall v, (fval N (v * 2 ^ N) == inject_Z v)%Q.
  Proof. intros v. pose proof P. unfold fval, Qeq, inject_Z. cbn [Qnum Qden]. rewrite Z2Pos.id by exact H. ring. Qed.

  Theorem of_int_exact : forall v, fits_w w (v * 2 ^ N) -> (fval N (fp_of_int N w v) == inject_Z v)%Q /\ fp_to_int N (fp_of_int N w v) = v.
  Proof.
    intros v H. pose proof P as Pp. destruct S as [SN SW]. unfold fp_of_int, fp_to_int. rewrite Z.shiftl_mul_pow2 by lia. rewrite conv_fits by (apply fits_vt; exact H).
    split; [apply fval_int|]. rewrite Z.shiftr_div_pow2 by lia. apply Z.div_mul. lia.
  Qed.
  Theorem to_int_floor : forall a, (inject_Z (fp_to_int N a) <= fval N a < inject_Z (fp_to_int N a + 1))%Q.
  Proof.
    intros a. pose proof P as Pp. destruct S as [SN SW]. unfold fp_to_int. rewrite Z.shiftr_div_pow2 by lia. rewrite <- !fval_int. unfold fval. rewrite Qle_same_den, Qlt_same_den.
    pose proof (Z.div_mod a (2 ^ N) ltac:(lia)). pose proof (Z.mod_pos_bound a (2 ^ N) Pp). nia.
  Qed.
  Lemma add_val : forall a b, (fval N (a + b) == fval N a + fval N b)%Q.
  Proof. intros a b. unfold fval, Qeq, Qplus. cbn [Qnum Qden]. rewrite Pos2Z.inj_mul. ring. Qed.
  Theorem add_exact : forall a b, (fits_w w (a + b) -> exists r, fp_add w a b = DOk r /\ (fval N r == fval N a + fval N b)%Q) /\
    (fits_w w (a - b) -> exists r, fp_sub w a b = DOk r /\ (fval N r == fval N a - fval N b)%Q) /\ (fits_w w (- a) -> exists r, fp_neg w a = DOk r /\ (fval N r == - fval N a)%Q).
  Proof.
    intros a b. unfold fp_add, fp_sub, fp_neg. split; [|split]; intros H; rewrite arith_ok by (apply fits_vt; exact H); eexists; (split; [reflexivity|]).
    - apply add_val.
    - unfold Qminus, Z.sub. rewrite add_val. reflexivity.
    - reflexivity.
  Qed.
  Lemma fval_mul : forall a b, (fval N a * fval N b == a * b # Z.to_pos (2 ^ N * 2 ^ N))%Q.
  Proof. intros a b. pose proof P. unfold fval, Qeq, Qmult. cbn [Qnum Qden]. rewrite Z2Pos.inj_mul by lia. reflexivity. Qed.
  Lemma fval_fine : forall r, (fval N r == r * 2 ^ N # Z.to_pos (2 ^ N * 2 ^ N))%Q.
  Proof. intros r. pose proof P. unfold fval, Qeq. cbn [Qnum Qden]. rewrite !Z2Pos.id by nia. ring. Qed.
  Lemma dt_limits : 2 ^ (2 * w - 1) = 2 * 2 ^ (w - 1) * 2 ^ (w - 1).
  Proof. destruct S as [SN SW]. replace (2 * w - 1) with (1 + ((w - 1) + (w - 1))) by lia. rewrite !Z.pow_add_r by lia. ring. Qed.
  Theorem mul_floor : forall a b, fits_w w a -> fits_w w b -> fits_w w (a * b / 2 ^ N) ->
    exists r, fp_mul N w a b = DOk r /\ (fval N r <= fval N a * fval N b < fval N r + ulp N)%Q.
  Proof.
    intros a b Ha Hb Hr. pose proof P as Pp. pose proof dt_limits as L. destruct S as [SN SW]. unfold fp_mul. unfold fits_w in Ha, Hb. pose proof (pow2_pos (w - 1) ltac:(lia)) as W.
    rewrite arith_ok by (unfold fits, dt, signed_t; cbn [t_min t_max]; rewrite L; nia). cbn [dbind]. eexists. split; [reflexivity|].
    rewrite Z.shiftr_div_pow2 by lia. rewrite conv_fits by (apply fits_vt; exact Hr).
    rewrite fval_plus_ulp, fval_mul, !fval_fine, Qle_same_den, Qlt_same_den. pose proof (Z.div_mod (a * b) (2 ^ N) ltac:(lia)). pose proof (Z.mod_pos_bound (a * b) (2 ^ N) Pp). nia.
  Qed.
  Theorem div_near : forall a b, fits_w w a -> b <> 0 -> fits_w w (Z.quot (a * 2 ^ N) b) ->
    exists r, fp_div N w a b = DOk r /\ (Qabs (fval N a - fval N r * fval N b) < ulp N * Qabs (fval N b))%Q.
  Proof.
    intros a b Ha Hb Hr. pose proof P as Pp. pose proof dt_limits as L. pose proof S as [SN SW]. unfold fp_div. destruct (Z.eqb_spec b 0); [contradiction|]. unfold fits_w in Ha. pose proof (pow2_pos (w - 1) ltac:(lia)) as W.
    assert (PW : 2 ^ N <= 2 ^ (w - 1)) by (apply Z.pow_le_mono_r; lia).
    rewrite Z.shiftl_mul_pow2 by lia. rewrite conv_fits by (unfold fits, dt, signed_t; cbn [t_min t_max]; rewrite L; nia).
    rewrite arith_ok by (unfold fits, dt, signed_t; cbn [t_min t_max]; rewrite L; unfold fits_w in Hr; nia). cbn [dbind].
    rewrite conv_fits by (apply fits_vt; exact Hr). eexists. split; [reflexivity|].
    set (q := Z.quot (a * 2 ^ N) b) in *. pose proof (Z.quot_rem (a * 2 ^ N) b Hb) as E. pose proof (Z.rem_bound_abs (a * 2 ^ N) b Hb) as R. fold q in E.
    assert (X : (fval N a - fval N q * fval N b == Z.rem (a * 2 ^ N) b # Z.to_pos (2 ^ N * 2 ^ N))%Q).
    { rewrite fval_mul, (fval_fine a). unfold Qminus, Qeq, Qplus, Qopp. cbn [Qnum Qden]. rewrite Pos2Z.inj_mul. replace (a * 2 ^ N) with (b * q + Z.rem (a * 2 ^ N) b) at 1 by lia. ring. }
    rewrite X. unfold ulp, fval, Qabs, Qmult, Qlt. cbn [Qnum Qden]. rewrite !Z2Pos.inj_mul by lia. rewrite Z.mul_1_l. rewrite !Pos2Z.inj_mul, !Z2Pos.id by lia. nia.
  Qed.
  Theorem order_exact : forall a b, (fp_lt a b = true <-> (fval N a < fval N b)%Q) /\ (fp_eq a b = true <-> (fval N a == fval N b)%Q).
  Proof. intros a b. unfold fp_lt, fp_eq, fval. rewrite Qlt_same_den, Qeq_same_den, Z.ltb_lt, Z.eqb_eq. tauto. Qed.
  Theorem assign_near : forall M w2 a, 0 <= M ->
    (M <= N -> w2 <= w -> fits_w w (a * 2 ^ (N - M)) -> (fval N (fp_assign N w M w2 a) == fval M a)%Q) /\
    (N <= M -> fits_w w (a / 2 ^ (M - N)) -> (fval N (fp_assign N w M w2 a) <= fval M a < fval N (fp_assign N w M w2 a) + ulp N)%Q).
  Proof.
    intros M w2 a HM. pose proof P as Pp. pose proof S as [SN SW]. pose proof (pow2_pos M ltac:(lia)) as PM. split.
    - intros L W2 H. unfold fp_assign.
      assert (E : (fval N (a * 2 ^ (N - M)) == fval M a)%Q).
      { unfold fval, Qeq. cbn [Qnum Qden]. rewrite !Z2Pos.id by lia. replace (2 ^ N) with (2 ^ (N - M) * 2 ^ M) by (rewrite <- Z.pow_add_r by lia; f_equal; lia). ring. }
      destruct (Z.leb_spec N M).
      + assert (M = N) by lia. subst M. rewrite Z.sub_diag in *. rewrite Z.shiftr_0_r. rewrite Z.pow_0_r, Z.mul_1_r in H. rewrite conv_fits by (apply fits_vt; exact H). reflexivity.
      + rewrite Z.max_l by lia. rewrite Z.shiftl_mul_pow2 by lia. fold (vt w). rewrite !conv_fits by (try (rewrite conv_fits by (apply fits_vt; exact H)); apply fits_vt; exact H). exact E.
    - intros L H. unfold fp_assign. destruct (Z.leb_spec N M); [|lia]. rewrite Z.shiftr_div_pow2 by lia. rewrite conv_fits by (apply fits_vt; exact H).
      pose proof (pow2_pos (M - N) ltac:(lia)) as PD.
      assert (F : forall r, (fval N r == r * 2 ^ (M - N) # Z.to_pos (2 ^ M))%Q).
      { intros r. unfold fval, Qeq. cbn [Qnum Qden]. rewrite !Z2Pos.id by lia. replace (2 ^ M) with (2 ^ (M - N) * 2 ^ N) by (rewrite <- Z.pow_add_r by lia; f_equal; lia). ring. }
      rewrite fval_plus_ulp, !F. unfold fval. rewrite Qle_same_den, Qlt_same_den.
      pose proof (Z.div_mod a (2 ^ (M - N)) ltac:(lia)). pose proof (Z.mod_pos_bound a (2 ^ (M - N)) PD). nia.
  Qed.
End Proofs.

(* ---------------------------------------------------------------- square root, of int *)
Lemma arith32 : forall z, - 2 ^ 31 <= z <= 2 ^ 31 - 1 -> arith (vt 32) z = DOk z. Proof. intros. apply arith_ok. exact H. Qed.
Lemma arith64 : forall z, - 2 ^ 63 <= z <= 2 ^ 63 - 1 -> arith (dt 32) z = DOk z. Proof. intros. apply arith_ok. exact H. Qed.
Lemma sqrt_loop_ok : forall X n ret sq, 0 <= X < 2 ^ 62 -> (n <= 16)%nat -> 0 <= ret < 2 ^ (16 - Z.of_nat n) -> sq = (ret * 2 ^ Z.of_nat n) ^ 2 - X - 1 ->
  (ret * 2 ^ Z.of_nat n) ^ 2 <= X -> X < ((ret + 1) * 2 ^ Z.of_nat n) ^ 2 \/ ret = 2 ^ (16 - Z.of_nat n) - 1 ->
  exists r, sqrt_loop 32 n ret sq = DOk r /\ r ^ 2 <= X /\ 0 <= r < 2 ^ 16 /\ (X < (r + 1) ^ 2 \/ r = 2 ^ 16 - 1).
Proof.
  intros X n. induction n as [|n IH]; intros ret sq HX Hn Hr Hs H1 H2.
  - exists ret. cbn [Z.of_nat] in *. rewrite Z.pow_0_r, !Z.mul_1_r, Z.sub_0_r in *. cbn [sqrt_loop]. auto 6.
  - cbn [sqrt_loop]. rewrite Nat2Z.inj_succ in *. set (k := Z.of_nat n) in *. assert (Hk : 0 <= k <= 15) by lia.
    assert (P2 : 2 ^ Z.succ k = 2 * 2 ^ k) by (rewrite Z.pow_succ_r by lia; reflexivity). rewrite P2 in *.
    set (A := 2 ^ (16 - Z.succ k)) in *. assert (PA : A * 2 ^ k = 2 ^ 15) by (unfold A; rewrite <- Z.pow_add_r by lia; f_equal; lia).
    assert (PA2 : 2 ^ (16 - k) = 2 * A) by (unfold A; rewrite <- Z.pow_succ_r by lia; f_equal; lia).
    pose proof (pow2_pos k ltac:(lia)) as PK. set (K := 2 ^ k) in *. assert (K15 : K <= 2 ^ 15) by (apply Z.pow_le_mono_r; lia).
    assert (AA : 1 <= A) by nia. assert (A15 : A <= 2 ^ 15) by nia.
    assert (B : 2 ^ 15 = 32768 /\ 2 ^ 16 = 65536 /\ 2 ^ 31 = 2147483648 /\ 2 ^ 62 = 4611686018427387904 /\ 2 ^ 63 = 9223372036854775808) by (repeat split). destruct B as [B1 [B2 [B3 [B4 B5]]]].
    rewrite arith32 by lia. cbn [dbind]. rewrite arith32 by lia. cbn [dbind]. rewrite arith32 by lia. cbn [dbind].
    rewrite Z.shiftl_mul_pow2 by lia. replace (2 ^ (2 * k)) with (K * K) by (unfold K; rewrite <- Z.pow_add_r by lia; f_equal; lia).
    assert (T : 0 <= (2 * (ret + ret) + 1) * (K * K) <= 2 ^ 31 - 1).
    { split; [nia|]. destruct (Z.eq_dec A 1) as [E1|E1].
      - assert (ret = 0) by lia. subst ret. assert (K = 2 ^ 15) by lia. rewrite H. rewrite B1, B3. lia.
      - assert ((2 * (ret + ret) + 1) <= 4 * A - 3) by lia.
        assert (Q : (2 * (ret + ret) + 1) * (K * K) <= (4 * A - 3) * (K * K)) by nia.
        replace ((4 * A - 3) * (K * K)) with (4 * (A * K) * K - 3 * K * K) in Q by ring. rewrite PA in Q.
        assert (K <= 2 ^ 14). { assert (2 <= A) by lia. nia. } assert (2 ^ 14 = 16384) by reflexivity. nia. }
    rewrite conv_fits by (unfold fits, vt, signed_t; cbn [t_min t_max]; change (32 - 1) with 31; lia).
    assert (SQ : - 2 ^ 62 <= sq) by (subst sq; nia). assert (SQ' : sq < 0) by (subst sq; lia).
    rewrite arith64 by lia. cbn [dbind].
    assert (BE : sq + (2 * (ret + ret) + 1) * (K * K) = ((2 * ret + 1) * K) ^ 2 - X - 1) by (subst sq; ring).
    destruct (Z.ltb_spec (sq + (2 * (ret + ret) + 1) * (K * K)) 0) as [L|L].
    + rewrite arith32 by lia. cbn [dbind]. apply IH; try assumption; try lia.
    + apply IH; try assumption; try lia.
Qed.
Theorem sqrt_value : forall N v, 0 <= N <= 15 -> 0 <= v < 2 ^ 31 -> exists r, fp_sqrt N 32 v = DOk r /\ r = Z.min (Z.sqrt (v * 2 ^ N * 2 ^ N)) (2 ^ 16 - 1).
Proof.
  intros N v HN Hv. unfold fp_sqrt. set (X := v * 2 ^ N * 2 ^ N).
  assert (B : 2 ^ 15 = 32768 /\ 2 ^ 16 = 65536 /\ 2 ^ 31 = 2147483648 /\ 2 ^ 62 = 4611686018427387904 /\ 2 ^ 63 = 9223372036854775808) by (repeat split). destruct B as [B1 [B2 [B3 [B4 B5]]]].
  pose proof (pow2_pos N ltac:(lia)) as PN. assert (2 ^ N <= 2 ^ 15) by (apply Z.pow_le_mono_r; lia).
  set (M := 2 ^ N) in *. assert (MM : 0 < M * M <= 32768 * 32768) by nia. assert (HX : 0 <= X < 2 ^ 62) by (unfold X; rewrite <- Z.mul_assoc; nia).
  assert (SX : Z.shiftl v (N * 2) = X) by (rewrite Z.shiftl_mul_pow2 by lia; unfold X; replace (N * 2) with (N + N) by lia; rewrite Z.pow_add_r by lia; fold M; ring).
  rewrite SX. rewrite conv_fits by (unfold fits, dt, signed_t; cbn [t_min t_max]; change (2 * 32 - 1) with 63; lia).
  rewrite arith64 by lia. cbn [dbind]. rewrite arith64 by lia. cbn [dbind].
  destruct (sqrt_loop_ok X 16 0 (- X - 1) HX) as [r [R [R1 [R2 R3]]]]; [lia|cbn; lia|rewrite Z.mul_0_l; lia|rewrite Z.mul_0_l; lia|right; reflexivity|].
  exists r. split; [exact R|]. pose proof (Z.sqrt_spec X ltac:(lia)) as SS. pose proof (Z.sqrt_nonneg X). destruct R3 as [R3|R3].
  - rewrite Z.pow_2_r in R1, R3. rewrite (Z.sqrt_unique X r) by (unfold Z.succ; lia). lia.
  - rewrite Z.pow_2_r in R1. apply Z.sqrt_le_square in R1; [lia|lia|lia].
Qed.
