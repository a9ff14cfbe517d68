(** Proofs for C66: decimals *)
From Coq Require Import QArith.
From Verif Require Import Base ITextModel ITextSpec ITextProofs DecModel DecSpec.
Local Open Scope Z_scope.

Lemma rnd_small : forall z, Z.abs z <= 2 ^ 53 -> rnd z = z.
Proof.
  intros z H. unfold rnd. destruct (Z.leb_spec (Z.log2 (Z.abs z) - 52) 0) as [L|L]; [reflexivity|].
  assert (E : Z.abs z = 2 ^ 53).
  { destruct (Z.eq_dec (Z.abs z) (2 ^ 53)) as [E|E]; [exact E|]. exfalso. assert (Z.log2 (Z.abs z) < 53); [|lia].
    destruct (Z.eq_dec z 0) as [->|N]; [reflexivity|]. apply Z.log2_lt_pow2; lia. }
  rewrite E. replace (Z.log2 (2 ^ 53) - 52) with 1 by reflexivity.
  replace (2 * (2 ^ 53 mod 2 ^ 1) <? 2 ^ 1) with true by reflexivity. replace (2 ^ 53 / 2 ^ 1 * 2 ^ 1) with (2 ^ 53) by reflexivity. rewrite <- E. rewrite Z.mul_comm. apply Z.abs_sgn.
Qed.
Lemma pow10_pos : forall k, 0 <= k -> 0 < 10 ^ k. Proof. intros; apply Z.pow_pos_nonneg; lia. Qed.
Lemma s64_ok : forall z, - 2 ^ 63 <= z <= 2 ^ 63 - 1 -> s64 z = DOk z.
Proof. intros z H. unfold s64, in_s64. replace (- 2 ^ 63 <=? z) with true by (symmetry; apply Z.leb_le; lia). replace (z <=? 2 ^ 63 - 1) with true by (symmetry; apply Z.leb_le; lia). reflexivity. Qed.
Lemma times_pow_exact : forall m k, 0 <= k <= 308 -> Z.abs m * 10 ^ k <= 2 ^ 53 -> times_pow m k = DOk (m * 10 ^ k).
Proof.
  intros m k Hk H. pose proof (pow10_pos k ltac:(lia)) as P. unfold times_pow, pow10. replace ((0 <=? k) && (k <=? 308)) with true by (symmetry; apply andb_true_intro; split; apply Z.leb_le; lia).
  destruct (Z.eq_dec m 0) as [->|N]; [rewrite !Z.mul_0_l; reflexivity|].
  assert (10 ^ k <= 2 ^ 53) by nia. assert (Z.abs m <= 2 ^ 53) by nia.
  rewrite (rnd_small (10 ^ k)) by lia. rewrite (rnd_small m) by lia. rewrite rnd_small by (rewrite Z.abs_mul; lia).
  apply s64_ok. assert (Z.abs (m * 10 ^ k) <= 2 ^ 53) by (rewrite Z.abs_mul; lia). assert (2 ^ 53 < 2 ^ 63 - 1) by reflexivity. lia.
Qed.
Lemma scaled : forall e d, small_at e d -> pow_to_exponent d e = DOk (mant d * 10 ^ (e - ex d)).
Proof. intros e d [H1 [H2 H3]]. apply times_pow_exact; lia. Qed.
Lemma pow_split : forall e d, 0 <= ex d <= e -> 10 ^ e = 10 ^ (e - ex d) * 10 ^ ex d.
Proof. intros e d H. rewrite <- Z.pow_add_r by lia. f_equal. lia. Qed.
Lemma val_scaled : forall e d, 0 <= ex d <= e -> (val d == mant d * 10 ^ (e - ex d) # Z.to_pos (10 ^ e))%Q.
Proof.
  intros e d H. unfold val, Qeq. cbn [Qnum Qden]. rewrite !Z2Pos.id by (apply pow10_pos; lia). rewrite (pow_split e d H). ring.
Qed.
Lemma Qeq_same_den : forall a b p, (a # p == b # p)%Q <-> a = b.
Proof. intros a b p. unfold Qeq. cbn [Qnum Qden]. split; [intros H; nia|intros ->; reflexivity]. Qed.
Lemma Qlt_same_den : forall a b p, (a # p < b # p)%Q <-> a < b.
Proof. intros a b p. unfold Qlt. cbn [Qnum Qden]. split; intros H; nia. Qed.

Theorem decimal_compare : forall a b, both_small a b ->
  (exists r, decimal_eq a b = DOk r /\ (r = true <-> (val a == val b)%Q)) /\ (exists r, decimal_lt a b = DOk r /\ (r = true <-> (val a < val b)%Q)).
Proof.
  intros a b [Ha Hb]. unfold decimal_eq, decimal_lt. rewrite (scaled _ _ Ha), (scaled _ _ Hb). cbn [dbind].
  destruct Ha as [Ha _], Hb as [Hb _]. pose proof (val_scaled _ a Ha) as Va. pose proof (val_scaled _ b Hb) as Vb. split; eexists; (split; [reflexivity|]).
  - rewrite Z.eqb_eq. rewrite Va, Vb. symmetry. apply Qeq_same_den.
  - rewrite Z.ltb_lt. rewrite Va, Vb. symmetry. apply Qlt_same_den.
Qed.

Theorem decimal_add_exact : forall a b, both_small a b -> exists r, decimal_add a b = DOk r /\ (val r == val a + val b)%Q /\ ex r = Z.max (ex a) (ex b).
Proof.
  intros a b [Ha Hb]. unfold decimal_add. rewrite (scaled _ _ Ha), (scaled _ _ Hb). cbn [dbind].
  destruct Ha as [Ha [_ Ba]], Hb as [Hb [_ Bb]]. set (e := Z.max (ex a) (ex b)) in *.
  pose proof (pow10_pos (e - ex a) ltac:(lia)). pose proof (pow10_pos (e - ex b) ltac:(lia)).
  assert (2 ^ 53 < 2 ^ 62 - 1) by reflexivity. assert (2 ^ 62 * 2 = 2 ^ 63) by reflexivity.
  rewrite s64_ok by nia. cbn [dbind]. eexists. split; [reflexivity|]. split; [|reflexivity].
  rewrite (val_scaled _ a Ha), (val_scaled _ b Hb). unfold val. cbn [mant ex]. unfold Qeq, Qplus. cbn [Qnum Qden]. rewrite Pos2Z.inj_mul. ring.
Qed.
Theorem decimal_neg_exact : forall a, proper a -> mant a <> - 2 ^ 63 -> exists r, decimal_neg a = DOk r /\ (val r == - val a)%Q /\ ex r = ex a /\ mant r = - mant a.
Proof.
  intros a [H _] N. unfold decimal_neg. rewrite s64_ok by lia. cbn [dbind]. eexists. split; [reflexivity|]. split; [reflexivity|split; reflexivity].
Qed.
Theorem decimal_sub_exact : forall a b, both_small a b -> exists r, decimal_sub a b = DOk r /\ (val r == val a - val b)%Q.
Proof.
  intros a b H. unfold decimal_sub, decimal_neg.
  assert (B : Z.abs (mant b) <= 2 ^ 53).
  { destruct H as [_ [Hb [_ H3]]]. pose proof (pow10_pos (Z.max (ex a) (ex b) - ex b) ltac:(lia)). nia. }
  assert (2 ^ 53 < 2 ^ 62 - 1) by reflexivity. assert (2 ^ 62 * 2 = 2 ^ 63) by reflexivity.
  rewrite s64_ok by lia. cbn [dbind].
  destruct (decimal_add_exact a (Dec (- mant b) (ex b))) as [r [R [V _]]].
  { destruct H as [Ha Hb]. split; cbn [ex]; [exact Ha|]. destruct Hb as [K1 [K2 K3]]. split; [exact K1|]. split; [exact K2|]. cbn [mant ex]. rewrite Z.abs_opp. exact K3. }
  exists r. split; [exact R|]. rewrite V. unfold Qminus. apply Qplus_inj_l. reflexivity.
Qed.
Theorem decimal_mul_exact : forall a b, both_small a b -> Z.max (ex a) (ex b) < 2 ^ 15 ->
  - 2 ^ 63 <= mant a * mant b * 10 ^ Z.abs (ex a - ex b) <= 2 ^ 63 - 1 -> exists r, decimal_mul a b = DOk r /\ (val r == val a * val b)%Q.
Proof.
  intros a b [Ha Hb] He Hm. unfold decimal_mul. rewrite (scaled _ _ Ha), (scaled _ _ Hb). cbn [dbind].
  destruct Ha as [Ha [_ Ba]], Hb as [Hb [_ Bb]]. set (e := Z.max (ex a) (ex b)) in *.
  assert (X : mant a * 10 ^ (e - ex a) * (mant b * 10 ^ (e - ex b)) = mant a * mant b * 10 ^ Z.abs (ex a - ex b)).
  { replace (mant a * 10 ^ (e - ex a) * (mant b * 10 ^ (e - ex b))) with (mant a * mant b * (10 ^ (e - ex a) * 10 ^ (e - ex b))) by ring.
    rewrite <- Z.pow_add_r by lia. do 2 f_equal. unfold e. lia. }
  rewrite X. rewrite s64_ok by exact Hm. cbn [dbind]. eexists. split; [reflexivity|].
  rewrite Z.mod_small by (assert (2 ^ 15 * 2 = 2 ^ 16) by reflexivity; lia). rewrite <- X.
  rewrite (val_scaled _ a Ha), (val_scaled _ b Hb). unfold val. cbn [mant ex]. unfold Qeq, Qmult. cbn [Qnum Qden].
  rewrite <- Z2Pos.inj_mul by (apply pow10_pos; lia). rewrite <- Z.pow_add_r by lia. ring.
Qed.

(* ---------------------------------------------------------------- text *)
Lemma drop_zeros_spec : forall l, exists n, l = repeat 48 n ++ drop_zeros l /\ (drop_zeros l <> [] -> hd 0 (drop_zeros l) <> 48).
Proof.
  induction l as [|c l [n [E H]]]; [exists 0%nat; split; [reflexivity|intros N; exfalso; exact (N eq_refl)]|]. cbn [drop_zeros]. destruct (Z.eqb_spec c 48) as [->|N].
  - exists (S n). split; [cbn [repeat app]; rewrite <- E; reflexivity|exact H].
  - exists 0%nat. split; [reflexivity|]. intros _. exact N.
Qed.
Lemma rev_repeat : forall (x : Z) n, rev (repeat x n) = repeat x n.
Proof.
  intros x n. induction n as [|n IH]; [reflexivity|]. cbn [repeat rev]. rewrite IH. clear IH. induction n as [|n IH]; [reflexivity|]. cbn [repeat app]. rewrite IH. reflexivity.
Qed.
Lemma remove_zeros_spec : forall l, exists n, l = remove_zeros l ++ repeat 48 n /\ (remove_zeros l <> [] -> last (remove_zeros l) 0 <> 48).
Proof.
  intros l. destruct (drop_zeros_spec (rev l)) as [n [E H]]. exists n. unfold remove_zeros. split.
  - rewrite <- (rev_involutive l) at 1. rewrite E at 1. rewrite rev_app_distr, rev_repeat. reflexivity.
  - intros N. destruct (drop_zeros (rev l)) as [|c r] eqn:D; [cbn in N; congruence|]. cbn [rev]. rewrite last_last. apply H. discriminate.
Qed.
Lemma num_zeros : forall n, num (repeat 48 n) = 0.
Proof. induction n as [|n IH]; [reflexivity|]. cbn [repeat]. unfold num in *. cbn [fold_left]. exact IH. Qed.
Lemma zeros_digits : forall n, Forall digit_char (repeat 48 n).
Proof. induction n; constructor; [unfold digit_char; lia|assumption]. Qed.
(** trailing zeros do not matter *)
Lemma num_crop : forall l n, num (l ++ repeat 48 n) = num l * 10 ^ Z.of_nat n.
Proof. intros l n. rewrite num_app by apply zeros_digits. rewrite num_zeros, repeat_length. lia. Qed.
Lemma signed_num_crop : forall g l n, signed_num g (l ++ repeat 48 n) = signed_num g l * 10 ^ Z.of_nat n.
Proof. intros g l n. destruct g; cbn [signed_num]; rewrite num_crop; lia. Qed.
Lemma notation_value_crop : forall g i f n, (notation_value g i (f ++ repeat 48%Z n) == notation_value g i f)%Q.
Proof.
  intros g i f n. unfold notation_value, Qeq. cbn [Qnum Qden]. rewrite !Z2Pos.id by (apply pow10_pos; lia).
  rewrite app_assoc, signed_num_crop, app_length, repeat_length, Nat2Z.inj_add, Z.pow_add_r by lia. ring.
Qed.

Lemma cut_point_spec : forall a b, Forall (fun c => c <> 46) a -> cut_point (a ++ 46 :: b) = Some (a, b).
Proof. intros a b H. induction H as [|c a Hc H IH]; [reflexivity|]. cbn [app cut_point]. destruct (Z.eqb_spec c 46); [contradiction|]. rewrite IH. reflexivity. Qed.
Lemma cut_point_none : forall a, Forall (fun c => c <> 46) a -> cut_point a = None.
Proof. intros a H. induction H as [|c a Hc H IH]; [reflexivity|]. cbn [cut_point]. destruct (Z.eqb_spec c 46); [contradiction|]. rewrite IH. reflexivity. Qed.
Lemma digits_no_point : forall d, Forall digit_char d -> Forall (fun c => c <> 46) d.
Proof. intros d H. eapply Forall_impl; [|exact H]. unfold digit_char. intros; lia. Qed.
Lemma sign_no_point : forall g, Forall (fun c => c <> 46) (sign_text g).
Proof. destruct g; cbn; repeat constructor; lia. Qed.
Lemma s64_std : std_type (signed_t 64). Proof. constructor. lia. Qed.
Lemma parse_ok : forall g d, Forall digit_char d -> sign_text g ++ d <> [] -> num d <= 2 ^ 63 - 1 -> parse_s64 (sign_text g ++ d) = DOk (signed_num g d).
Proof.
  intros g d Hd Hn Hb. unfold parse_s64. rewrite from_string_value; [|exact s64_std|exact Hd|exact Hn|intros; reflexivity].
  pose proof (num_bounds d Hd) as B. replace (fitsb (signed_t 64) (signed_num g d)) with true; [reflexivity|]. symmetry. apply fitsb_spec. unfold fits, signed_t. cbn [t_min t_max].
  change (64 - 1) with 63. destruct g; cbn [signed_num]; lia.
Qed.
