From Verif Require Import Base ITextModel ITextSpec ITextProofs MathModel MathSpec MathProofs MathProofs2.
From Coq Require Import Lia ZArith.
Local Open Scope Z_scope.

Lemma digits_div x t k r d : 2 <= r -> 0 < d -> 0 <= x ->
  let X := x * r ^ Z.of_nat t in
  let f := x * r ^ Z.of_nat (t + k) / d in
  f / r ^ Z.of_nat k = X / d /\ f mod r ^ Z.of_nat k = X mod d * r ^ Z.of_nat k / d.
Proof.
  intros Hr Hd Hx. cbv zeta. set (X := x * r ^ Z.of_nat t). assert (HP : 0 < r ^ Z.of_nat k) by (apply Z.pow_pos_nonneg; lia).
  assert (E : x * r ^ Z.of_nat (t + k) = X * r ^ Z.of_nat k) by (unfold X; rewrite Nat2Z.inj_add, Z.pow_add_r by lia; ring). rewrite E.
  set (P := r ^ Z.of_nat k) in *. pose proof (Z.div_mod X d ltac:(lia)) as D. pose proof (Z.mod_pos_bound X d Hd) as B.
  set (q := X / d) in *. set (R := X mod d) in *.
  assert (Ef : X * P / d = q * P + R * P / d).
  { replace (X * P) with (q * P * d + R * P) by (rewrite D; ring). apply Z.div_add_l. lia. }
  assert (Bf : 0 <= R * P / d < P) by (split; [apply Z.div_pos; nia|apply Z.div_lt_upper_bound; nia]).
  rewrite Ef. split; [symmetry; apply Z.div_unique with (R * P / d); lia|symmetry; apply Z.mod_unique with q; lia].
Qed.
Lemma carry_remainder x t k r d : 2 <= r -> 0 < d -> 0 <= x ->
  let f := x * r ^ Z.of_nat (t + k) / d in
  carry r f k = if round_up_from k r * d <=? (x * r ^ Z.of_nat t) mod d * r ^ Z.of_nat k then 1 else 0.
Proof.
  intros Hr Hd Hx. cbv zeta. unfold carry. destruct (digits_div x t k r d Hr Hd Hx) as [_ ->].
  set (Y := (x * r ^ Z.of_nat t) mod d * r ^ Z.of_nat k). set (T := round_up_from k r).
  pose proof (Z.div_mod Y d ltac:(lia)). pose proof (Z.mod_pos_bound Y d Hd). set (q := Y / d) in *.
  destruct (Z.leb_spec T q), (Z.leb_spec (T * d) Y); try reflexivity; exfalso; nia.
Qed.
Lemma round_up_from_closed r k : 2 <= r -> round_up_from k r * (r - 1) = (half_up r - 1) * (r ^ Z.of_nat k - 1) + (r - 1).
Proof.
  intros Hr. induction k as [|k IH]; [cbn [round_up_from]; change (r ^ Z.of_nat 0) with 1; ring|]. cbn [round_up_from]. fold (half_up r). rewrite Nat2Z.inj_succ, Z.pow_succ_r by lia.
  rewrite Z.mul_add_distr_r, IH. ring.
Qed.

(** * ParseDecimalFraction *)
Lemma pad_loop_spec n : forall f, 0 <= f < 2 ^ 64 ->
  pad_loop n f = if f * 10 ^ Z.of_nat n <? 2 ^ 64 then IOk (f * 10 ^ Z.of_nat n) else IRange.
Proof.
  induction n as [|n IH]; intros f Hf; cbn [pad_loop].
  - change (10 ^ Z.of_nat 0) with 1. rewrite Z.mul_1_r. destruct (Z.ltb_spec f (2 ^ 64)); [reflexivity|lia].
  - assert (E : f * 10 ^ Z.of_nat (S n) = f * 10 * 10 ^ Z.of_nat n) by (rewrite Nat2Z.inj_succ, Z.pow_succ_r by lia; ring). rewrite E.
    assert (0 < 10 ^ Z.of_nat n) by (apply Z.pow_pos_nonneg; lia).
    destruct (Z.leb_spec f ((2 ^ 64 - 1) / 10)) as [L|L].
    + apply le_div_max in L; [|lia]. rewrite Z.mod_small by lia. apply IH. lia.
    + assert (2 ^ 64 <= f * 10).
      { destruct (Z.lt_ge_cases (f * 10) (2 ^ 64)) as [H1|H1]; [|exact H1]. exfalso. exact (Zlt_not_le _ _ L (proj2 (le_div_max f 10 ltac:(lia)) H1)). }
      destruct (Z.ltb_spec (f * 10 * 10 ^ Z.of_nat n) (2 ^ 64)); [exfalso; nia|reflexivity].
Qed.
Lemma num_snoc d c : num (d ++ [c]) = 10 * num d + (c - 48).
Proof. unfold num. rewrite fold_left_app. reflexivity. Qed.
Lemma num_bound d : Forall digit_char d -> 0 <= num d < 10 ^ Z.of_nat (length d).
Proof.
  induction d as [|c d IH] using rev_ind; intros F; [cbn; lia|]. apply Forall_app in F as [F1 F2]. inversion F2 as [|? ? Hc _]; subst.
  specialize (IH F1). rewrite num_snoc, app_length, Nat.add_1_r, Nat2Z.inj_succ, Z.pow_succ_r by lia. unfold digit_char in Hc. lia.
Qed.
Lemma parse_fraction_digits d target : d <> [] -> Forall digit_char d ->
  parse_fraction d target =
    if num d <? 2 ^ 64
    then if num d =? 0 then IOk (mkF 0 0 false)
         else match pad_loop (target - length d) (num d) with
              | IOk fr => IOk (round_fraction fr (Nat.max (length d) target) target 10)
              | IArgument => IArgument | IFormat => IFormat | IRange => IRange end
    else IRange.
Proof.
  intros N F. unfold parse_fraction. pose proof (num_bound d F) as B.
  pose proof (from_string_value (unsigned_t 64) NoSign d) as V. cbn [sign_text app signed_num] in V. rewrite V; auto; try discriminate.
  - unfold fitsb. cbn [unsigned_t t_min t_max]. destruct (Z.ltb_spec (num d) (2 ^ 64)) as [L|L].
    + replace ((0 <=? num d) && (num d <=? 2 ^ 64 - 1)) with true; [reflexivity|]. symmetry. apply andb_true_iff. split; apply Z.leb_le; lia.
    + replace ((0 <=? num d) && (num d <=? 2 ^ 64 - 1)) with false; [reflexivity|]. symmetry. apply andb_false_iff. right. apply Z.leb_gt. lia.
  - apply std_unsigned. lia.
Qed.

(** * bits *)
Lemma bits_low a b w j : a mod 2 ^ w = b mod 2 ^ w -> 0 <= j < w -> Z.testbit a j = Z.testbit b j.
Proof. intros E H. rewrite <- (Z.mod_pow2_bits_low a w j) by lia. rewrite E. apply Z.mod_pow2_bits_low. lia. Qed.
Definition sized (t : ity) (w : Z) : Prop := 1 <= w /\ (t = unsigned_t w \/ t = signed_t w).
Lemma sized_span t w : sized t w -> t_max t - t_min t + 1 = 2 ^ w /\ 0 < 2 ^ w.
Proof.
  intros (Hw & [-> | ->]); cbn [t_min t_max unsigned_t signed_t]; (split; [|apply Z.pow_pos_nonneg; lia]); [lia|].
  replace w with (Z.succ (w - 1)) at 3 by lia. rewrite Z.pow_succ_r by lia. lia.
Qed.
Lemma conv_mod t w v : sized t w -> conv t v mod 2 ^ w = v mod 2 ^ w.
Proof.
  intros H. destruct (sized_span t w H) as [E P]. unfold conv. rewrite E. rewrite Z.add_mod_idemp_r by lia. f_equal. lia.
Qed.
Lemma conv_fits t w v : sized t w -> fits t (conv t v).
Proof.
  intros H. destruct (sized_span t w H) as [E P]. unfold conv, fits. rewrite E. pose proof (Z.mod_pos_bound (v - t_min t) (2 ^ w) P). lia.
Qed.
Lemma conv_bit t w v j : sized t w -> 0 <= j < w -> Z.testbit (conv t v) j = Z.testbit v j.
Proof. intros H Hj. apply bits_low with w; [apply conv_mod; exact H|exact Hj]. Qed.
Lemma small_bits n k j : 0 <= n < 2 ^ k -> k <= j -> 0 <= k -> Z.testbit n j = false.
Proof.
  intros Hn Hj Hk. destruct (Z.eq_dec n 0) as [->|N]; [apply Z.bits_0|]. apply Z.bits_above_log2; [lia|].
  apply Z.lt_le_trans with k; [|exact Hj]. apply Z.log2_lt_pow2; lia.
Qed.
Lemma high_bits t w n j : sized t w -> fits t n -> w <= j -> Z.testbit n j = if is_signed t then Z.testbit n (w - 1) else false.
Proof.
  intros (Hw & [-> | ->]) Hf Hj; unfold fits, is_signed in *; cbn [t_min t_max unsigned_t signed_t] in *.
  - cbn. apply small_bits with w; lia.
  - assert (0 < 2 ^ (w - 1)) by (apply Z.pow_pos_nonneg; lia). destruct (Z.ltb_spec (- 2 ^ (w - 1)) 0); [|lia].
    destruct (Z.lt_ge_cases n 0) as [L|L].
    + rewrite <- (Z.lnot_involutive n). rewrite (Z.lnot_spec (Z.lnot n) j), (Z.lnot_spec (Z.lnot n) (w - 1)) by lia. f_equal. rewrite (small_bits (Z.lnot n) (w - 1) j), (small_bits (Z.lnot n) (w - 1) (w - 1)); auto; unfold Z.lnot; lia.
    + rewrite (small_bits n (w - 1) j), (small_bits n (w - 1) (w - 1)); auto; lia.
Qed.
Lemma bit_bits t w i j : sized t w -> 0 <= i -> 0 <= j < w -> Z.testbit (bit t i) j = (i =? j).
Proof. intros H Hi Hj. unfold bit. rewrite (conv_bit t w) by assumption. apply Z.pow2_bits_eqb. exact Hi. Qed.
Lemma test_bit_spec t w i n : sized t w -> fits t n -> 0 <= i < w -> test_bit t i n = Z.testbit n i.
Proof.
  intros H Hf Hi. unfold test_bit. destruct (Z.testbit n i) eqn:E.
  - destruct (Z.eqb_spec (Z.land n (bit t i)) 0) as [Q|_]; [|reflexivity]. exfalso.
    assert (B : Z.testbit (Z.land n (bit t i)) i = true) by (rewrite Z.land_spec, E, (bit_bits t w) by (assumption || lia); rewrite Z.eqb_refl; reflexivity).
    rewrite Q, Z.bits_0 in B. discriminate.
  - replace (Z.land n (bit t i)) with 0; [reflexivity|]. apply Z.bits_inj'. intros j Hj. rewrite Z.bits_0, Z.land_spec.
    destruct (Z.lt_ge_cases j w) as [L|L].
    + rewrite (bit_bits t w) by (assumption || lia). destruct (Z.eqb_spec i j) as [->|]; [rewrite E; reflexivity|rewrite andb_false_r; reflexivity].
    + assert (W : 1 <= w) by apply H. rewrite (high_bits t w n j), (high_bits t w (bit t i) j) by (assumption || apply (conv_fits t w); assumption).
      destruct (is_signed t); [|reflexivity]. rewrite (bit_bits t w) by (assumption || lia). destruct (Z.eqb_spec i (w - 1)) as [->|]; [rewrite E; reflexivity|symmetry; apply andb_false_r].
Qed.
Lemma set_bit_spec t w i n j : sized t w -> 0 <= i < w -> 0 <= j < w -> Z.testbit (set_bit t i n) j = (i =? j) || Z.testbit n j.
Proof. intros H Hi Hj. unfold set_bit. rewrite (conv_bit t w), Z.lor_spec, (bit_bits t w) by (assumption || lia). apply orb_comm. Qed.
Lemma reset_bit_spec t w i n j : sized t w -> 0 <= i < w -> 0 <= j < w -> Z.testbit (reset_bit t i n) j = negb (i =? j) && Z.testbit n j.
Proof. intros H Hi Hj. unfold reset_bit. rewrite (conv_bit t w), Z.land_spec, Z.lnot_spec, (bit_bits t w) by (assumption || lia). apply andb_comm. Qed.
Lemma flip_bit_spec t w i n j : sized t w -> 0 <= i < w -> 0 <= j < w -> Z.testbit (flip_bit t i n) j = xorb (i =? j) (Z.testbit n j).
Proof. intros H Hi Hj. unfold flip_bit. rewrite (conv_bit t w), Z.lxor_spec, (bit_bits t w) by (assumption || lia). apply xorb_comm. Qed.
Lemma fits_bits t w a b : sized t w -> fits t a -> fits t b -> (forall j, 0 <= j < w -> Z.testbit a j = Z.testbit b j) -> a = b.
Proof.
  intros H Ha Hb E. apply Z.bits_inj'. intros j Hj. destruct (Z.lt_ge_cases j w); [apply E; lia|].
  rewrite (high_bits t w a j), (high_bits t w b j) by assumption. destruct (is_signed t); [|reflexivity]. apply E. destruct H. lia.
Qed.

Lemma reverse_bits_spec b i : 0 <= b < 256 -> 0 <= i < 8 -> 0 <= reverse_bits b < 256 /\ Z.testbit (reverse_bits b) i = Z.testbit b (7 - i).
Proof.
  intros Hb Hi.
  assert (All : forallb (fun b => let v := reverse_bits (Z.of_nat b) in (0 <=? v) && (v <? 256) &&
     forallb (fun i => Bool.eqb (Z.testbit v (Z.of_nat i)) (Z.testbit (Z.of_nat b) (7 - Z.of_nat i))) (seq 0 8)) (seq 0 256) = true) by (vm_compute; reflexivity).
  rewrite forallb_forall in All. specialize (All (Z.to_nat b) ltac:(apply in_seq; lia)). rewrite Z2Nat.id in All by lia. cbv zeta in All.
  apply andb_true_iff in All as [A2 A3]. apply andb_true_iff in A2 as [A1 A2]. apply Z.leb_le in A1. apply Z.ltb_lt in A2. split; [lia|].
  rewrite forallb_forall in A3. specialize (A3 (Z.to_nat i) ltac:(apply in_seq; lia)). rewrite Z2Nat.id in A3 by lia. apply eqb_prop in A3. exact A3.
Qed.

(** * IntegerBuilder *)
Lemma lor_add A x n : 0 <= n -> 0 <= x < 2 ^ n -> Z.lor (A * 2 ^ n) x = A * 2 ^ n + x.
Proof.
  intros Hn Hx. rewrite <- Z.lxor_lor; [symmetry; apply Z.add_nocarry_lxor|]; apply Z.bits_inj'; intros j Hj; rewrite Z.bits_0, Z.land_spec;
    (destruct (Z.lt_ge_cases j n); [rewrite Z.mul_pow2_bits_low by lia; reflexivity|rewrite (small_bits x n j) by lia; apply andb_false_r]).
Qed.
Lemma lor_mod A x w : 0 <= w -> Z.lor (A mod 2 ^ w) x mod 2 ^ w = Z.lor A x mod 2 ^ w.
Proof.
  intros Hw. apply Z.bits_inj'. intros j Hj. destruct (Z.lt_ge_cases j w).
  - rewrite !Z.mod_pow2_bits_low, !Z.lor_spec, Z.mod_pow2_bits_low by lia. reflexivity.
  - rewrite !Z.mod_pow2_bits_high by lia. reflexivity.
Qed.
Lemma append_spec rw w result field n : 0 <= rw -> 1 <= w <= 64 -> 0 <= field < 2 ^ w ->
  0 <= n <= w -> n < Z.max rw 32 -> (n = 0 -> w < 32) ->
  append rw (unsigned_t w) w result field n = Some ((result * 2 ^ n + field mod 2 ^ n) mod 2 ^ rw).
Proof.
  intros Hrw Hw Hf Hn Hm H0. unfold append, reset_msb, shift_ok.
  replace ((0 <=? n) && (n <? Z.max rw 32)) with true by (symmetry; apply andb_true_iff; split; [apply Z.leb_le|apply Z.ltb_lt]; lia).
  rewrite (Z.mod_small (w - n)) by lia.
  replace ((0 <=? w - n) && (w - n <? Z.max w 32)) with true by (symmetry; apply andb_true_iff; split; [apply Z.leb_le|apply Z.ltb_lt]; lia).
  assert (Es : is_signed (unsigned_t w) = false) by reflexivity. rewrite Es. cbn [unsigned_t t_max].
  assert (P : 0 < 2 ^ n) by (apply Z.pow_pos_nonneg; lia).
  assert (Em : Z.shiftr (2 ^ w - 1) (w - n) = Z.ones n).
  { rewrite Z.shiftr_div_pow2 by lia. rewrite Z.ones_equiv. unfold Z.pred.
    assert (E : 2 ^ w = 2 ^ n * 2 ^ (w - n)) by (rewrite <- Z.pow_add_r by lia; f_equal; lia).
    assert (0 < 2 ^ (w - n)) by (apply Z.pow_pos_nonneg; lia).
    symmetry. apply Z.div_unique with (2 ^ (w - n) - 1); [lia|]. rewrite E. ring. }
  rewrite Em, Z.land_ones by lia.
  assert (Ec : conv (unsigned_t w) (field mod 2 ^ n) = field mod 2 ^ n).
  { unfold conv. cbn [t_min t_max unsigned_t]. replace (2 ^ w - 1 - 0 + 1) with (2 ^ w) by ring. rewrite Z.sub_0_r, Z.add_0_l. apply Z.mod_small.
    pose proof (Z.mod_pos_bound field (2 ^ n) P). assert (2 ^ n <= 2 ^ w) by (apply Z.pow_le_mono_r; lia). lia. }
  rewrite Ec. rewrite lor_mod by lia. rewrite lor_add by (lia || apply Z.mod_pos_bound; lia). reflexivity.
Qed.
Lemma bits_number_app l l' : bits_number (l ++ l') = bits_number l * 2 ^ Z.of_nat (length l') + bits_number l'.
Proof.
  revert l. induction l' as [|b l' IH] using rev_ind; intros l.
  - rewrite app_nil_r. cbn. ring.
  - rewrite app_assoc. unfold bits_number in *. rewrite fold_left_app. cbn [fold_left]. rewrite IH. rewrite fold_left_app. cbn [fold_left].
    rewrite app_length, Nat.add_1_r, Nat2Z.inj_succ, Z.pow_succ_r by lia. ring.
Qed.
Lemma field_bits_number f n : bits_number (field_bits f n) = f mod 2 ^ Z.of_nat n.
Proof.
  unfold field_bits. induction n as [|n IH]; [cbn; rewrite Z.mod_1_r; reflexivity|].
  rewrite seq_S, rev_app_distr. cbn [rev app map Nat.add]. change (?a :: ?l) with ([a] ++ l). rewrite bits_number_app, IH.
  rewrite map_length, rev_length, seq_length. rewrite Nat2Z.inj_succ, Z.pow_succ_r by lia. rewrite (Z.mul_comm 2), Z.rem_mul_r by (try (apply Z.pow_nonzero; lia); lia).
  assert (Eb : bits_number [Z.testbit f (Z.of_nat n)] = (f / 2 ^ Z.of_nat n) mod 2).
  { unfold bits_number. cbn [fold_left]. rewrite <- Z.testbit_spec' by lia. unfold Z.b2z. destruct (Z.testbit f (Z.of_nat n)); reflexivity. }
  rewrite Eb. ring.
Qed.
