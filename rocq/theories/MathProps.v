(** C61: alignment, gcd and lcm, powers, fractions, numeric ranges and bits. *)
From Verif Require Import Base ITextModel ITextSpec ITextProofs MathModel MathSpec MathProofs MathProofs2 MathProofs3.
From Coq Require Import Lia ZArith.
Local Open Scope Z_scope.

(** AlignUp is the least multiple not below the value, AlignDown the greatest not above, when value + boundary - 1 fits
    (for types narrower than int: when the result fits). *)
Theorem C61_align_up_partial w v b : 0 <= w -> 0 < b -> 0 <= v ->
  v + b - 1 < 2 ^ w \/ (w < 32 /\ exists m, multiple_of b m /\ v <= m < 2 ^ w) ->
  exists m, align_up w v b = Some m /\ least_multiple b v m.
Proof. intros Hw Hb Hv [H|[H H']]; [apply align_up_spec|apply align_up_narrow]; try assumption. split; assumption. Qed.
Theorem C61_align_down w v b : 0 <= w -> 0 < b -> 0 <= v < 2 ^ w -> exists m, align_down w v b = Some m /\ greatest_multiple b v m.
Proof. exact (align_down_spec w v b). Qed.
(** For a signed type, and a value that is not negative, both are right too, as long as nothing overflows. *)
Theorem C61_align_signed_nonneg v b : 0 < b -> 0 <= v ->
  (exists m, align_up_signed v b = Some m /\ least_multiple b v m) /\ (exists m, align_down_signed v b = Some m /\ greatest_multiple b v m).
Proof.
  intros Hb Hv. unfold align_up_signed, align_down_signed. rewrite (proj2 (Z.eqb_neq b 0)) by lia.
  rewrite !Z.quot_div_nonneg by lia. split; eexists; (split; [reflexivity|]); (split; [eexists; reflexivity || (rewrite Z.mul_comm; reflexivity)|]).
  - pose proof (Z.div_mod (v + b - 1) b ltac:(lia)). pose proof (Z.mod_pos_bound (v + b - 1) b Hb). split; [lia|].
    intros x (k & ->) Hx. assert ((v + b - 1) / b <= k); [|nia]. apply Z.lt_succ_r. apply Z.div_lt_upper_bound; [lia|nia].
  - pose proof (Z.div_mod v b ltac:(lia)). pose proof (Z.mod_pos_bound v b Hb). split; [lia|].
    intros x (k & ->) Hx. assert (k <= v / b); [|nia]. apply Z.div_le_lower_bound; [lia|nia].
Qed.
Print Assumptions C61_align_signed_nonneg.
(** A value of 32 or 64 bits that is aligned already can be moved to 0; negative values are aligned the wrong way. *)
Theorem C61_align_up_wraps_refuted :
  align_up 64 (2 ^ 64 - 1) 3 = Some 0 /\ multiple_of 3 (2 ^ 64 - 1) /\ ~ least_multiple 3 (2 ^ 64 - 1) 0.
Proof. split; [vm_compute; reflexivity|]. split; [exists 6148914691236517205; vm_compute; reflexivity|]. intros (_ & H & _). lia. Qed.
Theorem C61_align_signed_refuted :
  align_up_signed (-5) 4 = Some 0 /\ ~ least_multiple 4 (-5) 0 /\ align_down_signed (-1) 4 = Some 0 /\ ~ greatest_multiple 4 (-1) 0.
Proof.
  repeat split; try reflexivity.
  - intros (_ & _ & H). specialize (H (-4) ltac:(exists (-1); reflexivity)). lia.
  - intros (_ & H & _). lia.
Qed.

(** Gcd is the greatest common divisor; Lcm the least common multiple if it fits into 64 bits; Lcm(0, 0) divides by zero. *)
Theorem C61_gcd a b : 0 <= a -> 0 <= b -> exists g, gcd (Z.to_nat b + 1) a b = Some g /\ 0 <= g /\
  (g | a) /\ (g | b) /\ (forall d, (d | a) -> (d | b) -> (d | g)).
Proof.
  intros Ha Hb. exists (Z.gcd a b). split; [apply gcd_spec; lia|]. split; [apply Z.gcd_nonneg|].
  split; [apply Z.gcd_divide_l|]. split; [apply Z.gcd_divide_r|]. apply Z.gcd_greatest.
Qed.
Theorem C61_lcm a b : 0 <= a -> 0 <= b -> a <> 0 \/ b <> 0 ->
  exists m, lcm (Z.to_nat b + 1) a b = Some (m mod 2 ^ 64) /\ 0 <= m /\ (a | m) /\ (b | m) /\ (forall n, (a | n) -> (b | n) -> (m | n)).
Proof.
  intros Ha Hb N. exists (Z.lcm a b). split.
  - rewrite lcm_spec by lia. destruct (Z.eqb_spec a 0), (Z.eqb_spec b 0); cbn; try reflexivity; exfalso; lia.
  - split; [apply Z.lcm_nonneg|]. split; [apply Z.divide_lcm_l|]. split; [apply Z.divide_lcm_r|]. apply Z.lcm_least.
Qed.
Theorem C61_lcm_zero_refuted fuel : lcm (S fuel) 0 0 = None.
Proof. reflexivity. Qed.

(** IsPowerOfNumber: exactly the powers, 1 included. *)
Theorem C61_is_power number t : 2 <= number -> 0 <= t < 2 ^ 64 ->
  exists b, is_power_of number t = Some b /\ (b = true <-> exists k, 0 <= k /\ t = number ^ k).
Proof. intros Hn Ht. apply is_power_spec; lia. Qed.

(** CalculateFractionRemainder, when remainder * radix^target fits into 64 bits: a proper fraction (or one), which is the exact
    fraction rounded down or up; up always from one half (of an even radix) on if one more digit fits, and
    never below (h - 1) / (radix - 1): 4/9 in radix 10. *)
Theorem C61_fraction_remainder_partial dividend divisor target r :
  0 <= dividend -> 0 < divisor < 2 ^ 64 -> 2 <= r ->
  let x := dividend mod divisor in
  x * r ^ Z.of_nat target < 2 ^ 64 -> r ^ Z.of_nat target < 2 ^ 64 ->
  let h := r / 2 + r mod 2 in
  let q := x * r ^ Z.of_nat target / divisor in
  let rest := (x * r ^ Z.of_nat target) mod divisor in
  exists i, fraction_remainder dividend divisor target r = IOk i /\ proper r i target /\
    (stands_for r i target = q \/ stands_for r i target = q + 1) /\
    (stands_for r i target = q + 1 -> (h - 1) * divisor <= (r - 1) * rest) /\
    (x * r ^ Z.of_nat (S target) < 2 ^ 64 -> h * divisor <= r * rest -> stands_for r i target = q + 1).
Proof.
  intros Hd Hv Hr x Hx Ht h q rest. assert (Hh : 1 <= h <= r) by (exact (half_up_bounds r Hr)).
  pose proof (Z.mod_pos_bound dividend divisor ltac:(lia)) as B. fold x in B.
  destruct (Z.eq_dec x 0) as [E0|N0].
  - exists (mkF 0 0 false). unfold fraction_remainder. fold x. rewrite E0. destruct (Z.eqb_spec divisor 0); [lia|]. destruct (Z.ltb_spec 1 r); [|lia]. cbn [negb Z.eqb].
    assert (Eq : q = 0) by (unfold q; rewrite E0; reflexivity). assert (Er : rest = 0) by (unfold rest; rewrite E0; reflexivity).
    rewrite Eq, Er. unfold proper, stands_for. cbn [f_fraction f_precision f_overflow]. rewrite Z.mul_0_l.
    split; [reflexivity|]. split; [split; [lia|cbn; lia]|]. split; [left; reflexivity|]. split; [lia|]. intros _ H1. nia.
  - destruct (fraction_remainder_spec dividend divisor target r Hd Hv Hr N0) as (n & A & E). fold x in A, E. cbv zeta in A, E.
    exists (round_fraction (x * r ^ Z.of_nat n / divisor) n target r). split; [exact E|].
    assert (Hn : (target <= n)%nat) by (apply (enough_digits x r n target); lia).
    set (f := x * r ^ Z.of_nat n / divisor). assert (Pn : 0 < r ^ Z.of_nat n) by (apply Z.pow_pos_nonneg; lia).
    assert (Bf : 0 <= f < r ^ Z.of_nat n) by (unfold f; split; [apply Z.div_pos; nia|apply Z.div_lt_upper_bound; nia]).
    destruct (round_fraction_spec f n target r Hr Bf Ht Hn) as [P St]. split; [exact P|].
    set (k := (n - target)%nat) in *. assert (En : n = (target + k)%nat) by lia.
    destruct (digits_div x target k r divisor Hr ltac:(lia) ltac:(lia)) as [D _]. pose proof (carry_remainder x target k r divisor Hr ltac:(lia) ltac:(lia)) as C.
    cbv zeta in D, C. rewrite <- En in D, C. fold f in D, C. fold q in D. fold rest in C. rewrite D, C in St. rewrite St.
    pose proof (round_up_from_closed r k Hr) as T. fold h in T. unfold half_up in T. fold h in T.
    assert (Pk : 0 < r ^ Z.of_nat k) by (apply Z.pow_pos_nonneg; lia).
    assert (Br : 0 <= rest < divisor) by (apply Z.mod_pos_bound; lia).
    set (R := round_up_from k r) in *. set (K := r ^ Z.of_nat k) in *.
    split; [destruct (_ <=? _); lia|]. split.
    + destruct (Z.leb_spec (R * divisor) (rest * K)) as [L|L]; [|lia]. intros _.
      assert ((h - 1) * K <= R * (r - 1)) by nia.
      assert ((h - 1) * K * divisor <= (r - 1) * rest * K); [|nia].
      transitivity (R * (r - 1) * divisor); [apply Z.mul_le_mono_nonneg_r; lia|].
      replace (R * (r - 1) * divisor) with ((r - 1) * (R * divisor)) by ring. replace ((r - 1) * rest * K) with ((r - 1) * (rest * K)) by ring.
      apply Z.mul_le_mono_nonneg_l; lia.
    + intros H1 H2. assert (Hk : (S target <= n)%nat) by (apply (enough_digits x r n (S target)); lia).
      destruct (Z.leb_spec (R * divisor) (rest * K)) as [L|L]; [reflexivity|]. exfalso.
      destruct k as [|k']; [lia|]. assert (EK : K = r * r ^ Z.of_nat k') by (unfold K; rewrite Nat2Z.inj_succ, Z.pow_succ_r by lia; reflexivity).
      pose proof (round_up_from_bounds r k' Hr) as BT. assert (ER : R = (h - 1) * r ^ Z.of_nat k' + round_up_from k' r) by reflexivity.
      set (K' := r ^ Z.of_nat k') in *. assert (R <= h * K') by lia. assert (0 <= K') by lia.
      assert (R * divisor <= h * K' * divisor) by (apply Z.mul_le_mono_nonneg_r; lia).
      assert (h * divisor * K' <= r * rest * K') by (apply Z.mul_le_mono_nonneg_r; lia). nia.
Qed.
(** Rounding is not to the nearest: 446/1000 to one digit is 0.5; and with a large divisor a remainder can vanish. *)
Theorem C61_fraction_nearest_refuted : fraction_remainder 446 1000 1 10 = IOk (mkF 5 1 false).
Proof. vm_compute. reflexivity. Qed.
Theorem C61_fraction_large_divisor_refuted : fraction_remainder (2 ^ 63) (2 ^ 64 - 1) 2 10 = IOk (mkF 0 0 false).
Proof. vm_compute. reflexivity. Qed.

(** ParseDecimalFraction of digits that fit into 64 bits: the fraction itself, padded with zeros, if there are not more digits
    than asked for (or IndexOutOfRange if that does not fit), otherwise rounded as above. *)
Theorem C61_parse_fraction_partial d target : d <> [] -> Forall digit_char d -> num d < 2 ^ 64 -> 10 ^ Z.of_nat target < 2 ^ 64 ->
  let k := (length d - target)%nat in
  exists i, parse_fraction d target = IOk i /\ proper 10 i target /\
    ((length d <= target)%nat -> stands_for 10 i target = num d * 10 ^ Z.of_nat (target - length d)) /\
    ((target < length d)%nat -> stands_for 10 i target =
       num d / 10 ^ Z.of_nat k + (if round_up_from k 10 <=? num d mod 10 ^ Z.of_nat k then 1 else 0)).
Proof.
  intros N F L Ht k. rewrite parse_fraction_digits by assumption. destruct (Z.ltb_spec (num d) (2 ^ 64)); [|lia].
  pose proof (num_bound d F) as B. destruct (Z.eqb_spec (num d) 0) as [E0|N0].
  - exists (mkF 0 0 false). split; [reflexivity|]. unfold proper, stands_for. cbn [f_fraction f_precision f_overflow]. rewrite E0, !Z.mul_0_l.
    split; [split; [lia|cbn; lia]|]. split; [reflexivity|]. intros _. pose proof (round_up_from_bounds 10 k ltac:(lia)).
    rewrite Z.mod_0_l, Z.div_0_l by (apply Z.pow_nonzero; lia). destruct (Z.leb_spec (round_up_from k 10) 0); [lia|reflexivity].
  - rewrite pad_loop_spec by lia. assert (Pt : 0 < 10 ^ Z.of_nat (target - length d)) by (apply Z.pow_pos_nonneg; lia).
    destruct (Nat.le_gt_cases (length d) target) as [Hl|Hl].
    + assert (Bp : num d * 10 ^ Z.of_nat (target - length d) < 10 ^ Z.of_nat target).
      { replace (Z.of_nat target) with (Z.of_nat (length d) + Z.of_nat (target - length d)) by lia. rewrite Z.pow_add_r by lia. nia. }
      destruct (Z.ltb_spec (num d * 10 ^ Z.of_nat (target - length d)) (2 ^ 64)); [|lia].
      rewrite round_fraction_same by lia. replace (Nat.max (length d) target) with target by lia.
      eexists. split; [reflexivity|]. unfold proper, stands_for. cbn [f_fraction f_precision f_overflow]. rewrite Nat.sub_diag. change (10 ^ Z.of_nat 0) with 1.
      split; [split; [lia|nia]|]. split; [lia|intros; lia].
    + replace (target - length d)%nat with 0%nat by lia. change (10 ^ Z.of_nat 0) with 1. rewrite Z.mul_1_r.
      destruct (Z.ltb_spec (num d) (2 ^ 64)); [|lia]. replace (Nat.max (length d) target) with (length d) by lia.
      destruct (round_fraction_spec (num d) (length d) target 10 ltac:(lia) B Ht ltac:(lia)) as [P S].
      eexists. split; [reflexivity|]. split; [exact P|]. split; [intros; lia|]. intros _. exact S.
Qed.
Theorem C61_parse_fraction_refusals d target : d <> [] -> Forall digit_char d ->
  (parse_fraction d target = IRange <-> 2 ^ 64 <= num d * 10 ^ Z.of_nat (target - length d)).
Proof.
  intros N F. rewrite parse_fraction_digits by assumption. pose proof (num_bound d F) as B.
  assert (Pt : 0 < 10 ^ Z.of_nat (target - length d)) by (apply Z.pow_pos_nonneg; lia).
  destruct (Z.ltb_spec (num d) (2 ^ 64)) as [L|L]; [|split; [nia|reflexivity]].
  destruct (Z.eqb_spec (num d) 0) as [E0|N0]; [rewrite E0; split; [discriminate|lia]|].
  rewrite pad_loop_spec by lia. destruct (Z.ltb_spec (num d * 10 ^ Z.of_nat (target - length d)) (2 ^ 64)); split; try discriminate; try reflexivity; lia.
Qed.
(** A sign counts as a digit: ".+5" is read as 0.05; and with 20 digits or more asked for, rounding can report a false overflow. *)
Theorem C61_parse_fraction_sign_refuted : parse_fraction [43; 53] 3 = IOk (mkF 50 3 false).
Proof. vm_compute. reflexivity. Qed.
Theorem C61_parse_fraction_wrap_refuted : parse_fraction (repeat 48 64 ++ [53]) 64 = IOk (mkF 1 64 true).
Proof. vm_compute. reflexivity. Qed.

(** NumericRange: Contains is the closed range, ContainsStrict its inner points; Intersect and Union never throw; Intersect keeps
    exactly the common inner points and nothing outside; IsIntersecting says whether it is not empty; Union is the hull; Clamp the nearest point. *)
Theorem C61_contains r t : valid r -> (n_contains r t = true <-> inside r t) /\ (n_contains_strict r t = true <-> n_start r < t < n_end r).
Proof.
  intros V. unfold n_contains, n_contains_strict, n_is_empty, inside, valid in *. rewrite !andb_true_iff, negb_true_iff, Z.eqb_neq, !Z.leb_le, !Z.ltb_lt. lia.
Qed.
Theorem C61_intersect a b : valid a -> valid b -> exists r, n_intersect a b = Some r /\ valid r /\
  (forall t, n_start r < t < n_end r <-> n_start a < t < n_end a /\ n_start b < t < n_end b) /\
  (forall t, inside r t -> inside a t /\ inside b t) /\
  (n_intersecting a b = negb (n_is_empty r)) /\
  (n_intersecting a b = true <-> exists t, n_start a <= t < n_end a /\ n_start b <= t < n_end b).
Proof.
  intros Va Vb. unfold n_intersect, n_intersecting, n_is_empty, make_range, valid, inside in *. cbv zeta.
  destruct (Z.eqb_spec (n_start a) (n_end a)); cbn [orb].
  - exists n_empty. cbn. repeat split; try lia; try discriminate. intros (t & H). lia.
  - destruct (Z.eqb_spec (n_start b) (n_end b)); cbn [orb].
    + exists n_empty. cbn. repeat split; try lia; try discriminate. intros (t & H). lia.
    + destruct (Z.leb_spec (Z.min (n_end a) (n_end b)) (Z.max (n_start a) (n_start b))) as [L|L].
      * exists n_empty. cbn [n_empty n_start n_end].
        assert (E : (n_start a <? n_end b) && (n_start b <? n_end a) = false) by (apply andb_false_iff; rewrite !Z.ltb_ge; lia). rewrite E.
        repeat split; try lia; try discriminate. intros (t & H). lia.
      * destruct (Z.leb_spec (Z.max (n_start a) (n_start b)) (Z.min (n_end a) (n_end b))); [|lia].
        exists (mkN (Z.max (n_start a) (n_start b)) (Z.min (n_end a) (n_end b))). cbn [n_start n_end].
        assert (E : (n_start a <? n_end b) && (n_start b <? n_end a) = true) by (apply andb_true_iff; rewrite !Z.ltb_lt; lia). rewrite E.
        repeat split; try lia.
        intros _. exists (Z.max (n_start a) (n_start b)). lia.
Qed.
Theorem C61_union a b : valid a -> valid b -> exists r, n_union a b = Some r /\ valid r /\
  (forall t, inside a t \/ inside b t -> inside r t) /\
  (forall r', (forall t, inside a t \/ inside b t -> inside r' t) -> forall t, inside r t -> inside r' t).
Proof.
  intros Va Vb. unfold n_union, n_is_empty, make_range, valid, inside in *.
  destruct (Z.eqb_spec (n_start a) (n_end a)).
  - exists b. split; [reflexivity|]. split; [exact Vb|]. split; [intros t H; lia|]. intros r' H t Ht. apply H. right. exact Ht.
  - destruct (Z.eqb_spec (n_start b) (n_end b)).
    + exists a. split; [reflexivity|]. split; [exact Va|]. split; [intros t H; lia|]. intros r' H t Ht. apply H. left. exact Ht.
    + destruct (Z.leb_spec (Z.min (n_start a) (n_start b)) (Z.max (n_end a) (n_end b))); [|lia].
      exists (mkN (Z.min (n_start a) (n_start b)) (Z.max (n_end a) (n_end b))). cbn [n_start n_end]. split; [reflexivity|]. split; [lia|]. split; [lia|].
      intros r' H2 t Ht. pose proof (H2 (n_start a) ltac:(lia)). pose proof (H2 (n_end a) ltac:(lia)). pose proof (H2 (n_start b) ltac:(lia)). pose proof (H2 (n_end b) ltac:(lia)). lia.
Qed.
Theorem C61_clamp r t : valid r -> n_start r <= n_clamp r t <= n_end r /\ (forall y, n_start r <= y <= n_end r -> Z.abs (t - n_clamp r t) <= Z.abs (t - y)).
Proof. intros V. unfold n_clamp, valid in *. split; intros; lia. Qed.
(** Two ranges can contain a common point and not intersect. *)
Theorem C61_touching_refuted : n_contains (mkN 0 5) 5 = true /\ n_contains (mkN 5 9) 5 = true /\ n_intersecting (mkN 0 5) (mkN 5 9) = false.
Proof. repeat split; reflexivity. Qed.

(** TestBit reads a bit; SetBit, ResetBit and FlipBit change that bit and no other, in every signed and unsigned type; ReverseBits reverses. *)
Theorem C61_bits t w i n : sized t w -> fits t n -> 0 <= i < w ->
  test_bit t i n = Z.testbit n i /\
  (forall m, fits t m -> (m = set_bit t i n <-> forall j, 0 <= j < w -> Z.testbit m j = if j =? i then true else Z.testbit n j)) /\
  (forall m, fits t m -> (m = reset_bit t i n <-> forall j, 0 <= j < w -> Z.testbit m j = if j =? i then false else Z.testbit n j)) /\
  (forall m, fits t m -> (m = flip_bit t i n <-> forall j, 0 <= j < w -> Z.testbit m j = if j =? i then negb (Z.testbit n j) else Z.testbit n j)).
Proof.
  intros H Hf Hi. split; [apply (test_bit_spec t w); assumption|].
  split; [|split]; intros m Hm; (split; [intros -> j Hj|intros E; apply (fits_bits t w); [exact H|exact Hm|apply (conv_fits t w); exact H|]; intros j Hj; rewrite E by exact Hj]).
  1,2: rewrite (set_bit_spec t w) by assumption. 3,4: rewrite (reset_bit_spec t w) by assumption. 5,6: rewrite (flip_bit_spec t w) by assumption.
  all: rewrite (Z.eqb_sym i j); destruct (j =? i); reflexivity || (destruct (Z.testbit n j); reflexivity).
Qed.
Theorem C61_reverse_bits b i : 0 <= b < 256 -> 0 <= i < 8 -> 0 <= reverse_bits b < 256 /\ Z.testbit (reverse_bits b) i = Z.testbit b (7 - i).
Proof. exact (reverse_bits_spec b i). Qed.

(** IntegerBuilder with unsigned fields of w bits: the fields' bits one after the other, most significant first; the last bits if they are too many. *)
Fixpoint appends (rw : Z) (result : Z) (l : list (Z * Z * nat)) : option Z :=
  match l with
  | [] => Some result
  | (w, f, n) :: l' => match append rw (unsigned_t w) w result f (Z.of_nat n) with Some r => appends rw r l' | None => None end
  end.
Definition good_field (rw : Z) (x : Z * Z * nat) : Prop :=
  let '(w, f, n) := x in 1 <= w <= 64 /\ 0 <= f < 2 ^ w /\ Z.of_nat n <= w /\ Z.of_nat n < Z.max rw 32 /\ (n = 0%nat -> w < 32).
Theorem C61_builder_partial rw l : 0 <= rw -> Forall (good_field rw) l ->
  appends rw 0 l = Some (bits_number (concat (map (fun '(w, f, n) => field_bits f n) l)) mod 2 ^ rw).
Proof.
  intros Hrw F. assert (P : 0 < 2 ^ rw) by (apply Z.pow_pos_nonneg; lia).
  assert (G : forall bits, appends rw (bits_number bits mod 2 ^ rw) l = Some (bits_number (bits ++ concat (map (fun '(w, f, n) => field_bits f n) l)) mod 2 ^ rw)).
  - induction F as [|[[w f] n] l (H1 & H2 & H3 & H4 & H5) F IH]; intros bits; [cbn; rewrite app_nil_r; reflexivity|].
    cbn [appends map concat]. rewrite append_spec by (lia || (intros; apply H5; lia)).
    rewrite app_assoc. rewrite <- IH. f_equal. rewrite bits_number_app, field_bits_number. unfold field_bits. rewrite map_length, rev_length, seq_length.
    rewrite Z.add_mod, Z.mul_mod_idemp_l, <- Z.add_mod by lia. reflexivity.
  - specialize (G []). cbn [app bits_number fold_left] in G. rewrite Z.mod_0_l in G by lia. exact G.
Qed.
(** A field of a signed type is not cut, so it must be non-negative and fit in its size; then it is appended. *)
Theorem C61_builder_signed_field : forall rw w result field n, 0 <= rw -> 1 <= w <= 64 -> 0 <= field < 2 ^ (w - 1) ->
  0 <= n <= w -> n < Z.max rw 32 -> (n = 0 -> w < 32) -> field < 2 ^ n ->
  append rw (signed_t w) w result field n = Some ((result * 2 ^ n + field) mod 2 ^ rw).
Proof.
  intros rw w result field n Hrw Hw Hf Hn Hm H0 Hs. unfold append, reset_msb, shift_ok.
  replace ((0 <=? n) && (n <? Z.max rw 32)) with true by (symmetry; apply andb_true_iff; split; [apply Z.leb_le|apply Z.ltb_lt]; lia).
  rewrite (Z.mod_small (w - n)) by lia.
  replace ((0 <=? w - n) && (w - n <? Z.max w 32)) with true by (symmetry; apply andb_true_iff; split; [apply Z.leb_le|apply Z.ltb_lt]; lia).
  assert (P : 0 < 2 ^ (w - 1)) by (apply Z.pow_pos_nonneg; lia).
  assert (Es : is_signed (signed_t w) = true) by (unfold is_signed, signed_t; cbn [t_min]; apply Z.ltb_lt; lia). rewrite Es.
  assert (Em : Z.shiftr (-1) (w - n) = -1) by (apply Z.bits_inj'; intros j Hj; rewrite Z.shiftr_spec, !Z.bits_m1 by lia; reflexivity).
  rewrite Em, Z.land_m1_r.
  assert (Ec : conv (signed_t w) field = field).
  { unfold conv. cbn [t_min t_max signed_t]. rewrite Z.mod_small; lia. }
  rewrite Ec, lor_mod by lia. rewrite lor_add by lia. reflexivity.
Qed.
Example C61_ex_builder_signed : append 16 (signed_t 8) 8 5 100 7 = Some 740.
Proof. reflexivity. Qed.
(** A negative field of a signed type is not cut to its size and overwrites what was appended before; size 0 of a u32 field is undefined. *)
Theorem C61_builder_signed_refuted : append 16 (signed_t 8) 8 0 (-1) 4 = Some 65535.
Proof. vm_compute. reflexivity. Qed.
Theorem C61_builder_empty_field_refuted : append 32 (unsigned_t 32) 32 7 0 0 = None.
Proof. vm_compute. reflexivity. Qed.

(** Cases. *)
Example C61_ex_align : align_up 64 13 8 = Some 16 /\ align_down 64 13 8 = Some 8 /\ align_up 8 250 5 = Some 250.
Proof. vm_compute. auto. Qed.
Example C61_ex_gcd : gcd 13 18 12 = Some 6 /\ lcm 13 18 12 = Some 36.
Proof. vm_compute. auto. Qed.
Example C61_ex_power : is_power_of 10 10000000000000000000 = Some true /\ is_power_of 2 (2 ^ 63) = Some true /\ is_power_of 3 6 = Some false.
Proof. vm_compute. auto. Qed.
Example C61_ex_fraction : fraction_remainder 2 3 3 10 = IOk (mkF 667 3 false) /\ fraction_remainder 999 1000 2 10 = IOk (mkF 0 0 true) /\ fraction_remainder 10 4 3 10 = IOk (mkF 500 3 false).
Proof. vm_compute. auto. Qed.
Example C61_ex_parse : parse_fraction [48; 53] 3 = IOk (mkF 50 3 false) /\ parse_fraction [57; 57; 54] 2 = IOk (mkF 0 0 true).
Proof. vm_compute. auto. Qed.
Example C61_ex_bits : sized (signed_t 32) 32 /\ set_bit (signed_t 32) 31 0 = - 2 ^ 31 /\ test_bit (signed_t 32) 31 (-1) = true.
Proof. split; [split; [lia|auto]|]. vm_compute. auto. Qed.
Example C61_ex_builder : appends 16 0 [(8, 5, 3%nat); (32, 1023, 4%nat); (8, 1, 1%nat)] = Some 191 /\ Forall (good_field 16) [(8, 5, 3%nat); (32, 1023, 4%nat); (8, 1, 1%nat)].
Proof. split; [vm_compute; reflexivity|]. repeat constructor; cbn; lia. Qed.

Print Assumptions C61_align_up_partial.
Print Assumptions C61_is_power.
Print Assumptions C61_fraction_remainder_partial.
Print Assumptions C61_parse_fraction_partial.
Print Assumptions C61_intersect.
Print Assumptions C61_bits.
Print Assumptions C61_builder_partial.
Print Assumptions C61_builder_signed_field.
