(** C66: decimals and fixed point numbers compute what they say. *)
From Coq Require Import QArith Qabs.
From Verif Require Import Base ITextModel ITextSpec ITextProofs DecModel DecSpec DecProofs DecProofs2 FixModel FixSpec FixProofs FixProofs2.
Local Open Scope Z_scope.

(* ---------------------------------------------------------------- Decimal: the value *)
(** comparison is that of the numbers, for all decimals that a double can bring to the same exponent *)
Theorem C66_comparison_exact : forall a b, both_small a b ->
  (exists r, decimal_eq a b = DOk r /\ (r = true <-> (val a == val b)%Q)) /\ (exists r, decimal_lt a b = DOk r /\ (r = true <-> (val a < val b)%Q)).
Proof. exact decimal_compare. Qed.
Theorem C66_sum_exact : forall a b, both_small a b -> exists r, decimal_add a b = DOk r /\ (val r == val a + val b)%Q.
Proof. intros a b H. destruct (decimal_add_exact a b H) as [r [R [V _]]]. eauto. Qed.
Theorem C66_difference_exact : forall a b, both_small a b -> exists r, decimal_sub a b = DOk r /\ (val r == val a - val b)%Q.
Proof. exact decimal_sub_exact. Qed.
Theorem C66_negation_exact : forall a, proper a -> mant a <> - 2 ^ 63 -> exists r, decimal_neg a = DOk r /\ (val r == - val a)%Q.
Proof. intros a H N. destruct (decimal_neg_exact a H N) as [r [R [V _]]]. eauto. Qed.
Theorem C66_product_exact : forall a b, both_small a b -> Z.max (ex a) (ex b) < 2 ^ 15 ->
  - 2 ^ 63 <= mant a * mant b * 10 ^ Z.abs (ex a - ex b) <= 2 ^ 63 - 1 -> exists r, decimal_mul a b = DOk r /\ (val r == val a * val b)%Q.
Proof. exact decimal_mul_exact. Qed.

(** so decimals of a bounded size are totally ordered, and == is an equivalence that < respects *)
Definition set_small (l : list decimal) : Prop := forall a b, In a l -> In b l -> both_small a b.
Theorem C66_total_order : forall l, set_small l -> forall a b c, In a l -> In b l -> In c l ->
  decimal_eq a a = DOk true /\ decimal_lt a a = DOk false /\
  (decimal_eq a b = DOk true -> decimal_eq b a = DOk true) /\
  (decimal_eq a b = DOk true -> decimal_eq b c = DOk true -> decimal_eq a c = DOk true) /\
  (decimal_lt a b = DOk true -> decimal_lt b c = DOk true -> decimal_lt a c = DOk true) /\
  (decimal_lt a b = DOk true \/ decimal_eq a b = DOk true \/ decimal_lt b a = DOk true) /\
  (decimal_eq a b = DOk true -> decimal_lt b c = DOk true -> decimal_lt a c = DOk true).
Proof.
  intros l S a b c Ia Ib Ic.
  assert (E : forall x y, In x l -> In y l -> (decimal_eq x y = DOk true <-> (val x == val y)%Q)).
  { intros x y Ix Iy. destruct (decimal_compare x y (S x y Ix Iy)) as [[r [-> R]] _]. rewrite <- R. split; [intros H; inversion H; reflexivity|intros ->; reflexivity]. }
  assert (L : forall x y, In x l -> In y l -> (decimal_lt x y = DOk true <-> (val x < val y)%Q)).
  { intros x y Ix Iy. destruct (decimal_compare x y (S x y Ix Iy)) as [_ [r [-> R]]]. rewrite <- R. split; [intros H; inversion H; reflexivity|intros ->; reflexivity]. }
  split; [apply E; try assumption; reflexivity|].
  split. { destruct (decimal_compare a a (S a a Ia Ia)) as [_ [r [-> R]]]. destruct r; [exfalso; apply (Qlt_irrefl (val a)); apply R; reflexivity|reflexivity]. }
  rewrite !E, !L by assumption. split; [intros H; symmetry; exact H|]. split; [intros H1 H2; rewrite H1; exact H2|]. split; [apply Qlt_trans|]. split.
  - destruct (Q_dec (val a) (val b)) as [[H|H]|H]; auto.
  - intros H1 H2. rewrite H1. exact H2.
Qed.

(* ---------------------------------------------------------------- Decimal: the text *)
(** every decimal notation is read exactly, when its digits are at most 2^53 *)
Theorem C66_reading_exact : forall g i f z, i ++ f <> [] -> Forall digit_char i -> Forall digit_char f -> (f <> [] -> last f 0 <> 48) ->
  num (i ++ f) <= 2 ^ 53 -> (length f <= 308)%nat ->
  exists d, decimal_from_string (sign_text g ++ i ++ 46 :: f ++ repeat 48 z) = DOk d /\ (val d == notation_value g i f)%Q /\ ex d = Z.of_nat (length f).
Proof.
  intros g i f z H1 H2 H3 H4 H5 H6. destruct (read_exact g i f z H1 H2 H3 H4 H5 H6) as [d [D [M X]]]. exists d. split; [exact D|]. split; [|exact X].
  unfold val, notation_value. rewrite M, X. reflexivity.
Qed.
Theorem C66_reading_whole : forall g i, i <> [] -> Forall digit_char i -> num i <= 2 ^ 63 - 1 -> exists d, decimal_from_string (sign_text g ++ i) = DOk d /\ (val d == inject_Z (signed_num g i))%Q.
Proof. intros g i H1 H2 H3. rewrite (read_whole g i H1 H2 H3). eexists. split; reflexivity. Qed.
(** what is written is the shortest notation of the number *)
Theorem C66_writing_exact : forall d, proper d -> 0 <= mant d \/ ex d = 0 \/ 10 ^ (ex d - 1) <= - mant d ->
  exists g i f, decimal_to_string d = DOk (notation g i f) /\ shortest g i f /\ (g = Minus <-> mant d < 0) /\ (notation_value g i f == val d)%Q.
Proof. intros d H1 H2. destruct (write_exact d H1 H2) as [g [i [f [A [B [C [D _]]]]]]]. exists g, i, f. auto. Qed.
(** except a negative number with a zero after the point: the minus is written among the digits *)
Theorem C66_writing_small_negative_refuted : forall d, proper d -> mant d < 0 -> - mant d < 10 ^ (ex d - 1) ->
  exists s, decimal_to_string d = DOk s /\ forall g i f, Forall digit_char i -> Forall digit_char f -> s <> notation g i f.
Proof.
  intros d H1 H2 H3. destruct (write_negative d H1 H2 H3) as [r [R I]]. exists (48 :: 46 :: r). split; [exact R|]. intros g i f Di Df E.
  assert (Z : In 45 i \/ In 45 f).
  { unfold notation in E. destruct g; cbn [sign_text app] in E; [discriminate E|discriminate E|].
    assert (In 45 (i ++ match f with [] => [] | _ :: _ => 46 :: f end)) by (rewrite <- E; right; right; exact I).
    apply in_app_or in H. destruct H as [H|H]; [left; exact H|right]. destruct f; [destruct H|]. destruct H as [H|H]; [discriminate H|exact H]. }
  rewrite Forall_forall in Di, Df. destruct Z as [Z|Z]; [apply Di in Z|apply Df in Z]; unfold digit_char in Z; lia.
Qed.
Lemma read_notation : forall g i f, i <> [] -> Forall digit_char i -> Forall digit_char f -> (f <> [] -> last f 0 <> 48) -> num (i ++ f) <= 2 ^ 53 -> (length f <= 308)%nat ->
  exists d', decimal_from_string (notation g i f) = DOk d' /\ mant d' = signed_num g (i ++ f) /\ ex d' = Z.of_nat (length f).
Proof.
  intros g i f Ni Di Df C NB NL. unfold notation. destruct f as [|c f].
  - rewrite app_nil_r in NB. rewrite !app_nil_r. exists (Dec (signed_num g i) 0). split; [|split; reflexivity]. apply read_whole; [assumption|assumption|]. assert (2 ^ 53 < 2 ^ 63 - 1) by reflexivity. lia.
  - destruct (read_exact g i (c :: f) 0) as [d' [D' [M' X']]]; try assumption; [destruct i; [congruence|discriminate]|]. exists d'. cbn [repeat] in D'. rewrite app_nil_r in D'. auto.
Qed.
(** what is written is read back as the same number *)
Theorem C66_text_round_trip : forall d, proper d -> Z.abs (mant d) <= 2 ^ 53 -> ex d <= 308 -> 0 <= mant d \/ ex d = 0 \/ 10 ^ (ex d - 1) <= - mant d ->
  exists s d', decimal_to_string d = DOk s /\ decimal_from_string s = DOk d' /\ (val d' == val d)%Q /\ decimal_eq d d' = DOk true.
Proof.
  intros d Hp Hm He Hc. destruct (write_exact d Hp Hc) as [g [i [f [T [[Ni [Di [Df [C1 [C2 Pl]]]]] [G [V L]]]]]]]. destruct Hp as [Hp1 Hp2].
  assert (K : num (i ++ f) * 10 ^ ex d = Z.abs (mant d) * 10 ^ Z.of_nat (length f)).
  { unfold notation_value, val, Qeq in V. cbn [Qnum Qden] in V. rewrite !Z2Pos.id in V by (apply pow10_pos; lia).
    assert (Forall digit_char (i ++ f)) as Dif by (apply Forall_app; split; assumption). pose proof (num_bounds _ Dif) as B. pose proof (pow10_pos (ex d) ltac:(lia)). pose proof (pow10_pos (Z.of_nat (length f)) ltac:(lia)).
    destruct g; cbn [signed_num] in V; [congruence| |].
    - assert (mant d < 0) by (apply G; reflexivity). rewrite Z.abs_neq by lia. lia.
    - assert (0 <= mant d). { destruct (Z_lt_le_dec (mant d) 0) as [X|X]; [apply G in X; discriminate X|exact X]. } rewrite Z.abs_eq by lia. exact V. }
  set (k := Z.of_nat (length f)) in *. assert (PE : 10 ^ ex d = 10 ^ (ex d - k) * 10 ^ k) by (rewrite <- Z.pow_add_r by lia; f_equal; lia).
  pose proof (pow10_pos k ltac:(lia)) as PK. pose proof (pow10_pos (ex d - k) ltac:(lia)) as PD.
  assert (K2 : num (i ++ f) * 10 ^ (ex d - k) = Z.abs (mant d)) by (rewrite PE in K; nia).
  assert (Dif : Forall digit_char (i ++ f)) by (apply Forall_app; split; assumption). pose proof (num_bounds _ Dif) as B.
  assert (NB : num (i ++ f) <= 2 ^ 53) by nia. assert (NL : (length f <= 308)%nat) by lia. assert (Nif : i ++ f <> []) by (destruct i; [congruence|discriminate]).
  assert (R : exists d', decimal_from_string (notation g i f) = DOk d' /\ mant d' = signed_num g (i ++ f) /\ ex d' = k).
  { apply read_notation; assumption. }
  destruct R as [d' [R [M X]]]. assert (VV : (val d' == val d)%Q) by (rewrite <- V; unfold val, notation_value; rewrite M, X; reflexivity).
  exists (notation g i f), d'. split; [exact T|]. split; [exact R|]. split; [exact VV|].
  assert (Sm : both_small d d').
  { assert (Mx : Z.max (ex d) (ex d') = ex d) by lia. unfold both_small. rewrite Mx. split; (split; [lia|split; [lia|]]).
    - rewrite Z.sub_diag, Z.pow_0_r. lia.
    - rewrite X, M. replace (Z.abs (signed_num g (i ++ f))) with (num (i ++ f)) by (destruct g; cbn [signed_num]; lia). lia. }
  destruct (decimal_compare d d' Sm) as [[r [Q1 Q2]] _]. rewrite Q1. f_equal. apply Q2. symmetry. exact VV.
Qed.

(* ---------------------------------------------------------------- Decimal: what does not hold *)
(** == holds of different numbers with the same exponent: both are rounded to a double *)
(** the conversion to double behind it: the nearest number with 53 bits, the even one of two *)
Theorem C66_double_rounding : forall z, let k := Z.max 0 (Z.log2 (Z.abs z) - 52) in
  exists m, rnd z = m * 2 ^ k /\ Z.abs m <= 2 ^ 53 /\ 2 * Z.abs (rnd z - z) <= 2 ^ k /\ (2 * Z.abs (rnd z - z) = 2 ^ k -> Z.even m = true).
Proof.
  intros z k. unfold rnd. set (a := Z.abs z). destruct (Z.leb_spec (Z.log2 a - 52) 0) as [L|L].
  - assert (k = 0) as -> by (unfold k; fold a; lia). exists z. change (2 ^ 0) with 1. split; [lia|]. split; [|split; [|intros; exfalso]; rewrite Z.sub_diag in *; cbn in *; lia].
    fold a. destruct (Z.eq_dec a 0) as [->|N]; [vm_compute; discriminate|]. assert (a < 2 ^ Z.succ (Z.log2 a)) by (apply Z.log2_spec; unfold a in *; lia).
    assert (2 ^ Z.succ (Z.log2 a) <= 2 ^ 53) by (apply Z.pow_le_mono_r; lia). lia.
  - assert (Ek : Z.log2 a - 52 = k) by (unfold k; fold a; lia). rewrite Ek. set (p := 2 ^ k). assert (Hk : 0 < k) by lia.
    assert (Hp : 0 < p) by (apply Z.pow_pos_nonneg; lia).
    assert (Ha : 0 < a). { destruct (Z.eq_dec a 0) as [E|E]; [rewrite E in L; cbn in L; lia|unfold a in *; lia]. }
    pose proof (Z.div_mod a p ltac:(lia)) as D. pose proof (Z.mod_pos_bound a p Hp) as M.
    set (q := a / p) in *. set (r := a mod p) in *.
    assert (Hq : q < 2 ^ 53). { apply Z.div_lt_upper_bound; [exact Hp|]. unfold p. rewrite <- Z.pow_add_r by lia. replace (k + 53) with (Z.succ (Z.log2 a)) by lia. apply Z.log2_spec. lia. }
    assert (Hq0 : 0 <= q) by (apply Z.div_pos; lia).
    set (q' := if 2 * r <? p then q else if p <? 2 * r then q + 1 else if Z.even q then q else q + 1).
    assert (Hq' : 0 <= q' <= q + 1 /\ 2 * Z.abs (q' * p - a) <= p /\ (2 * Z.abs (q' * p - a) = p -> Z.even q' = true)).
    { unfold q'. destruct (Z.ltb_spec (2 * r) p); [split; [lia|split; [lia|intros; exfalso; lia]]|].
      destruct (Z.ltb_spec p (2 * r)); [split; [lia|split; [lia|intros; exfalso; lia]]|].
      destruct (Z.even q) eqn:Ev; (split; [lia|split; [lia|intros _]]); [exact Ev|]. rewrite Z.even_add, Ev. reflexivity. }
    destruct Hq' as (B & N & T).
    assert (S : Z.sgn z * (q' * p) - z = Z.sgn z * (q' * p - a)). { unfold a. rewrite Z.mul_sub_distr_l, (Z.mul_comm (Z.sgn z) (Z.abs z)), Z.abs_sgn. reflexivity. }
    assert (S' : Z.abs (Z.sgn z * (q' * p - a)) = Z.abs (q' * p - a)). { rewrite Z.abs_mul. destruct z; cbn [Z.sgn Z.abs]; unfold a in Ha; cbn in Ha; try lia. }
    exists (Z.sgn z * q'). split; [ring|]. split; [|split].
    + rewrite Z.abs_mul. assert (Z.abs (Z.sgn z) <= 1) by (destruct z; cbn; lia). rewrite (Z.abs_eq q') by lia. nia.
    + rewrite S, S'. exact N.
    + rewrite S, S'. intros E. rewrite Z.even_mul, (T E). apply orb_true_r.
Qed.
Print Assumptions C66_double_rounding.
Theorem C66_large_equal_refuted : decimal_eq (Dec (2 ^ 53 + 1) 0) (Dec (2 ^ 53) 0) = DOk true /\ ~ (val (Dec (2 ^ 53 + 1) 0) == val (Dec (2 ^ 53) 0))%Q.
Proof. split; [vm_compute; reflexivity|]. unfold val, Qeq. vm_compute. discriminate. Qed.
(** the order of different exponents can be the wrong way round *)
Theorem C66_large_order_refuted : exists a b, proper a /\ proper b /\ (val a < val b)%Q /\ decimal_lt b a = DOk true.
Proof.
  exists (Dec (2 ^ 53 + 7) 0), (Dec (10 * 2 ^ 53 + 71) 1). split; [unfold proper; vm_compute; repeat split; discriminate|]. split; [unfold proper; vm_compute; repeat split; discriminate|].
  split; vm_compute; reflexivity.
Qed.
(** a minus after the point is accepted *)
Theorem C66_minus_after_point_refuted : exists d, decimal_from_string [49; 46; 45; 53] = DOk d /\ (val d == 95 # 100)%Q.
Proof. eexists. split; vm_compute; reflexivity. Qed.
(** the exponents of a product are added modulo 2^16 *)
Theorem C66_product_exponent_refuted : exists a b r, proper a /\ proper b /\ both_small a b /\ decimal_mul a b = DOk r /\ ex r = 0 /\ mant r = 1.
Proof.
  exists (Dec 1 (2 ^ 15)), (Dec 1 (2 ^ 15)), (Dec 1 0). unfold proper, both_small, small_at. cbn [mant ex]. rewrite Z.max_id, Z.sub_diag.
  repeat split; try (vm_compute; discriminate); try (vm_compute; reflexivity).
Qed.
(** comparing a zero with a number of a large exponent is a conversion of a NaN *)
Theorem C66_zero_far_exponent_refuted : proper (Dec 0 0) /\ proper (Dec 1 400) /\ decimal_lt (Dec 0 0) (Dec 1 400) = DUndef.
Proof. unfold proper. cbn [mant ex]. repeat split; vm_compute; try discriminate; reflexivity. Qed.

(* ---------------------------------------------------------------- fixed_point *)
Theorem C66_fixed_of_int : forall N w, sizes N w -> forall v, fits_w w (v * 2 ^ N) -> (fval N (fp_of_int N w v) == inject_Z v)%Q /\ fp_to_int N (fp_of_int N w v) = v.
Proof. exact of_int_exact. Qed.
Theorem C66_fixed_to_int_floor : forall N w, sizes N w -> forall a, (inject_Z (fp_to_int N a) <= fval N a < inject_Z (fp_to_int N a + 1))%Q.
Proof. exact to_int_floor. Qed.
Theorem C66_fixed_sum_exact : forall N w a b, (fits_w w (a + b) -> exists r, fp_add w a b = DOk r /\ (fval N r == fval N a + fval N b)%Q) /\
    (fits_w w (a - b) -> exists r, fp_sub w a b = DOk r /\ (fval N r == fval N a - fval N b)%Q) /\ (fits_w w (- a) -> exists r, fp_neg w a = DOk r /\ (fval N r == - fval N a)%Q).
Proof. exact add_exact. Qed.
(** a product is rounded down to the step *)
Theorem C66_fixed_product : forall N w, sizes N w -> forall a b, fits_w w a -> fits_w w b -> fits_w w (a * b / 2 ^ N) ->
    exists r, fp_mul N w a b = DOk r /\ (fval N r <= fval N a * fval N b < fval N r + ulp N)%Q.
Proof. exact mul_floor. Qed.
(** a quotient is wrong by less than the step *)
Theorem C66_fixed_quotient : forall N w, sizes N w -> forall a b, fits_w w a -> b <> 0 -> fits_w w (Z.quot (a * 2 ^ N) b) ->
    exists r, fp_div N w a b = DOk r /\ (Qabs (fval N a - fval N r * fval N b) < ulp N * Qabs (fval N b))%Q.
Proof. exact div_near. Qed.
Theorem C66_fixed_order : forall N a b, (fp_lt a b = true <-> (fval N a < fval N b)%Q) /\ (fp_eq a b = true <-> (fval N a == fval N b)%Q).
Proof. exact order_exact. Qed.
(** a conversion to more bits after the point is exact, one to fewer rounds down *)
Theorem C66_fixed_conversion : forall N w, sizes N w -> forall M w2 a, 0 <= M ->
    (M <= N -> w2 <= w -> fits_w w (a * 2 ^ (N - M)) -> (fval N (fp_assign N w M w2 a) == fval M a)%Q) /\
    (N <= M -> fits_w w (a / 2 ^ (M - N)) -> (fval N (fp_assign N w M w2 a) <= fval M a < fval N (fp_assign N w M w2 a) + ulp N)%Q).
Proof. exact assign_near. Qed.
(** the square root is rounded down to the step, when the number is small enough *)
Theorem C66_fixed_sqrt : forall N v, 0 <= N <= 15 -> 0 <= v < 2 ^ 31 -> v * 2 ^ N * 2 ^ N < 2 ^ 32 ->
  exists r, fp_sqrt N 32 v = DOk r /\ (0 <= fval N r)%Q /\ (fval N r * fval N r <= inject_Z v)%Q /\ (inject_Z v < (fval N r + ulp N) * (fval N r + ulp N))%Q.
Proof.
  intros N v HN Hv Hs. pose proof (pow2_pos N ltac:(lia)) as PN. destruct (sqrt_value N v HN Hv) as [r [R E]]. exists r. split; [exact R|].
  set (X := v * 2 ^ N * 2 ^ N) in *. assert (0 <= X) by (unfold X; nia). pose proof (Z.sqrt_spec X ltac:(lia)) as SS. unfold Z.succ in SS. pose proof (Z.sqrt_nonneg X).
  assert (Z.sqrt X < 2 ^ 16) by (apply Z.sqrt_lt_square; lia). rewrite Z.min_l in E by lia. rewrite <- E in SS.
  assert (Sz : sizes N 32) by (unfold sizes; lia). rewrite (fval_plus_ulp N r). rewrite !(fval_mul N 32 Sz).
  unfold fval, inject_Z, Qle, Qlt. cbn [Qnum Qden]. rewrite !Z2Pos.id by nia. unfold X in SS. repeat split; nia.
Qed.
(** for larger numbers it is the largest value the loop can reach: the square root of 65536 is 255.99 *)
Theorem C66_fixed_sqrt_large_refuted : forall N v, 0 <= N <= 15 -> 0 <= v < 2 ^ 31 -> 2 ^ 32 <= v * 2 ^ N * 2 ^ N -> fp_sqrt N 32 v = DOk 65535.
Proof.
  intros N v HN Hv Hs. destruct (sqrt_value N v HN Hv) as [r [-> ->]]. f_equal. apply Z.min_r.
  assert (2 ^ 16 <= Z.sqrt (v * 2 ^ N * 2 ^ N)); [|lia]. apply Z.sqrt_le_square; [lia|lia|]. change (2 ^ 16 * 2 ^ 16) with (2 ^ 32). exact Hs.
Qed.

(** reading: rounded down to the step *)
Theorem C66_fixed_reading : forall N w i f, sizes N w -> i <> [] -> Forall digit_char i -> f <> [] -> Forall digit_char f -> num i < 2 ^ (w - 1 - N) -> fits_w w (num f * 2 ^ N) ->
  exists r, fp_from_string N w (i ++ 46 :: f) = DOk r /\ (fval N r <= notation_value NoSign i f < fval N r + ulp N)%Q.
Proof. exact fixed_read. Qed.
Theorem C66_fixed_reading_whole : forall N w i, sizes N w -> i <> [] -> Forall digit_char i -> num i < 2 ^ (w - 1 - N) ->
  exists r, fp_from_string N w i = DOk r /\ (fval N r == inject_Z (num i))%Q.
Proof. exact fixed_read_int. Qed.
(** "-1.5" is read as -0.5; digits after the point that do not fit before it are lost: "0.65536" is read as 0 *)
Theorem C66_fixed_reading_negative_refuted : exists r, fp_from_string 16 32 [45; 49; 46; 53] = DOk r /\ (fval 16 r == - (1 # 2))%Q.
Proof. eexists. split; [vm_compute; reflexivity|reflexivity]. Qed.
Theorem C66_fixed_reading_digits_refuted : fp_from_string 16 32 [48; 46; 54; 53; 53; 51; 54] = DOk 0.
Proof. vm_compute. reflexivity. Qed.

(** writing: three digits, rounded down, when the first of them is not zero *)
Theorem C66_fixed_writing : forall N w a, sizes N w -> 0 <= a -> fits_w w (a * 1000) -> 100 <= (a * 1000 / 2 ^ N) mod 1000 ->
  exists i f, fp_to_string N w a = DOk (notation NoSign i f) /\ Forall digit_char i /\ i <> [] /\ Forall digit_char f /\ length f = 3%nat /\
    (notation_value NoSign i f <= fval N a < notation_value NoSign i f + (1 # 1000))%Q.
Proof. exact fixed_write. Qed.
(** otherwise zeros after the point are missing, and the text stands for a larger number: 1.0625 is written 1.62 *)
Theorem C66_fixed_writing_zeros_refuted : forall N w a, sizes N w -> 0 <= a -> fits_w w (a * 1000) -> 0 < (a * 1000 / 2 ^ N) mod 1000 < 100 ->
  exists i f, fp_to_string N w a = DOk (notation NoSign i f) /\ Forall digit_char i /\ i <> [] /\ Forall digit_char f /\ f <> [] /\ (fval N a + (8 # 1000) < notation_value NoSign i f)%Q.
Proof. exact fixed_write_wrong. Qed.
(** -1.5 is written -1.-500 *)
Theorem C66_fixed_writing_negative_refuted : fp_to_string 16 32 (-98304) = DOk [45; 49; 46; 45; 53; 48; 48] /\ (fval 16 (-98304) == - (3 # 2))%Q.
Proof. split; [vm_compute; reflexivity|reflexivity]. Qed.

Print Assumptions C66_comparison_exact. Print Assumptions C66_sum_exact. Print Assumptions C66_difference_exact. Print Assumptions C66_negation_exact.
Print Assumptions C66_product_exact. Print Assumptions C66_total_order. Print Assumptions C66_reading_exact. Print Assumptions C66_reading_whole.
Print Assumptions C66_writing_exact. Print Assumptions C66_writing_small_negative_refuted. Print Assumptions C66_text_round_trip. Print Assumptions C66_large_equal_refuted.
Print Assumptions C66_large_order_refuted. Print Assumptions C66_minus_after_point_refuted. Print Assumptions C66_product_exponent_refuted. Print Assumptions C66_zero_far_exponent_refuted.
Print Assumptions C66_fixed_of_int. Print Assumptions C66_fixed_to_int_floor. Print Assumptions C66_fixed_sum_exact. Print Assumptions C66_fixed_product.
Print Assumptions C66_fixed_quotient. Print Assumptions C66_fixed_order. Print Assumptions C66_fixed_conversion. Print Assumptions C66_fixed_sqrt.
Print Assumptions C66_fixed_sqrt_large_refuted. Print Assumptions C66_fixed_reading. Print Assumptions C66_fixed_reading_whole. Print Assumptions C66_fixed_reading_negative_refuted.
Print Assumptions C66_fixed_reading_digits_refuted. Print Assumptions C66_fixed_writing. Print Assumptions C66_fixed_writing_zeros_refuted. Print Assumptions C66_fixed_writing_negative_refuted.

(* ---------------------------------------------------------------- the hypotheses are met *)
Example ex_small : set_small [Dec 125 2; Dec (-3) 0; Dec 1250 3].
Proof. intros a b Ha Hb. repeat (destruct Ha as [<-|Ha]; [|]); try destruct Ha; repeat (destruct Hb as [<-|Hb]; [|]); try destruct Hb; unfold both_small, small_at; cbn [mant ex Z.max Z.compare Pos.compare Pos.compare_cont]; repeat split; vm_compute; discriminate. Qed.
Example ex_compare : decimal_eq (Dec 125 2) (Dec 1250 3) = DOk true /\ decimal_lt (Dec (-3) 0) (Dec 125 2) = DOk true. Proof. vm_compute. auto. Qed.
Example ex_mul : decimal_mul (Dec 125 2) (Dec (-3) 0) = DOk (Dec (-37500) 4). Proof. vm_compute. reflexivity. Qed.
Example ex_read : decimal_from_string [45; 49; 46; 50; 53; 48] = DOk (Dec (-125) 2). Proof. vm_compute. reflexivity. Qed.
Example ex_write : decimal_to_string (Dec (-1250) 3) = DOk [45; 49; 46; 50; 53]. Proof. vm_compute. reflexivity. Qed.
Example ex_write_small_negative : decimal_to_string (Dec (-5) 2) = DOk [48; 46; 45; 53]. Proof. vm_compute. reflexivity. Qed.
Example ex_fixed : sizes 16 32 /\ fp_from_string 16 32 [49; 46; 54; 50; 53] = DOk 106496 /\ fp_to_string 16 32 106496 = DOk [49; 46; 54; 50; 53] /\ fits_w 32 (106496 * 1000) /\ 100 <= (106496 * 1000 / 2 ^ 16) mod 1000.
Proof. unfold sizes, fits_w. repeat split; vm_compute; try discriminate; reflexivity. Qed.
Example ex_fixed_mul : fp_mul 16 32 106496 131072 = DOk 212992 /\ fp_div 16 32 106496 131072 = DOk 53248 /\ fp_sqrt 8 32 2 = DOk 362. Proof. vm_compute. auto. Qed.
Example ex_fixed_zeros : fp_to_string 16 32 69632 = DOk [49; 46; 54; 50]. Proof. vm_compute. reflexivity. Qed.
