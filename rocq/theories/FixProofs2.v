(** Proofs for C66: the text of a fixed_point *)
From Coq Require Import QArith Qabs.
From Verif Require Import Base ITextModel ITextSpec ITextProofs DecModel DecSpec DecProofs DecProofs2 FixModel FixSpec FixProofs.
Local Open Scope Z_scope.

Lemma tenths_floor : forall w n a, 8 <= w -> 0 <= a <= 2 ^ (w - 1) - 1 -> tenths w n a = DOk (a / 10 ^ Z.of_nat n).
Proof.
  intros w n. induction n as [|n IH]; intros a Hw Ha.
  - cbn [tenths Z.of_nat]. rewrite Z.pow_0_r, Z.div_1_r. reflexivity.
  - cbn [tenths]. unfold fp_div_int. replace (10 =? 0) with false by reflexivity. rewrite Z.quot_div_nonneg by lia.
    pose proof (Z.div_pos a 10 ltac:(lia) ltac:(lia)). pose proof (Z.div_le_upper_bound a 10 a ltac:(lia) ltac:(lia)).
    rewrite arith_ok by (unfold fits, vt, signed_t; cbn [t_min t_max]; lia). cbn [dbind]. rewrite IH by lia.
    rewrite Z.div_div by (try lia; apply pow10_pos; lia). rewrite Nat2Z.inj_succ, Z.pow_succ_r by lia. reflexivity.
Qed.
Lemma parse_vt_ok : forall w d, 8 <= w <= 32 -> d <> [] -> Forall digit_char d -> num d <= 2 ^ (w - 1) - 1 -> parse_vt w d = DOk (num d).
Proof.
  intros w d Hw Ne D H. unfold parse_vt. pose proof (from_string_value (vt w) NoSign d ltac:(constructor; lia) D Ne ltac:(discriminate)) as E. cbn [sign_text app signed_num] in E. rewrite E.
  pose proof (num_bounds d D). pose proof (pow2_pos (w - 1) ltac:(lia)).
  replace (fitsb (vt w) (num d)) with true; [reflexivity|]. symmetry. apply fitsb_spec. unfold fits, vt, signed_t. cbn [t_min t_max]. lia.
Qed.

Theorem fixed_read : forall N w i f, sizes N w -> i <> [] -> Forall digit_char i -> f <> [] -> Forall digit_char f -> num i < 2 ^ (w - 1 - N) -> fits_w w (num f * 2 ^ N) ->
  exists r, fp_from_string N w (i ++ 46 :: f) = DOk r /\ (fval N r <= notation_value NoSign i f < fval N r + ulp N)%Q.
Proof.
  intros N w i f S Hi Di Hf Df Bi Bf. pose proof (P N w S) as Pp. pose proof S as [SN SW]. unfold fits_w in Bf.
  pose proof (num_bounds i Di) as Ni. pose proof (num_bounds f Df) as Nf.
  assert (PW : 2 ^ (w - 1) = 2 ^ (w - 1 - N) * 2 ^ N) by (rewrite <- Z.pow_add_r by lia; f_equal; lia).
  assert (Pm : 0 < 2 ^ (w - 1 - N)) by (apply pow2_pos; lia).
  unfold fp_from_string. rewrite cut_point_spec by (apply digits_no_point; exact Di).
  rewrite (parse_vt_ok w i SW Hi Di) by nia. cbn [dbind]. rewrite (parse_vt_ok w f SW Hf Df) by nia. cbn [dbind].
  unfold fp_of_int. rewrite !Z.shiftl_mul_pow2 by lia. rewrite !conv_fits by (unfold fits, vt, signed_t; cbn [t_min t_max]; nia).
  rewrite tenths_floor by nia. cbn [dbind]. set (k := Z.of_nat (length f)) in *. pose proof (pow10_pos k ltac:(lia)) as PK.
  assert (Q : 0 <= num f * 2 ^ N / 10 ^ k < 2 ^ N).
  { split; [apply Z.div_pos; nia|]. apply Z.div_lt_upper_bound; nia. }
  unfold fp_add. rewrite arith_ok by (unfold fits, vt, signed_t; cbn [t_min t_max]; nia). eexists. split; [reflexivity|].
  rewrite fval_plus_ulp. unfold notation_value. cbn [signed_num]. rewrite num_app by exact Df. fold k.
  pose proof (Z.div_mod (num f * 2 ^ N) (10 ^ k) ltac:(lia)) as DM. pose proof (Z.mod_pos_bound (num f * 2 ^ N) (10 ^ k) PK) as MB.
  set (q := num f * 2 ^ N / 10 ^ k) in *. set (m := (num f * 2 ^ N) mod 10 ^ k) in *.
  unfold fval, Qle, Qlt. cbn [Qnum Qden]. rewrite !Z2Pos.id by lia. split; nia.
Qed.
Theorem fixed_read_int : forall N w i, sizes N w -> i <> [] -> Forall digit_char i -> num i < 2 ^ (w - 1 - N) ->
  exists r, fp_from_string N w i = DOk r /\ (fval N r == inject_Z (num i))%Q.
Proof.
  intros N w i S Hi Di Bi. pose proof (P N w S) as Pp. pose proof S as [SN SW]. pose proof (num_bounds i Di) as Ni.
  assert (PW : 2 ^ (w - 1) = 2 ^ (w - 1 - N) * 2 ^ N) by (rewrite <- Z.pow_add_r by lia; f_equal; lia).
  assert (Pm : 0 < 2 ^ (w - 1 - N)) by (apply pow2_pos; lia).
  unfold fp_from_string. rewrite cut_point_none by (apply digits_no_point; exact Di). rewrite (parse_vt_ok w i SW Hi Di) by nia. cbn [dbind]. eexists. split; [reflexivity|].
  apply (of_int_exact N w S). unfold fits_w. nia.
Qed.

Lemma print_ok : forall w v, 8 <= w <= 32 -> 0 <= v <= 2 ^ (w - 1) - 1 -> exists d, to_string w v = Some d /\ d <> [] /\ Forall digit_char d /\ num d = v /\ (hd 0 d = 48 -> length d = 1%nat).
Proof.
  intros w v Hw Hv. destruct (to_string_canonical w v) as [s [T [g [d [E [Ne [D [V [G1 [G2 G3]]]]]]]]]]; [lia|right; unfold fits, signed_t; cbn [t_min t_max]; lia|].
  pose proof (num_bounds d D). exists d. destruct g; cbn [signed_num sign_text app] in *; [congruence| |].
  - exfalso. apply G2; [reflexivity|lia].
  - subst s. auto.
Qed.
Lemma three_digits : forall d, Forall digit_char d -> d <> [] -> (hd 0 d = 48 -> length d = 1%nat) -> num d < 1000 ->
  (100 <= num d -> length d = 3%nat) /\ (num d < 100 -> (length d <= 2)%nat) /\ (num d < 10 -> length d = 1%nat).
Proof.
  intros d D Ne C H. pose proof (num_bounds d D) as B. destruct (Z.eq_dec (hd 0 d) 48) as [E|E].
  - specialize (C E). rewrite C in *. change (10 ^ Z.of_nat 1) with 10 in B. repeat split; intros; lia.
  - pose proof (num_lead d D Ne E) as L. destruct d as [|c1 [|c2 [|c3 [|c4 d]]]]; [congruence| | | |]; cbn [length] in *.
    + change (10 ^ Z.of_nat 1) with 10 in B. repeat split; intros; lia.
    + change (10 ^ Z.of_nat (2 - 1)) with 10 in L. change (10 ^ Z.of_nat 2) with 100 in B. repeat split; intros; lia.
    + change (10 ^ Z.of_nat (3 - 1)) with 100 in L. change (10 ^ Z.of_nat 3) with 1000 in B. repeat split; intros; lia.
    + exfalso. assert (10 ^ 3 <= 10 ^ Z.of_nat (S (S (S (S (length d)))) - 1)) by (apply Z.pow_le_mono_r; lia). change (10 ^ 3) with 1000 in *. lia.
Qed.

(** the thousandths of a number, rounded down *)
Definition thousandths (N a : Z) : Z := a * 1000 / 2 ^ N.
Lemma write_shape_fixed : forall N w a, sizes N w -> 0 <= a -> fits_w w (a * 1000) ->
  exists i f, fp_to_string N w a = DOk (i ++ 46 :: f) /\ i <> [] /\ Forall digit_char i /\ f <> [] /\ Forall digit_char f /\ num i = thousandths N a / 1000 /\ num f = thousandths N a mod 1000 /\
    (hd 0 i = 48 -> length i = 1%nat) /\ (hd 0 f = 48 -> length f = 1%nat) /\ 0 <= thousandths N a /\ thousandths N a * 2 ^ N <= a * 1000 < (thousandths N a + 1) * 2 ^ N.
Proof.
  intros N w a S Ha Hb. pose proof (P N w S) as Pp. pose proof S as [SN SW]. unfold fp_to_string, fp_mul_int. rewrite arith_ok by (apply fits_vt; exact Hb). cbn [dbind].
  unfold fp_to_int. rewrite Z.shiftr_div_pow2 by lia. fold (thousandths N a). unfold fits_w in Hb.
  pose proof (Z.div_mod (a * 1000) (2 ^ N) ltac:(lia)) as DM. pose proof (Z.mod_pos_bound (a * 1000) (2 ^ N) Pp) as MB. fold (thousandths N a) in DM.
  set (t := thousandths N a) in *. assert (T0 : 0 <= t) by (apply Z.div_pos; lia). assert (T1 : t <= 2 ^ (w - 1) - 1) by nia.
  rewrite Z.quot_div_nonneg, Z.rem_mod_nonneg by lia.
  assert (0 <= t / 1000 <= t) by (split; [apply Z.div_pos; lia|apply Z.div_le_upper_bound; lia]). pose proof (Z.mod_pos_bound t 1000 ltac:(lia)). pose proof (Z.mod_le t 1000 T0 ltac:(lia)).
  destruct (print_ok w (t / 1000) SW ltac:(lia)) as [i [Ei [I1 [I2 [I3 I4]]]]]. destruct (print_ok w (t mod 1000) SW ltac:(lia)) as [f [Ef [F1 [F2 [F3 F4]]]]].
  rewrite Ei, Ef. exists i, f. repeat (split; [first [reflexivity|assumption|nia]|]). nia.
Qed.
Theorem fixed_write : forall N w a, sizes N w -> 0 <= a -> fits_w w (a * 1000) -> 100 <= thousandths N a mod 1000 ->
  exists i f, fp_to_string N w a = DOk (notation NoSign i f) /\ Forall digit_char i /\ i <> [] /\ Forall digit_char f /\ length f = 3%nat /\
    (notation_value NoSign i f <= fval N a < notation_value NoSign i f + (1 # 1000))%Q.
Proof.
  intros N w a S Ha Hb Hh. pose proof (P N w S) as Pp. destruct (write_shape_fixed N w a S Ha Hb) as [i [f [E [I1 [I2 [F1 [F2 [Vi [Vf [Ci [Cf [T0 TB]]]]]]]]]]]]. exists i, f.
  pose proof (Z.mod_pos_bound (thousandths N a) 1000 ltac:(lia)) as MB. pose proof (Z.div_mod (thousandths N a) 1000 ltac:(lia)) as DM.
  destruct (three_digits f F2 F1 Cf ltac:(lia)) as [L _]. specialize (L ltac:(lia)).
  split; [rewrite E; unfold notation; destruct f; [congruence|reflexivity]|]. repeat (split; [assumption|]).
  unfold notation_value. cbn [signed_num]. rewrite num_app by exact F2. rewrite L, Vi, Vf. change (10 ^ Z.of_nat 3) with 1000.
  set (t := thousandths N a) in *. replace (t / 1000 * 1000 + t mod 1000) with t by lia. change (Z.to_pos 1000) with 1000%positive.
  unfold fval, Qle, Qlt, Qplus. cbn [Qnum Qden]. rewrite !Pos2Z.inj_mul, !Z2Pos.id by lia. split; nia.
Qed.
(** the wrong text: hundredths of a number below a tenth lose their zeros *)
Theorem fixed_write_wrong : forall N w a, sizes N w -> 0 <= a -> fits_w w (a * 1000) -> 0 < thousandths N a mod 1000 < 100 ->
  exists i f, fp_to_string N w a = DOk (notation NoSign i f) /\ Forall digit_char i /\ i <> [] /\ Forall digit_char f /\ f <> [] /\ (fval N a + (8 # 1000) < notation_value NoSign i f)%Q.
Proof.
  intros N w a S Ha Hb Hh. pose proof (P N w S) as Pp. destruct (write_shape_fixed N w a S Ha Hb) as [i [f [E [I1 [I2 [F1 [F2 [Vi [Vf [Ci [Cf [T0 TB]]]]]]]]]]]]. exists i, f.
  pose proof (Z.div_mod (thousandths N a) 1000 ltac:(lia)) as DM.
  destruct (three_digits f F2 F1 Cf ltac:(lia)) as [_ [L2 L1]]. specialize (L2 ltac:(lia)).
  split; [rewrite E; unfold notation; destruct f; [congruence|reflexivity]|]. repeat (split; [assumption|]).
  unfold notation_value. cbn [signed_num]. rewrite num_app by exact F2. rewrite Vi.
  set (t := thousandths N a) in *. set (q := t / 1000) in *. set (m := t mod 1000) in *.
  assert (LL : length f = 1%nat \/ length f = 2%nat) by (destruct f as [|? [|? [|? ?]]]; cbn in *; [congruence|auto|auto|lia]).
  unfold fval, Qlt, Qplus. cbn [Qnum Qden].
  destruct LL as [LL|LL]; rewrite LL.
  - change (10 ^ Z.of_nat 1) with 10. change (Z.to_pos 10) with 10%positive. rewrite !Pos2Z.inj_mul, !Z2Pos.id by lia. rewrite Vf. nia.
  - change (10 ^ Z.of_nat 2) with 100. change (Z.to_pos 100) with 100%positive. rewrite !Pos2Z.inj_mul, !Z2Pos.id by lia. rewrite Vf. nia.
Qed.
