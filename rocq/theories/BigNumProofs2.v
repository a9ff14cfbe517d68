(** Lemmas for BigNumProps.v: division, bit operations, shifts, comparison *)
From Coq Require Import List ZArith Bool Arith Lia.
From Verif Require Import BigNumModel BigNumSpec BigNumProofs.
Import ListNotations.
Local Open Scope Z_scope.
Set Implicit Arguments.

Section P.
Variable w : nat.
Hypothesis Hw : (0 < w)%nat.
Notation R := (R w).
Notation wrap := (wrap w).
Notation value := (value w).
Notation blocks := (blocks w).
Notation bz := Z.b2z.
Let Rpos := Rpos Hw.
Let Rkpos := Rkpos Hw.
Let value_bound := @value_bound w Hw.
Ltac rp := pose proof Rpos; lia.

(** ** DivideWithRemainder *)
Lemma last_cons_zero (x : Z) u : last (x :: u) 0 = 0 -> last u 0 = 0.
Proof. destruct u; auto. Qed.
Lemma borrow_tail_spec u : forall c r b, blocks u -> last u 0 = 0 -> borrow_tail w u c = (r, b) ->
  blocks r /\ length r = length u /\ (if b then value u < bz c else value r = value u - bz c).
Proof.
  induction u as [|x u IH]; intros c r b Hu Hl E.
  - cbn in E. inversion E; subst. repeat split; auto. destruct b; cbn; lia.
  - destruct u as [|y u].
    + cbn in E, Hl. inversion E; subst. repeat split; auto. destruct b; cbn; lia.
    + destruct c.
      * assert (EE : borrow_tail w (x :: y :: u) true
          = let '(r, b) := borrow_tail w (y :: u) (x =? 0) in (wrap (x - 1) :: r, b)) by reflexivity.
        rewrite EE in E. clear EE. destruct (borrow_tail w (y :: u) (x =? 0)) as [r' b'] eqn:E2. inversion E; subst; clear E.
        apply blocks_cons in Hu as [Hx Hu]. apply last_cons_zero in Hl.
        destruct (IH _ _ _ Hu Hl E2) as (A & B & C).
        pose proof (value_bound Hu) as V.
        rewrite blocks_cons, !(value_cons w x), (value_cons w (wrap (x - 1))). cbn [length] in *. rewrite B.
        destruct (@wrap_cases_neg w Hw (x - 1)) as [[? Ew]|[? Ew]]; [rp| |]; rewrite Ew;
          destruct (Z.eqb_spec x 0); cbn [Z.b2z] in *; destruct b; repeat split; auto; try rp; try nia.
      * inversion E; subst. repeat split; auto. cbn [Z.b2z]. lia.
Qed.
Lemma sub_from_spec u : forall bs c r b, blocks u -> blocks bs -> (length bs <= length u)%nat -> last u 0 = 0 ->
  sub_from w u bs c = (r, b) ->
  blocks r /\ length r = length u /\ (if b then value u < value bs + bz c else value r = value u - value bs - bz c).
Proof.
  induction u as [|x u IH]; intros [|y bs] c r b Hu Hb Hlen Hl E; try (cbn in Hlen; lia).
  - cbn [sub_from] in E. destruct (borrow_tail_spec _ Hu Hl E) as (A & B & C). split; [auto|]. split; [auto|].
    cbn [BigNumSpec.value] in *. destruct b; lia.
  - cbn [sub_from] in E. destruct (borrow_tail_spec _ Hu Hl E) as (A & B & C). split; [auto|]. split; [auto|].
    cbn [BigNumSpec.value] in *. destruct b; lia.
  - cbn [sub_from] in E. destruct (sub_block w x y c) as [t co] eqn:E1.
    destruct (sub_from w u bs co) as [r' b'] eqn:E2. inversion E; subst; clear E.
    apply blocks_cons in Hu as [Hx Hu]. apply blocks_cons in Hb as [Hy Hb].
    pose proof (sub_block_spec Hw _ Hx Hy E1) as [Ht Hv]. cbn [length] in Hlen.
    apply last_cons_zero in Hl.
    destruct (IH _ _ _ _ Hu Hb ltac:(lia) Hl E2) as (A & B & C).
    rewrite blocks_cons, !value_cons. cbn [length]. split; [auto|]. split; [lia|].
    pose proof Rpos. destruct b; nia.
Qed.

Lemma top_zero u n : blocks u -> length u = S n -> value u < R ^ Z.of_nat n -> exists u0, u = u0 ++ [0] /\ length u0 = n.
Proof.
  intros Hu Hl Hv. destruct u as [|z u] using rev_ind; [cbn in Hl; lia|]. clear IHu.
  rewrite app_length in Hl. cbn in Hl. exists u. assert (length u = n) as <- by lia. split; auto.
  rewrite value_app in Hv. cbn [BigNumSpec.value] in Hv. apply blocks_app in Hu as [Hu Hz].
  apply blocks_cons in Hz as [Hz _]. pose proof (value_bound Hu). pose proof (Rkpos (length u)).
  assert (z = 0) by nia. subst; auto.
Qed.

Lemma set_nth_spec q i x : blocks q -> (i < length q)%nat -> 0 <= x < R ->
  blocks (set_nth q i x) /\ length (set_nth q i x) = length q
  /\ value (set_nth q i x) = value q + R ^ Z.of_nat i * (x - nth i q 0).
Proof.
  intros Hq Hi Hx. unfold set_nth.
  assert (Eq : q = firstn i q ++ nth i q 0 :: skipn (S i) q).
  { rewrite <- (firstn_skipn i q) at 1. f_equal. clear Hq. revert q Hi. induction i; intros [|z q] Hi; cbn in *; try lia; auto.
    apply IHi; lia. }
  split; [|split].
  - apply blocks_app. split; [apply blocks_firstn; auto|]. apply blocks_cons. split; auto.
    apply (@blocks_skipn w (S i) q Hq).
  - rewrite Eq at 3. rewrite !app_length. reflexivity.
  - rewrite Eq at 3. rewrite !value_app, !value_cons. rewrite firstn_length_le by lia. ring.
Qed.

Section BitOp.
Variable op : Z -> Z -> Z.
Variable g : bool -> bool -> bool.
Hypothesis op_spec : forall a b n, Z.testbit (op a b) n = g (Z.testbit a n) (Z.testbit b n).
Hypothesis g0 : g false false = false.
Lemma op_bound a b : 0 <= a < R -> 0 <= b < R -> 0 <= op a b < R.
Proof.
  intros Ha Hb. assert (op a b = (op a b) mod 2 ^ Z.of_nat w) as ->.
  { apply Z.bits_inj'. intros n Hn. destruct (Z_lt_ge_dec n (Z.of_nat w)).
    - rewrite Z.mod_pow2_bits_low by lia. reflexivity.
    - rewrite Z.mod_pow2_bits_high by lia. rewrite op_spec.
      rewrite <- (Z.mod_small a R), <- (Z.mod_small b R) by lia. unfold BigNumModel.R.
      rewrite !Z.mod_pow2_bits_high by lia. auto. }
  apply Z.mod_pos_bound. fold R. rp.
Qed.
Lemma testbit_split x a n : 0 <= x < R -> 0 <= n ->
  Z.testbit (x + R * a) n = if n <? Z.of_nat w then Z.testbit x n else Z.testbit a (n - Z.of_nat w).
Proof.
  intros Hx Hn. destruct (Z.ltb_spec n (Z.of_nat w)).
  - rewrite <- (Z.mod_pow2_bits_low _ (Z.of_nat w)) by lia. fold R.
    rewrite (Z.mul_comm R), Z_mod_plus_full, Z.mod_small by auto. reflexivity.
  - replace n with (n - Z.of_nat w + Z.of_nat w) at 1 by lia.
    rewrite <- Z.div_pow2_bits by lia. fold R. f_equal.
    rewrite (Z.mul_comm R), Z.div_add by rp. rewrite Z.div_small by auto. lia.
Qed.
Lemma op_split x y a b : 0 <= x < R -> 0 <= y < R -> op (x + R * a) (y + R * b) = op x y + R * op a b.
Proof.
  intros Hx Hy. apply Z.bits_inj'. intros n Hn. rewrite op_spec, !testbit_split; auto; [|apply op_bound; auto].
  destruct (n <? Z.of_nat w); rewrite op_spec; reflexivity.
Qed.
Hypothesis op_0_l : forall a, op 0 a = a.
Hypothesis op_0_r : forall a, op a 0 = a.
Lemma zip_rest_spec a : forall b, blocks a -> blocks b ->
  blocks (zip_with op a b ++ rest a b) /\ value (zip_with op a b ++ rest a b) = op (value a) (value b)
  /\ length (zip_with op a b ++ rest a b) = Nat.max (length a) (length b).
Proof.
  induction a as [|x a IH]; intros [|y b] Ha Hb.
  - cbn. rewrite op_0_l. auto.
  - unfold rest. cbn [zip_with length Nat.min Nat.ltb Nat.leb skipn app]. cbn [BigNumSpec.value]. rewrite op_0_l. auto.
  - unfold rest. cbn [zip_with length Nat.min Nat.ltb Nat.leb skipn app]. cbn [BigNumSpec.value]. rewrite op_0_r. auto.
  - assert (rest (x :: a) (y :: b) = rest a b) as -> by reflexivity. cbn [zip_with app].
    apply blocks_cons in Ha as [Hx Ha]. apply blocks_cons in Hb as [Hy Hb].
    destruct (IH b Ha Hb) as (A & B & C). rewrite blocks_cons, !value_cons, B, op_split by auto.
    split; [split; auto; apply op_bound; auto|]. split; auto. cbn [length]. rewrite C. reflexivity.
Qed.
End BitOp.

Lemma zip_and_spec a : forall b, blocks a -> blocks b ->
  blocks (zip_with Z.land a b) /\ value (zip_with Z.land a b) = Z.land (value a) (value b).
Proof.
  induction a as [|x a IH]; intros [|y b] Ha Hb; cbn [zip_with].
  - split; auto.
  - split; [constructor | reflexivity].
  - split; [constructor|]. cbn [BigNumSpec.value]. rewrite Z.land_0_r. reflexivity.
  - apply blocks_cons in Ha as [Hx Ha]. apply blocks_cons in Hb as [Hy Hb].
    destruct (IH b Ha Hb) as (A & B). rewrite blocks_cons, !value_cons, B.
    rewrite (op_split _ andb Z.land_spec eq_refl) by auto. split; auto. split; auto.
    apply (op_bound _ andb Z.land_spec eq_refl); auto.
Qed.

Lemma lor_bit x j : 0 <= x -> Z.testbit x (Z.of_nat j) = false -> Z.lor x (2 ^ Z.of_nat j) = x + 2 ^ Z.of_nat j.
Proof.
  intros Hx H. assert (Z.land x (2 ^ Z.of_nat j) = 0) as E.
  { apply Z.eqb_eq. rewrite land_pow2 by auto. rewrite H. reflexivity. }
  rewrite Z.add_nocarry_lxor by exact E. rewrite <- Z.lxor_lor by exact E. reflexivity.
Qed.

Definition pos_of (k : nat) : nat * nat := ((k / w)%nat, (k mod w)%nat).
Lemma div_step_spec a d u q k n : blocks d -> blocks u -> blocks q -> value a < R ^ Z.of_nat (length a) ->
  length u = S (length a) -> length q = n -> (length d + n = S (length a))%nat -> (k < n * w)%nat ->
  value a = value q * value d + value u -> value q mod 2 ^ Z.of_nat (S k) = 0 ->
  0 <= value q -> value u < value d * 2 ^ Z.of_nat (S k) -> 0 <= value d ->
  exists u' q', div_step w d (u, q) (pos_of k) = (u', q') /\ blocks u' /\ blocks q'
    /\ length u' = S (length a) /\ length q' = n
    /\ value a = value q' * value d + value u' /\ value q' mod 2 ^ Z.of_nat k = 0 /\ 0 <= value q'
    /\ value u' < value d * 2 ^ Z.of_nat k.
Proof.
  intros Hd Hu Hq Ha Hl Hlq Hn Hk Hv Hm Hq0 Hlt Hd0.
  unfold pos_of. set (i := (k / w)%nat). set (j := (k mod w)%nat).
  assert (Ej : (j < w)%nat) by (apply Nat.mod_upper_bound; lia).
  assert (Ek : k = (i * w + j)%nat) by (unfold i, j; rewrite (Nat.div_mod k w) at 1 by lia; lia).
  assert (Ei : (i < n)%nat) by (clearbody i j; nia).
  clearbody i j.
  assert (Ep : 2 ^ Z.of_nat k = R ^ Z.of_nat i * 2 ^ Z.of_nat j) by (rewrite Ek; apply pow_split).
  pose proof (value_bound Hu) as Vu.
  assert (Hsmall : value u < R ^ Z.of_nat (length a)) by nia.
  destruct (@top_zero u (length a) Hu Hl Hsmall) as (u0 & Eu & Lu).
  assert (Hlast : last (skipn i u) 0 = 0).
  { rewrite Eu, skipn_app. replace (i - length u0)%nat with 0%nat by lia. cbn [skipn]. apply last_last. }
  unfold div_step.
  destruct (shifted_blocks_spec Hw Ej Hd) as (Sb & Sl & Sv).
  destruct (sub_from w (skipn i u) (shifted_blocks w d j) false) as [r b] eqn:E.
  assert (Hle : (length (shifted_blocks w d j) <= length (skipn i u))%nat) by (rewrite Sl, skipn_length; lia).
  destruct (sub_from_spec _ (blocks_skipn i Hu) Sb Hle Hlast E) as (A & B & C).
  cbn [Z.b2z] in C. rewrite Sv in C.
  assert (Hu' := firstn_skipn_value (i:=i) Hu ltac:(lia)).
  pose proof (value_bound (blocks_firstn i Hu)) as Bf. rewrite firstn_length_le in Bf by lia.
  assert (0 < 2 ^ Z.of_nat k) by (apply Z.pow_pos_nonneg; lia).
  assert (ES : 2 ^ Z.of_nat (S k) = 2 * 2 ^ Z.of_nat k) by (rewrite Nat2Z.inj_succ, Z.pow_succ_r by lia; reflexivity).
  assert (Hm' : value q mod 2 ^ Z.of_nat k = 0).
  { rewrite ES in Hm. apply Z.mod_divide in Hm; [|lia]. destruct Hm as (z & Hz). rewrite Hz.
    rewrite Z.mul_assoc. apply Z.mod_mul. lia. }
  destruct b.
  - exists u, q. repeat split; auto.
    rewrite Ep. rewrite Hu'. pose proof (Rkpos i). nia.
  - assert (Hbit : Z.testbit (nth i q 0) (Z.of_nat j) = false).
    { rewrite <- (value_testbit Hw) by auto. rewrite <- Ek.
      rewrite <- (Z.mod_pow2_bits_low _ (Z.of_nat (S k))) by lia. rewrite Hm, Z.bits_0. reflexivity. }
    assert (Hnth : 0 <= nth i q 0 < R).
    { unfold BigNumSpec.blocks in Hq. rewrite Forall_forall in Hq. apply Hq. apply nth_In. lia. }
    rewrite wrap_bit by auto.
    assert (Hb2 : 0 <= 2 ^ Z.of_nat j < R).
    { split; [apply Z.pow_nonneg; lia | unfold BigNumModel.R; apply Z.pow_lt_mono_r; lia]. }
    destruct (@set_nth_spec q i (Z.lor (nth i q 0) (2 ^ Z.of_nat j)) Hq) as (Q1 & Q2 & Q3); [lia| |].
    { apply (op_bound _ orb Z.lor_spec eq_refl); auto. }
    rewrite lor_bit in Q1, Q2, Q3 by (auto; lia). rewrite lor_bit by (auto; lia).
    assert (Q4 : value (set_nth q i (nth i q 0 + 2 ^ Z.of_nat j)) = value q + 2 ^ Z.of_nat k).
    { rewrite Q3, Ep. ring. }
    exists (firstn i u ++ r), (set_nth q i (nth i q 0 + 2 ^ Z.of_nat j)).
    assert (Vu' : value (firstn i u ++ r) = value u - value d * 2 ^ Z.of_nat k).
    { rewrite value_app, firstn_length_le by lia. rewrite C, Hu', Ep. ring. }
    repeat split; auto.
    + apply blocks_app. split; auto. apply blocks_firstn; auto.
    + rewrite app_length, B, <- app_length, firstn_skipn. auto.
    + lia.
    + rewrite Q4, Vu', Hv. ring.
    + rewrite Q4. rewrite <- (Z.mul_1_l (2 ^ Z.of_nat k)) at 1. rewrite Z.mod_add by lia. auto.
    + lia.
    + rewrite Vu'. rewrite ES in Hlt. nia.
Qed.

Lemma div_fold a d n : blocks d -> value a < R ^ Z.of_nat (length a) -> (length d + n = S (length a))%nat -> 0 <= value d ->
  forall k u q, (k <= n * w)%nat -> blocks u -> blocks q -> length u = S (length a) -> length q = n ->
  value a = value q * value d + value u -> value q mod 2 ^ Z.of_nat k = 0 -> 0 <= value q ->
  value u < value d * 2 ^ Z.of_nat k ->
  exists u' q', fold_left (div_step w d) (rev (map pos_of (seq 0 k))) (u, q) = (u', q') /\ blocks u' /\ blocks q'
    /\ value a = value q' * value d + value u' /\ value u' < value d.
Proof.
  intros Hd Ha Hn Hd0. induction k as [|k IH]; intros u q Hk Hu Hq Lu Lq Hv Hm Hq0 Hlt.
  - cbn. exists u, q. repeat split; auto. cbn [Z.of_nat] in Hlt. rewrite Z.pow_0_r in Hlt. lia.
  - replace (S k) with (k + 1)%nat by lia. rewrite seq_app, map_app, rev_app_distr. cbn [seq map rev app fold_left plus].
    destruct (@div_step_spec a d u q k n) as (u' & q' & E & A & B & C & D & F & G & H & I); auto.
    rewrite E. apply IH; auto. lia.
Qed.

Lemma divide_spec a d : blocks a -> canonical w d -> d <> [] ->
  value (fst (divide w a d)) = value a / value d /\ value (snd (divide w a d)) = value a mod value d
  /\ canonical w (fst (divide w a d)) /\ blocks (snd (divide w a d)) /\ (canonical w a -> canonical w (snd (divide w a d)))
  /\ ((length d <= length a)%nat -> canonical w (snd (divide w a d))).
Proof.
  intros Ha Hd Hne. pose proof (value_bound Ha) as Va. pose proof (value_bound (proj1 Hd)) as Vd.
  pose proof (canonical_lower Hw Hd Hne) as Hlow. pose proof (Rkpos (length d - 1)).
  unfold divide. destruct d as [|y d]; [congruence|]. cbn [is_zero].
  destruct (Nat.ltb_spec (length a) (length (y :: d))) as [Hlt|Hge].
  - cbn [fst snd].
    assert (value a < value (y :: d)).
    { eapply Z.lt_le_trans; [apply Va|]. eapply Z.le_trans; [|apply Hlow].
      apply Z.pow_le_mono_r; [rp|]. lia. }
    rewrite Z.div_small, Z.mod_small by lia.
    split; [reflexivity|]. split; [reflexivity|]. split; [split; [apply Forall_nil | cbn; lia]|].
    split; [auto|]. split; [auto|]. intros; lia.
  - set (D := y :: d) in *. set (n := (length a - length D + 1)%nat).
    rewrite (positions_eq Hw). change (fun k : nat => ((k / w)%nat, (k mod w)%nat)) with pos_of.
    destruct (@div_fold a D n (proj1 Hd) (proj2 Va)) with (k := (n * w)%nat) (u := a ++ [0]) (q := repeat 0 n)
      as (u' & q' & E & A & B & C & F).
    + unfold n. lia.
    + lia.
    + lia.
    + apply blocks_app. split; auto. apply blocks_cons. split; [rp | constructor].
    + apply blocks_zeroes; auto.
    + rewrite app_length. cbn. lia.
    + apply repeat_length.
    + rewrite value_zeroes, value_app. cbn [BigNumSpec.value]. lia.
    + rewrite value_zeroes. apply Z.mod_0_l. apply Z.pow_nonzero; lia.
    + rewrite value_zeroes. lia.
    + rewrite value_app. cbn [BigNumSpec.value].
      replace (2 ^ Z.of_nat (n * w)) with (R ^ Z.of_nat n) by (rewrite Rk; f_equal; lia).
      eapply Z.lt_le_trans with (R ^ Z.of_nat (length a)); [lia|].
      replace (length a) with ((length D - 1) + n)%nat by (unfold n, D; cbn in *; lia).
      rewrite Nat2Z.inj_add, Z.pow_add_r by lia. apply Z.mul_le_mono_nonneg_r; auto.
      pose proof (Rkpos n). lia.
    + rewrite E. cbn [fst snd]. rewrite !zap_value.
      pose proof (value_bound A).
      rewrite (Z.div_unique_pos (value a) (value D) (value q') (value u')) by lia.
      rewrite (Z.mod_unique_pos (value a) (value D) (value q') (value u')) by lia.
      split; [reflexivity|]. split; [reflexivity|]. pose proof (zap_canonical Hw A). pose proof (zap_canonical Hw B).
      split; [auto|]. split; [apply zap_blocks; auto|]. auto.
Qed.

(** ** operator < *)
Lemma any_less_complete a : forall b, blocks a -> blocks b -> length a = length b -> value a < value b -> any_less a b = true.
Proof.
  induction a as [|x a IH]; intros [|y b] Ha Hb Hl Hv; cbn [length] in Hl; try lia; try (cbn in Hv; lia).
  cbn [any_less]. destruct (Z.ltb_spec x y); auto.
  apply blocks_cons in Ha as [Hx Ha]. apply blocks_cons in Hb as [Hy Hb]. rewrite !value_cons in Hv.
  apply IH; auto. pose proof Rpos. nia.
Qed.
Lemma any_less_irrefl a : any_less a a = false.
Proof. induction a; cbn; auto. rewrite Z.ltb_irrefl. auto. Qed.
Lemma any_less_antisym a : forall b, length a = length b -> any_less a b = false -> any_less b a = false -> a = b.
Proof.
  induction a as [|x a IH]; intros [|y b] Hl H1 H2; cbn in Hl; try discriminate; auto.
  cbn in *. destruct (Z.ltb_spec x y); [discriminate|]. destruct (Z.ltb_spec y x); [discriminate|].
  f_equal; [lia|]. apply IH; auto.
Qed.
Lemma equal_eq a b : equal a b = true <-> a = b.
Proof.
  unfold equal, less. split.
  - intros H. apply andb_true_iff in H as [H1 H2]. apply negb_true_iff in H1, H2.
    destruct (Nat.ltb_spec (length a) (length b)); [discriminate|].
    destruct (Nat.ltb_spec (length b) (length a)); [discriminate|].
    apply any_less_antisym; auto. lia.
  - intros ->. rewrite Nat.ltb_irrefl, any_less_irrefl. reflexivity.
Qed.
Lemma less_complete a b : canonical w a -> canonical w b -> value a < value b -> less a b = true.
Proof.
  intros Ha Hb Hv. unfold less. destruct (Nat.ltb_spec (length a) (length b)); auto.
  destruct (Nat.ltb_spec (length b) (length a)).
  - pose proof (canonical_length Hw Ha Hb). lia.
  - apply any_less_complete; try apply Ha; try apply Hb; auto. lia.
Qed.
Lemma less_length a b : canonical w a -> canonical w b -> length a <> length b -> (less a b = true <-> value a < value b).
Proof.
  intros Ha Hb Hl. split; [|apply less_complete; auto]. unfold less.
  destruct (Nat.ltb_spec (length a) (length b)).
  - intros _. destruct (Z_lt_ge_dec (value a) (value b)); auto.
    pose proof (canonical_length Hw Hb Ha). lia.
  - destruct (Nat.ltb_spec (length b) (length a)); [discriminate | lia].
Qed.

(** ** Shifts *)
Lemma shift_left_spec a bits : blocks a ->
  value (shift_left_nat w a bits) = value a * 2 ^ Z.of_nat bits /\ canonical w (shift_left_nat w a bits).
Proof.
  intros Ha. unfold shift_left_nat. assert (bits mod w < w)%nat as Hb by (apply Nat.mod_upper_bound; lia).
  destruct (shifted_blocks_spec Hw Hb Ha) as (A & B & C). split.
  - rewrite zap_value, value_app, value_zeroes, repeat_length, C.
    rewrite (Nat.div_mod bits w) at 3 by lia. rewrite (Nat.mul_comm w), pow_split. ring.
  - apply zap_canonical; [auto|]. apply blocks_app. split; auto. apply blocks_zeroes; auto.
Qed.

Lemma map_seq_skipn {A} (f : nat -> A) n k : (k <= n)%nat -> map f (seq k (n - k)) = skipn k (map f (seq 0 n)).
Proof.
  intros H. replace n with (k + (n - k))%nat at 2 by lia. rewrite seq_app, map_app, skipn_app.
  rewrite map_length, seq_length, Nat.sub_diag. rewrite skipn_all2 by (rewrite map_length, seq_length; lia). reflexivity.
Qed.
Lemma shift_right_spec a bits : blocks a ->
  value (shift_right_nat w a bits) = value a / 2 ^ Z.of_nat bits /\ canonical w (shift_right_nat w a bits).
Proof.
  intros Ha. unfold shift_right_nat. set (rb := ceiling_div bits w).
  assert (Hrb : (bits <= w * rb /\ w * rb < bits + w)%nat).
  { unfold rb, ceiling_div. pose proof (Nat.div_mod (bits + w - 1) w ltac:(lia)).
    pose proof (Nat.mod_upper_bound (bits + w - 1) w ltac:(lia)). lia. }
  destruct (Nat.leb_spec (length a + 1) rb).
  - split; [|split; [constructor | cbn; lia]].
    cbn [BigNumSpec.value]. symmetry. apply Z.div_small. pose proof (value_bound Ha).
    rewrite Rk in H0. split; [lia|]. eapply Z.lt_le_trans; [apply H0|]. apply Z.pow_le_mono_r; [lia|]. nia.
  - replace (w * rb - bits)%nat with (w * rb - bits)%nat by lia. set (lb := (w * rb - bits)%nat) in *.
    assert (Hlb : (lb < w)%nat) by lia.
    destruct (shifted_blocks_spec Hw Hlb Ha) as (A & B & C).
    assert (Es : map (fun j => get_shifted_block w a j lb) (seq rb (length a + 1 - rb)) = skipn rb (shifted_blocks w a lb)).
    { rewrite map_seq_skipn by lia. unfold shifted_blocks. rewrite Nat.add_1_r. reflexivity. }
    rewrite Es. split; [|apply (zap_canonical Hw); apply blocks_skipn; auto].
    rewrite zap_value.
    assert (Hv := firstn_skipn_value (i:=rb) A ltac:(lia)). rewrite C in Hv.
    pose proof (value_bound (blocks_firstn rb A)) as Bf. rewrite firstn_length_le in Bf by lia.
    assert (value (skipn rb (shifted_blocks w a lb)) = (value a * 2 ^ Z.of_nat lb) / R ^ Z.of_nat rb) as ->.
    { apply Z.div_unique_pos with (r := value (firstn rb (shifted_blocks w a lb))); lia. }
    rewrite Rk. replace (Z.of_nat w * Z.of_nat rb) with (Z.of_nat bits + Z.of_nat lb) by lia.
    rewrite Z.pow_add_r by lia. apply Z.div_mul_cancel_r; apply Z.pow_nonzero; lia.
Qed.

(** ** or: no leading zeroes appear *)
Lemma lor_ge a b : 0 <= a -> 0 <= b -> a <= Z.lor a b.
Proof.
  intros Ha Hb. assert (Z.land a (Z.ldiff b a) = 0) as E.
  { apply Z.bits_inj'. intros n Hn. rewrite Z.land_spec, Z.ldiff_spec, Z.bits_0.
    destruct (Z.testbit a n), (Z.testbit b n); reflexivity. }
  assert (Z.lor a b = a + Z.ldiff b a) as ->.
  { rewrite Z.add_nocarry_lxor by exact E. apply Z.bits_inj'. intros n Hn.
    rewrite Z.lor_spec, Z.lxor_spec, Z.ldiff_spec. destruct (Z.testbit a n), (Z.testbit b n); reflexivity. }
  assert (0 <= Z.ldiff b a) by (apply Z.ldiff_nonneg; auto). lia.
Qed.
Lemma canonical_of_lower u : blocks u -> u <> [] -> R ^ Z.of_nat (length u - 1) <= value u -> canonical w u.
Proof.
  intros Hb Hn Hv. split; auto. destruct (exists_last Hn) as (a & x & ->). rewrite last_last.
  rewrite app_length in Hv. cbn [length] in Hv. replace (length a + 1 - 1)%nat with (length a) in Hv by lia.
  rewrite value_app in Hv. cbn [BigNumSpec.value] in Hv. apply blocks_app in Hb as [Hb _]. pose proof (value_bound Hb).
  intros ->. lia.
Qed.
Lemma or_spec a b : blocks a -> blocks b ->
  blocks (bit_or a b) /\ value (bit_or a b) = Z.lor (value a) (value b) /\ length (bit_or a b) = Nat.max (length a) (length b).
Proof. apply (zip_rest_spec _ orb Z.lor_spec eq_refl Z.lor_0_l Z.lor_0_r). Qed.
Lemma xor_spec a b : blocks a -> blocks b ->
  canonical w (bit_xor a b) /\ value (bit_xor a b) = Z.lxor (value a) (value b).
Proof.
  intros Ha Hb. destruct (zip_rest_spec _ xorb Z.lxor_spec eq_refl Z.lxor_0_l Z.lxor_0_r Ha Hb) as (A & B & _).
  unfold bit_xor. rewrite zap_value. split; auto. apply (zap_canonical Hw); auto.
Qed.
Lemma and_spec a b : blocks a -> blocks b ->
  canonical w (bit_and a b) /\ value (bit_and a b) = Z.land (value a) (value b).
Proof.
  intros Ha Hb. destruct (zip_and_spec Ha Hb) as (A & B). unfold bit_and. rewrite zap_value.
  split; auto. apply (zap_canonical Hw); auto.
Qed.
Lemma or_good a b : good w a -> good w b -> (canonical w a -> canonical w b -> canonical w (bit_or a b)) /\ good w (bit_or a b).
Proof.
  assert (C : forall a b : list Z, good w a -> good w b -> a <> [] -> canonical w a -> (length b <= length a)%nat -> canonical w (bit_or a b)).
  { clear a b. intros a b Ha Hb Hn Hc Hl. destruct (or_spec (good_blocks Hw Ha) (good_blocks Hw Hb)) as (A & B & D).
    apply canonical_of_lower; auto.
    - intros E. rewrite E in D. destruct a; [congruence | cbn [length] in D; lia].
    - rewrite D, B. replace (Nat.max (length a) (length b)) with (length a) by lia.
      pose proof (canonical_lower Hw Hc Hn).
      pose proof (value_bound (good_blocks Hw Ha)). pose proof (value_bound (good_blocks Hw Hb)).
      pose proof (@lor_ge (value a) (value b)). lia. }
  assert (S : forall a b, good w a -> good w b -> bit_or a b = bit_or b a).
  { clear a b. intros a b Ha Hb. destruct (or_spec (good_blocks Hw Ha) (good_blocks Hw Hb)) as (A & B & D).
    destruct (or_spec (good_blocks Hw Hb) (good_blocks Hw Ha)) as (A' & B' & D').
    apply (value_inj Hw A A'); [lia|]. rewrite B, B'. apply Z.lor_comm. }
  intros Ha Hb.
  assert (K : canonical w a -> canonical w b -> canonical w (bit_or a b)).
  { intros Ca Cb. destruct (le_ge_dec (length b) (length a)).
    - destruct a as [|x a]; [destruct b; [|cbn in *; lia]; exact Ca|]. apply C; auto. discriminate.
    - rewrite S by auto. destruct b as [|x b]; [destruct a; [|cbn in *; lia]; exact Cb|]. apply C; auto. discriminate. }
  split; auto. destruct Ha as [Ca| ->], Hb as [Cb| ->].
  - left; auto.
  - destruct a as [|x a]; [right; reflexivity|]. left. apply C; auto; try discriminate; [left; auto | right; auto | cbn; lia].
  - destruct b as [|x b]; [right; reflexivity|]. left. rewrite S; [|right; auto | left; auto].
    apply C; auto; try discriminate; [left; auto | right; auto | cbn; lia].
  - right. reflexivity.
Qed.
End P.
