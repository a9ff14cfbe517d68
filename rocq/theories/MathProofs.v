From Verif Require Import Base ITextModel ITextSpec ITextProofs MathModel MathSpec.
From Coq Require Import Lia ZArith Znumtheory.
Local Open Scope Z_scope.

(** * AlignUp, AlignDown *)
Lemma least_up v b : 0 < b -> least_multiple b v (b * ((v + b - 1) / b)).
Proof.
  intros Hb. pose proof (Z.div_mod (v + b - 1) b ltac:(lia)). pose proof (Z.mod_pos_bound (v + b - 1) b Hb).
  split; [exists ((v + b - 1) / b); lia|]. split; [lia|]. intros x [k ->] Hx.
  set (q := (v + b - 1) / b) in *. assert (q <= k); [|nia].
  destruct (Z.le_gt_cases q k); [assumption|]. exfalso. assert (k + 1 <= q) by lia. nia.
Qed.
Lemma greatest_down v b : 0 < b -> greatest_multiple b v (b * (v / b)).
Proof.
  intros Hb. pose proof (Z.div_mod v b ltac:(lia)). pose proof (Z.mod_pos_bound v b Hb).
  split; [exists (v / b); lia|]. split; [lia|]. intros x [k ->] Hx.
  set (q := v / b) in *. assert (k <= q); [|nia].
  destruct (Z.le_gt_cases k q); [assumption|]. exfalso. assert (q + 1 <= k) by lia. nia.
Qed.
Lemma arith_id w x : 0 <= w -> 0 <= x < 2 ^ w -> arith w x = x.
Proof. intros Hw H. unfold arith. destruct (w <? 32); [reflexivity|]. apply Z.mod_small. exact H. Qed.
Lemma align_up_spec w v b : 0 <= w -> 0 < b -> 0 <= v -> v + b - 1 < 2 ^ w -> exists m, align_up w v b = Some m /\ least_multiple b v m.
Proof.
  intros Hw Hb Hv H. exists (b * ((v + b - 1) / b)). split; [|apply least_up; exact Hb].
  destruct (least_up v b Hb) as (_ & L & _). pose proof (Z.div_mod (v + b - 1) b ltac:(lia)). pose proof (Z.mod_pos_bound (v + b - 1) b Hb).
  unfold align_up. destruct (Z.eqb_spec b 0); [lia|]. f_equal.
  assert (E : arith w (arith w (v + b) - 1) = v + b - 1).
  { unfold arith. destruct (w <? 32); [reflexivity|]. rewrite Zminus_mod_idemp_l. apply Z.mod_small. lia. }
  rewrite E. rewrite arith_id by lia. apply Z.mod_small. lia.
Qed.
Lemma align_up_narrow w v b : 0 <= w < 32 -> 0 < b -> 0 <= v -> (exists m, multiple_of b m /\ v <= m < 2 ^ w) -> exists m, align_up w v b = Some m /\ least_multiple b v m.
Proof.
  intros Hw Hb Hv (m & M & Hm). exists (b * ((v + b - 1) / b)). destruct (least_up v b Hb) as (A & L & C). split; [|split; auto].
  unfold align_up, arith. destruct (Z.eqb_spec b 0); [lia|]. destruct (Z.ltb_spec w 32); [|lia]. f_equal. apply Z.mod_small.
  specialize (C m M). lia.
Qed.
Lemma align_down_spec w v b : 0 <= w -> 0 < b -> 0 <= v < 2 ^ w -> exists m, align_down w v b = Some m /\ greatest_multiple b v m.
Proof.
  intros Hw Hb Hv. exists (b * (v / b)). split; [|apply greatest_down; exact Hb].
  destruct (greatest_down v b Hb) as (_ & L & _). pose proof (Z.div_pos v b ltac:(lia) Hb).
  unfold align_down. destruct (Z.eqb_spec b 0); [lia|]. f_equal. rewrite arith_id by nia. apply Z.mod_small. nia.
Qed.

(** * Gcd, Lcm *)
Lemma gcd_spec fuel : forall a b, 0 <= a -> 0 <= b -> (Z.to_nat b < fuel)%nat -> gcd fuel a b = Some (Z.gcd a b).
Proof.
  induction fuel as [|fuel IH]; intros a b Ha Hb Hf; [lia|]. cbn [gcd]. destruct (Z.eqb_spec b 0) as [->|N].
  - rewrite Z.gcd_0_r, Z.abs_eq by assumption. reflexivity.
  - pose proof (Z.mod_pos_bound a b ltac:(lia)). rewrite IH by lia. f_equal. rewrite (Z.gcd_comm b (a mod b)), Z.gcd_mod by lia. apply Z.gcd_comm.
Qed.
Lemma lcm_spec fuel a b : 0 <= a -> 0 <= b -> (Z.to_nat b < fuel)%nat ->
  lcm fuel a b = if (a =? 0) && (b =? 0) then None else Some (Z.lcm a b mod 2 ^ 64).
Proof.
  intros Ha Hb Hf. unfold lcm. rewrite gcd_spec by assumption. pose proof (Z.gcd_nonneg a b). destruct (Z.eqb_spec (Z.gcd a b) 0) as [E|E].
  - apply Z.gcd_eq_0 in E as [-> ->]. reflexivity.
  - replace ((a =? 0) && (b =? 0)) with false; [|symmetry; destruct (Z.eqb_spec a 0), (Z.eqb_spec b 0); try reflexivity; subst; cbn in E; congruence].
    f_equal. f_equal. unfold Z.lcm. destruct (Z.gcd_divide_l a b) as [p Hp], (Z.gcd_divide_r a b) as [q Hq].
    set (g := Z.gcd a b) in *. replace (a / g) with p by (rewrite Hp; symmetry; apply Z.div_mul; lia).
    replace (b / g) with q by (rewrite Hq at 1; symmetry; apply Z.div_mul; lia). 
    rewrite Z.abs_eq by nia. transitivity (p * g * q); [|rewrite <- Hp; reflexivity]. transitivity (p * (q * g)); [rewrite <- Hq; reflexivity|ring].
Qed.

(** * powers *)
Lemma le_div_max cur n : 0 < n -> (cur <= (2 ^ 64 - 1) / n <-> cur * n < 2 ^ 64).
Proof.
  intros Hn. pose proof (Z.div_mod (2 ^ 64 - 1) n ltac:(lia)) as E. pose proof (Z.mod_pos_bound (2 ^ 64 - 1) n Hn) as B.
  set (q := (2 ^ 64 - 1) / n) in *. set (M := 2 ^ 64) in *. split; intros H; [nia|]. destruct (Z.le_gt_cases cur q); [assumption|].
  assert (q + 1 <= cur) by lia. nia.
Qed.
Lemma powers_spec number : 2 <= number -> forall fuel k, (1 <= fuel)%nat -> (64 < Z.of_nat fuel + Z.of_nat k) ->
  number ^ Z.of_nat k < 2 ^ 64 ->
  exists l, powers fuel number (number ^ Z.of_nat k) = Some l /\
    (forall i x, nth_error l i = Some x -> x = number ^ (Z.of_nat k + Z.of_nat i)) /\
    (forall j, Z.of_nat k <= j -> number ^ j < 2 ^ 64 -> In (number ^ j) l).
Proof.
  intros Hn. induction fuel as [|fuel IH]; intros k Hf Hk Hp; [lia|]. cbn [powers].
  destruct (Z.leb_spec (number ^ Z.of_nat k) ((2 ^ 64 - 1) / number)) as [L|L].
  - apply le_div_max in L; [|lia].
    assert (Es : number ^ Z.of_nat k * number = number ^ Z.of_nat (S k)) by (rewrite Nat2Z.inj_succ, Z.pow_succ_r by lia; ring).
    rewrite Es in *. destruct fuel as [|fuel].
    { exfalso. assert (number ^ Z.of_nat (S k) >= 2 ^ 64); [|lia]. apply Z.le_ge. transitivity (2 ^ Z.of_nat (S k)).
      - apply Z.pow_le_mono_r; lia.
      - apply Z.pow_le_mono_l. lia. }
    destruct (IH (S k) ltac:(lia) ltac:(lia) L) as (l & E & N & I). rewrite E. exists (number ^ Z.of_nat k :: l). split; [reflexivity|]. split.
    + intros [|i] x Ex; cbn in Ex; [injection Ex as <-; f_equal; lia|]. apply N in Ex. rewrite Ex. f_equal. lia.
    + intros j Hj Hjp. destruct (Z.eq_dec j (Z.of_nat k)) as [->|Nj]; [left; reflexivity|]. right. apply I; [lia|exact Hjp].
  - exists [number ^ Z.of_nat k]. split; [reflexivity|]. split.
    + intros [|[|i]] x Ex; cbn in Ex; try discriminate; injection Ex as <-; f_equal; lia.
    + intros j Hj Hjp. destruct (Z.eq_dec j (Z.of_nat k)) as [->|Nj]; [left; reflexivity|]. exfalso.
      assert (~ number ^ Z.of_nat k * number < 2 ^ 64) by (intros H; exact (Zlt_not_le _ _ L (proj2 (le_div_max (number ^ Z.of_nat k) number ltac:(lia)) H))).
      assert (number ^ (Z.of_nat k + 1) <= number ^ j) by (apply Z.pow_le_mono_r; lia). assert (H2 : number ^ (Z.of_nat k + 1) = number ^ Z.of_nat k * number) by (rewrite Z.pow_add_r, Z.pow_1_r by lia; reflexivity).
      rewrite H2 in *. lia.
Qed.

Definition sorted (arr : list Z) : Prop := forall i j, (i < j < length arr)%nat -> nth i arr 0 < nth j arr 0.
Lemma div2_half n : n <> 0%nat -> (Nat.div2 n < n)%nat.
Proof. intros H. apply Nat.lt_div2. lia. Qed.
Lemma lower_bound_spec arr x : sorted arr -> forall fuel lo n, (n < fuel)%nat -> (lo + n <= length arr)%nat ->
  (forall i, (i < lo)%nat -> nth i arr 0 < x) -> (forall i, (lo + n <= i < length arr)%nat -> x <= nth i arr 0) ->
  let r := lower_bound fuel arr x lo n in (lo <= r <= lo + n)%nat /\ (forall i, (i < r)%nat -> nth i arr 0 < x) /\ (forall i, (r <= i < length arr)%nat -> x <= nth i arr 0).
Proof.
  intros S. induction fuel as [|fuel IH]; intros lo n Hf Hl Hlo Hhi; [lia|]. cbn [lower_bound]. destruct n as [|n'].
  - cbv zeta. rewrite Nat.add_0_r in *. split; [lia|]. auto.
  - set (n := Datatypes.S n') in *. pose proof (div2_half n ltac:(lia)) as Hd. cbv zeta. set (half := Nat.div2 n) in *.
    destruct (Z.ltb_spec (nth (lo + half) arr 0) x) as [L|L].
    + destruct (IH (lo + half + 1)%nat (n - half - 1)%nat ltac:(lia) ltac:(lia)) as (A & B & C).
      * intros i Hi. destruct (Nat.eq_dec i (lo + half)) as [->|Ni]; [exact L|].
        pose proof (S i (lo + half)%nat ltac:(lia)). lia.
      * intros i Hi. apply Hhi. lia.
      * split; [lia|]. auto.
    + destruct (IH lo half ltac:(lia) ltac:(lia) Hlo) as (A & B & C).
      * intros i Hi. destruct (Nat.eq_dec i (lo + half)) as [->|Ni]; [exact L|].
        pose proof (S (lo + half)%nat i ltac:(lia)). lia.
      * split; [lia|]. auto.
Qed.
Lemma binary_search_spec arr x : sorted arr -> binary_search arr x = true <-> In x arr.
Proof.
  intros S. unfold binary_search. destruct (lower_bound_spec arr x S (length arr + 1) 0 (length arr) ltac:(lia) ltac:(lia) ltac:(lia) ltac:(lia)) as (A & B & C).
  set (r := lower_bound (length arr + 1) arr x 0 (length arr)) in *. cbv zeta. rewrite andb_true_iff, Nat.ltb_lt, negb_true_iff, Z.ltb_ge. split.
  - intros [H H']. assert (E : nth r arr 0 = x) by (specialize (C r ltac:(lia)); lia). rewrite <- E. apply nth_In. exact H.
  - intros I. apply (In_nth _ _ 0) in I. destruct I as (i & Hi & E). assert (~ (i < r)%nat) by (intros H; specialize (B i H); lia).
    split; [lia|]. destruct (Nat.eq_dec i r) as [->|N]; [lia|]. pose proof (S r i ltac:(lia)). lia.
Qed.
Lemma is_power_spec number t : 2 <= number -> t < 2 ^ 64 ->
  exists b, is_power_of number t = Some b /\ (b = true <-> exists k, 0 <= k /\ t = number ^ k).
Proof.
  intros Hn Ht. unfold is_power_of. destruct (powers_spec number Hn 65 0 ltac:(lia) ltac:(lia) ltac:(cbn; lia)) as (l & E & N & I).
  change (number ^ Z.of_nat 0) with 1 in E. rewrite E. exists (binary_search l t). split; [reflexivity|].
  rewrite binary_search_spec.
  - split.
    + intros H. apply In_nth_error in H. destruct H as (i & H). apply N in H. exists (0 + Z.of_nat i). split; [lia|exact H].
    + intros (k & Hk & ->). apply I; [lia|exact Ht].
  - intros i j Hij. destruct (nth_error l i) as [x|] eqn:Ei; [|apply nth_error_None in Ei; lia]. destruct (nth_error l j) as [y|] eqn:Ej; [|apply nth_error_None in Ej; lia].
    rewrite (nth_error_nth _ _ _ Ei), (nth_error_nth _ _ _ Ej). apply N in Ei, Ej. subst. apply Z.pow_lt_mono_r; lia.
Qed.
