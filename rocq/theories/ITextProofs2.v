From Verif Require Import Base ITextModel ITextSpec ITextProofs.
From Coq Require Import Lia.
Local Open Scope Z_scope.

Lemma unit_size_eq i : 2 ^ (10 * Z.of_nat i) = unit_size i.
Proof. unfold unit_size. rewrite Z.pow_mul_r by lia. reflexivity. Qed.
Lemma unit_pos i : 0 < unit_size i.
Proof. unfold unit_size. apply Z.pow_pos_nonneg; lia. Qed.
Lemma unit_cases i : (i <= 6)%nat -> unit_size i = 1 \/ exists h, unit_size i = 2 * h /\ 0 < h.
Proof.
  intros H. destruct i as [|i]; [left; reflexivity|right].
  exists (512 * unit_size i). pose proof (unit_pos i). split; [|lia].
  unfold unit_size. rewrite Nat2Z.inj_succ, Z.pow_succ_r by lia. lia.
Qed.
Lemma unit_divides i : (i <= 6)%nat -> exists q, 2 ^ 64 = q * unit_size i /\ 0 < q.
Proof.
  intros H. exists (2 ^ (64 - 10 * Z.of_nat i)). rewrite <- unit_size_eq, <- Z.pow_add_r by lia.
  split; [f_equal; lia|apply Z.pow_pos_nonneg; lia].
Qed.

Lemma rounded_nearest size i : (i <= 6)%nat -> 0 <= size -> nearest size (rounded_in_units size i) (unit_size i).
Proof.
  intros Hi Hs. unfold rounded_in_units, nearest. cbv zeta. rewrite unit_size_eq.
  pose proof (unit_pos i). pose proof (Z.div_mod size (unit_size i) ltac:(lia)). pose proof (Z.mod_pos_bound size (unit_size i) ltac:(lia)).
  destruct (unit_cases i Hi) as [E|(h & E & Hh)].
  - rewrite E in *. rewrite Z.div_1_r, Z.mod_1_r in *. cbn [Z.ltb Z.compare Pos.compare Pos.compare_cont andb]. lia.
  - assert (Hd : unit_size i / 2 = h) by (rewrite E, Z.mul_comm; apply Z.div_mul; lia). rewrite Hd.
    destruct (Z.ltb_spec 1 (unit_size i)); [|lia]. cbn [andb].
    destruct (Z.leb_spec h (size mod unit_size i)).
    + rewrite Z.mul_add_distr_r. nia.
    + rewrite Z.add_0_r. nia.
Qed.
Lemma rounded_nonneg size i : 0 <= size -> 0 <= rounded_in_units size i.
Proof.
  intros Hs. unfold rounded_in_units. cbv zeta. rewrite unit_size_eq. pose proof (unit_pos i).
  pose proof (Z.div_pos size (unit_size i) Hs ltac:(lia)).
  destruct ((1 <? unit_size i) && (unit_size i / 2 <=? size mod unit_size i)); lia.
Qed.
Lemma rounded_le size i : (i <= 6)%nat -> 0 <= size < 2 ^ 64 -> rounded_in_units size i * unit_size i <= 2 ^ 64.
Proof.
  intros Hi Hs. destruct (unit_divides i Hi) as (q & Eq & Hq). pose proof (unit_pos i).
  assert (size / unit_size i < q) by (apply Z.div_lt_upper_bound; lia).
  assert (rounded_in_units size i <= q).
  { unfold rounded_in_units. cbv zeta. rewrite unit_size_eq.
    destruct ((1 <? unit_size i) && (unit_size i / 2 <=? size mod unit_size i)); lia. }
  rewrite Eq. apply Z.mul_le_mono_nonneg_r; lia.
Qed.
Lemma rounded_u64 size i : (i <= 6)%nat -> 0 <= size < 2 ^ 64 -> rounded_in_units size i * unit_size i <> 2 ^ 64 ->
  0 <= rounded_in_units size i < 2 ^ 64.
Proof.
  intros Hi Hs Hn. pose proof (rounded_le size i Hi Hs). pose proof (rounded_nonneg size i ltac:(lia)). pose proof (unit_pos i). nia.
Qed.

Lemma human_fits_iff size delta i : (i <= 6)%nat -> 0 < size < 2 ^ 64 -> 0 <= delta < size -> size + delta < 2 ^ 64 ->
  human_fits size delta i = true <-> Z.abs (rounded_in_units size i * unit_size i - size) <= delta.
Proof.
  intros Hi Hs Hd Hsum. unfold human_fits. cbv zeta. rewrite unit_size_eq.
  pose proof (rounded_le size i Hi ltac:(lia)). pose proof (rounded_nonneg size i ltac:(lia)). pose proof (unit_pos i).
  unfold u64. rewrite (Z.mod_small (size - delta)), (Z.mod_small (size + delta)) by lia.
  rewrite andb_true_iff, !Z.leb_le.
  set (r := rounded_in_units size i * unit_size i) in *.
  destruct (Z.eq_dec r (2 ^ 64)) as [E|N].
  - rewrite E, Z_mod_same_full. lia.
  - rewrite Z.mod_small by (unfold r in *; split; [apply Z.mul_nonneg_nonneg; lia|lia]). lia.
Qed.

Lemma to_string_digits v : 0 <= v < 2 ^ 64 -> exists d, to_string 64 v = Some d /\ d <> [] /\ Forall digit_char d /\ num d = v.
Proof.
  intros Hv. unfold to_string. cbv zeta. destruct (Z.ltb_spec v 0); [lia|].
  assert (E : conv (unsigned_t 64) v = v) by (apply conv_fits; unfold fits, unsigned_t; cbn [t_min t_max]; lia).
  rewrite E. destruct (insert_integral_spec v Hv) as (d & E1 & A & B & C & _). exists d. auto.
Qed.

Lemma human_loop_spec size delta ws : 0 < size < 2 ^ 64 -> 0 <= delta < size -> size + delta < 2 ^ 64 ->
  forall k, (k <= 6)%nat ->
  exists i d, (i <= k)%nat /\ human_loop size delta ws k = Some (d ++ ws ++ unit_text i) /\ d <> [] /\ Forall digit_char d /\
    num d = rounded_in_units size i /\ Z.abs (rounded_in_units size i * unit_size i - size) <= delta /\
    (forall j, (i < j <= k)%nat -> delta < Z.abs (rounded_in_units size j * unit_size j - size)).
Proof.
  intros Hs Hd Hsum. induction k as [|k IH]; intros Hk.
  - cbn [human_loop]. assert (F : human_fits size delta 0 = true).
    { apply human_fits_iff; try assumption. unfold rounded_in_units, unit_size. cbn. rewrite Z.div_1_r. lia. }
    rewrite F. assert (E : rounded_in_units size 0 = size) by (unfold rounded_in_units; cbn; rewrite Z.div_1_r; lia).
    rewrite E. unfold u64. rewrite Z.mod_small by lia.
    destruct (to_string_digits size ltac:(lia)) as (d & E1 & A & B & C). rewrite E1.
    exists 0%nat, d. split; [lia|]. split; [reflexivity|]. repeat (split; [assumption|]). split; [lia|].
    split; [rewrite E; unfold unit_size; cbn; lia|lia].
  - destruct (human_fits size delta (S k)) eqn:F.
    + pose proof (proj1 (human_fits_iff size delta (S k) Hk Hs Hd Hsum) F) as G.
      assert (rounded_in_units size (S k) * unit_size (S k) <> 2 ^ 64) by lia.
      pose proof (rounded_u64 size (S k) Hk ltac:(lia) H) as R.
      destruct (to_string_digits _ R) as (d & E1 & A & B & C).
      exists (S k), d. split; [lia|]. split.
      { cbn [human_loop]. rewrite F. unfold u64. rewrite Z.mod_small by exact R. rewrite E1. reflexivity. }
      repeat (split; [assumption|]). lia.
    + destruct (IH ltac:(lia)) as (i & d & Hi & E & A & B & C & D & G).
      exists i, d. split; [lia|]. split; [cbn [human_loop]; rewrite F; exact E|]. repeat (split; [assumption|]).
      intros j Hj. destruct (Nat.eq_dec j (S k)) as [->|N]; [|apply G; lia].
      destruct (Z_lt_le_dec delta (Z.abs (rounded_in_units size (S k) * unit_size (S k) - size))); [assumption|].
      exfalso. pose proof (proj2 (human_fits_iff size delta (S k) Hk Hs Hd Hsum) ltac:(assumption)). congruence.
Qed.

(** * reading *)
Lemma u64_std : std_type (unsigned_t 64).
Proof. constructor; lia. Qed.
Lemma from_digits d : Forall digit_char d -> d <> [] ->
  from_string (unsigned_t 64) d = if num d <? 2 ^ 64 then IOk (num d) else IRange.
Proof.
  intros Hd Hn. pose proof (from_string_value (unsigned_t 64) NoSign d u64_std Hd Hn ltac:(discriminate)) as P.
  cbn [sign_text app signed_num] in P. rewrite P. pose proof (num_bounds d Hd).
  unfold fitsb, unsigned_t. cbn [t_min t_max].
  destruct (Z.leb_spec 0 (num d)); [|lia]. cbn [andb].
  destruct (Z.leb_spec (num d) (2 ^ 64 - 1)), (Z.ltb_spec (num d) (2 ^ 64)); try reflexivity; lia.
Qed.

Lemma suffix_found k : (k < 6)%nat -> find_suffix (nth k suffixes 0) suffixes 0 = Some k.
Proof. intros H. do 6 (destruct k as [|k]; [reflexivity|]). lia. Qed.
Lemma suffix_not_digit k : (k < 6)%nat -> ~ digit_char (nth k suffixes 0) /\ nth k suffixes 0 <> 0.
Proof. intros H. do 6 (destruct k as [|k]; [cbn; unfold digit_char; lia|]). lia. Qed.

Lemma from_human_suffix d k : Forall digit_char d -> d <> [] -> (k < 6)%nat ->
  from_human (d ++ unit_text (S k)) =
  if num d <? 2 ^ 64 then IOk ((num d * unit_size (S k)) mod 2 ^ 64) else IRange.
Proof.
  intros Hd Hn Hk. unfold from_human. cbn [unit_text].
  assert (E0 : from_string (unsigned_t 64) (d ++ [nth k [107; 77; 71; 84; 80; 69] 0]) = IFormat).
  { apply from_string_format; [destruct d; discriminate|]. intros g d' E Hd'.
    assert (In (nth k suffixes 0) d').
    { destruct g; cbn in E.
      - destruct d as [|c d]; [congruence|]. injection E as -> E. subst d'. apply in_or_app. right. left. reflexivity.
      - destruct d as [|c d]; [congruence|]. injection E as -> E. subst d'. apply in_or_app. right. left. reflexivity.
      - subst d'. apply in_or_app. right. left. reflexivity. }
    rewrite Forall_forall in Hd'. apply (proj1 (suffix_not_digit k Hk)). apply Hd'. assumption. }
  rewrite E0. rewrite rev_app_distr. cbn [rev app].
  destruct (rev d) as [|x r] eqn:Er.
  { exfalso. apply Hn. rewrite <- (rev_involutive d), Er. reflexivity. }
  change [107; 77; 71; 84; 80; 69] with suffixes. rewrite suffix_found by exact Hk.
  cbv zeta. change (rev (x :: r)) with (rev r ++ [x]).
  assert (Ed : rev r ++ [x] = d) by (rewrite <- (rev_involutive d), Er; reflexivity). rewrite Ed. rewrite (proj2 (digits_iff d) Hd).
  rewrite from_digits by assumption. destruct (num d <? 2 ^ 64); [|reflexivity].
  replace (k + 1)%nat with (S k) by lia. rewrite unit_size_eq. reflexivity.
Qed.

Lemma from_human_plain d : Forall digit_char d -> d <> [] -> num d < 2 ^ 64 -> from_human d = IOk (num d).
Proof.
  intros Hd Hn Hl. unfold from_human. rewrite from_digits by assumption.
  destruct (Z.ltb_spec (num d) (2 ^ 64)); [reflexivity|lia].
Qed.

Lemma from_human_value s n i : human s n i -> n * unit_size i < 2 ^ 64 -> from_human s = IOk (n * unit_size i).
Proof.
  intros (d & -> & Hn & Hd & E & Hi) Hl. pose proof (num_bounds d Hd). subst n.
  destruct i as [|k].
  - cbn [unit_text]. rewrite app_nil_r. unfold unit_size in *. cbn [Z.of_nat] in *. rewrite Z.pow_0_r, Z.mul_1_r in *. apply from_human_plain; assumption.
  - rewrite from_human_suffix by (assumption || lia). pose proof (unit_pos (S k)).
    destruct (Z.ltb_spec (num d) (2 ^ 64)); [|nia]. rewrite Z.mod_small by nia. reflexivity.
Qed.
