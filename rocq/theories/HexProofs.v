(** Proofs about hexadecimal. *)
From Verif Require Import Base HexModel HexSpec.
Local Open Scope Z_scope.

Ltac zb := repeat match goal with
  | |- context [?a <=? ?b] => first [replace (a <=? b) with true by (symmetry; apply Z.leb_le; lia) | replace (a <=? b) with false by (symmetry; apply Z.leb_gt; lia)]
  | |- context [?a <? ?b] => first [replace (a <? b) with true by (symmetry; apply Z.ltb_lt; lia) | replace (a <? b) with false by (symmetry; apply Z.ltb_ge; lia)]
  | |- context [?a =? ?b] => first [replace (a =? b) with true by (symmetry; apply Z.eqb_eq; lia) | replace (a =? b) with false by (symmetry; apply Z.eqb_neq; lia)]
  end; cbn [andb orb negb].

Lemma hexval_cases c d : hexval c = Some d -> (48 <= c <= 57 /\ d = c - 48) \/ (65 <= c <= 70 /\ d = c - 55) \/ (97 <= c <= 102 /\ d = c - 87).
Proof.
  unfold hexval. destruct (Z.leb_spec 48 c), (Z.leb_spec c 57); cbn [andb]; try (intros X; injection X as <-; lia);
  destruct (Z.leb_spec 65 c), (Z.leb_spec c 70); cbn [andb]; try (intros X; injection X as <-; lia);
  destruct (Z.leb_spec 97 c), (Z.leb_spec c 102); cbn [andb]; try (intros X; injection X as <-; lia); discriminate.
Qed.
Lemma hexval_range c d : hexval c = Some d -> 0 <= d < 16.
Proof. intros H. apply hexval_cases in H. lia. Qed.
Lemma is_hex_spec c : is_hex c = match hexval c with Some _ => true | None => false end.
Proof.
  unfold is_hex, hexval. destruct ((48 <=? c) && (c <=? 57)); [reflexivity | ]. destruct ((65 <=? c) && (c <=? 70)); [reflexivity | ].
  destruct ((97 <=? c) && (c <=? 102)); reflexivity.
Qed.
Lemma digit_spec c d : hexval c = Some d -> digit c = d.
Proof.
  intros H. apply hexval_cases in H. unfold digit. destruct H as [[H ->] | [[H ->] | [H ->]]].
  - zb. reflexivity.
  - zb. assert (E : c = 65 \/ c = 66 \/ c = 67 \/ c = 68 \/ c = 69 \/ c = 70) by lia. decompose [or] E; subst; reflexivity.
  - zb. assert (E : c = 97 \/ c = 98 \/ c = 99 \/ c = 100 \/ c = 101 \/ c = 102) by lia. decompose [or] E; subst; reflexivity.
Qed.
Lemma digits_forall s : forallb is_hex s = match digits s with Some _ => true | None => false end.
Proof.
  induction s as [ | c s IH]; [reflexivity | ]. cbn [forallb digits]. rewrite is_hex_spec, IH. destruct (hexval c), (digits s); reflexivity.
Qed.
Lemma digits_range s ds : digits s = Some ds -> Forall (fun d => 0 <= d < 16) ds.
Proof.
  revert ds; induction s as [ | c s IH]; intros ds H; cbn [digits] in H; [injection H as <-; constructor | ].
  destruct (hexval c) eqn:E; [ | discriminate]. destruct (digits s); [ | discriminate]. injection H as <-. constructor; [apply (hexval_range _ _ E) | auto].
Qed.
Lemma digits_length s ds : digits s = Some ds -> length ds = length s.
Proof.
  revert ds; induction s as [ | c s IH]; intros ds H; cbn [digits] in H; [injection H as <-; reflexivity | ].
  destruct (hexval c) eqn:E; [ | discriminate]. destruct (digits s); [ | discriminate]. injection H as <-. cbn. rewrite (IH _ eq_refl). reflexivity.
Qed.

Lemma lor_shift a b k : 0 <= k -> 0 <= a -> 0 <= b < 2 ^ k -> Z.lor (Z.shiftl a k) b = a * 2 ^ k + b.
Proof.
  intros Hk Ha Hb. rewrite Z.shiftl_mul_pow2 by assumption.
  assert (N : Z.land (a * 2 ^ k) b = 0).
  { apply Z.bits_inj'. intros n Hn. rewrite Z.land_spec, Z.bits_0.
    destruct (Z.ltb_spec n k).
    - rewrite Z.mul_pow2_bits_low by assumption. reflexivity.
    - replace (Z.testbit b n) with false; [apply andb_false_r | ]. symmetry. 
      destruct (Z.eq_dec b 0) as [-> | Nb]; [apply Z.bits_0 | ]. apply Z.bits_above_log2; [lia | ]. apply Z.log2_lt_pow2; [lia | ].
      apply Z.lt_le_trans with (2 ^ k); [lia | ]. apply Z.pow_le_mono_r; lia. }
  rewrite (Z.add_nocarry_lxor _ _ N). symmetry. apply Z.lxor_lor; exact N.
Qed.

Lemma value_ge : forall ds acc, 0 <= acc -> Forall (fun d => 0 <= d < 16) ds -> acc <= value acc ds.
Proof.
  induction ds as [ | d ds IH]; intros acc Ha F; cbn [value]; [lia | ]. inversion F; subst. specialize (IH (16 * acc + d) ltac:(lia) H2). lia.
Qed.
Lemma shiftr_max n : 4 <= n -> Z.shiftr (2 ^ n - 1) 4 = 2 ^ (n - 4) - 1.
Proof.
  intros H. rewrite Z.shiftr_div_pow2 by lia. change (2 ^ 4) with 16. replace (2 ^ n) with (2 ^ (n - 4) * 16).
  - symmetry. apply (Z.div_unique _ 16 _ 15); lia.
  - change 16 with (2 ^ 4). rewrite <- Z.pow_add_r by lia. f_equal. lia.
Qed.
Lemma pow_split n : 4 <= n -> 2 ^ n = 16 * 2 ^ (n - 4).
Proof. intros. change 16 with (2 ^ 4). rewrite <- Z.pow_add_r by lia. f_equal. lia. Qed.
Lemma from_loop_spec n : 4 <= n -> forall s ds acc, digits s = Some ds -> 0 <= acc < 2 ^ n ->
  from_loop (2 ^ n - 1) false acc s = if value acc ds <? 2 ^ n then HOk (value acc ds) else HRange.
Proof.
  intros Hn. induction s as [ | c s IH]; intros ds acc D Ha; cbn [digits] in D.
  - injection D as <-. cbn [from_loop value]. zb. reflexivity.
  - destruct (hexval c) as [d | ] eqn:E; [ | discriminate]. destruct (digits s) as [l | ] eqn:El; [ | discriminate]. injection D as <-.
    pose proof (hexval_range _ _ E) as R. cbn [from_loop value]. rewrite shiftr_max, (digit_spec _ _ E) by assumption. pose proof (pow_split n Hn) as P.
    destruct (Z.leb_spec acc (2 ^ (n - 4) - 1)).
    + rewrite lor_shift by (try change (2 ^ 4) with 16; lia). change (2 ^ 4) with 16. replace (acc * 16 + d) with (16 * acc + d) by lia. apply IH; [reflexivity | lia].
    + pose proof (value_ge l (16 * acc + d) ltac:(lia) (digits_range s l El)). zb. reflexivity.
Qed.
Lemma from_hex_spec n s ds : 4 <= n -> s <> [] -> digits s = Some ds ->
  from_hex (2 ^ n - 1) s = if value 0 ds <? 2 ^ n then HOk (value 0 ds) else HRange.
Proof.
  intros Hn Ne D. unfold from_hex. destruct s as [ | c s]; [contradiction | ]. rewrite digits_forall, D. cbn [from_loop digits] in *.
  destruct (hexval c) as [d | ] eqn:E; [ | discriminate]. destruct (digits s) as [l | ] eqn:El; [ | discriminate]. injection D as <-.
  pose proof (hexval_range _ _ E) as R. rewrite (digit_spec _ _ E), Z.lor_0_l. cbn [value]. replace (16 * 0 + d) with d by lia.
  apply from_loop_spec; [exact Hn | exact El | ]. pose proof (pow_split n Hn). pose proof (Z.pow_pos_nonneg 2 (n - 4) ltac:(lia) ltac:(lia)). lia.
Qed.
Lemma from_hex_bad max s : s <> [] -> digits s = None -> from_hex max s = HFormat.
Proof. intros Ne D. unfold from_hex. destruct s; [contradiction | ]. rewrite digits_forall, D. reflexivity. Qed.

(** Writing *)
Lemma hex_char_spec cap d : hex_char cap d = hchar cap d.
Proof. unfold hex_char, hchar. destruct (Z.ltb_spec 9 d), (Z.ltb_spec d 10); try lia; destruct cap; lia. Qed.
Lemma pow16 k : 0 < 16 ^ Z.of_nat k. Proof. apply Z.pow_pos_nonneg; lia. Qed.
Lemma pow16_S k : 16 ^ Z.of_nat (S k) = 16 * 16 ^ Z.of_nat k.
Proof. rewrite Nat2Z.inj_succ, Z.pow_succ_r by lia. reflexivity. Qed.
Lemma nibble v k : Z.land (Z.shiftr v (Z.of_nat k * 4)) 0x0f = (v / 16 ^ Z.of_nat k) mod 16.
Proof.
  change 0x0f with (Z.ones 4). rewrite Z.land_ones, Z.shiftr_div_pow2 by lia. change (2 ^ 4) with 16. f_equal. f_equal.
  rewrite Z.mul_comm, Z.pow_mul_r by lia. reflexivity.
Qed.
Lemma numeral_length cap n v : length (numeral cap n v) = n.
Proof. revert v; induction n; intros v; cbn [numeral]; [reflexivity | ]. rewrite app_length, IHn. cbn. lia. Qed.
Lemma numeral_head cap : forall n v, numeral cap (S n) v = hchar cap ((v / 16 ^ Z.of_nat n) mod 16) :: numeral cap n v.
Proof.
  induction n; intros v.
  - cbn [numeral app]. change (16 ^ Z.of_nat 0) with 1. rewrite Z.div_1_r. reflexivity.
  - change (numeral cap (S (S n)) v) with (numeral cap (S n) (v / 16) ++ [hchar cap (v mod 16)]). rewrite IHn.
    cbn [app]. rewrite Z.div_div by (try apply pow16; lia). rewrite pow16_S. reflexivity.
Qed.
Lemma numeral_mod cap W : forall n v, (n <= W)%nat -> numeral cap n (v mod 16 ^ Z.of_nat W) = numeral cap n v.
Proof.
  revert W. intros W n. revert W. induction n; intros W v H; [reflexivity | ]. destruct W as [ | W]; [lia | ]. cbn [numeral].
  assert (E1 : v mod 16 ^ Z.of_nat (S W) / 16 = (v / 16) mod 16 ^ Z.of_nat W).
  { rewrite pow16_S. pose proof (pow16 W). rewrite Z.rem_mul_r by lia. rewrite Z.mul_comm, Z.div_add by lia. rewrite (Z.div_small (v mod 16)) by (apply Z.mod_pos_bound; lia). lia. }
  assert (E2 : v mod 16 ^ Z.of_nat (S W) mod 16 = v mod 16).
  { rewrite pow16_S. pose proof (pow16 W). rewrite Z.rem_mul_r by lia. rewrite Z.mul_comm, Z.mod_add, Z.mod_mod by lia. reflexivity. }
  rewrite E1, E2, IHn by lia. reflexivity.
Qed.
Lemma to_loop_all cap W start v : forall k seen, (seen = true \/ (start <= W - k)%nat) -> (k <= W)%nat -> to_loop k W start v cap seen = numeral cap k v.
Proof.
  induction k; intros seen Hs Hk; [reflexivity | ]. rewrite numeral_head. cbn [to_loop]. rewrite nibble, hex_char_spec.
  assert (E : seen || negb ((v / 16 ^ Z.of_nat k) mod 16 =? 0) || Nat.leb start (W - S k) || Nat.eqb (W - S k) (W - 1) = true).
  { destruct Hs as [-> | Hs]; [reflexivity | ]. rewrite (proj2 (Nat.leb_le _ _) Hs), orb_true_r. reflexivity. }
  rewrite E, IHk; [reflexivity | | lia]. destruct Hs as [-> | Hs]; [left; reflexivity | right; lia].
Qed.
Lemma to_loop_skip cap W start v : forall k, (1 <= k <= W)%nat -> (W - start <= k)%nat ->
  exists n, (1 <= n <= k)%nat /\ to_loop k W start v cap false = numeral cap n v /\ (W - start <= n)%nat /\
    (n = Nat.max 1 (W - start) \/ (v / 16 ^ Z.of_nat (n - 1)) mod 16 <> 0) /\ (forall j, (n <= j < k)%nat -> (v / 16 ^ Z.of_nat j) mod 16 = 0).
Proof.
  induction k as [ | k IH]; intros Hk Hs; [lia | ].
  destruct (Z.eq_dec ((v / 16 ^ Z.of_nat k) mod 16) 0) as [Ez | Nz].
  - destruct (Nat.leb_spec start (W - S k)%nat).
    + exists (S k). split; [lia | ]. split; [apply to_loop_all; [right; assumption | lia] | ]. split; [lia | ]. split; [left; lia | intros; lia].
    + destruct k as [ | k].
      * exists 1%nat. split; [lia | ]. split; [ | split; [lia | ]; split; [left; lia | intros; lia]].
        rewrite numeral_head. cbn [to_loop numeral]. rewrite nibble, hex_char_spec, Nat.eqb_refl, orb_true_r. reflexivity.
      * destruct (IH ltac:(lia) ltac:(lia)) as (n & H1 & H2 & H3 & H4 & H5). exists n. split; [lia | ]. split; [ | split; [assumption | ]; split; [assumption | ]].
        -- remember (S k) as K. cbn [to_loop]. rewrite nibble, Ez. cbn [Z.eqb negb orb].
           destruct (Nat.leb_spec start (W - S K)%nat); [lia | ]. destruct (Nat.eqb_spec (W - S K) (W - 1))%nat; [lia | ]. exact H2.
        -- intros j Hj. destruct (Nat.eq_dec j (S k)) as [-> | ]; [exact Ez | apply H5; lia].
  - exists (S k). split; [lia | ]. split; [ | split; [lia | ]; split; [right; rewrite Nat.sub_succ, Nat.sub_0_r; assumption | intros; lia]].
    rewrite numeral_head. cbn [to_loop]. rewrite nibble, hex_char_spec. rewrite (proj2 (Z.eqb_neq _ _) Nz). cbn [negb orb].
    rewrite to_loop_all by (auto || lia). reflexivity.
Qed.
Lemma mod_zero_above v n : forall k, (n <= k)%nat -> (forall j, (n <= j < k)%nat -> (v / 16 ^ Z.of_nat j) mod 16 = 0) -> v mod 16 ^ Z.of_nat k = v mod 16 ^ Z.of_nat n.
Proof.
  induction k; intros Hn H; [replace n with 0%nat by lia; reflexivity | ]. destruct (Nat.eq_dec n (S k)) as [-> | ]; [reflexivity | ].
  rewrite pow16_S, Z.mul_comm. pose proof (pow16 k). rewrite Z.rem_mul_r by lia. rewrite H by lia. rewrite Z.mul_0_r, Z.add_0_r. apply IHk; [lia | ]. intros; apply H; lia.
Qed.
Lemma numeral_small cap : forall n k v, 0 <= v < 16 ^ Z.of_nat n -> numeral cap (k + n) v = repeat 48 k ++ numeral cap n v.
Proof.
  intros n. induction k; intros v H; [reflexivity | ]. change (S k + n)%nat with (S (k + n)). rewrite numeral_head, IHk by assumption. cbn [repeat app]. f_equal.
  rewrite Z.div_small; [reflexivity | ]. split; [lia | ]. apply Z.lt_le_trans with (16 ^ Z.of_nat n); [lia | ]. apply Z.pow_le_mono_r; lia.
Qed.
Lemma to_hex_spec W v width cap : (1 <= W)%nat ->
  exists n, to_hex W v width cap = numeral cap n (v mod 16 ^ Z.of_nat W) /\ (Nat.max 1 width <= n)%nat /\
    v mod 16 ^ Z.of_nat W < 16 ^ Z.of_nat n /\ (n = Nat.max 1 width \/ 16 ^ Z.of_nat (n - 1) <= v mod 16 ^ Z.of_nat W).
Proof.
  intros HW. unfold to_hex. pose proof (pow16 W) as PW. pose proof (Z.mod_pos_bound v (16 ^ Z.of_nat W) PW) as B.
  destruct (Nat.ltb_spec W width).
  - exists width. replace width with ((width - W) + W)%nat at 2 by lia. rewrite numeral_small by assumption. rewrite numeral_mod by lia. split; [ | split; [lia | ]; split; [ | left; lia]].
    + rewrite to_loop_all; [reflexivity | right; lia | lia].
    + apply Z.lt_le_trans with (16 ^ Z.of_nat W); [lia | ]. apply Z.pow_le_mono_r; lia.
  - cbn [app]. destruct (to_loop_skip cap W (W - width) v W ltac:(lia) ltac:(lia)) as (n & H1 & H2 & H3 & H4 & H5).
    exists n. rewrite H2, numeral_mod by lia. split; [reflexivity | ]. split; [lia | ]. rewrite (mod_zero_above v n W) by (assumption || lia).
    pose proof (pow16 n). split; [apply Z.mod_pos_bound; assumption | ]. destruct H4 as [H4 | H4]; [left; lia | right].
    destruct n as [ | n]; [lia | ]. rewrite Nat.sub_succ, Nat.sub_0_r in *. rewrite pow16_S, Z.mul_comm. pose proof (pow16 n). rewrite Z.rem_mul_r by lia.
    pose proof (Z.mod_pos_bound v (16 ^ Z.of_nat n) ltac:(lia)). pose proof (Z.mod_pos_bound (v / 16 ^ Z.of_nat n) 16 ltac:(lia)). nia.
Qed.

Lemma hexval_hchar cap d : 0 <= d < 16 -> hexval (hchar cap d) = Some d.
Proof.
  intros H. unfold hchar, hexval. destruct (Z.ltb_spec d 10); [zb; f_equal; lia | ]. destruct cap; zb; f_equal; lia.
Qed.
Fixpoint dlist (n : nat) (v : Z) : list Z := match n with O => [] | S n' => (v / 16 ^ Z.of_nat n') mod 16 :: dlist n' v end.
Lemma digits_numeral cap n v : digits (numeral cap n v) = Some (dlist n v).
Proof.
  induction n; [reflexivity | ]. rewrite numeral_head. cbn [digits dlist]. rewrite hexval_hchar by (apply Z.mod_pos_bound; lia). rewrite IHn. reflexivity.
Qed.
Lemma value_dlist : forall n acc v, value acc (dlist n v) = acc * 16 ^ Z.of_nat n + v mod 16 ^ Z.of_nat n.
Proof.
  induction n; intros acc v; cbn [dlist value].
  - change (16 ^ Z.of_nat 0) with 1. rewrite Z.mod_1_r. lia.
  - rewrite IHn, pow16_S. rewrite (Z.mul_comm 16 (16 ^ Z.of_nat n)). pose proof (pow16 n). rewrite (Z.rem_mul_r v (16 ^ Z.of_nat n) 16) by lia. lia.
Qed.
Lemma round_trip n W v width cap : 4 <= n -> (1 <= W)%nat -> 16 ^ Z.of_nat W <= 2 ^ n -> 0 <= v < 16 ^ Z.of_nat W -> from_hex (2 ^ n - 1) (to_hex W v width cap) = HOk v.
Proof.
  intros Hn HW Hl Hv. destruct (to_hex_spec W v width cap HW) as (m & -> & H1 & H2 & _). rewrite Z.mod_small in * by assumption.
  rewrite (from_hex_spec n _ (dlist m v)); [ | assumption | | apply digits_numeral].
  - rewrite value_dlist, Z.mod_small by lia. zb. f_equal. 
  - intros E. apply (f_equal (@length Z)) in E. rewrite numeral_length in E. cbn in E. lia.
Qed.

(** Bytes *)
Lemma to_hex_exact W v n cap : (1 <= n <= W)%nat -> 0 <= v < 16 ^ Z.of_nat n -> to_hex W v n cap = numeral cap n v.
Proof.
  intros Hn Hv. destruct (to_hex_spec W v n cap ltac:(lia)) as (m & -> & H1 & H2 & H3).
  assert (Hm : v mod 16 ^ Z.of_nat W = v). { apply Z.mod_small. split; [lia | ]. apply Z.lt_le_trans with (16 ^ Z.of_nat n); [lia | ]. apply Z.pow_le_mono_r; lia. }
  rewrite Hm in *. f_equal. destruct H3 as [H3 | H3]; [lia | ]. destruct (Nat.le_gt_cases m n); [lia | ].
  assert (16 ^ Z.of_nat n <= 16 ^ Z.of_nat (m - 1)) by (apply Z.pow_le_mono_r; lia). lia.
Qed.
Lemma to_hex_byte W b cap : (2 <= W)%nat -> is_byte b -> to_hex W b 2 cap = [hchar cap (b / 16); hchar cap (b mod 16)].
Proof.
  intros HW [H1 H2]. rewrite to_hex_exact by (try change (16 ^ Z.of_nat 2) with 256; lia). cbn [numeral app].
  rewrite (Z.mod_small (b / 16)); [reflexivity | ]. split; [apply Z.div_pos; lia | apply Z.div_lt_upper_bound; lia].
Qed.
Lemma byte_halves b : is_byte b -> 0 <= b / 16 < 16 /\ 0 <= b mod 16 < 16 /\ 16 * (b / 16) + b mod 16 = b.
Proof.
  intros [H1 H2]. split; [split; [apply Z.div_pos; lia | apply Z.div_lt_upper_bound; lia] | ]. split; [apply Z.mod_pos_bound; lia | ]. rewrite <- Z.div_mod by lia. reflexivity.
Qed.
Lemma from_two a b : from_hex max_u8 [a; b] = match hexval a, hexval b with Some x, Some y => HOk (16 * x + y) | _, _ => HFormat end.
Proof.
  change max_u8 with (2 ^ 8 - 1). destruct (digits [a; b]) as [ds | ] eqn:D.
  - rewrite (from_hex_spec 8 _ ds) by (discriminate || lia || assumption). cbn [digits] in D.
    destruct (hexval a) as [x | ] eqn:Ea; [ | discriminate]. destruct (hexval b) as [y | ] eqn:Eb; [ | discriminate]. injection D as <-.
    pose proof (hexval_range _ _ Ea). pose proof (hexval_range _ _ Eb). cbn [value]. change (2 ^ 8) with 256. zb. f_equal; lia.
  - rewrite from_hex_bad by (discriminate || assumption). cbn [digits] in D. destruct (hexval a); [ | reflexivity]. destruct (hexval b); [discriminate | reflexivity].
Qed.
Lemma from_one a : from_hex max_u8 [a] = match hexval a with Some x => HOk x | None => HFormat end.
Proof.
  change max_u8 with (2 ^ 8 - 1). destruct (digits [a]) as [ds | ] eqn:D.
  - rewrite (from_hex_spec 8 _ ds) by (discriminate || lia || assumption). cbn [digits] in D.
    destruct (hexval a) as [x | ] eqn:Ea; [ | discriminate]. injection D as <-. pose proof (hexval_range _ _ Ea). cbn [value]. change (2 ^ 8) with 256. zb. f_equal; lia.
  - rewrite from_hex_bad by (discriminate || assumption). cbn [digits] in D. destruct (hexval a); [discriminate | reflexivity].
Qed.
Lemma from_pairs_spec : forall n s, (length s <= n)%nat -> from_pairs s = match digits s with Some ds => HOk (pairs ds) | None => HFormat end.
Proof.
  induction n; intros s H; (destruct s as [ | a [ | b s]]; [reflexivity | | ]); [cbn in H; lia | cbn in H; lia | | ].
  - cbn [from_pairs digits]. rewrite from_one. destruct (hexval a); reflexivity.
  - cbn [from_pairs digits]. rewrite from_two, IHn by (cbn in H; lia). destruct (hexval a), (hexval b), (digits s); reflexivity.
Qed.
Definition strip (s : list Z) : list Z := match s with a :: b :: s' => if (a =? 48) && (b =? 120) then s' else s | _ => s end.
Lemma from_hex_bytes_spec s :
  from_hex_bytes s = match digits (strip s) with
                     | Some ds => HOk (if Nat.odd (length ds) then match ds with [] => [] | d :: r => d :: pairs r end else pairs ds)
                     | None => HFormat end.
Proof.
  unfold from_hex_bytes. fold (strip s). generalize (strip s) as t. intros t. destruct (digits t) as [ds | ] eqn:D.
  - rewrite (digits_length _ _ D). destruct (Nat.odd (length t)) eqn:O.
    + destruct t as [ | a t]; [discriminate O | ]. cbn [digits] in D. rewrite from_one. destruct (hexval a); [ | discriminate]. 
      rewrite (from_pairs_spec (length t)) by lia. destruct (digits t); [ | discriminate]. injection D as <-. reflexivity.
    + rewrite (from_pairs_spec (length t)), D by lia. reflexivity.
  - destruct (Nat.odd (length t)).
    + destruct t as [ | a t]; [discriminate | ]. cbn [digits] in D. rewrite from_one. destruct (hexval a); [ | reflexivity]. 
      rewrite (from_pairs_spec (length t)) by lia. destruct (digits t); [discriminate | reflexivity].
    + rewrite (from_pairs_spec (length t)), D by lia. reflexivity.
Qed.
Definition two (b : Z) : list Z := [b / 16; b mod 16].
Lemma digits_app s t a b : digits s = Some a -> digits t = Some b -> digits (s ++ t) = Some (a ++ b).
Proof.
  revert a; induction s as [ | c s IH]; intros a D1 D2; cbn [digits app] in *; [injection D1 as <-; exact D2 | ].
  destruct (hexval c); [ | discriminate]. destruct (digits s); [ | discriminate]. injection D1 as <-. rewrite (IH _ eq_refl D2). reflexivity.
Qed.
Lemma digits_bytes cap l : Forall is_byte l -> digits (flat_map (fun b => to_hex 2 b 2 cap) l) = Some (flat_map two l).
Proof.
  induction 1 as [ | b l Hb F IH]; [reflexivity | ]. cbn [flat_map]. apply digits_app; [ | exact IH]. rewrite to_hex_byte by (assumption || lia).
  pose proof (byte_halves b Hb). cbn [digits]. rewrite !hexval_hchar by lia. reflexivity.
Qed.
Lemma digits_zeros p : digits (repeat 48 p) = Some (repeat 0 p).
Proof. induction p; [reflexivity | ]. cbn [repeat digits]. rewrite IHp. reflexivity. Qed.
Lemma pairs_bytes l : Forall is_byte l -> pairs (flat_map two l) = l.
Proof. induction 1 as [ | b l Hb F IH]; [reflexivity | ]. cbn [flat_map two app pairs]. rewrite IH. pose proof (byte_halves b Hb). f_equal. lia. Qed.
Lemma pairs_zeros q r : pairs (repeat 0 (2 * q) ++ r) = repeat 0 q ++ pairs r.
Proof. induction q; [reflexivity | ]. replace (2 * S q)%nat with (S (S (2 * q))) by lia. cbn [repeat app pairs]. rewrite IHq. reflexivity. Qed.
Lemma two_length l : length (flat_map two l) = (2 * length l)%nat.
Proof. induction l; [reflexivity | ]. cbn [flat_map two app length]. rewrite IHl. lia. Qed.
Lemma strip_digits s ds : digits s = Some ds -> strip s = s.
Proof.
  intros D. unfold strip. destruct s as [ | a [ | b s]]; try reflexivity. cbn [digits] in D. destruct (hexval a); [ | discriminate]. destruct (hexval b) eqn:E; [ | discriminate].
  apply hexval_cases in E. destruct (Z.eqb_spec b 120); [lia | ]. rewrite andb_false_r. reflexivity.
Qed.
Lemma bytes_round_trip l width cap add : Forall is_byte l ->
  from_hex_bytes (prefixed add (to_hex_bytes l width cap)) = HOk (repeat 0 ((width - length l * 2 + 1) / 2)%nat ++ l).
Proof.
  intros F. set (p := (width - length l * 2)%nat). set (s := to_hex_bytes l width cap).
  assert (D : digits s = Some (repeat 0 p ++ flat_map two l)). { unfold s, to_hex_bytes. apply digits_app; [apply digits_zeros | apply digits_bytes, F]. }
  assert (Es : strip (prefixed add s) = s). { destruct add; [reflexivity | apply (strip_digits _ _ D)]. }
  rewrite from_hex_bytes_spec, Es, D. f_equal. rewrite app_length, repeat_length, two_length.
  replace (Nat.odd (p + 2 * length l)) with (Nat.odd p) by (rewrite Nat.odd_add, (Nat.odd_mul 2); cbn [Nat.odd Nat.even negb andb]; rewrite xorb_false_r; reflexivity).
  destruct (Nat.odd p) eqn:O.
  - apply Nat.odd_spec in O. destruct O as [q O]. replace ((p + 1) / 2)%nat with (S q). 2: { rewrite O. replace (2 * q + 1 + 1)%nat with (S q * 2)%nat by lia. symmetry. apply Nat.div_mul. lia. }
    replace p with (S (2 * q)) by lia. cbn [repeat app]. rewrite pairs_zeros, pairs_bytes by assumption. reflexivity.
  - assert (Ev : Nat.even p = true) by (rewrite <- Nat.negb_odd, O; reflexivity). apply Nat.even_spec in Ev. destruct Ev as [q Ev].
    replace ((p + 1) / 2)%nat with q. 2: { rewrite Ev. replace (2 * q + 1)%nat with (1 + q * 2)%nat by lia. rewrite Nat.div_add by lia. reflexivity. }
    rewrite Ev, pairs_zeros, pairs_bytes by assumption. reflexivity.
Qed.

(** UUID *)
Inductive wf : list bool -> nat -> Prop :=
| WF_nil : wf [] 0
| WF_pair f n : wf f n -> wf (true :: true :: f) (S n)
| WF_dash f n : wf f n -> wf (false :: f) n.
Lemma uuid_wf : wf uuid_format 16.
Proof. repeat constructor. Qed.
Lemma hexval_lower a x : hexval a = Some x -> lower a = hchar false x.
Proof.
  intros H. apply hexval_cases in H. unfold lower, hchar. destruct H as [[H ->] | [[H ->] | [H ->]]]; zb; lia.
Qed.
Lemma uuid_from_ok fmt n : wf fmt n -> forall s, Forall2 (fun (x : bool) c => if x then hexval c <> None else c = 45) fmt s ->
  exists d, uuid_from_loop fmt s = HOk d /\ length d = n /\ Forall is_byte d /\ uuid_to_loop fmt d = map lower s.
Proof.
  induction 1 as [ | f n W IH | f n W IH]; intros s F.
  - inversion F; subst. exists []. repeat split. constructor.
  - inversion F as [ | ? a ? s1 Ha F1]; subst. inversion F1 as [ | ? b ? s' Hb F2]; subst. destruct (IH _ F2) as (d & H1 & H2 & H3 & H4). cbn [uuid_from_loop]. rewrite from_two.
    destruct (hexval a) as [x | ] eqn:Ea; [ | contradiction]. destruct (hexval b) as [y | ] eqn:Eb; [ | contradiction].
    pose proof (hexval_range _ _ Ea). pose proof (hexval_range _ _ Eb). rewrite H1. exists ((16 * x + y) :: d). split; [reflexivity | ]. split; [cbn; lia | ]. split; [constructor; [unfold is_byte; lia | assumption] | ].
    cbn [uuid_to_loop]. rewrite to_hex_byte by (unfold is_byte; lia). cbn [app map]. rewrite H4, (hexval_lower _ _ Ea), (hexval_lower _ _ Eb).
    replace ((16 * x + y) / 16) with x by (apply (Z.div_unique _ 16 _ y); lia). replace ((16 * x + y) mod 16) with y by (apply (Z.mod_unique _ 16 x); lia). reflexivity.
  - inversion F as [ | ? a ? s1 Ha F1]; subst. destruct (IH _ F1) as (d & H1 & H2 & H3 & H4). cbn [uuid_from_loop uuid_to_loop map]. exists d. rewrite H1, H4. repeat split; assumption.
Qed.
Lemma uuid_from_bad fmt n : wf fmt n -> forall s, length s = length fmt -> ~ Forall2 (fun (x : bool) c => if x then hexval c <> None else c = 45) fmt s -> uuid_from_loop fmt s = HFormat.
Proof.
  induction 1 as [ | f n W IH | f n W IH]; intros s L F.
  - destruct s; [ | discriminate]. exfalso. apply F. constructor.
  - destruct s as [ | a [ | b s]]; try discriminate. cbn [uuid_from_loop]. rewrite from_two. destruct (hexval a) eqn:Ea; [ | reflexivity]. destruct (hexval b) eqn:Eb; [ | reflexivity].
    rewrite IH; [reflexivity | cbn in L; lia | ]. intros X. apply F. constructor; [rewrite Ea; discriminate | ]. constructor; [rewrite Eb; discriminate | exact X].
  - destruct s as [ | a s]; [discriminate | ]. cbn [uuid_from_loop]. destruct (Z.eqb_spec a 45); [ | reflexivity]. apply IH; [cbn in L; lia | ]. intros X. apply F. constructor; assumption.
Qed.
Lemma uuid_to_ok fmt n : wf fmt n -> forall d, length d = n -> Forall is_byte d -> uuid_from_loop fmt (uuid_to_loop fmt d) = HOk d /\ length (uuid_to_loop fmt d) = length fmt.
Proof.
  induction 1 as [ | f n W IH | f n W IH]; intros d L F.
  - destruct d; [ | discriminate]. split; reflexivity.
  - destruct d as [ | b d]; [discriminate | ]. inversion F as [ | ? ? Hb Fd]; subst. destruct (IH d ltac:(cbn in L; lia) Fd) as [E1 E2]. cbn [uuid_to_loop].
    rewrite to_hex_byte by (assumption || lia). cbn [app uuid_from_loop length]. rewrite from_two. pose proof (byte_halves b Hb). rewrite !hexval_hchar by lia. rewrite E1, E2.
    split; [do 2 f_equal; lia | reflexivity].
  - destruct (IH d L F) as [E1 E2]. cbn [uuid_to_loop uuid_from_loop length]. rewrite E1, E2. split; reflexivity.
Qed.
Lemma hchar_mono d e : 0 <= d < 16 -> 0 <= e < 16 -> d < e -> hchar false d < hchar false e.
Proof. intros. unfold hchar. destruct (Z.ltb_spec d 10), (Z.ltb_spec e 10); lia. Qed.
Lemma lex_less_spec : forall x y, lex_less x y = true <-> lex_lt x y.
Proof.
  induction x as [ | a x IH]; intros [ | b y]; cbn [lex_less].
  - split; [discriminate | intros H; inversion H].
  - split; [constructor | reflexivity].
  - split; [discriminate | intros H; inversion H].
  - destruct (Z.ltb_spec a b); [split; [constructor; assumption | reflexivity] | ]. destruct (Z.ltb_spec b a).
    + split; [discriminate | intros X; inversion X; lia].
    + replace b with a by lia. rewrite IH. split; [apply LL_tail | ]. intros X; inversion X; subst; [lia | assumption].
Qed.
Lemma lex_lt_two x x' y y' t u : lex_lt (x :: x' :: t) (y :: y' :: u) <-> x < y \/ (x = y /\ (x' < y' \/ (x' = y' /\ lex_lt t u))).
Proof.
  split.
  - intros H. inversion H as [ | | ? ? ? H1]; subst; [left; assumption | ]. inversion H1; subst; auto.
  - intros [H | [-> [H | [-> H]]]]; [apply LL_head; assumption | apply LL_tail, LL_head; assumption | apply LL_tail, LL_tail; assumption].
Qed.
Lemma uuid_order fmt n : wf fmt n -> forall d e, length d = n -> length e = n -> Forall is_byte d -> Forall is_byte e -> (lex_lt (uuid_to_loop fmt d) (uuid_to_loop fmt e) <-> lex_lt d e).
Proof.
  induction 1 as [ | f n W IH | f n W IH]; intros d e L1 L2 F1 F2.
  - destruct d, e; try discriminate. reflexivity.
  - destruct d as [ | a d]; [discriminate | ]. destruct e as [ | b e]; [discriminate | ]. inversion F1 as [ | ? ? Ha Fd]; subst. inversion F2 as [ | ? ? Hb Fe]; subst.
    specialize (IH d e ltac:(cbn in L1; lia) ltac:(cbn in L2; lia) Fd Fe). cbn [uuid_to_loop]. rewrite !to_hex_byte by (assumption || lia). cbn [app]. rewrite lex_lt_two, IH.
    pose proof (byte_halves a Ha) as (A1 & A2 & A3). pose proof (byte_halves b Hb) as (B1 & B2 & B3).
    pose proof (hchar_mono (a / 16) (b / 16) A1 B1). pose proof (hchar_mono (b / 16) (a / 16) B1 A1). pose proof (hchar_mono (a mod 16) (b mod 16) A2 B2). pose proof (hchar_mono (b mod 16) (a mod 16) B2 A2).
    split.
    + intros X. destruct (Z.lt_trichotomy (a / 16) (b / 16)) as [Q | [Q | Q]]; [apply LL_head; lia | | exfalso; lia].
      destruct X as [X | [_ X]]; [rewrite Q in X; lia | ]. destruct (Z.lt_trichotomy (a mod 16) (b mod 16)) as [R | [R | R]]; [apply LL_head; lia | | exfalso; lia].
      destruct X as [X | [_ X]]; [rewrite R in X; lia | ]. replace b with a by lia. apply LL_tail, X.
    + intros X. inversion X as [ | ? ? ? ? Lt | ? ? ? Lt]; subst.
      * destruct (Z.lt_trichotomy (a / 16) (b / 16)) as [Q | [Q | Q]]; [left; auto | right; rewrite Q; split; [reflexivity | left; lia] | exfalso; lia].
      * right. split; [reflexivity | ]. right. split; [reflexivity | assumption].
  - cbn [uuid_to_loop]. specialize (IH d e L1 L2 F1 F2). rewrite <- IH. split; [intros X; inversion X; subst; [lia | assumption] | apply LL_tail].
Qed.
