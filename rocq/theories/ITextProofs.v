From Verif Require Import Base ITextModel ITextSpec.
From Coq Require Import Lia.
Local Open Scope Z_scope.

(** * limits *)
Lemma pow2_ge w : 8 <= w -> 256 <= 2 ^ w.
Proof. intros H. change 256 with (2 ^ 8). apply Z.pow_le_mono_r; lia. Qed.
Lemma pow2_ge7 w : 8 <= w -> 128 <= 2 ^ (w - 1).
Proof. intros H. change 128 with (2 ^ 7). apply Z.pow_le_mono_r; lia. Qed.
Lemma pow2_le w : 0 <= w <= 64 -> 2 ^ w <= 2 ^ 64.
Proof. intros H. apply Z.pow_le_mono_r; lia. Qed.

Lemma std_limits t : std_type t -> t_min t <= 0 /\ 1 <= t_max t.
Proof.
  intros [|w H|w H]; unfold bool_t, unsigned_t, signed_t; cbn [t_min t_max].
  - lia.
  - pose proof (pow2_ge w). lia.
  - pose proof (pow2_ge7 w). lia.
Qed.

Lemma conv_fits t v : fits t v -> conv t v = v.
Proof. unfold fits, conv. intros H. rewrite Z.mod_small; lia. Qed.

Lemma value_t_fits t v : std_type t -> fits t v -> fits (value_t t) v.
Proof.
  intros Ht H. unfold value_t, is_signed.
  destruct Ht as [|w Hw|w Hw]; cbn [t_min t_max bool_t unsigned_t signed_t] in *.
  - unfold fits, bool_t, unsigned_t in *. cbn in *. lia.
  - cbn [Z.ltb]. pose proof (pow2_ge w). destruct (Z.ltb_spec (2 ^ w - 1) 255); [lia|exact H].
  - pose proof (pow2_ge7 w). destruct (Z.ltb_spec (- 2 ^ (w - 1)) 0); [|lia].
    destruct (Z.ltb_spec (2 ^ (w - 1) - 1) 127); [lia|exact H].
Qed.

Lemma mul_rem_max m v i : 0 <= m -> 0 <= v -> 0 <= i <= 9 ->
  ((v <? Z.quot m 10) || ((v =? Z.quot m 10) && (i <=? Z.rem m 10))) = (v * 10 + i <=? m).
Proof.
  intros Hm Hv Hi. rewrite Z.quot_div_nonneg, Z.rem_mod_nonneg by lia.
  pose proof (Z.div_mod m 10 ltac:(lia)). pose proof (Z.mod_pos_bound m 10 ltac:(lia)).
  destruct (Z.ltb_spec v (m / 10)), (Z.eqb_spec v (m / 10)), (Z.leb_spec i (m mod 10)), (Z.leb_spec (v * 10 + i) m); cbn; try reflexivity; exfalso; lia.
Qed.
Lemma mul_rem_min m v i : m <= 0 -> v <= 0 -> 0 <= i <= 9 ->
  ((Z.quot m 10 <? v) || ((v =? Z.quot m 10) && (i <=? Z.rem m 10 * -1))) = (m <=? v * 10 + - i).
Proof.
  intros Hm Hv Hi. remember (- m) as n eqn:En. assert (m = - n) by lia. subst m. clear En.
  rewrite Z.quot_opp_l, Z.rem_opp_l by lia. rewrite Z.quot_div_nonneg, Z.rem_mod_nonneg by lia.
  pose proof (Z.div_mod n 10 ltac:(lia)). pose proof (Z.mod_pos_bound n 10 ltac:(lia)).
  destruct (Z.ltb_spec (- (n / 10)) v), (Z.eqb_spec v (- (n / 10))), (Z.leb_spec i (- (n mod 10) * -1)), (Z.leb_spec (- n) (v * 10 + - i)); cbn; try reflexivity; exfalso; lia.
Qed.

(** [fits] as a boolean *)
Definition fitsb (t : ity) (v : Z) : bool := (t_min t <=? v) && (v <=? t_max t).
Lemma fitsb_spec t v : fitsb t v = true <-> fits t v.
Proof. unfold fitsb, fits. rewrite andb_true_iff, !Z.leb_le. reflexivity. Qed.

Definition shift (neg : bool) (v i : Z) : Z := if neg then 10 * v - i else 10 * v + i.
Definition side (neg : bool) (v : Z) : Prop := if neg then v <= 0 else 0 <= v.

Lemma eval_exact t v i neg : std_type t -> (neg = true -> is_signed t = true) -> side neg v -> 0 <= i <= 9 ->
  eval t v i neg = if fitsb t (shift neg v i) then IOk (shift neg v i) else IRange.
Proof.
  intros Ht Hs Hv Hi. pose proof (std_limits t Ht) as [Hlo Hhi].
  assert (Hc : forall x, fitsb t x = true -> conv (value_t t) x = x).
  { intros x Hx. apply conv_fits. apply value_t_fits; [exact Ht|]. apply fitsb_spec. exact Hx. }
  unfold eval. destruct neg; cbn [side shift] in *.
  - rewrite Hs by reflexivity. unfold eval_signed, min_mul, min_rem. rewrite mul_rem_min by lia.
    replace (v * 10 + - i) with (10 * v - i) by lia.
    assert (E : fitsb t (10 * v - i) = (t_min t <=? 10 * v - i)).
    { unfold fitsb. destruct (Z.leb_spec (10 * v - i) (t_max t)); [apply andb_true_r | lia]. }
    rewrite E. destruct (t_min t <=? 10 * v - i) eqn:F; [|reflexivity]. rewrite Hc; [reflexivity|]. rewrite E. reflexivity.
  - assert (E : fitsb t (10 * v + i) = (10 * v + i <=? t_max t)).
    { unfold fitsb. destruct (Z.leb_spec (t_min t) (10 * v + i)); [reflexivity | lia]. }
    destruct (is_signed t); unfold eval_signed, eval_unsigned, max_mul, max_rem; rewrite mul_rem_max by lia;
      replace (v * 10 + i) with (10 * v + i) by lia; rewrite E;
      (destruct (10 * v + i <=? t_max t) eqn:F; [|reflexivity]); (rewrite Hc; [reflexivity|]); rewrite E; reflexivity.
Qed.

(** * the loop *)
Definition numfrom (v : Z) (s : list Z) : Z := fold_left (fun v c => 10 * v + (c - 48)) s v.
Lemma numfrom_cons v c s : numfrom v (c :: s) = numfrom (10 * v + (c - 48)) s.
Proof. reflexivity. Qed.
Lemma numfrom_ge s : forall v, 0 <= v -> Forall digit_char s -> v <= numfrom v s.
Proof.
  induction s as [|c s IH]; intros v Hv Hs; [cbn; lia|]. inversion Hs as [|? ? Hc Hs']; subst. unfold digit_char in Hc.
  rewrite numfrom_cons. specialize (IH (10 * v + (c - 48)) ltac:(lia) Hs'). lia.
Qed.
Lemma numfrom_app v a b : numfrom v (a ++ b) = numfrom (numfrom v a) b.
Proof. unfold numfrom. apply fold_left_app. Qed.

Definition sgn (neg : bool) (v : Z) : Z := if neg then - v else v.
Lemma fits_between t neg v v' : std_type t -> 0 <= v <= v' -> fitsb t (sgn neg v') = true -> fitsb t (sgn neg v) = true.
Proof.
  intros Ht H. pose proof (std_limits t Ht). rewrite !fitsb_spec. unfold fits, sgn. destruct neg; lia.
Qed.

Lemma parse_loop_exact t neg : std_type t -> (neg = true -> is_signed t = true) ->
  forall s v, 0 <= v -> fitsb t (sgn neg v) = true -> Forall digit_char s ->
  parse_loop t neg (sgn neg v) s =
  if fitsb t (sgn neg (numfrom v s)) then IOk (sgn neg (numfrom v s)) else IRange.
Proof.
  intros Ht Hn. induction s as [|c s IH]; intros v Hv Hf Hs.
  - cbn [parse_loop numfrom fold_left]. rewrite Hf. reflexivity.
  - inversion Hs as [|? ? Hc Hs']; subst. unfold digit_char in Hc. cbn [parse_loop].
    rewrite eval_exact by (try assumption; try lia; unfold side, sgn; destruct neg; lia).
    assert (E : shift neg (sgn neg v) (c - 48) = sgn neg (10 * v + (c - 48))) by (unfold shift, sgn; destruct neg; lia).
    rewrite E, numfrom_cons.
    destruct (fitsb t (sgn neg (10 * v + (c - 48)))) eqn:F.
    + apply IH; [lia|exact F|exact Hs'].
    + destruct (fitsb t (sgn neg (numfrom (10 * v + (c - 48)) s))) eqn:G; [|reflexivity].
      exfalso. assert (fitsb t (sgn neg (10 * v + (c - 48))) = true); [|congruence].
      eapply fits_between; [exact Ht| |exact G]. pose proof (numfrom_ge s (10 * v + (c - 48)) ltac:(lia) Hs'). lia.
Qed.

Lemma is_digit_iff c : is_digit c = true <-> digit_char c.
Proof. unfold is_digit, digit_char. rewrite andb_true_iff, !Z.leb_le. reflexivity. Qed.
Lemma digits_iff s : forallb is_digit s = true <-> Forall digit_char s.
Proof.
  rewrite forallb_forall, Forall_forall. split; intros H x Hx; apply is_digit_iff; apply H; exact Hx.
Qed.

(** * from_string on a sign and digits *)
Lemma from_string_shape t g d : Forall digit_char d -> sign_text g ++ d <> [] ->
  from_string t (sign_text g ++ d) =
  match parse_loop t (match g with Minus => true | _ => false end) 0 d with IOk v => IOk (conv t v) | e => e end.
Proof.
  intros Hd Hne. pose proof (proj2 (digits_iff d) Hd) as Hb.
  destruct g; cbn [sign_text app] in *.
  - cbn [from_string Z.eqb Pos.eqb orb]. cbn -[forallb parse_loop]. rewrite Hb. reflexivity.
  - cbn [from_string]. cbn -[forallb parse_loop]. rewrite Hb. reflexivity.
  - destruct d as [|c d]; [congruence|]. inversion Hd as [|? ? Hc Hd']; subst. unfold digit_char in Hc.
    unfold from_string.
    replace (c =? 45) with false by (symmetry; apply Z.eqb_neq; lia).
    replace (c =? 43) with false by (symmetry; apply Z.eqb_neq; lia).
    cbn [orb]. rewrite Hb. reflexivity.
Qed.

Definition is_minus (g : sign) : bool := match g with Minus => true | _ => false end.

Lemma from_string_value t g d : std_type t -> Forall digit_char d -> sign_text g ++ d <> [] ->
  (g = Minus -> is_signed t = true) ->
  from_string t (sign_text g ++ d) = if fitsb t (signed_num g d) then IOk (signed_num g d) else IRange.
Proof.
  intros Ht Hd Hne Hg. rewrite from_string_shape by assumption.
  pose proof (std_limits t Ht).
  pose proof (parse_loop_exact t (is_minus g) Ht) as P.
  specialize (P ltac:(destruct g; cbn; intros; try discriminate; auto) d 0 ltac:(lia)).
  assert (E : forall v, sgn (is_minus g) v = match g with Minus => - v | _ => v end) by (intros; destruct g; reflexivity).
  rewrite !E in P.
  assert (E2 : (match g with Minus => - 0 | _ => 0 end) = 0) by (destruct g; reflexivity).
  rewrite E2 in P.
  assert (F : fitsb t 0 = true) by (apply fitsb_spec; unfold fits; lia).
  specialize (P F Hd). change (numfrom 0 d) with (num d) in P. fold (signed_num g d) in P.
  unfold is_minus in P. rewrite P.
  destruct (fitsb t (signed_num g d)) eqn:G; [|reflexivity].
  rewrite conv_fits; [reflexivity|]. apply fitsb_spec. exact G.
Qed.

Lemma from_string_minus_unsigned t d : is_signed t = false -> Forall digit_char d ->
  from_string t (45 :: d) = match d with [] => IOk (conv t 0) | _ => IRange end.
Proof.
  intros Hs Hd. pose proof (from_string_shape t Minus d Hd ltac:(discriminate)) as P. cbn [sign_text app] in P. rewrite P.
  destruct d as [|c d]; [reflexivity|]. cbn [parse_loop]. unfold eval. rewrite Hs. reflexivity.
Qed.

(** Every string is empty, a sign and digits, or neither. *)
Lemma sign_cases s : s = [] \/ (exists g d, s = sign_text g ++ d /\ s <> [] /\ Forall digit_char d) \/
  (s <> [] /\ (forall g d, s = sign_text g ++ d -> ~ Forall digit_char d)).
Proof.
  destruct s as [|c s]; [left; reflexivity|right].
  destruct (Z.eq_dec c 45) as [->|N45].
  - destruct (forallb is_digit s) eqn:B.
    + left. exists Minus, s. split; [reflexivity|]. split; [discriminate|]. apply digits_iff; exact B.
    + right. split; [discriminate|]. intros g d E Hd. destruct g; cbn in E.
      * congruence.
      * injection E as <-. apply digits_iff in Hd. congruence.
      * subst d. inversion Hd as [|? ? Hc _]. unfold digit_char in Hc. lia.
  - destruct (Z.eq_dec c 43) as [->|N43].
    + destruct (forallb is_digit s) eqn:B.
      * left. exists Plus, s. split; [reflexivity|]. split; [discriminate|]. apply digits_iff; exact B.
      * right. split; [discriminate|]. intros g d E Hd. destruct g; cbn in E.
        -- injection E as <-. apply digits_iff in Hd. congruence.
        -- congruence.
        -- subst d. inversion Hd as [|? ? Hc _]. unfold digit_char in Hc. lia.
    + destruct (forallb is_digit (c :: s)) eqn:B.
      * left. exists NoSign, (c :: s). split; [reflexivity|]. split; [discriminate|]. apply digits_iff; exact B.
      * right. split; [discriminate|]. intros g d E Hd. destruct g; cbn in E; try congruence.
        subst d. apply digits_iff in Hd. congruence.
Qed.

Lemma from_string_format t s : s <> [] -> (forall g d, s = sign_text g ++ d -> ~ Forall digit_char d) ->
  from_string t s = IFormat.
Proof.
  intros Hne H. destruct s as [|c s]; [congruence|]. unfold from_string. cbv zeta.
  destruct (Z.eqb_spec c 45) as [->|N45].
  - cbn [orb]. destruct (forallb is_digit s) eqn:B; [|reflexivity].
    exfalso. eapply (H Minus s eq_refl). apply digits_iff; exact B.
  - destruct (Z.eqb_spec c 43) as [->|N43]; cbn [orb].
    + destruct (forallb is_digit s) eqn:B; [|reflexivity].
      exfalso. eapply (H Plus s eq_refl). apply digits_iff; exact B.
    + destruct (forallb is_digit (c :: s)) eqn:B; [|reflexivity].
      exfalso. eapply (H NoSign (c :: s) eq_refl). apply digits_iff; exact B.
Qed.

Lemma conv_zero t : std_type t -> conv t 0 = 0.
Proof. intros Ht. pose proof (std_limits t Ht). apply conv_fits. unfold fits; lia. Qed.

(** * printing *)
Lemma num_app a b : Forall digit_char b -> num (a ++ b) = num a * 10 ^ Z.of_nat (length b) + num b.
Proof.
  intros Hb. unfold num. rewrite fold_left_app.
  change (fold_left (fun v c => 10 * v + (c - 48)) b (fold_left (fun v c => 10 * v + (c - 48)) a 0)) with (numfrom (num a) b).
  change (fold_left (fun v c => 10 * v + (c - 48)) b 0) with (numfrom 0 b).
  change (fold_left (fun v c => 10 * v + (c - 48)) a 0) with (num a).
  generalize (num a) as v. clear Hb a.
  assert (G : forall b v w, numfrom (v + w) b = v * 10 ^ Z.of_nat (length b) + numfrom w b).
  { clear b. induction b as [|c b IH]; intros v w; [cbn [length Z.of_nat]; rewrite Z.pow_0_r; cbn; lia|].
    rewrite !numfrom_cons. replace (10 * (v + w) + (c - 48)) with (10 * v + (10 * w + (c - 48))) by lia.
    rewrite IH. cbn [length]. rewrite Nat2Z.inj_succ, Z.pow_succ_r by lia. lia. }
  intros v. replace v with (v + 0) at 1 by lia. rewrite G. reflexivity.
Qed.

Lemma insert_loop_spec pos : forall v buf, 0 <= v < 10 ^ Z.of_nat pos -> (0 < pos)%nat -> Forall digit_char buf ->
  exists d, insert_loop pos v buf = Some (d ++ buf) /\ d <> [] /\ Forall digit_char d /\ num d = v /\
    (hd 0 d = 48 -> length d = 1%nat) /\ (length d <= pos)%nat.
Proof.
  induction pos as [|pos IH]; intros v buf Hv Hp Hb; [lia|]. cbn [insert_loop].
  destruct (Z.leb_spec 10 v).
  - assert (Hp' : (0 < pos)%nat). { destruct pos; [cbn in Hv; lia|lia]. }
    rewrite Nat2Z.inj_succ, Z.pow_succ_r in Hv by lia.
    pose proof (Z.div_mod v 10 ltac:(lia)). pose proof (Z.mod_pos_bound v 10 ltac:(lia)).
    destruct (IH (v / 10) (v mod 10 + 48 :: buf)) as (d & E & Hne & Hd & Hn & Hh & Hl); [split; [apply Z.div_pos; lia|apply Z.div_lt_upper_bound; lia]|exact Hp'| |].
    { constructor; [unfold digit_char; lia|exact Hb]. }
    exists (d ++ [v mod 10 + 48]). rewrite <- app_assoc. split; [exact E|].
    assert (D1 : Forall digit_char [v mod 10 + 48]) by (constructor; [unfold digit_char; lia|constructor]).
    split; [destruct d; discriminate|]. split; [apply Forall_app; split; assumption|].
    split; [rewrite num_app by exact D1; rewrite Hn; cbn [length num fold_left]; change (10 ^ Z.of_nat 1) with 10; lia|].
    split.
    + intros Hx. destruct d as [|c d]; [congruence|]. cbn [hd app] in Hx. specialize (Hh Hx).
      destruct d; [|discriminate Hh]. exfalso. subst c. cbn in Hn. lia.
    + rewrite app_length. cbn [length]. lia.
  - exists [v + 48]. split; [reflexivity|]. split; [discriminate|]. split; [constructor; [unfold digit_char; lia|constructor]|].
    split; [cbn; lia|]. cbn [length]. split; [intros; reflexivity|lia].
Qed.

Lemma pow10_32 : 2 ^ 64 < 10 ^ Z.of_nat 32.
Proof. reflexivity. Qed.

Lemma insert_integral_spec v : 0 <= v < 2 ^ 64 ->
  exists d, insert_integral v = Some d /\ d <> [] /\ Forall digit_char d /\ num d = v /\ (hd 0 d = 48 -> length d = 1%nat).
Proof.
  intros Hv. pose proof pow10_32. destruct (insert_loop_spec 32 v [] ltac:(lia) ltac:(lia) ltac:(constructor)) as (d & E & A & B & C & D & _).
  exists d. rewrite app_nil_r in E. unfold insert_integral. rewrite E. auto 6.
Qed.

Lemma to_string_canonical w v : 8 <= w <= 64 -> fits (unsigned_t w) v \/ fits (signed_t w) v ->
  exists s, to_string w v = Some s /\ canonical s v.
Proof.
  intros Hw Hv. pose proof (pow2_le w ltac:(lia)) as P. pose proof (pow2_ge7 w ltac:(lia)).
  assert (P2 : 2 ^ w = 2 * 2 ^ (w - 1)) by (replace w with (1 + (w - 1)) at 1 by lia; rewrite Z.pow_add_r by lia; reflexivity).
  unfold fits, unsigned_t, signed_t in Hv. cbn [t_min t_max] in Hv. unfold to_string. cbv zeta.
  destruct (Z.ltb_spec v 0).
  - assert (E : conv (unsigned_t w) (- conv (unsigned_t w) v) = - v).
    { unfold conv, unsigned_t. cbn [t_min t_max]. replace (2 ^ w - 1 - 0 + 1) with (2 ^ w) by lia.
      replace ((v - 0) mod 2 ^ w) with (v + 2 ^ w).
      2: { symmetry. replace (v - 0) with (v + 2 ^ w + (-1) * 2 ^ w) by lia. rewrite Z_mod_plus_full. apply Z.mod_small. lia. }
      replace (- (0 + (v + 2 ^ w)) - 0) with (- v + (-1) * 2 ^ w) by lia. rewrite Z_mod_plus_full, Z.mod_small; lia. }
    rewrite E. destruct (insert_integral_spec (- v) ltac:(lia)) as (d & E1 & A & B & C & D). rewrite E1.
    exists (45 :: d). split; [reflexivity|]. exists Minus, d. split; [reflexivity|].
    repeat split; auto; try congruence; cbn [signed_num]; lia.
  - assert (E : conv (unsigned_t w) v = v) by (apply conv_fits; unfold fits, unsigned_t; cbn [t_min t_max]; lia).
    rewrite E. destruct (insert_integral_spec v ltac:(lia)) as (d & E1 & A & B & C & D). rewrite E1.
    exists d. split; [reflexivity|]. exists NoSign, d. repeat split; auto; try congruence; cbn [signed_num]; lia.
Qed.

(** * there is only one canonical text *)
Lemma num_one c : num [c] = c - 48.
Proof. unfold num; cbn [fold_left]; lia. Qed.
Lemma num_bounds d : Forall digit_char d -> 0 <= num d < 10 ^ Z.of_nat (length d).
Proof.
  induction d as [|c d IH] using rev_ind; intros H; [cbn; lia|].
  apply Forall_app in H. destruct H as [Hd Hc]. specialize (IH Hd). inversion Hc as [|? ? Hc' _]; subst. unfold digit_char in Hc'.
  rewrite num_app by exact Hc. rewrite app_length, num_one. cbn [length]. replace (length d + 1)%nat with (S (length d)) by lia.
  change (10 ^ Z.of_nat 1) with 10. rewrite (Nat2Z.inj_succ (length d)), Z.pow_succ_r by lia. lia.
Qed.

Lemma num_same_length a : forall b, length a = length b -> Forall digit_char a -> Forall digit_char b -> num a = num b -> a = b.
Proof.
  induction a as [|x a IH] using rev_ind; intros b Hl Ha Hb He.
  - destruct b; [reflexivity|discriminate Hl].
  - destruct b as [|y b _] using rev_ind; [rewrite app_length in Hl; cbn in Hl; lia|].
    rewrite !app_length in Hl. cbn [length] in Hl. apply Forall_app in Ha. apply Forall_app in Hb.
    destruct Ha as [Ha Hx], Hb as [Hb Hy]. rewrite !num_app in He by assumption.
    inversion Hx as [|? ? Hx' _]; inversion Hy as [|? ? Hy' _]; subst. unfold digit_char in *.
    rewrite !num_one in He. cbn [length] in He. change (10 ^ Z.of_nat 1) with 10 in He.
    assert (num a = num b /\ x = y) as [E1 ->] by (split; lia). rewrite (IH b); auto. lia.
Qed.

Lemma num_lead d : Forall digit_char d -> d <> [] -> hd 0 d <> 48 -> 10 ^ Z.of_nat (length d - 1) <= num d.
Proof.
  intros H Hne Hh. destruct d as [|c d]; [congruence|]. inversion H as [|? ? Hc Hd]; subst. unfold digit_char in Hc. cbn [hd] in Hh.
  change (c :: d) with ([c] ++ d). rewrite num_app by exact Hd. pose proof (num_bounds d Hd).
  cbn [length app]. replace (S (length d) - 1)%nat with (length d) by lia. rewrite num_one.
  assert (0 < 10 ^ Z.of_nat (length d)) by (apply Z.pow_pos_nonneg; lia). nia.
Qed.

Lemma num_len_unique a b : Forall digit_char a -> Forall digit_char b -> a <> [] -> b <> [] ->
  (hd 0 a = 48 -> length a = 1%nat) -> (hd 0 b = 48 -> length b = 1%nat) -> num a = num b -> a = b.
Proof.
  intros Ha Hb Na Nb La Lb E. apply num_same_length; auto.
  pose proof (num_bounds a Ha) as Ba. pose proof (num_bounds b Hb) as Bb.
  assert (Aux : forall a b, Forall digit_char a -> Forall digit_char b -> a <> [] -> b <> [] ->
            (hd 0 b = 48 -> length b = 1%nat) -> num a = num b -> ~ (length a < length b)%nat).
  { clear. intros a b Ha Hb Na Nb Lb E Hl. pose proof (num_bounds a Ha) as Ba.
    assert (Hd : hd 0 b <> 48). { intros X. specialize (Lb X). destruct a; [congruence|cbn in Hl; lia]. }
    pose proof (num_lead b Hb Nb Hd).
    assert (10 ^ Z.of_nat (length a) <= 10 ^ Z.of_nat (length b - 1)) by (apply Z.pow_le_mono_r; lia). lia. }
  pose proof (Aux a b Ha Hb Na Nb Lb E). pose proof (Aux b a Hb Ha Nb Na La (eq_sym E)). lia.
Qed.

Lemma canonical_unique s s' v : canonical s v -> canonical s' v -> s = s'.
Proof.
  intros (g & d & -> & N & D & E & G1 & G2 & G3) (g' & d' & -> & N' & D' & E' & G1' & G2' & G3').
  pose proof (num_bounds d D). pose proof (num_bounds d' D').
  destruct g, g'; try congruence; cbn [sign_text app signed_num] in *.
  - f_equal. apply num_len_unique; auto; lia.
  - specialize (G2 eq_refl). lia.
  - specialize (G2' eq_refl). lia.
  - apply num_len_unique; auto; lia.
Qed.
