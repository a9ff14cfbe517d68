(** Proofs about the calendar model: a closed form for the day count, the year and month loops, and
    the equivalence with [day_is]. *)
From Verif Require Import Base CalendarModel CalendarSpec.
Local Open Scope Z_scope.

(** * Closed form *)

(** Days from 1970-01-01 to the first of January of year [y]. *)
Definition dby (y : Z) : Z := 365 * (y - 1970) + (y - 1) / 4 - (y - 1) / 100 + (y - 1) / 400 - 477.
Definition ylen (y : Z) : Z := if is_leap y then 366 else 365.

(** Days before month [m] in its year. *)
Definition dbm (y m : Z) : Z :=
  let l := if is_leap y then 1 else 0 in
  if m <=? 1 then 0 else if m =? 2 then 31 else if m =? 3 then 59 + l else if m =? 4 then 90 + l
  else if m =? 5 then 120 + l else if m =? 6 then 151 + l else if m =? 7 then 181 + l
  else if m =? 8 then 212 + l else if m =? 9 then 243 + l else if m =? 10 then 273 + l
  else if m =? 11 then 304 + l else if m =? 12 then 334 + l else 365 + l.

Definition dn (d : date) : Z := dby (dy d) + dbm (dy d) (dm d) + (dd d - 1).

Lemma div_step n y : 0 < n -> y / n = (y - 1) / n + (if y mod n =? 0 then 1 else 0).
Proof.
  intros Hn. destruct (Z.eqb_spec (y mod n) 0) as [E | E].
  - assert (y = n * (y / n)) by (pose proof (Z.div_mod y n ltac:(lia)); lia).
    assert ((y - 1) / n = y / n - 1); [ | lia].
    symmetry. apply Z.div_unique with (n - 1); lia.
  - pose proof (Z.div_mod y n ltac:(lia)). pose proof (Z.mod_pos_bound y n Hn).
    assert ((y - 1) / n = y / n); [ | lia].
    symmetry. apply Z.div_unique with (y mod n - 1); lia.
Qed.

Lemma mod_trans y a b : 0 < a -> 0 < b -> y mod (a * b) = 0 -> y mod a = 0.
Proof.
  intros Ha Hb H. apply Z.mod_divide; [lia | ]. apply Z.mod_divide in H; [ | lia].
  destruct H as [k ->]. exists (k * b). lia.
Qed.

Lemma dby_succ y : dby (y + 1) = dby y + ylen y.
Proof.
  unfold dby, ylen, is_leap. replace (y + 1 - 1) with y by lia.
  rewrite (div_step 4 y), (div_step 100 y), (div_step 400 y) by lia.
  pose proof (mod_trans y 4 25 ltac:(lia) ltac:(lia)).
  pose proof (mod_trans y 100 4 ltac:(lia) ltac:(lia)).
  change (4 * 25) with 100 in *. change (100 * 4) with 400 in *.
  revert H H0. generalize ((y - 1) / 4), ((y - 1) / 100), ((y - 1) / 400), (y mod 4), (y mod 100), (y mod 400).
  intros q1 q2 q3 r1 r2 r3 H1 H2.
  destruct (Z.eqb_spec r1 0), (Z.eqb_spec r2 0), (Z.eqb_spec r3 0); cbn [andb orb negb]; lia.
Qed.

Lemma ylen_bounds y : 365 <= ylen y <= 366.
Proof. unfold ylen. destruct (is_leap y); lia. Qed.

Lemma dby_add y (n : nat) : dby y + 365 * Z.of_nat n <= dby (y + Z.of_nat n).
Proof.
  induction n.
  - replace (y + Z.of_nat 0) with y by lia. lia.
  - replace (y + Z.of_nat (S n)) with (y + Z.of_nat n + 1) by lia. rewrite dby_succ.
    pose proof (ylen_bounds (y + Z.of_nat n)). lia.
Qed.

Lemma dby_mono y y' : y <= y' -> dby y + 365 * (y' - y) <= dby y'.
Proof.
  intros H. pose proof (dby_add y (Z.to_nat (y' - y))). replace (y + Z.of_nat (Z.to_nat (y' - y))) with y' in * by lia. lia.
Qed.

Lemma dby_cycle y k : dby (y + 400 * k) = dby y + 146097 * k.
Proof.
  unfold dby.
  replace (y + 400 * k - 1) with (y - 1 + (100 * k) * 4) at 1 by lia. rewrite Z.div_add by lia.
  replace (y + 400 * k - 1) with (y - 1 + (4 * k) * 100) at 1 by lia. rewrite Z.div_add by lia.
  replace (y + 400 * k - 1) with (y - 1 + k * 400) at 1 by lia. rewrite Z.div_add by lia. lia.
Qed.

Lemma leap_check_eq n : leap_check n = is_leap (n + 1900).
Proof.
  assert (R : forall k, 0 < k -> (Z.rem (n + 1900) k =? 0) = ((n + 1900) mod k =? 0)).
  { intros k Hk. apply Bool.eq_iff_eq_true. rewrite !Z.eqb_eq.
    rewrite Z.rem_divide by lia. rewrite Z.mod_divide by lia. reflexivity. }
  unfold leap_check, is_leap. rewrite !R by lia.
  pose proof (mod_trans (n + 1900) 4 100 ltac:(lia) ltac:(lia)). change (4 * 100) with 400 in *.
  destruct (Z.eqb_spec ((n + 1900) mod 4) 0), (Z.eqb_spec ((n + 1900) mod 100) 0), (Z.eqb_spec ((n + 1900) mod 400) 0);
    cbn [andb orb negb]; auto; lia.
Qed.

Lemma year_len_eq n : year_len (leap_check n) = ylen (n + 1900).
Proof. rewrite leap_check_eq. reflexivity. Qed.

Lemma month_cases m : 1 <= m <= 12 ->
  m = 1 \/ m = 2 \/ m = 3 \/ m = 4 \/ m = 5 \/ m = 6 \/ m = 7 \/ m = 8 \/ m = 9 \/ m = 10 \/ m = 11 \/ m = 12.
Proof. lia. Qed.

Ltac months H := destruct (month_cases _ H) as [?|[?|[?|[?|[?|[?|[?|[?|[?|[?|[?|?]]]]]]]]]]].

Lemma dbm_succ y m : 1 <= m <= 12 -> dbm y (m + 1) = dbm y m + month_length y m.
Proof.
  intros H. unfold dbm, month_length. months H; subst m; destruct (is_leap y); reflexivity.
Qed.

Lemma dbm_13 y : dbm y 13 = ylen y.
Proof. unfold dbm, ylen. destruct (is_leap y); reflexivity. Qed.

Lemma month_length_bounds y m : 28 <= month_length y m <= 31.
Proof.
  unfold month_length. destruct (m =? 2); [destruct (is_leap y); lia | ].
  destruct ((m =? 4) || (m =? 6) || (m =? 9) || (m =? 11)); lia.
Qed.

Lemma dbm_mono y m m' : 1 <= m -> m < m' -> m' <= 13 -> dbm y m + month_length y m <= dbm y m'.
Proof.
  intros H1 H2 H3. rewrite <- dbm_succ by lia.
  assert (G : forall n : nat, m + 1 + Z.of_nat n <= 13 -> dbm y (m + 1) <= dbm y (m + 1 + Z.of_nat n)).
  { induction n; intros Hn.
    - replace (m + 1 + Z.of_nat 0) with (m + 1) by lia. lia.
    - replace (m + 1 + Z.of_nat (S n)) with (m + 1 + Z.of_nat n + 1) by lia.
      rewrite (dbm_succ y (m + 1 + Z.of_nat n)) by lia.
      pose proof (month_length_bounds y (m + 1 + Z.of_nat n)). specialize (IHn ltac:(lia)). lia. }
  specialize (G (Z.to_nat (m' - m - 1))). replace (m + 1 + Z.of_nat (Z.to_nat (m' - m - 1))) with m' in G by lia.
  apply G; lia.
Qed.

Lemma dbm_1 y : dbm y 1 = 0.
Proof. reflexivity. Qed.

Lemma dn_in_year d : valid_date d -> dby (dy d) <= dn d < dby (dy d + 1).
Proof.
  intros [H1 H2]. unfold dn. rewrite dby_succ, <- dbm_13.
  pose proof (dbm_mono (dy d) (dm d) 13 ltac:(lia) ltac:(lia) ltac:(lia)).
  assert (0 <= dbm (dy d) (dm d)).
  { clear. unfold dbm. destruct (is_leap (dy d)); cbv zeta;
    repeat match goal with |- context [if ?c then _ else _] => destruct c end; lia. }
  lia.
Qed.

Lemma dn_inj d d' : valid_date d -> valid_date d' -> dn d = dn d' -> d = d'.
Proof.
  intros V V' E.
  pose proof (dn_in_year d V) as A. pose proof (dn_in_year d' V') as A'.
  assert (Y : dy d = dy d').
  { destruct (Z.lt_trichotomy (dy d) (dy d')) as [L | [L | L]]; [exfalso | exact L | exfalso].
    - pose proof (dby_mono (dy d + 1) (dy d') ltac:(lia)). lia.
    - pose proof (dby_mono (dy d' + 1) (dy d) ltac:(lia)). lia. }
  destruct d as [y m k], d' as [y' m' k']. cbn [dy] in *. subst y'.
  destruct V as [V1 V2], V' as [V1' V2']. unfold dn in E. cbn [dy dm dd] in *.
  assert (M : m = m').
  { destruct (Z.lt_trichotomy m m') as [L | [L | L]]; [exfalso | exact L | exfalso].
    - pose proof (dbm_mono y m m' ltac:(lia) ltac:(lia) ltac:(lia)). lia.
    - pose proof (dbm_mono y m' m ltac:(lia) ltac:(lia) ltac:(lia)). lia. }
  subst m'. f_equal. lia.
Qed.

Lemma next_day_valid d : valid_date d -> valid_date (next_day d).
Proof.
  intros [H1 H2]. unfold next_day. destruct (Z.ltb_spec (dd d) (month_length (dy d) (dm d))).
  - split; cbn [dy dm dd]; lia.
  - destruct (Z.ltb_spec (dm d) 12); split; cbn [dy dm dd]; try lia.
    + pose proof (month_length_bounds (dy d) (dm d + 1)). lia.
    + cbn. lia.
Qed.

Lemma next_day_dn d : valid_date d -> dn (next_day d) = dn d + 1.
Proof.
  intros [H1 H2]. unfold next_day, dn. destruct (Z.ltb_spec (dd d) (month_length (dy d) (dm d))); cbn [dy dm dd].
  - lia.
  - destruct (Z.ltb_spec (dm d) 12); cbn [dy dm dd].
    + rewrite dbm_succ by lia. lia.
    + assert (E : dm d = 12) by lia. rewrite dby_succ, dbm_1, <- dbm_13.
      change 13 with (12 + 1). rewrite dbm_succ by lia. rewrite E in *. lia.
Qed.

Lemma prev_day_ex d : valid_date d -> exists d', valid_date d' /\ next_day d' = d.
Proof.
  intros [H1 H2]. destruct d as [y m k]. cbn [dy dm dd] in *.
  destruct (Z.eq_dec k 1) as [-> | Hk].
  - destruct (Z.eq_dec m 1) as [-> | Hm].
    + exists (mkDate (y - 1) 12 31). split; [split; cbn; lia | ].
      unfold next_day. cbn. f_equal. lia.
    + exists (mkDate y (m - 1) (month_length y (m - 1))). split.
      * split; cbn [dy dm dd]; [lia | ]. pose proof (month_length_bounds y (m - 1)). lia.
      * unfold next_day. cbn [dy dm dd]. rewrite Z.ltb_irrefl.
        destruct (Z.ltb_spec (m - 1) 12); [f_equal; lia | lia].
  - exists (mkDate y m (k - 1)). split.
    + split; cbn [dy dm dd]; lia.
    + unfold next_day. cbn [dy dm dd]. destruct (Z.ltb_spec (k - 1) (month_length y m)); [f_equal; lia | lia].
Qed.

Lemma day_is_dn n d : day_is n d -> valid_date d /\ n = dn d.
Proof.
  induction 1 as [ | n d _ [V E] | n d V _ [V' E]].
  - split; [split; cbn; lia | reflexivity].
  - split; [apply next_day_valid; exact V | rewrite next_day_dn by exact V; lia].
  - split; [exact V | ]. rewrite next_day_dn in E by exact V. lia.
Qed.

Lemma day_is_total n : exists d, day_is n d.
Proof.
  destruct (Z.le_ge_cases 0 n) as [H | H].
  - revert n H. apply (natlike_ind (fun n => exists d, day_is n d)).
    + exists (mkDate 1970 1 1). constructor.
    + intros n _ [d D]. exists (next_day d). apply day_next. exact D.
  - assert (G : forall k, 0 <= k -> exists d, day_is (- k) d).
    { apply (natlike_ind (fun n => exists d, day_is (- n) d)).
      - exists (mkDate 1970 1 1). constructor.
      - intros k _ [d D]. destruct (day_is_dn _ _ D) as [V _].
        destruct (prev_day_ex d V) as (d' & V' & <-). exists d'. apply day_prev; [exact V' | ].
        replace (- Z.succ k + 1) with (- k) by lia. exact D. }
    destruct (G (- n) ltac:(lia)) as [d D]. exists d. replace (- - n) with n in D by lia. exact D.
Qed.

Lemma dn_day_is d : valid_date d -> day_is (dn d) d.
Proof.
  intros V. destruct (day_is_total (dn d)) as [d' D]. destruct (day_is_dn _ _ D) as [V' E].
  rewrite (dn_inj d d' V V' E) at 2. exact D.
Qed.

(** * The loops *)

Lemma year_up_ok : forall fuel m y,
  0 <= m -> m < dby (y + 1900 + Z.of_nat fuel) - dby (y + 1900) ->
  exists m' y', year_up fuel m y = Some (m', y') /\ 0 <= m' < ylen (y' + 1900) /\ dby (y' + 1900) + m' = dby (y + 1900) + m /\ y <= y'.
Proof.
  induction fuel; intros m y H0 H1.
  - replace (y + 1900 + Z.of_nat 0) with (y + 1900) in H1 by lia. lia.
  - cbn [year_up]. rewrite year_len_eq. cbv zeta.
    destruct (Z.leb_spec (ylen (y + 1900)) m).
    + pose proof (dby_succ (y + 1900)) as S1. replace (y + 1900 + 1) with (y + 1 + 1900) in S1 by lia.
      destruct (IHfuel (m - ylen (y + 1900)) (y + 1)) as (m' & y' & E & B & D & L).
      * lia.
      * replace (y + 1 + 1900 + Z.of_nat fuel) with (y + 1900 + Z.of_nat (S fuel)) by lia. lia.
      * exists m', y'. repeat split; try lia; try exact E.
    + exists m, y. repeat split; lia.
Qed.

Lemma year_down_ok : forall fuel m y,
  m < 0 -> dby (y + 1901 - Z.of_nat fuel) - dby (y + 1901) <= m ->
  exists m' y', year_down fuel m y = Some (m', y') /\ - ylen (y' + 1900) <= m' < 0 /\ dby (y' + 1901) + m' = dby (y + 1901) + m /\ y' <= y.
Proof.
  induction fuel; intros m y H0 H1.
  - replace (y + 1901 - Z.of_nat 0) with (y + 1901) in H1 by lia. lia.
  - cbn [year_down]. rewrite year_len_eq. cbv zeta.
    destruct (Z.ltb_spec m (- ylen (y + 1900))).
    + pose proof (dby_succ (y + 1900)) as S1. replace (y + 1900 + 1) with (y + 1901) in S1 by lia.
      destruct (IHfuel (m + ylen (y + 1900)) (y - 1)) as (m' & y' & E & B & D & L).
      * lia.
      * replace (y - 1 + 1901 - Z.of_nat fuel) with (y + 1901 - Z.of_nat (S fuel)) by lia.
        replace (y - 1 + 1901) with (y + 1900) by lia. lia.
      * exists m', y'. replace (y - 1 + 1901) with (y + 1900) in D by lia. repeat split; try lia; try exact E.
    + exists m, y. repeat split; lia.
Qed.

Lemma month_row_at y mon : 0 <= mon <= 11 ->
  at_ (month_row (is_leap y)) mon = Some (month_length y (mon + 1)).
Proof.
  intros H. assert (H1 : 1 <= mon + 1 <= 12) by lia. unfold at_, month_length.
  destruct (Z.leb_spec 0 mon); [ | lia].
  months H1; replace mon with (mon + 1 - 1) by lia; rewrite H2; destruct (is_leap y); reflexivity.
Qed.

Lemma cum_row_at y mon : 0 <= mon <= 11 ->
  at_ (cum_row (is_leap y)) mon = Some (dbm y (mon + 1)).
Proof.
  intros H. assert (H1 : 1 <= mon + 1 <= 12) by lia. unfold at_, dbm.
  destruct (Z.leb_spec 0 mon); [ | lia].
  months H1; replace mon with (mon + 1 - 1) by lia; rewrite H2; destruct (is_leap y); reflexivity.
Qed.

Lemma month_up_ok y : forall fuel m mon,
  0 <= mon -> mon + Z.of_nat fuel = 12 -> 0 <= m -> m + dbm y (mon + 1) < ylen y ->
  exists m' mon', month_up fuel (is_leap y) m mon = Some (m', mon') /\
    0 <= mon' <= 11 /\ 0 <= m' < month_length y (mon' + 1) /\ m' + dbm y (mon' + 1) = m + dbm y (mon + 1).
Proof.
  induction fuel; intros m mon H0 H1 H2 H3.
  - exfalso. assert (mon = 12) by lia. subst mon. change (12 + 1) with 13 in H3. rewrite dbm_13 in H3. lia.
  - cbn [month_up]. rewrite month_row_at by lia.
    destruct (Z.leb_spec (month_length y (mon + 1)) m).
    + destruct (IHfuel (m - month_length y (mon + 1)) (mon + 1)) as (m' & mon' & E & B & C & D); try lia.
      * rewrite dbm_succ by lia. lia.
      * rewrite (dbm_succ y (mon + 1)) in D by lia. exists m', mon'. split; [exact E | ]. lia.
    + exists m, mon. split; [reflexivity | ]. lia.
Qed.

Lemma month_up_S leap : forall f m mon r, month_up f leap m mon = Some r -> month_up (S f) leap m mon = Some r.
Proof.
  induction f; intros m mon r H; [discriminate | ].
  cbn [month_up] in H |- *. destruct (at_ (month_row leap) mon); [ | discriminate].
  destruct (z <=? m); [ | exact H]. apply IHf in H. exact H.
Qed.

Lemma month_down_S leap : forall f m mon r, month_down f leap m mon = Some r -> month_down (S f) leap m mon = Some r.
Proof.
  induction f; intros m mon r H; [discriminate | ].
  cbn [month_down] in H |- *. destruct (at_ (month_row leap) mon); [ | discriminate].
  destruct (m <? - z); [ | exact H]. apply IHf in H. exact H.
Qed.

Lemma month_down_ok y : forall fuel m mon,
  mon <= 11 -> mon + 1 = Z.of_nat fuel -> m < 0 -> 0 <= m + dbm y (mon + 2) ->
  exists m' mon', month_down fuel (is_leap y) m mon = Some (m', mon') /\
    0 <= mon' <= 11 /\ 0 <= m' < month_length y (mon' + 1) /\ m' + dbm y (mon' + 1) = m + dbm y (mon + 2).
Proof.
  induction fuel; intros m mon H0 H1 H2 H3.
  - exfalso. assert (mon = -1) by lia. subst mon. change (-1 + 2) with 1 in H3. rewrite dbm_1 in H3. lia.
  - cbn [month_down]. rewrite month_row_at by lia.
    pose proof (dbm_succ y (mon + 1) ltac:(lia)) as S1. replace (mon + 1 + 1) with (mon + 2) in S1 by lia.
    destruct (Z.ltb_spec m (- month_length y (mon + 1))).
    + destruct (IHfuel (m + month_length y (mon + 1)) (mon - 1)) as (m' & mon' & E & B & C & D); try lia.
      * replace (mon - 1 + 2) with (mon + 1) by lia. lia.
      * replace (mon - 1 + 2) with (mon + 1) in D by lia. exists m', mon'. split; [exact E | ]. lia.
    + exists (m + month_length y (mon + 1)), mon. split; [reflexivity | ]. lia.
Qed.

Lemma days_up_ok orig : forall fuel days y,
  y <= orig -> orig - y < Z.of_nat fuel ->
  days_up fuel days y orig = Some (days + dby (orig + 1900) - dby (y + 1900)).
Proof.
  induction fuel; intros days y H0 H1; [lia | ].
  cbn [days_up]. rewrite year_len_eq. destruct (Z.ltb_spec y orig).
  - rewrite IHfuel by lia. replace (y + 1 + 1900) with (y + 1900 + 1) by lia. rewrite dby_succ. f_equal. lia.
  - assert (y = orig) by lia. subst. f_equal. lia.
Qed.

Lemma days_down_ok orig : forall fuel days y,
  orig <= y -> y - orig < Z.of_nat fuel ->
  days_down fuel days y orig = Some (days + dby (orig + 1900) - dby (y + 1901)).
Proof.
  induction fuel; intros days y H0 H1; [lia | ].
  cbn [days_down]. rewrite year_len_eq. cbv zeta.
  pose proof (dby_succ (y + 1900)) as S1. replace (y + 1900 + 1) with (y + 1901) in S1 by lia.
  destruct (Z.leb_spec orig (y - 1)).
  - rewrite IHfuel by lia. replace (y - 1 + 1901) with (y + 1900) by lia. f_equal. lia.
  - assert (y = orig) by lia. subst. f_equal. lia.
Qed.

(** * Casts *)

Lemma wrapn_id b x : 0 < b -> - 2 ^ (b - 1) <= x < 2 ^ (b - 1) -> wrapn b x = x.
Proof.
  intros Hb H. unfold wrapn. assert (2 ^ b = 2 * 2 ^ (b - 1)).
  { rewrite <- Z.pow_succ_r by lia. f_equal. lia. }
  rewrite Z.mod_small by lia. lia.
Qed.

Lemma s32_id x : - 2147483648 <= x <= 2147483647 -> s32 x = x.
Proof. intros H. apply wrapn_id; [lia | change (2 ^ (32 - 1)) with 2147483648; lia]. Qed.

Lemma s16_id x : - 32768 <= x <= 32767 -> s16 x = x.
Proof. intros H. apply wrapn_id; [lia | change (2 ^ (16 - 1)) with 32768; lia]. Qed.

Lemma s64_id x : - 9223372036854775808 <= x <= 9223372036854775807 -> s64 x = x.
Proof. intros H. apply wrapn_id; [lia | change (2 ^ (64 - 1)) with 9223372036854775808; lia]. Qed.

(** * gmtime64 *)

(** Range in which the years fit an [int]: about 2^55 seconds. *)
Definition time_range (t : Z) : Prop := - 2 ^ 55 <= t <= 2 ^ 55.

Record gm_ok (t : Z) (r : Tm) : Prop := {
  gk_valid : valid_date (mkDate (tm_year r + 1900) (tm_mon r + 1) (tm_mday r));
  gk_day : dn (mkDate (tm_year r + 1900) (tm_mon r + 1) (tm_mday r)) = t / 86400;
  gk_sec : tm_hour r * 3600 + tm_min r * 60 + tm_sec r = t mod 86400;
  gk_h : 0 <= tm_hour r < 24;
  gk_m : 0 <= tm_min r < 60;
  gk_s : 0 <= tm_sec r < 60;
  gk_wd : tm_wday r = (t / 86400 + 4) mod 7;
  gk_yd : tm_yday r = t / 86400 - dby (tm_year r + 1900)
}.
Arguments gk_valid {t r}. Arguments gk_day {t r}. Arguments gk_sec {t r}. Arguments gk_h {t r}.
Arguments gk_m {t r}. Arguments gk_s {t r}. Arguments gk_wd {t r}. Arguments gk_yd {t r}.

Lemma gm_days (days : Z) : - 2 ^ 40 <= days <= 2 ^ 40 ->
  exists m mon year,
    (if 0 <=? days then
      let cycles := s32 (Z.quot days days_in_gregorian_cycle) in
      match year_up year_fuel (days - cycles * days_in_gregorian_cycle) (70 + cycles * 400) with
      | None => None
      | Some (m, year) =>
          match month_up month_fuel (leap_check year) m 0 with
          | None => None
          | Some (m, mon) => Some (m, mon, year)
          end
      end
    else
      let cycles := s32 (Z.quot days days_in_gregorian_cycle + 1) in
      match year_down year_fuel (days - cycles * days_in_gregorian_cycle) (70 - 1 + cycles * 400) with
      | None => None
      | Some (m, year) =>
          match month_down month_fuel (leap_check year) m 11 with
          | None => None
          | Some (m, mon) => Some (m, mon, year)
          end
      end) = Some (m, mon, year) /\
    0 <= mon <= 11 /\ 0 <= m < month_length (year + 1900) (mon + 1) /\
    dby (year + 1900) + dbm (year + 1900) (mon + 1) + m = days.
Proof.
  intros Hr. change (2 ^ 40) with 1099511627776 in Hr.
  change days_in_gregorian_cycle with 146097.
  destruct (Z.leb_spec 0 days) as [Hp | Hn]; cbv zeta.
  - pose proof (Z.quot_rem' days 146097) as Q. pose proof (Z.rem_bound_pos days 146097 ltac:(lia) ltac:(lia)) as B.
    set (c := Z.quot days 146097) in *. rewrite (s32_id c) by lia.
    destruct (year_up_ok year_fuel (days - c * 146097) (70 + c * 400)) as (m1 & y1 & E1 & B1 & D1 & _).
    + lia.
    + unfold year_fuel. pose proof (dby_mono (70 + c * 400 + 1900) (70 + c * 400 + 1900 + Z.of_nat 801) ltac:(lia)). lia.
    + rewrite E1. rewrite leap_check_eq.
      destruct (month_up_ok (y1 + 1900) 12 m1 0) as (m2 & mon2 & E2 & B2 & C2 & D2); try lia.
      * change (0 + 1) with 1. rewrite dbm_1. lia.
      * apply month_up_S in E2. unfold month_fuel. rewrite E2.
        exists m2, mon2, y1. split; [reflexivity | ]. split; [lia | ]. split; [lia | ].
        change (0 + 1) with 1 in D2. rewrite dbm_1 in D2.
        replace (70 + c * 400 + 1900) with (1970 + 400 * c) in D1 by lia. rewrite dby_cycle in D1.
        change (dby 1970) with 0 in D1. lia.
  - pose proof (Z.quot_rem' days 146097) as Q. pose proof (Z.rem_bound_abs days 146097 ltac:(lia)) as B.
    assert (Q2 : Z.rem days 146097 <= 0) by (apply Z.rem_nonpos; lia).
    set (c := Z.quot days 146097) in *. rewrite (s32_id (c + 1)) by lia.
    destruct (year_down_ok year_fuel (days - (c + 1) * 146097) (70 - 1 + (c + 1) * 400)) as (m1 & y1 & E1 & B1 & D1 & _).
    + lia.
    + unfold year_fuel.
      replace (70 - 1 + (c + 1) * 400 + 1901 - Z.of_nat 801) with (70 - 1 + (c + 1) * 400 + 1901 - 1 + 400 * (-2)) by lia.
      rewrite dby_cycle. pose proof (dby_mono (70 - 1 + (c + 1) * 400 + 1901 - 1) (70 - 1 + (c + 1) * 400 + 1901) ltac:(lia)). lia.
    + rewrite E1. rewrite leap_check_eq.
      pose proof (dby_succ (y1 + 1900)) as S1. replace (y1 + 1900 + 1) with (y1 + 1901) in S1 by lia.
      destruct (month_down_ok (y1 + 1900) 12 m1 11) as (m2 & mon2 & E2 & B2 & C2 & D2); try lia.
      * change (11 + 2) with 13. rewrite dbm_13. lia.
      * apply month_down_S in E2. unfold month_fuel. rewrite E2.
        exists m2, mon2, y1. split; [reflexivity | ]. split; [lia | ]. split; [lia | ].
        change (11 + 2) with 13 in D2. rewrite dbm_13 in D2.
        replace (70 - 1 + (c + 1) * 400 + 1901) with (1970 + 400 * (c + 1)) in D1 by lia. rewrite dby_cycle in D1.
        change (dby 1970) with 0 in D1. lia.
Qed.

(** Quotients and remainders of successive truncations. *)
Lemma wrap_fields t : 
  let v_sec := s32 (Z.rem t 60) in
  let time := Z.quot t 60 in
  let v_min := s32 (Z.rem time 60) in
  let time := Z.quot time 60 in
  let v_hour := s32 (Z.rem time 24) in
  let tday := Z.quot time 24 in
  let '(v_sec, v_min) := WRAP v_sec v_min 60 in
  let '(v_min, v_hour) := WRAP v_min v_hour 60 in
  let '(v_hour, tday) := WRAP v_hour tday 24 in
  tday = t / 86400 /\ v_hour * 3600 + v_min * 60 + v_sec = t mod 86400 /\
  0 <= v_hour < 24 /\ 0 <= v_min < 60 /\ 0 <= v_sec < 60.
Proof.
  cbv zeta.
  pose proof (Z.quot_rem' t 60) as Q1. set (t1 := Z.quot t 60) in *. 
  pose proof (Z.quot_rem' t1 60) as Q2. set (t2 := Z.quot t1 60) in *.
  pose proof (Z.quot_rem' t2 24) as Q3. set (t3 := Z.quot t2 24) in *.
  pose proof (Z.rem_bound_abs t 60 ltac:(lia)) as B1.
  pose proof (Z.rem_bound_abs t1 60 ltac:(lia)) as B2.
  pose proof (Z.rem_bound_abs t2 24 ltac:(lia)) as B3.
  set (r1 := Z.rem t 60) in *. set (r2 := Z.rem t1 60) in *. set (r3 := Z.rem t2 24) in *.
  rewrite !s32_id by lia.
  assert (G : forall d s, t = d * 86400 + s -> 0 <= s < 86400 -> d = t / 86400 /\ s = t mod 86400).
  { intros d s E B. split; [apply Z.div_unique with s; lia | apply Z.mod_unique with d; lia]. }
  unfold WRAP.
  destruct (Z.ltb_spec r1 0).
  - destruct (Z.ltb_spec (r2 - 1) 0).
    + destruct (Z.ltb_spec (r3 - 1) 0).
      * destruct (G (t3 - 1) ((r3 - 1 + 24) * 3600 + (r2 - 1 + 60) * 60 + (r1 + 60))); lia.
      * destruct (G t3 ((r3 - 1) * 3600 + (r2 - 1 + 60) * 60 + (r1 + 60))); lia.
    + destruct (Z.ltb_spec r3 0).
      * destruct (G (t3 - 1) ((r3 + 24) * 3600 + (r2 - 1) * 60 + (r1 + 60))); lia.
      * destruct (G t3 (r3 * 3600 + (r2 - 1) * 60 + (r1 + 60))); lia.
  - destruct (Z.ltb_spec r2 0).
    + destruct (Z.ltb_spec (r3 - 1) 0).
      * destruct (G (t3 - 1) ((r3 - 1 + 24) * 3600 + (r2 + 60) * 60 + r1)); lia.
      * destruct (G t3 ((r3 - 1) * 3600 + (r2 + 60) * 60 + r1)); lia.
    + destruct (Z.ltb_spec r3 0).
      * destruct (G (t3 - 1) ((r3 + 24) * 3600 + r2 * 60 + r1)); lia.
      * destruct (G t3 (r3 * 3600 + r2 * 60 + r1)); lia.
Qed.

Lemma gmtime64_ok t : time_range t -> exists r, gmtime64 t = Some r /\ gm_ok t r.
Proof.
  intros Hr. unfold time_range in Hr. change (2 ^ 55) with 36028797018963968 in Hr.
  unfold gmtime64. pose proof (wrap_fields t) as W. cbv zeta in W |- *.
  destruct (WRAP (s32 (Z.rem t 60)) (s32 (Z.rem (Z.quot t 60) 60)) 60) as [vs vm].
  destruct (WRAP vm (s32 (Z.rem (Z.quot (Z.quot t 60) 60) 24)) 60) as [vm' vh].
  destruct (WRAP vh (Z.quot (Z.quot (Z.quot t 60) 60) 24) 24) as [vh' td].
  destruct W as (E & S & Bh & Bm & Bs).
  assert (Hd : - 2 ^ 40 <= td <= 2 ^ 40).
  { change (2 ^ 40) with 1099511627776. rewrite E. pose proof (Z.div_mod t 86400 ltac:(lia)).
    pose proof (Z.mod_pos_bound t 86400 ltac:(lia)). lia. }
  destruct (gm_days td Hd) as (m & mon & year & F & B1 & B2 & D). cbv zeta in F. rewrite F.
  rewrite leap_check_eq, cum_row_at by exact B1.
  pose proof (month_length_bounds (year + 1900) (mon + 1)).
  rewrite (s32_id m) by lia.
  eexists. split; [reflexivity | ]. constructor; cbn [tm_sec tm_min tm_hour tm_mday tm_mon tm_year tm_wday tm_yday]; try lia.
  - split; cbn [dy dm dd]; lia.
  - unfold dn. cbn [dy dm dd]. lia.
  - rewrite <- E. pose proof (Z.rem_bound_abs (td + 4) 7 ltac:(lia)). pose proof (Z.quot_rem' (td + 4) 7).
    rewrite s32_id by lia.
    destruct (Z.ltb_spec (Z.rem (td + 4) 7) 0).
    + apply Z.mod_unique with (Z.quot (td + 4) 7 - 1); lia.
    + apply Z.mod_unique with (Z.quot (td + 4) 7); lia.
Qed.

(** * timegm64 *)

Lemma timegm64_ok r : 0 <= tm_mon r ->
  timegm64 r = Some ((dby (tm_year r + tm_mon r / 12 + 1900) + dbm (tm_year r + tm_mon r / 12 + 1900) (tm_mon r mod 12 + 1)
                      + (tm_mday r - 1)) * 86400 + tm_hour r * 3600 + tm_min r * 60 + tm_sec r).
Proof.
  intros Hm. unfold timegm64. cbv zeta. rewrite Z.quot_div_nonneg by lia. rewrite Z.rem_mod_nonneg by lia.
  pose proof (Z.mod_pos_bound (tm_mon r) 12 ltac:(lia)) as Bm.
  set (mm := tm_mon r mod 12) in *. set (o := tm_year r + tm_mon r / 12). 
  change days_in_gregorian_cycle with 146097.
  assert (G : exists c, (if 100 <? o then
      (o - Z.quot (o - 100) 400 * 400, Z.quot (o - 100) 400 * 146097)
    else if o <? -300 then
      (o - Z.quot (o - 100) 400 * 400, Z.quot (o - 100) 400 * 146097)
    else (o, 0)) = (o - c * 400, c * 146097) /\ -300 <= o - c * 400 <= 500).
  { destruct (Z.ltb_spec 100 o).
    - exists (Z.quot (o - 100) 400). split; [reflexivity | ].
      pose proof (Z.quot_rem' (o - 100) 400). pose proof (Z.rem_bound_abs (o - 100) 400 ltac:(lia)). lia.
    - destruct (Z.ltb_spec o (-300)).
      + exists (Z.quot (o - 100) 400). split; [reflexivity | ].
        pose proof (Z.quot_rem' (o - 100) 400). pose proof (Z.rem_bound_abs (o - 100) 400 ltac:(lia)). lia.
      + exists 0. split; [f_equal; lia | lia]. }
  destruct G as (c & -> & B). cbv beta zeta iota.
  assert (L : is_leap (o - c * 400 + 1900) = is_leap (o + 1900)).
  { unfold is_leap.
    replace ((o - c * 400 + 1900) mod 4) with ((o + 1900) mod 4).
    2:{ replace (o - c * 400 + 1900) with (o + 1900 + (- c * 100) * 4) by lia. rewrite Z_mod_plus_full. reflexivity. }
    replace ((o - c * 400 + 1900) mod 100) with ((o + 1900) mod 100).
    2:{ replace (o - c * 400 + 1900) with (o + 1900 + (- c * 4) * 100) by lia. rewrite Z_mod_plus_full. reflexivity. }
    replace ((o - c * 400 + 1900) mod 400) with ((o + 1900) mod 400).
    2:{ replace (o - c * 400 + 1900) with (o + 1900 + (- c) * 400) by lia. rewrite Z_mod_plus_full. reflexivity. }
    reflexivity. }
  rewrite leap_check_eq, L, cum_row_at by lia.
  assert (K : dby (o - c * 400 + 1900) = dby (o + 1900) - 146097 * c).
  { replace (o - c * 400 + 1900) with (o + 1900 + 400 * (- c)) by lia. rewrite dby_cycle. lia. }
  assert (D : (if 70 <? o - c * 400 then days_up year_fuel (c * 146097) 70 (o - c * 400)
    else if o - c * 400 <? 70 then days_down year_fuel (c * 146097) 69 (o - c * 400)
    else Some (c * 146097)) = Some (dby (o + 1900))).
  { destruct (Z.ltb_spec 70 (o - c * 400)).
    - rewrite days_up_ok by (unfold year_fuel; lia). rewrite K. change (dby (70 + 1900)) with 0. f_equal. lia.
    - destruct (Z.ltb_spec (o - c * 400) 70).
      + rewrite days_down_ok by (unfold year_fuel; lia). rewrite K. change (dby (69 + 1901)) with 0. f_equal. lia.
      + replace (o - c * 400) with 70 in K by lia. change (dby (70 + 1900)) with 0 in K. f_equal. lia. }
  rewrite D. f_equal. lia.
Qed.
