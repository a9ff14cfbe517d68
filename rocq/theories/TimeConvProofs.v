(** Proofs about the conversions of Time.cpp built on the calendar: MJD, BCD, NTP, FILETIME, DaysTo and
    ISO 8601 durations. *)
From Verif Require Import Base CalendarModel CalendarSpec CalendarProofs CalendarProofs2.
Local Open Scope Z_scope.

(** * BCD *)
Lemma land_ones k x : 0 <= k -> Z.land x (2 ^ k - 1) = x mod 2 ^ k.
Proof. intros H. rewrite <- Z.land_ones by lia. rewrite Z.ones_equiv. f_equal. Qed.

Lemma bcd_value_of v : 0 <= v < 100 -> bcd_value (bcd_encode v) = v.
Proof.
  intros H. unfold bcd_value, bcd_encode, u8.
  change 15 with (2 ^ 4 - 1). rewrite !land_ones by lia. rewrite Z.shiftr_div_pow2, Z.shiftl_mul_pow2 by lia.
  change (2 ^ 4) with 16. change (2 ^ 8) with 256.
  pose proof (Z.div_mod v 10 ltac:(lia)). pose proof (Z.mod_pos_bound v 10 ltac:(lia)).
  set (q := v / 10) in *. set (r := v mod 10) in *.
  rewrite (Z.mod_small (q * 16 + r) 256) by lia.
  assert ((q * 16 + r) / 16 = q) by (symmetry; apply Z.div_unique with r; lia).
  assert ((q * 16 + r) mod 16 = r) by (symmetry; apply Z.mod_unique with q; lia).
  rewrite H2, H3. rewrite (Z.mod_small q 16) by lia. rewrite Z.mod_small by lia. lia.
Qed.

Lemma bcd_encode_bound v : 0 <= bcd_encode v < 256.
Proof. unfold bcd_encode, u8. apply Z.mod_pos_bound. reflexivity. Qed.

Lemma bcd_bytes h m s : 0 <= h < 256 -> 0 <= m < 256 -> 0 <= s < 256 ->
  let b := u32 (Z.shiftl h 16 + Z.shiftl m 8 + s) in
  Z.land (Z.shiftr b 16) 255 = h /\ Z.land (Z.shiftr b 8) 255 = m /\ Z.land b 255 = s.
Proof.
  intros Hh Hm Hs. cbv zeta. unfold u32.
  rewrite !Z.shiftl_mul_pow2, !Z.shiftr_div_pow2 by lia. change 255 with (2 ^ 8 - 1). rewrite !land_ones by lia.
  change (2 ^ 16) with 65536. change (2 ^ 8) with 256. change (2 ^ 32) with 4294967296.
  rewrite (Z.mod_small (h * 65536 + m * 256 + s)) by lia.
  assert ((h * 65536 + m * 256 + s) / 65536 = h) by (symmetry; apply Z.div_unique with (m * 256 + s); lia).
  assert ((h * 65536 + m * 256 + s) / 256 = h * 256 + m) by (symmetry; apply Z.div_unique with s; lia).
  rewrite H, H0. split; [ | split].
  - apply Z.mod_small. lia.
  - symmetry. apply Z.mod_unique with h; lia.
  - symmetry. apply Z.mod_unique with (h * 256 + m); lia.
Qed.

Lemma get_bcd_time_ok off ms : ms_range (ms + 60000 * off) ->
  exists v, get_bcd_time off ms = Ret v /\
    from_bcd_duration v = 1000 * (Z.quot (ms + 60000 * off) 1000 mod 86400).
Proof.
  intros H. destruct (bdt_from_ms_ok _ H) as (b & E & G). unfold get_bcd_time, break_down. rewrite E. cbn [rbind].
  eexists. split; [reflexivity | ].
  pose proof (bk_h G). pose proof (bk_m G). pose proof (bk_s G).
  unfold from_bcd_duration.
  destruct (bcd_bytes (bcd_encode (u8 (b_hour b))) (bcd_encode (u8 (b_min b))) (bcd_encode (u8 (b_sec b)))
             (bcd_encode_bound _) (bcd_encode_bound _) (bcd_encode_bound _)) as (A1 & A2 & A3).
  cbv zeta in A1, A2, A3. rewrite A1, A2, A3.
  unfold u8 at 1 2 3. change (2 ^ 8) with 256. rewrite !(Z.mod_small _ 256) by lia.
  rewrite !bcd_value_of by lia. rewrite <- (bk_sec G). lia.
Qed.

(** * NTP and FILETIME *)
Lemma s64_u64 x : s64 (u64 x) = s64 x.
Proof.
  unfold s64, wrapn, u64. change (64 - 1) with 63. f_equal.
  rewrite Zplus_mod_idemp_l. reflexivity.
Qed.

Lemma u64_mul_l x y : u64 (u64 x * y) = u64 (x * y).
Proof. unfold u64. apply Z.mul_mod_idemp_l. discriminate. Qed.

Lemma u64_add_l x y : u64 (u64 x + y) = u64 (x + y).
Proof. unfold u64. apply Z.add_mod_idemp_l. discriminate. Qed.

Lemma s64_mul_u64 x y : s64 (u64 (u64 x * y)) = s64 (x * y).
Proof. rewrite u64_mul_l. apply s64_u64. Qed.

(** * Days *)
Lemma day_start_ms off n b : valid_date (mkDate (b_year b) (b_month b) (b_mday b)) ->
  dn (mkDate (b_year b) (b_month b) (b_mday b)) = n -> -32768 <= b_year b <= 32767 ->
  from_bdt off (day_start b) = Ret (n * 86400000 - 60000 * off).
Proof.
  intros V E Y. pose proof V as [V1 V2]. cbn [dy dm dd] in V1, V2.
  pose proof (month_length_bounds (b_year b) (b_month b)).
  unfold from_bdt, day_start, mk_bdt. rewrite ms_from_bdt_valid; cbn [b_month b_ms b_sec b_min b_hour b_mday b_year].
  2:{ rewrite s16_id by lia. exact V1. }
  change (s16 0) with 0. rewrite !s16_id by lia. rewrite E. cbv zeta.
  destruct (Z.eqb_spec (n * 86400 + 0 * 3600 + 0 * 60 + 0) (-1)); [lia | ].
  cbn [rbind]. f_equal. lia.
Qed.

(** * ISO durations *)

(** Days before the first of the [k]-th month counted from January of [y]. *)
Definition dmon (y k : Z) : Z := dby (y + k / 12) + dbm (y + k / 12) (k mod 12 + 1).

Lemma dmon_succ y k : dmon y (k + 1) = dmon y k + month_length (y + k / 12) (k mod 12 + 1).
Proof.
  unfold dmon. pose proof (Z.div_mod k 12 ltac:(lia)). pose proof (Z.mod_pos_bound k 12 ltac:(lia)).
  set (q := k / 12) in *. set (r := k mod 12) in *.
  destruct (Z.eq_dec r 11) as [E | E].
  - assert ((k + 1) / 12 = q + 1) by (symmetry; apply Z.div_unique with 0; lia).
    assert ((k + 1) mod 12 = 0) by (symmetry; apply Z.mod_unique with (q + 1); lia).
    rewrite H1, H2, E. change (11 + 1) with 12. change (0 + 1) with 1. rewrite dbm_1.
    replace (y + (q + 1)) with (y + q + 1) by lia. rewrite dby_succ, <- dbm_13.
    change 13 with (12 + 1). rewrite dbm_succ by lia. lia.
  - assert ((k + 1) / 12 = q) by (symmetry; apply Z.div_unique with (r + 1); lia).
    assert ((k + 1) mod 12 = r + 1) by (symmetry; apply Z.mod_unique with q; lia).
    rewrite H1, H2. rewrite (dbm_succ (y + q) (r + 1)) by lia. lia.
Qed.

Lemma dmon_small y k : 0 <= k < 12 -> dmon y k = dby y + dbm y (k + 1).
Proof. intros H. unfold dmon. rewrite Z.div_small, Z.mod_small by lia. rewrite Z.add_0_r. reflexivity. Qed.

Lemma dbm_leap y m : 1 <= m <= 12 -> dbm y m = dbm 2001 m + (if (2 <? m) && is_leap y then 1 else 0).
Proof.
  intros H. unfold dbm. months H; subst m; destruct (is_leap y); reflexivity.
Qed.

(** One year later, same month and day. *)
Lemma dmon_year y k : 0 <= k < 12 -> dmon (y + 1) k = dmon y k + (if 2 <? k + 1 then ylen (y + 1) else ylen y).
Proof.
  intros H. rewrite !dmon_small by lia. rewrite dby_succ.
  rewrite (dbm_leap (y + 1)), (dbm_leap y) by lia. unfold ylen.
  destruct (2 <? k + 1), (is_leap y), (is_leap (y + 1)); cbn [andb]; lia.
Qed.

Lemma max_days_in_year_eq y : max_days_in_year y = ylen y.
Proof.
  assert (R : forall k, 0 < k -> (Z.rem y k =? 0) = (y mod k =? 0)).
  { intros k Hk. apply Bool.eq_iff_eq_true. rewrite !Z.eqb_eq.
    rewrite Z.rem_divide by lia. rewrite Z.mod_divide by lia. reflexivity. }
  unfold max_days_in_year, ylen. rewrite !R by lia. fold (is_leap y). reflexivity.
Qed.

Lemma max_days_in_month_eq y m : 1 <= m <= 12 -> max_days_in_month y m = Ret (month_length y m).
Proof.
  intros H. assert (R : forall k, 0 < k -> (Z.rem y k =? 0) = (y mod k =? 0)).
  { intros k Hk. apply Bool.eq_iff_eq_true. rewrite !Z.eqb_eq.
    rewrite Z.rem_divide by lia. rewrite Z.mod_divide by lia. reflexivity. }
  unfold max_days_in_month. rewrite !R by lia. fold (is_leap y).
  unfold month_length, at_. months H; subst m; destruct (is_leap y); reflexivity.
Qed.

Lemma iso_years_ok : forall fuel days y years,
  0 <= days <= 32767 -> days < Z.of_nat fuel -> -32000 <= y ->
  0 <= years -> 365 * years + days <= 32767 -> y + (32767 - 365 * years) / 365 <= 32000 ->
  exists days' y' years', iso_years fuel days y years = Some (days', y', years') /\
    0 <= days' <= days /\ years <= years' /\ y' = y + (years' - years) /\
    dby y' + days' = dby y + days /\ 365 * years' + days' <= 32767.
Proof.
  induction fuel; intros days y years H0 H1 H2 H3 H4 H5; [lia | ].
  cbn [iso_years]. rewrite max_days_in_year_eq. cbv zeta.
  pose proof (ylen_bounds y) as B.
  assert (P : 0 <= (32767 - 365 * years) / 365) by (apply Z.div_pos; lia).
  destruct (Z.leb_spec (ylen y) days).
  - rewrite !s16_id by lia.
    destruct (IHfuel (days - ylen y) (y + 1) (years + 1)) as (d' & y' & n' & E & A1 & A2 & A3 & A4 & A5); try lia.
    + replace (32767 - 365 * (years + 1)) with (32767 - 365 * years + (-1) * 365) by lia.
      rewrite Z.div_add by lia. lia.
    + exists d', y', n'. split; [exact E | ]. split; [lia | ]. split; [lia | ]. split; [lia | ]. split; [ | lia].
      rewrite A4, dby_succ. lia.
  - exists days, y, years. split; [reflexivity | ]. lia.
Qed.

Lemma iso_months_ok y0 m0 : 1 <= m0 <= 12 -> -32000 <= y0 <= 31000 -> forall fuel days months year month,
  0 <= days <= 32767 -> days < Z.of_nat fuel -> 0 <= months -> 28 * months + days <= 32767 ->
  year = y0 + (m0 - 1 + months) / 12 -> month = (m0 - 1 + months) mod 12 + 1 ->
  exists days' months', iso_months fuel days year month months = Some (days', months') /\
    0 <= days' < 31 /\ months <= months' /\ 28 * months' + days' <= 32767 /\
    dmon y0 (m0 - 1 + months') + days' = dmon y0 (m0 - 1 + months) + days.
Proof.
  intros Hm Hy. induction fuel; intros days months year month H0 H1 H2 H3 Ey Em; [lia | ].
  pose proof (Z.div_mod (m0 - 1 + months) 12 ltac:(lia)) as D. pose proof (Z.mod_pos_bound (m0 - 1 + months) 12 ltac:(lia)) as B.
  cbn [iso_months]. rewrite max_days_in_month_eq by lia.
  pose proof (month_length_bounds year month) as L. pose proof (dmon_succ y0 (m0 - 1 + months)) as S1.
  rewrite <- Ey, <- Em in S1.
  replace (m0 - 1 + months + 1) with (m0 - 1 + (months + 1)) in S1 by lia.
  set (q := (m0 - 1 + months) / 12) in *. set (r := (m0 - 1 + months) mod 12) in *.
  destruct (Z.leb_spec (month_length year month) days).
  - rewrite !s16_id by lia.
    assert (G : (if 12 <? month + 1 then (1, year + 1) else (month + 1, year)) =
                ((m0 - 1 + (months + 1)) mod 12 + 1, y0 + (m0 - 1 + (months + 1)) / 12)).
    { destruct (Z.ltb_spec 12 (month + 1)).
      - assert (X1 : (m0 - 1 + (months + 1)) / 12 = q + 1) by (symmetry; apply Z.div_unique with 0; lia).
        assert (X2 : (m0 - 1 + (months + 1)) mod 12 = 0) by (symmetry; apply Z.mod_unique with (q + 1); lia).
        rewrite X1, X2. f_equal; lia.
      - assert (X1 : (m0 - 1 + (months + 1)) / 12 = q) by (symmetry; apply Z.div_unique with (r + 1); lia).
        assert (X2 : (m0 - 1 + (months + 1)) mod 12 = r + 1) by (symmetry; apply Z.mod_unique with q; lia).
        rewrite X1, X2. f_equal; lia. }
    rewrite G.
    destruct (IHfuel (days - month_length year month) (months + 1) (y0 + (m0 - 1 + (months + 1)) / 12) ((m0 - 1 + (months + 1)) mod 12 + 1))
      as (d' & n' & E & A1 & A2 & A3 & A4); try lia.
    exists d', n'. split; [exact E | ]. split; [lia | ]. split; [lia | ]. split; [lia | ]. lia.
  - exists days, months. split; [reflexivity | ]. split; [lia | ]. split; [lia | ]. lia.
Qed.

Lemma dmon_years y k n : 0 <= k < 12 -> 0 <= n ->
  dmon (y + n) k - dmon y k = if 2 <? k + 1 then dby (y + 1 + n) - dby (y + 1) else dby (y + n) - dby y.
Proof.
  intros Hk. revert n. apply (natlike_ind (fun n => dmon (y + n) k - dmon y k = if 2 <? k + 1 then dby (y + 1 + n) - dby (y + 1) else dby (y + n) - dby y)).
  - rewrite !Z.add_0_r. destruct (2 <? k + 1); lia.
  - intros n Hn IH. replace (y + Z.succ n) with (y + n + 1) by lia. rewrite dmon_year by lia.
    replace (y + 1 + Z.succ n) with (y + 1 + n + 1) by lia. rewrite (dby_succ (y + 1 + n)), (dby_succ (y + n)).
    destruct (2 <? k + 1); [replace (y + n + 1) with (y + 1 + n) by lia | ]; lia.
Qed.

(** Whole seconds of a duration, and its parts. *)
Lemma secs_parts us : 0 <= us ->
  let s := us / 1000000 in
  get_seconds us = s /\ get_minutes us = s / 60 /\ get_hours us = s / 3600 /\ get_days us = s / 86400.
Proof.
  intros H s. assert (S : get_seconds us = s).
  { unfold get_seconds. rewrite (Z.quot_div_nonneg us) by lia. assert (0 <= us / 1000) by (apply Z.div_pos; lia).
    rewrite Z.quot_div_nonneg by lia. rewrite Z.div_div by lia. reflexivity. }
  assert (P : 0 <= s) by (apply Z.div_pos; lia).
  assert (M : get_minutes us = s / 60) by (unfold get_minutes; rewrite S; apply Z.quot_div_nonneg; lia).
  assert (P2 : 0 <= s / 60) by (apply Z.div_pos; lia).
  assert (Hh : get_hours us = s / 3600).
  { unfold get_hours. rewrite M, Z.quot_div_nonneg by lia. rewrite Z.div_div by lia. reflexivity. }
  assert (P3 : 0 <= s / 3600) by (apply Z.div_pos; lia).
  repeat split; auto. unfold get_days. rewrite Hh, Z.quot_div_nonneg by lia. rewrite Z.div_div by lia. reflexivity.
Qed.

Lemma secs_split s : 0 <= s ->
  s = s / 86400 * 86400 + (s / 3600) mod 24 * 3600 + (s / 60) mod 60 * 60 + s mod 60.
Proof.
  intros H. pose proof (Z.div_mod s 60 ltac:(lia)) as A. pose proof (Z.div_mod (s / 60) 60 ltac:(lia)) as B.
  pose proof (Z.div_mod (s / 3600) 24 ltac:(lia)) as C.
  replace (s / 60 / 60) with (s / 3600) in B by (rewrite Z.div_div by lia; reflexivity).
  replace (s / 3600 / 24) with (s / 86400) in C by (rewrite Z.div_div by lia; reflexivity). lia.
Qed.

Definition trunc_s (us : Z) : Z := us / 1000000 * 1000000.

Lemma iso_roundtrip base us b :
  ms_range base -> 0 <= base -> 0 <= us < 32768 * 86400 * 1000000 ->
  break_down 0 base = Ret b -> ~ (b_month b = 2 /\ b_mday b = 29) ->
  exists c, to_iso us (Some base) = Ret c /\
    0 <= i_years c /\ 0 <= i_months c /\ 0 <= i_days c < 31 /\ 0 <= i_hours c < 24 /\ 0 <= i_minutes c < 60 /\ 0 <= i_seconds c < 60 /\
    to_time_duration base (i_years c) (i_months c) 0 (i_days c) (i_hours c) (i_minutes c) (i_seconds c) = Ret (trunc_s us).
Proof.
  intros Hb Hb0 Hu Eb NF.
  destruct (bdt_from_ms_ok base Hb) as (b' & E & G). unfold break_down in Eb. replace (base + 60000 * 0) with base in Eb by lia.
  rewrite E in Eb. injection Eb as ->.
  unfold to_iso. destruct (Z.ltb_spec us 0); [lia | ].
  pose proof (secs_parts us ltac:(lia)) as (S1 & S2 & S3 & S4). cbv zeta in S1, S2, S3, S4.
  set (s := us / 1000000) in *. rewrite S1, S2, S3, S4.
  assert (Hs : 0 <= s) by (apply Z.div_pos; lia).
  assert (Hd : 0 <= s / 86400 <= 32767).
  { split; [apply Z.div_pos; lia | ]. assert (s / 86400 < 32768); [ | lia].
    apply Z.div_lt_upper_bound; [lia | ]. apply Z.div_lt_upper_bound; lia. }
  assert (P60 : 0 <= s / 60) by (apply Z.div_pos; lia). assert (P36 : 0 <= s / 3600) by (apply Z.div_pos; lia).
  rewrite !Z.rem_mod_nonneg by lia.
  pose proof (secs_split s Hs) as SS.
  pose proof (Z.mod_pos_bound s 60 ltac:(lia)) as B1. pose proof (Z.mod_pos_bound (s / 60) 60 ltac:(lia)) as B2.
  pose proof (Z.mod_pos_bound (s / 3600) 24 ltac:(lia)) as B3.
  set (sec := s mod 60) in *. set (mi := (s / 60) mod 60) in *. set (ho := (s / 3600) mod 24) in *. set (dys := s / 86400) in *.
  rewrite (s16_id sec), (s16_id mi), (s16_id ho), (s16_id dys) by lia.
  unfold break_down. replace (base + 60000 * 0) with base by lia. rewrite E. cbn [rbind].
  pose proof (bk_valid G) as [V1 V2]. cbn [dy dm dd] in V1, V2. pose proof (bk_year G) as Y.
  assert (Late : (2 <? b_month b) || ((b_month b =? 2) && (b_mday b =? 29)) = (2 <? b_month b)).
  { destruct (Z.ltb_spec 2 (b_month b)); [reflexivity | ]. cbn [orb].
    destruct (Z.eqb_spec (b_month b) 2), (Z.eqb_spec (b_mday b) 29); cbn [andb]; auto. exfalso. apply NF. auto. }
  rewrite Late. set (y0 := if 2 <? b_month b then b_year b + 1 else b_year b).
  replace (if 2 <? b_month b then s16 (b_year b + 1) else b_year b) with y0.
  2:{ unfold y0. destruct (2 <? b_month b); [rewrite s16_id by lia | ]; reflexivity. }
  assert (Hy0 : b_year b <= y0 <= b_year b + 1) by (unfold y0; destruct (2 <? b_month b); lia).
  destruct (iso_years_ok (S (Z.to_nat dys)) dys y0 0) as (d1 & y1 & n1 & E1 & A1 & A2 & A3 & A4 & A5); try lia.
  { change ((32767 - 365 * 0) / 365) with 89. lia. }
  rewrite E1.
  replace (if 2 <? b_month b then s16 (y1 - 1) else y1) with (b_year b + n1).
  2:{ unfold y0 in A3. destruct (2 <? b_month b); [rewrite s16_id by lia | ]; lia. }
  destruct (iso_months_ok (b_year b + n1) (b_month b) V1 ltac:(lia) (S (Z.to_nat d1)) d1 0 (b_year b + n1) (b_month b))
    as (d2 & n2 & E2 & C1 & C2 & C3 & C4); try lia.
  { rewrite Z.div_small by lia. lia. }
  { rewrite Z.mod_small by lia. lia. }
  rewrite E2. eexists. split; [reflexivity | ].
  cbn [i_years i_months i_days i_hours i_minutes i_seconds].
  split; [lia | ]. split; [lia | ]. split; [lia | ]. split; [lia | ]. split; [lia | ]. split; [lia | ].
  replace (b_month b - 1 + 0) with (b_month b - 1) in C4 by lia.
  pose proof (dmon_years (b_year b) (b_month b - 1) n1 ltac:(lia) ltac:(lia)) as DY.
  replace (b_month b - 1 + 1) with (b_month b) in DY by lia.
  assert (Total : dmon (b_year b + n1) (b_month b - 1 + n2) + d2 = dmon (b_year b) (b_month b - 1) + dys).
  { unfold y0 in A3, A4. destruct (2 <? b_month b).
    - rewrite A3 in A4. replace (b_year b + 1 + (n1 - 0)) with (b_year b + 1 + n1) in A4 by lia. lia.
    - rewrite A3 in A4. replace (b_year b + (n1 - 0)) with (b_year b + n1) in A4 by lia. lia. }
  unfold to_time_duration, trunc_s. fold s.
  destruct ((n1 =? 0) && (n2 =? 0)) eqn:Z0.
  - apply andb_prop in Z0. destruct Z0 as [Z1 Z2]. apply Z.eqb_eq in Z1, Z2. rewrite Z1, Z2, !Z.add_0_r in Total. f_equal. lia.
  - unfold break_down. replace (base + 60000 * 0) with base by lia. rewrite E. cbn [rbind].
    pose proof (bk_h G). pose proof (bk_m G). pose proof (bk_s G). pose proof (bk_ms G) as Ms.
    pose proof (month_length_bounds (b_year b) (b_month b)).
    pose proof (Z.rem_bound_abs base 1000 ltac:(lia)).
    unfold from_bdt. rewrite ms_from_bdt_gen; unfold mk_bdt; cbn [b_ms b_sec b_min b_hour b_wday b_mday b_month b_yday b_year];
      rewrite ?(s16_id (b_month b + n2)) by lia; [ | lia].
    rewrite (s16_id (b_year b + n1)), (s16_id (b_mday b + 0 * 7 + d2)), (s16_id (b_hour b + ho)), (s16_id (b_min b + mi)), (s16_id (b_sec b + sec)), (s16_id (b_ms b)) by lia.
    replace (b_month b + n2 - 1) with (b_month b - 1 + n2) by lia.
    fold (dmon (b_year b + n1) (b_month b - 1 + n2)). cbv zeta.
    pose proof (bk_day G) as K. unfold dn in K. cbn [dy dm dd] in K.
    pose proof (dmon_small (b_year b) (b_month b - 1) ltac:(lia)) as Km. replace (b_month b - 1 + 1) with (b_month b) in Km by lia.
    pose proof (bk_sec G) as Ks. pose proof (Z.div_mod (Z.quot base 1000) 86400 ltac:(lia)) as Kd.
    assert (T : (dmon (b_year b + n1) (b_month b - 1 + n2) + (b_mday b + 0 * 7 + d2 - 1)) * 86400 + (b_hour b + ho) * 3600 + (b_min b + mi) * 60 + (b_sec b + sec)
                = Z.quot base 1000 + s) by lia.
    rewrite T. assert (0 <= Z.quot base 1000) by (apply Z.quot_pos; lia).
    destruct (Z.eqb_spec (Z.quot base 1000 + s) (-1)); [lia | ].
    cbn [rbind]. pose proof (Z.quot_rem' base 1000). f_equal. lia.
Qed.
