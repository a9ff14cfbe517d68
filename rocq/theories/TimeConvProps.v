(** C48: MJD/BCD, NTP, FILETIME, day counts, rounding and ISO 8601 durations of Time. *)
From Verif Require Import Base CalendarModel CalendarSpec CalendarProofs CalendarProofs2 TimeConvProofs.
Local Open Scope Z_scope.

(** * MJD and BCD *)

(** From the epoch on: the MJD is 40587 (that of 1970-01-01) plus the number of days since. *)
Theorem C48_mjd_partial ms : 0 <= ms <= 900000000000000 -> get_mjd ms = 40587 + ms / 86400000.
Proof.
  intros H. unfold get_mjd. change (1000 * 86400) with 86400000. rewrite Z.quot_div_nonneg by lia.
  assert (0 <= ms / 86400000 <= 900000000000000 / 86400000) by (split; [apply Z.div_pos | apply Z.div_le_mono]; lia).
  change (900000000000000 / 86400000) with 10416666 in *. apply s32_id. lia.
Qed.

(** MjdToEpoch (GetMjd (), GetBcdTime (Utc)) is the time cut to whole seconds. *)
Theorem C48_mjd_bcd_round_trip_partial ms : 0 <= ms <= 900000000000000 ->
  exists bcd, get_bcd_time 0 ms = Ret bcd /\ mjd_to_epoch (get_mjd ms) bcd = ms / 1000 * 1000.
Proof.
  intros H. destruct (get_bcd_time_ok 0 ms) as (v & E & F); [unfold ms_range; lia | ].
  exists v. split; [exact E | ]. unfold mjd_to_epoch. rewrite F, C48_mjd_partial by exact H.
  replace (ms + 60000 * 0) with ms by lia. rewrite Z.quot_div_nonneg by lia.
  pose proof (Z.div_mod (ms / 1000) 86400 ltac:(lia)) as D. rewrite Z.div_div in D by lia. change (1000 * 86400) with 86400000 in D. lia.
Qed.

(** Before the epoch GetMjd is one day late. *)
Theorem C48_mjd_before_epoch_refuted : exists ms, get_mjd ms <> 40587 + ms / 86400000.
Proof. exists (-1). vm_compute. discriminate. Qed.

(** With GetBcdTime's default argument (Local) the pair names a different time outside UTC. *)
Theorem C48_mjd_with_local_bcd_refuted :
  exists off ms bcd, get_bcd_time off ms = Ret bcd /\ mjd_to_epoch (get_mjd ms) bcd = ms - 23 * 3600 * 1000.
Proof. exists 60, (23 * 3600 * 1000). eexists. split; vm_compute; reflexivity. Qed.

(** BCD of every number below 100. *)
Theorem C48_bcd v : 0 <= v < 100 -> bcd_value (bcd_encode v) = v.
Proof. apply bcd_value_of. Qed.

(** * NTP timestamps (seconds) *)
Theorem C48_ntp_of_time ms : 0 <= ms <= 9000000000000000000 -> from_ntp (to_ntp ms) = ms / 1000 * 1000.
Proof.
  intros H. unfold from_ntp, to_ntp. rewrite Z.quot_div_nonneg by lia.
  pose proof (Z.div_mod ms 1000 ltac:(lia)). pose proof (Z.mod_pos_bound ms 1000 ltac:(lia)).
  unfold u64 at 3. rewrite Z.mod_small by (change (2 ^ 64) with 18446744073709551616; lia).
  rewrite s64_mul_u64. rewrite s64_id by lia. lia.
Qed.

Theorem C48_time_of_ntp ts : 0 <= ts <= 9000000000000000 -> to_ntp (from_ntp ts) = ts.
Proof.
  intros H. unfold from_ntp, to_ntp. rewrite s64_mul_u64. rewrite s64_id by lia.
  rewrite Z.quot_mul by lia. unfold u64. rewrite Z.mod_small; [lia | ]. change (2 ^ 64) with 18446744073709551616. lia.
Qed.

(** The NTP epoch is 1900-01-01. *)
Theorem C48_ntp_epoch : day_is (from_ntp 0 / 86400000) (mkDate 1900 1 1).
Proof. apply day_of_dn; [split; cbn; lia | reflexivity]. Qed.

(** * NtpTimestamp (32.32 fixed point) *)

(** Up to 2036, and to whole seconds. *)
Theorem C48_ntp64_round_trip_partial ms : 0 <= ms < (2 ^ 32 - 2208988800) * 1000 ->
  ntp64_to_time (ntp64_from_time ms) = ms / 1000 * 1000.
Proof.
  intros H. change (2 ^ 32) with 4294967296 in H. unfold ntp64_from_time. rewrite Z.quot_div_nonneg by lia.
  pose proof (Z.div_mod ms 1000 ltac:(lia)). pose proof (Z.mod_pos_bound ms 1000 ltac:(lia)).
  set (s := ms / 1000) in *.
  assert (F : u32 (u64 (s * 2 ^ 32)) = 0).
  { unfold u32, u64. change (2 ^ 64) with (2 ^ 32 * 2 ^ 32). rewrite Zmult_mod_distr_r. apply Z_mod_mult. }
  rewrite F, Z.lor_0_r. unfold u32. rewrite (Z.mod_small (s + 2208988800)) by (change (2 ^ 32) with 4294967296; lia).
  unfold ntp64_to_time. cbv zeta. rewrite Z.shiftr_shiftl_l by lia. rewrite Z.shiftl_0_r.
  unfold u32 at 1. rewrite (Z.mod_small (s + 2208988800)) by (change (2 ^ 32) with 4294967296; lia).
  match goal with |- context [u32 ?x / 2 ^ 32] => assert (Z0 : u32 x / 2 ^ 32 = 0) by (apply Z.div_small; unfold u32; apply Z.mod_pos_bound; reflexivity) end.
  rewrite Z0, Z.add_0_r. rewrite s64_mul_u64. rewrite s64_id by lia. lia.
Qed.

(** The fraction of a second is dropped, whatever it is. *)
Theorem C48_ntp64_fraction k f : 0 <= k < 2 ^ 32 -> 0 <= f < 2 ^ 32 ->
  ntp64_to_time (k * 2 ^ 32 + f) = (k - 2208988800) * 1000.
Proof.
  intros Hk Hf. unfold ntp64_to_time. cbv zeta. rewrite Z.shiftr_div_pow2 by lia.
  assert (Q : (k * 2 ^ 32 + f) / 2 ^ 32 = k) by (symmetry; apply Z.div_unique with f; lia). rewrite Q.
  match goal with |- context [u32 ?x / 2 ^ 32] => assert (Z0 : u32 x / 2 ^ 32 = 0) by (apply Z.div_small; unfold u32; apply Z.mod_pos_bound; reflexivity) end.
  rewrite Z0, Z.add_0_r. unfold u32. rewrite (Z.mod_small k) by lia. rewrite s64_mul_u64. apply s64_id. lia.
Qed.

Theorem C48_ntp64_fraction_refuted : exists ts ts', ts' - ts = 2 ^ 31 /\ ntp64_to_time ts' = ntp64_to_time ts.
Proof. exists 0, (2 ^ 31). split; vm_compute; reflexivity. Qed.

(** * Windows FILETIME (100 ns ticks since 1601-01-01) *)

(** Right exactly for whole seconds: the sub-second ticks are added as milliseconds. *)
Theorem C48_windows_file_time ticks : 0 <= ticks < 2 ^ 63 ->
  (from_windows ticks = ticks / 10000 - 11644473600000 <-> ticks mod 10000000 = 0).
Proof.
  intros H. change (2 ^ 63) with 9223372036854775808 in H.
  unfold from_windows. rewrite u64_mul_l, u64_add_l, s64_u64.
  pose proof (Z.div_mod ticks 10000000 ltac:(lia)) as D. pose proof (Z.mod_pos_bound ticks 10000000 ltac:(lia)) as B.
  set (q := ticks / 10000000) in *. set (r := ticks mod 10000000) in *.
  assert (Q : ticks / 10000 = q * 1000 + r / 10000).
  { rewrite D. replace (10000000 * q + r) with (r + (q * 1000) * 10000) by lia. rewrite Z.div_add by lia. lia. }
  assert (Rr : 0 <= r / 10000 /\ (r / 10000 = r -> r = 0)).
  { split; [apply Z.div_pos; lia | ]. intros E. pose proof (Z.div_mod r 10000 ltac:(lia)). pose proof (Z.mod_pos_bound r 10000 ltac:(lia)). lia. }
  rewrite Q. destruct (Z.eq_dec r 0) as [R0 | R0].
  - rewrite R0. split; [reflexivity | ]. intros _. change (0 / 10000) with 0.
    rewrite s64_id by lia. lia.
  - split; [ | intros; contradiction]. intros E. exfalso.
    rewrite s64_id in E by lia. lia.
Qed.

Theorem C48_windows_file_time_refuted : exists ticks, 0 <= ticks < 2 ^ 63 /\ from_windows ticks = ticks / 10000 - 11644473600000 + 5000000 - 500.
Proof. exists 116444736005000000. split; [lia | vm_compute; reflexivity]. Qed.

(** * DaysTo *)

(** From the (local) epoch on, DaysTo counts calendar days, whatever the times of day. *)
Theorem C48_days_to_partial off ms ms' :
  0 <= ms + 60000 * off <= 900000000000000 -> 0 <= ms' + 60000 * off <= 900000000000000 ->
  days_to_time off ms ms' = Ret ((ms' + 60000 * off) / 86400000 - (ms + 60000 * off) / 86400000).
Proof.
  intros H H'. unfold days_to_time, days_to, break_down.
  destruct (bdt_from_ms_ok (ms + 60000 * off)) as (b & E & G); [unfold ms_range; lia | ].
  destruct (bdt_from_ms_ok (ms' + 60000 * off)) as (b' & E' & G'); [unfold ms_range; lia | ].
  rewrite E'. cbn [rbind]. pose proof (bk_year G). pose proof (bk_year G').
  rewrite (day_start_ms off _ b' (bk_valid G') (bk_day G') ltac:(lia)). cbn [rbind]. rewrite E. cbn [rbind].
  rewrite (day_start_ms off _ b (bk_valid G) (bk_day G) ltac:(lia)). cbn [rbind].
  rewrite !Z.quot_div_nonneg with (b := 1000) by lia. rewrite !Z.div_div by lia. change (1000 * 86400) with 86400000.
  f_equal. set (x := (ms + 60000 * off) / 86400000) in *. set (x' := (ms' + 60000 * off) / 86400000) in *.
  replace (1000 * (x' * 86400000 - 60000 * off - (x * 86400000 - 60000 * off))) with ((x' - x) * (1000 * 1000 * 60 * 60 * 24)) by lia.
  rewrite Z.quot_mul by lia. apply s32_id.
  assert (0 <= x <= 900000000000000 / 86400000) by (unfold x; split; [apply Z.div_pos | apply Z.div_le_mono]; lia).
  assert (0 <= x' <= 900000000000000 / 86400000) by (unfold x'; split; [apply Z.div_pos | apply Z.div_le_mono]; lia).
  change (900000000000000 / 86400000) with 10416666 in *. lia.
Qed.

Theorem C48_days_to_before_epoch_refuted :
  exists ms, days_to_time 0 ms 0 = Ret 0 /\ 0 / 86400000 - ms / 86400000 = 1.
Proof. exists (-1). split; vm_compute; reflexivity. Qed.

(** * Rounding to milliseconds: to the nearest, halves away from zero. *)
Theorem C48_round_to_milliseconds us :
  let r := round_to_ms us in
  2 * Z.abs (1000 * r - us) <= 1000 /\ (2 * Z.abs (1000 * r - us) = 1000 -> Z.abs us < Z.abs (1000 * r)).
Proof.
  cbv zeta. unfold round_to_ms. pose proof (Z.quot_rem' us 1000). pose proof (Z.rem_bound_abs us 1000 ltac:(lia)).
  assert (S : us < 0 /\ Z.rem us 1000 <= 0 \/ 0 <= us /\ 0 <= Z.rem us 1000).
  { destruct (Z.lt_ge_cases us 0); [left | right]; split; try lia; [apply Z.rem_nonpos | apply Z.rem_nonneg]; lia. }
  destruct (Z.ltb_spec (Z.abs (Z.rem us 1000)) 500); [lia | ]. destruct (Z.ltb_spec us 0); lia.
Qed.

(** * ISO 8601 durations (components of ToIso8601, read back by FromIso8601) *)

(** With a base from the epoch on that is not a 29th of February, and a duration below 32768 days,
    the components are normalised and FromIso8601 with the same base gives the duration back, cut to
    whole seconds. *)
Theorem C48_iso_duration_round_trip_partial base us b :
  0 <= base <= 900000000000000 -> 0 <= us < 32768 * 86400 * 1000000 ->
  break_down 0 base = Ret b -> ~ (b_month b = 2 /\ b_mday b = 29) ->
  exists c, to_iso us (Some base) = Ret c /\
    0 <= i_years c /\ 0 <= i_months c /\ 0 <= i_days c < 31 /\ 0 <= i_hours c < 24 /\ 0 <= i_minutes c < 60 /\ 0 <= i_seconds c < 60 /\
    to_time_duration base (i_years c) (i_months c) 0 (i_days c) (i_hours c) (i_minutes c) (i_seconds c)
    = Ret (us / 1000000 * 1000000).
Proof.
  intros H. apply iso_roundtrip; [unfold ms_range; lia | lia].
Qed.

(** Without a base, for less than 32768 hours. *)
Theorem C48_iso_duration_without_base_partial base us :
  0 <= us < 32768 * 3600 * 1000000 ->
  exists c, to_iso us None = Ret c /\ i_years c = 0 /\ i_months c = 0 /\
    to_time_duration base 0 0 0 (i_days c) (i_hours c) (i_minutes c) (i_seconds c) = Ret (us / 1000000 * 1000000).
Proof.
  intros H. unfold to_iso. destruct (Z.ltb_spec us 0); [lia | ].
  pose proof (secs_parts us ltac:(lia)) as (S1 & S2 & S3 & _). cbv zeta in S1, S2, S3. rewrite S1, S2, S3.
  set (s := us / 1000000) in *. assert (Hs : 0 <= s) by (apply Z.div_pos; lia).
  assert (P60 : 0 <= s / 60) by (apply Z.div_pos; lia).
  assert (Hh : 0 <= s / 3600 < 32768).
  { split; [apply Z.div_pos; lia | ]. apply Z.div_lt_upper_bound; [lia | ]. apply Z.div_lt_upper_bound; lia. }
  rewrite !Z.rem_mod_nonneg by lia.
  pose proof (Z.mod_pos_bound s 60 ltac:(lia)). pose proof (Z.mod_pos_bound (s / 60) 60 ltac:(lia)).
  pose proof (Z.div_mod s 60 ltac:(lia)). pose proof (Z.div_mod (s / 60) 60 ltac:(lia)) as D.
  replace (s / 60 / 60) with (s / 3600) in D by (rewrite Z.div_div by lia; reflexivity).
  rewrite !s16_id by lia.
  eexists. split; [reflexivity | ]. cbn [i_years i_months i_days i_hours i_minutes i_seconds].
  split; [reflexivity | ]. split; [reflexivity | ]. unfold to_time_duration. cbn [Z.eqb andb]. f_equal. lia.
Qed.

(** From a 29th of February 365 days are printed as a year, which reads back as 366 days. *)
Theorem C48_iso_duration_feb29_refuted :
  exists base us c, 0 <= base <= 900000000000000 /\ us = 365 * 86400 * 1000000 /\
    to_iso us (Some base) = Ret c /\ i_years c = 1 /\
    to_time_duration base (i_years c) (i_months c) 0 (i_days c) (i_hours c) (i_minutes c) (i_seconds c)
    = Ret (366 * 86400 * 1000000).
Proof.
  exists 1582934400000. do 2 eexists. split; [lia | ]. split; [reflexivity | ].
  split; [vm_compute; reflexivity | ]. split; vm_compute; reflexivity.
Qed.

(** Long durations wrap: 32768 days have a negative number of days, 32768 hours of hours. *)
Theorem C48_iso_duration_long_refuted :
  (exists us c, 0 <= us /\ to_iso us (Some 0) = Ret c /\ i_days c < 0) /\
  (exists us c, 0 <= us /\ to_iso us None = Ret c /\ i_hours c < 0).
Proof.
  split.
  - exists (32768 * 86400 * 1000000). eexists. split; [lia | ]. split; [vm_compute; reflexivity | reflexivity].
  - exists (32768 * 3600 * 1000000). eexists. split; [lia | ]. split; [vm_compute; reflexivity | reflexivity].
Qed.

(** * TimeCmp *)

(** With no jitter it is the order of times. *)
Theorem C48_time_cmp_exact a b : time_cmp 0 a b = Z.compare a b.
Proof.
  unfold time_cmp. destruct (Z.ltb_spec b a).
  - destruct (Z.leb_spec (1000 * (a - b)) 0); [lia | reflexivity].
  - destruct (Z.leb_spec (1000 * (b - a)) 0); [ | reflexivity].
    assert (a = b) by lia. subst. symmetry. apply Z.compare_refl.
Qed.

(** It is antisymmetric and reflexive for every non-negative jitter ... *)
Theorem C48_time_cmp_antisymmetric j a b : time_cmp j b a = CompOpp (time_cmp j a b).
Proof.
  unfold time_cmp. destruct (Z.ltb_spec b a), (Z.ltb_spec a b); try lia.
  - destruct (1000 * (a - b) <=? j); [reflexivity | ]. rewrite Z.compare_antisym. reflexivity.
  - destruct (1000 * (b - a) <=? j); [reflexivity | ]. rewrite Z.compare_antisym. reflexivity.
  - assert (a = b) by lia. subst. destruct (1000 * (b - b) <=? j); [reflexivity | ]. rewrite Z.compare_refl. reflexivity.
Qed.

(** ... but "equal" is not transitive. *)
Theorem C48_time_cmp_equal_transitive_refuted :
  exists j a b c, time_cmp j a b = Eq /\ time_cmp j b c = Eq /\ time_cmp j a c = Lt.
Proof. exists 1000, 0, 1, 2. vm_compute. repeat split. Qed.

(** * Concrete cases *)
Example C48_ex_mjd : get_mjd 1582934400000 = 58908 /\ get_bcd_time 0 (1582934400000 + 45296000) = Ret 1193046.
Proof. split; vm_compute; reflexivity. Qed.
(** 0x123456 = 1193046 *)
Example C48_ex_bcd : get_bcd_time 0 45296000 = Ret 1193046 /\ mjd_to_epoch 40587 1193046 = 45296000.
Proof. split; vm_compute; reflexivity. Qed.
(** 2020-01-31 + 1 year, 1 month, 1 day, ...: base and duration meet the hypotheses. *)
Example C48_ex_iso : exists c, to_iso (400 * 86400000000 + 3661000000) (Some 1580428800000) = Ret c /\
  i_years c = 1 /\ i_months c = 1 /\ i_days c = 3 /\ i_hours c = 1 /\ i_minutes c = 1 /\ i_seconds c = 1.
Proof. eexists. split; [vm_compute; reflexivity | ]. vm_compute. repeat split. Qed.
Example C48_ex_iso_hyp : exists b, break_down 0 1580428800000 = Ret b /\ ~ (b_month b = 2 /\ b_mday b = 29).
Proof. eexists. split; [vm_compute; reflexivity | ]. cbn. lia. Qed.
Example C48_ex_days : days_to_time 180 (86400000 - 1) 86400000 = Ret 0 /\ days_to_time 0 (86400000 - 1) 86400000 = Ret 1.
Proof. split; vm_compute; reflexivity. Qed.

Print Assumptions C48_mjd_partial.
Print Assumptions C48_mjd_bcd_round_trip_partial.
Print Assumptions C48_mjd_before_epoch_refuted.
Print Assumptions C48_mjd_with_local_bcd_refuted.
Print Assumptions C48_bcd.
Print Assumptions C48_ntp_of_time.
Print Assumptions C48_time_of_ntp.
Print Assumptions C48_ntp_epoch.
Print Assumptions C48_ntp64_round_trip_partial.
Print Assumptions C48_ntp64_fraction.
Print Assumptions C48_ntp64_fraction_refuted.
Print Assumptions C48_windows_file_time.
Print Assumptions C48_windows_file_time_refuted.
Print Assumptions C48_days_to_partial.
Print Assumptions C48_days_to_before_epoch_refuted.
Print Assumptions C48_round_to_milliseconds.
Print Assumptions C48_iso_duration_round_trip_partial.
Print Assumptions C48_iso_duration_without_base_partial.
Print Assumptions C48_iso_duration_feb29_refuted.
Print Assumptions C48_iso_duration_long_refuted.
Print Assumptions C48_time_cmp_exact.
Print Assumptions C48_time_cmp_antisymmetric.
Print Assumptions C48_time_cmp_equal_transitive_refuted.
