(** C47: times and calendar dates convert to each other according to the Gregorian calendar. *)
From Verif Require Import Base CalendarModel CalendarSpec CalendarProofs CalendarProofs2.
Local Open Scope Z_scope.

(** The specification itself: every day has exactly one date, every valid date exactly one day. *)
Theorem C47_every_day_has_one_date n : exists d, day_is n d /\ forall d', day_is n d' -> d' = d.
Proof.
  destruct (day_is_total n) as [d D]. exists d. split; [exact D | ]. intros d' D'.
  destruct (day_is_dn _ _ D) as [V E]. destruct (day_is_dn _ _ D') as [V' E'].
  apply dn_inj; auto. lia.
Qed.

Theorem C47_every_date_has_one_day d : valid_date d -> exists n, day_is n d /\ forall n', day_is n' d -> n' = n.
Proof.
  intros V. exists (dn d). split; [apply dn_day_is; exact V | ]. intros n' D.
  destruct (day_is_dn _ _ D) as [_ E]. exact E.
Qed.

(** Seconds to calendar: the date is that of the day the second lies in; time of day, weekday
    (1970-01-01 was a Thursday) and day of the year are right; no loop runs away, no table is read
    outside its bounds. *)
Theorem C47_gmtime t : - 2 ^ 55 <= t <= 2 ^ 55 ->
  exists r, gmtime64 t = Some r /\
    day_is (t / 86400) (mkDate (tm_year r + 1900) (tm_mon r + 1) (tm_mday r)) /\
    0 <= tm_hour r < 24 /\ 0 <= tm_min r < 60 /\ 0 <= tm_sec r < 60 /\
    tm_hour r * 3600 + tm_min r * 60 + tm_sec r = t mod 86400 /\
    tm_wday r = (t / 86400 + 4) mod 7 /\
    day_is (t / 86400 - tm_yday r) (mkDate (tm_year r + 1900) 1 1).
Proof.
  intros H. destruct (gmtime64_ok t H) as (r & E & G). exists r. split; [exact E | ].
  split; [rewrite <- (gk_day G); apply dn_day_is; exact (gk_valid G) | ].
  split; [exact (gk_h G) | ]. split; [exact (gk_m G) | ]. split; [exact (gk_s G) | ].
  split; [exact (gk_sec G) | ]. split; [exact (gk_wd G) | ].
  apply day_of_dn.
  - split; cbn; lia.
  - rewrite (gk_yd G). unfold dn. cbn [dy dm dd]. rewrite dbm_1. lia.
Qed.

(** Calendar to seconds, for every valid date and any hours, minutes and seconds (also outside their
    usual range). *)
Theorem C47_timegm n d h mi s wd yd : day_is n d ->
  timegm64 (mkTm s mi h (dd d) (dm d - 1) (dy d - 1900) wd yd) = Some (n * 86400 + h * 3600 + mi * 60 + s).
Proof.
  intros D. destruct (day_is_dn _ _ D) as [[V _] ->]. rewrite timegm64_ok by (cbn [tm_mon]; lia).
  cbn [tm_sec tm_min tm_hour tm_mday tm_mon tm_year]. rewrite Z.div_small, Z.mod_small by lia.
  unfold dn. replace (dy d - 1900 + 0 + 1900) with (dy d) by lia. replace (dm d - 1 + 1) with (dm d) by lia.
  f_equal; lia.
Qed.

(** Months past December and days outside the month count on from the first of the month reached. *)
Theorem C47_timegm_normalises n y mon mday h mi s wd yd : 0 <= mon ->
  day_is n (mkDate (y + mon / 12) (mon mod 12 + 1) 1) ->
  timegm64 (mkTm s mi h mday mon (y - 1900) wd yd) = Some ((n + (mday - 1)) * 86400 + h * 3600 + mi * 60 + s).
Proof.
  intros H D. destruct (day_is_dn _ _ D) as [_ ->]. rewrite timegm64_ok by (cbn [tm_mon]; lia).
  cbn [tm_sec tm_min tm_hour tm_mday tm_mon tm_year]. unfold dn. cbn [dy dm dd].
  replace (y - 1900 + mon / 12 + 1900) with (y + mon / 12) by lia. f_equal; lia.
Qed.

(** A month before January is not normalised: the table is read before its start. *)
Theorem C47_timegm_negative_month_refuted : exists r, tm_mon r = -1 /\ timegm64 r = None.
Proof. exists (mkTm 0 0 0 1 (-1) 70 0 0). split; reflexivity. Qed.

(** The two are inverse to each other. *)
Theorem C47_timegm_of_gmtime t : - 2 ^ 55 <= t <= 2 ^ 55 ->
  exists r, gmtime64 t = Some r /\ timegm64 r = Some t.
Proof.
  intros H. destruct (gmtime64_ok t H) as (r & E & G). exists r. split; [exact E | ].
  pose proof (C47_timegm _ _ (tm_hour r) (tm_min r) (tm_sec r) (tm_wday r) (tm_yday r) (dn_day_is _ (gk_valid G))) as T.
  cbn [dy dm dd] in T.
  replace (tm_mon r + 1 - 1) with (tm_mon r) in T by lia. replace (tm_year r + 1900 - 1900) with (tm_year r) in T by lia.
  destruct r as [a b c d e f g i]. cbn [tm_sec tm_min tm_hour tm_mday tm_mon tm_year tm_wday tm_yday] in *. rewrite T.
  pose proof (gk_day G) as K. pose proof (gk_sec G) as S. cbn [tm_sec tm_min tm_hour tm_mday tm_mon tm_year] in K, S.
  rewrite K. pose proof (Z.div_mod t 86400 ltac:(lia)). f_equal; lia.
Qed.

Theorem C47_gmtime_of_timegm r t :
  valid_date (mkDate (tm_year r + 1900) (tm_mon r + 1) (tm_mday r)) ->
  0 <= tm_hour r < 24 -> 0 <= tm_min r < 60 -> 0 <= tm_sec r < 60 ->
  timegm64 r = Some t -> - 2 ^ 55 <= t <= 2 ^ 55 ->
  exists r', gmtime64 t = Some r' /\ tm_year r' = tm_year r /\ tm_mon r' = tm_mon r /\ tm_mday r' = tm_mday r /\
    tm_hour r' = tm_hour r /\ tm_min r' = tm_min r /\ tm_sec r' = tm_sec r.
Proof.
  intros V Hh Hm Hs T Hr.
  pose proof V as [V1 _]. cbn [dm] in V1.
  rewrite timegm64_ok in T by lia. rewrite Z.div_small, Z.mod_small in T by lia.
  replace (tm_year r + 0 + 1900) with (tm_year r + 1900) in T by lia.
  assert (T' : t = dn (mkDate (tm_year r + 1900) (tm_mon r + 1) (tm_mday r)) * 86400 + (tm_hour r * 3600 + tm_min r * 60 + tm_sec r)).
  { unfold dn. cbn [dy dm dd]. injection T as <-. lia. }
  destruct (gmtime64_ok t Hr) as (r' & E & G). exists r'. split; [exact E | ].
  assert (D : t / 86400 = dn (mkDate (tm_year r + 1900) (tm_mon r + 1) (tm_mday r))).
  { symmetry. apply Z.div_unique with (tm_hour r * 3600 + tm_min r * 60 + tm_sec r); lia. }
  assert (M : t mod 86400 = tm_hour r * 3600 + tm_min r * 60 + tm_sec r).
  { symmetry. apply Z.mod_unique with (dn (mkDate (tm_year r + 1900) (tm_mon r + 1) (tm_mday r))); lia. }
  pose proof (gk_day G) as K. rewrite D in K. apply dn_inj in K; [ | exact (gk_valid G) | exact V].
  injection K as Ky Km Kd. pose proof (gk_sec G) as S. rewrite M in S.
  apply hms_inj in S; try lia; try exact (gk_m G); try exact (gk_s G).
Qed.

(** * Broken-down time (year in 16 bits; [off]: minutes from UTC, 0 for TimeKind::Utc) *)

(** From the epoch on, BreakDown gives the calendar fields of the instant. *)
Theorem C47_break_down_partial off ms :
  0 <= ms + 60000 * off <= 900000000000000 ->
  let local := ms + 60000 * off in
  exists b, break_down off ms = Ret b /\
    day_is (local / 86400000) (mkDate (b_year b) (b_month b) (b_mday b)) /\
    0 <= b_hour b < 24 /\ 0 <= b_min b < 60 /\ 0 <= b_sec b < 60 /\ 0 <= b_ms b < 1000 /\
    ((b_hour b * 60 + b_min b) * 60 + b_sec b) * 1000 + b_ms b = local mod 86400000 /\
    b_wday b = (local / 86400000 + 4) mod 7 /\
    day_is (local / 86400000 - b_yday b) (mkDate (b_year b) 1 1).
Proof.
  intros H local. fold local in H.
  destruct (bdt_from_ms_ok local) as (b & E & G); [unfold ms_range; lia | ].
  exists b. split; [exact E | ].
  assert (Q : Z.quot local 1000 = local / 1000) by (apply Z.quot_div_nonneg; lia).
  assert (R : Z.rem local 1000 = local mod 1000) by (apply Z.rem_mod_nonneg; lia).
  assert (D : local / 1000 / 86400 = local / 86400000) by (rewrite Z.div_div by lia; reflexivity).
  pose proof (bk_day G) as K. rewrite Q, D in K.
  pose proof (bk_sec G) as S. rewrite Q in S. pose proof (bk_ms G) as M. rewrite R in M.
  pose proof (Z.mod_pos_bound local 1000 ltac:(lia)).
  pose proof (bk_h G). pose proof (bk_m G). pose proof (bk_s G).
  split; [apply day_of_dn; [exact (bk_valid G) | exact K] | ].
  split; [exact (bk_h G) | ]. split; [exact (bk_m G) | ]. split; [exact (bk_s G) | ].
  split; [lia | ].
  split.
  { apply Z.mod_unique with (local / 86400000); [lia | ].
    pose proof (Z.div_mod local 1000 ltac:(lia)). pose proof (Z.div_mod (local / 1000) 86400 ltac:(lia)). lia. }
  split; [rewrite (bk_wd G), Q, D; reflexivity | ].
  apply day_of_dn; [split; cbn; lia | ].
  rewrite (bk_yd G), Q, D. unfold dn. cbn [dy dm dd]. rewrite dbm_1. lia.
Qed.

(** Before the epoch it does not: the milliseconds are negative and the second is the next one. *)
Theorem C47_break_down_before_epoch_refuted :
  exists ms b, break_down 0 ms = Ret b /\ b_ms b < 0 /\
    ~ day_is (ms / 86400000) (mkDate (b_year b) (b_month b) (b_mday b)).
Proof.
  exists (-1). eexists. split; [vm_compute; reflexivity | ]. split; [reflexivity | ].
  intros D. apply day_is_dn in D. destruct D as [_ D]. vm_compute in D. discriminate.
Qed.

(** BreakDown followed by FromBrokenDownTime gives the instant back, for any time zone, also before
    the epoch - except for one second, for which FromBrokenDownTime always throws. *)
Theorem C47_from_broken_down_of_break_down_partial off ms :
  - 900000000000000 <= ms + 60000 * off <= 900000000000000 ->
  exists b, break_down off ms = Ret b /\
    from_bdt off b = if (-2000 <? ms + 60000 * off) && (ms + 60000 * off <=? -1000) then Throws else Ret ms.
Proof.
  intros H. destruct (bdt_from_ms_ok (ms + 60000 * off) H) as (b & E & G). exists b. split; [exact E | ].
  unfold from_bdt. pose proof (Z.quot_rem' (ms + 60000 * off) 1000) as Q.
  pose proof (Z.rem_bound_abs (ms + 60000 * off) 1000 ltac:(lia)) as B.
  destruct (Z.ltb_spec (-2000) (ms + 60000 * off)), (Z.leb_spec (ms + 60000 * off) (-1000)); cbn [andb].
  - assert (Z.quot (ms + 60000 * off) 1000 = -1).
    { assert (Z.rem (ms + 60000 * off) 1000 <= 0) by (apply Z.rem_nonpos; lia). lia. }
    rewrite (bdt_roundtrip_throws _ _ G) by assumption. reflexivity.
  - rewrite (bdt_roundtrip _ _ G).
    + cbn [rbind]. f_equal; lia.
    + intros N. rewrite N in Q. destruct (Z.le_gt_cases 0 (ms + 60000 * off)).
      * assert (0 <= Z.rem (ms + 60000 * off) 1000) by (apply Z.rem_nonneg; lia). lia.
      * assert (Z.rem (ms + 60000 * off) 1000 <= 0) by (apply Z.rem_nonpos; lia). lia.
  - rewrite (bdt_roundtrip _ _ G).
    + cbn [rbind]. f_equal; lia.
    + lia.
  - rewrite (bdt_roundtrip _ _ G).
    + cbn [rbind]. f_equal; lia.
    + lia.
Qed.

Theorem C47_second_before_epoch_refuted :
  exists b, valid_date (mkDate (b_year b) (b_month b) (b_mday b)) /\ b_hour b = 23 /\ b_min b = 59 /\ b_sec b = 59 /\
    day_is (-1) (mkDate (b_year b) (b_month b) (b_mday b)) /\ from_bdt 0 b = Throws.
Proof.
  exists (mkBdt 0 59 59 23 3 31 12 364 1969).
  assert (V : valid_date (mkDate 1969 12 31)) by (split; cbn; lia).
  repeat (split; [try reflexivity; try exact V | ]).
  - apply day_of_dn; [exact V | reflexivity].
  - reflexivity.
Qed.

(** From the epoch on, a normalised broken-down time survives the way to Time and back. *)
Theorem C47_break_down_of_from_broken_down_partial off b ms :
  valid_date (mkDate (b_year b) (b_month b) (b_mday b)) ->
  0 <= b_hour b < 24 -> 0 <= b_min b < 60 -> 0 <= b_sec b < 60 -> 0 <= b_ms b < 1000 ->
  1970 <= b_year b <= 30000 ->
  from_bdt off b = Ret ms ->
  exists b', break_down off ms = Ret b' /\ b_year b' = b_year b /\ b_month b' = b_month b /\ b_mday b' = b_mday b /\
    b_hour b' = b_hour b /\ b_min b' = b_min b /\ b_sec b' = b_sec b /\ b_ms b' = b_ms b.
Proof.
  intros V Hh Hm Hs Hms Hy F.
  pose proof V as [V1 _]. cbn [dm] in V1.
  set (D := dn (mkDate (b_year b) (b_month b) (b_mday b))) in *.
  set (S := b_hour b * 3600 + b_min b * 60 + b_sec b).
  assert (HD : 0 <= D <= 366 * 28032).
  { pose proof (dn_in_year _ V) as B. fold D in B. cbn [dy] in B.
    pose proof (dby_mono 1970 (b_year b) ltac:(lia)). change (dby 1970) with 0 in *.
    pose proof (dby_mono (b_year b + 1) 30001 ltac:(lia)). change (dby 30001) with 10238113 in *. lia. }
  assert (E : ms + 60000 * off = (D * 86400 + S) * 1000 + b_ms b).
  { unfold from_bdt in F. rewrite ms_from_bdt_valid in F by exact V1. cbv zeta in F. fold D in F.
    replace (D * 86400 + b_hour b * 3600 + b_min b * 60 + b_sec b) with (D * 86400 + S) in F by (unfold S; lia).
    clearbody D S. destruct (Z.eqb_spec (D * 86400 + S) (-1)); [discriminate | ].
    cbn [rbind] in F. assert (E : (D * 86400 + S) * 1000 + b_ms b - 60000 * off = ms) by congruence. lia. }
  assert (HS : 0 <= S < 86400) by (unfold S; lia).
  destruct (C47_break_down_partial off ms) as (b' & E' & Dd & Bh & Bm & Bs & Bms & T & _); [lia | ].
  exists b'. split; [exact E' | ].
  assert (Q : (ms + 60000 * off) / 86400000 = D).
  { symmetry. apply Z.div_unique with (S * 1000 + b_ms b); lia. }
  assert (M : (ms + 60000 * off) mod 86400000 = S * 1000 + b_ms b).
  { symmetry. apply Z.mod_unique with D; lia. }
  rewrite Q in Dd. rewrite M in T. apply day_is_dn in Dd. destruct Dd as [V' K]. symmetry in K.
  apply dn_inj in K; [ | exact V' | exact V]. injection K as Ky Km Kd.
  assert (b_ms b' = b_ms b /\ (b_hour b' * 60 + b_min b') * 60 + b_sec b' = S) by lia.
  unfold S in *. destruct (hms_inj (b_hour b') (b_min b') (b_sec b') (b_hour b) (b_min b) (b_sec b)); try lia.
Qed.

(** GetMaxDaysInMonth. *)
Theorem C47_max_days_in_month y m :
  max_days_in_month y m = if (1 <=? m) && (m <=? 12) then Ret (month_length y m) else Throws.
Proof.
  assert (R : forall k, 0 < k -> (Z.rem y k =? 0) = (y mod k =? 0)).
  { intros k Hk. apply Bool.eq_iff_eq_true. rewrite !Z.eqb_eq.
    rewrite Z.rem_divide by lia. rewrite Z.mod_divide by lia. reflexivity. }
  unfold max_days_in_month. rewrite !R by lia. fold (is_leap y).
  destruct ((1 <=? m) && (m <=? 12)) eqn:B.
  - apply andb_prop in B. destruct B as [B1 B2]. apply Z.leb_le in B1, B2.
    assert (H : 1 <= m <= 12) by lia. unfold month_length, at_. months H; subst m; destruct (is_leap y); reflexivity.
  - assert (m < 1 \/ 12 < m).
    { destruct (Z.leb_spec 1 m), (Z.leb_spec m 12); try discriminate; lia. }
    destruct (Z.eqb_spec m 2); [lia | ]. cbn [andb]. unfold at_.
    destruct (Z.leb_spec 0 (m - 1)); [ | reflexivity].
    rewrite (proj2 (nth_error_None _ _)); [reflexivity | cbn; lia].
Qed.

(** Compare distinguishes all values, but does not order them by time. *)
Theorem C47_compare_equal a b : bdt_compare a b = Eq <-> a = b.
Proof.
  split.
  - intros H. destruct a as [a1 a2 a3 a4 a5 a6 a7 a8 a9], b as [b1 b2 b3 b4 b5 b6 b7 b8 b9].
    unfold bdt_compare in H. cbn [b_ms b_sec b_min b_hour b_wday b_mday b_month b_yday b_year] in H.
    repeat match type of H with context [Z.compare ?x ?y] =>
      destruct (Z.compare_spec x y); [subst | discriminate | discriminate] end.
    reflexivity.
  - intros <-. unfold bdt_compare. rewrite !Z.compare_refl. reflexivity.
Qed.

Theorem C47_compare_chronological_refuted :
  exists ms ms' b b', 0 <= ms < ms' /\ break_down 0 ms = Ret b /\ break_down 0 ms' = Ret b' /\ bdt_compare b b' = Gt.
Proof. exists 1, 1000. do 2 eexists. split; [lia | ]. split; [vm_compute; reflexivity | ]. split; vm_compute; reflexivity. Qed.

(** * Concrete cases *)

(** 2000-02-29T12:34:56, a Tuesday, the 60th day of the year; and a date 4 centuries before the epoch. *)
Example C47_ex_leap : gmtime64 951827696 = Some (mkTm 56 34 12 29 1 100 2 59).
Proof. vm_compute. reflexivity. Qed.
Example C47_ex_old : gmtime64 (-12622780800) = Some (mkTm 0 0 0 1 0 (-330) 4 0).
Proof. vm_compute. reflexivity. Qed.
Example C47_ex_back : timegm64 (mkTm 56 34 12 29 1 100 0 0) = Some 951827696.
Proof. vm_compute. reflexivity. Qed.
(** The last second before the epoch, at the seconds level, is right. *)
Example C47_ex_minus_one : gmtime64 (-1) = Some (mkTm 59 59 23 31 11 69 3 364).
Proof. vm_compute. reflexivity. Qed.
Example C47_ex_day : day_is 3 (mkDate 1970 1 4).
Proof. change 3 with (0 + 1 + 1 + 1). change (mkDate 1970 1 4) with (next_day (next_day (next_day (mkDate 1970 1 1)))). repeat constructor. Qed.
(** The month 13 of 2023 is January 2024, and the 60th of it is the 29th of February. *)
Example C47_ex_norm : timegm64 (mkTm 0 0 0 60 12 123 0 0) = timegm64 (mkTm 0 0 0 29 1 124 0 0).
Proof. vm_compute. reflexivity. Qed.
Example C47_ex_local : exists b, break_down 180 951827696123 = Ret b /\ from_bdt 180 b = Ret 951827696123 /\ b_hour b = 15.
Proof. eexists. split; [vm_compute; reflexivity | ]. split; vm_compute; reflexivity. Qed.

Print Assumptions C47_every_day_has_one_date.
Print Assumptions C47_every_date_has_one_day.
Print Assumptions C47_gmtime.
Print Assumptions C47_timegm.
Print Assumptions C47_timegm_normalises.
Print Assumptions C47_timegm_negative_month_refuted.
Print Assumptions C47_timegm_of_gmtime.
Print Assumptions C47_gmtime_of_timegm.
Print Assumptions C47_break_down_partial.
Print Assumptions C47_break_down_before_epoch_refuted.
Print Assumptions C47_from_broken_down_of_break_down_partial.
Print Assumptions C47_second_before_epoch_refuted.
Print Assumptions C47_break_down_of_from_broken_down_partial.
Print Assumptions C47_max_days_in_month.
Print Assumptions C47_compare_equal.
Print Assumptions C47_compare_chronological_refuted.
