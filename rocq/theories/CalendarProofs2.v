(** Broken-down times: conversions to and from milliseconds, in the range where the year fits an s16. *)
From Verif Require Import Base CalendarModel CalendarSpec CalendarProofs.
Local Open Scope Z_scope.

(** Milliseconds whose years fit an s16 (about 28500 years each way). *)
Definition ms_range (ms : Z) : Prop := - 900000000000000 <= ms <= 900000000000000.

Lemma year_bounds t r : - 900000000000 <= t <= 900000000000 -> gm_ok t r ->
  - 28545 <= tm_year r + 1900 - 1970 <= 28545.
Proof.
  intros H G. pose proof (dn_in_year _ (gk_valid G)) as B. rewrite (gk_day G) in B. cbn [dy] in B.
  pose proof (Z.div_mod t 86400 ltac:(lia)). pose proof (Z.mod_pos_bound t 86400 ltac:(lia)).
  split.
  - destruct (Z.le_gt_cases (tm_year r + 1900 + 1) 1970); [ | lia].
    pose proof (dby_mono (tm_year r + 1900 + 1) 1970 ltac:(lia)). change (dby 1970) with 0 in *. lia.
  - destruct (Z.le_gt_cases 1970 (tm_year r + 1900)); [ | lia].
    pose proof (dby_mono 1970 (tm_year r + 1900) ltac:(lia)). change (dby 1970) with 0 in *. lia.
Qed.

(** What bdt_from_ms returns, in terms of the truncated seconds. *)
Record bdt_ok (ms : Z) (b : Bdt) : Prop := {
  bk_ms : b_ms b = Z.rem ms 1000;
  bk_valid : valid_date (mkDate (b_year b) (b_month b) (b_mday b));
  bk_day : dn (mkDate (b_year b) (b_month b) (b_mday b)) = Z.quot ms 1000 / 86400;
  bk_sec : b_hour b * 3600 + b_min b * 60 + b_sec b = Z.quot ms 1000 mod 86400;
  bk_h : 0 <= b_hour b < 24;
  bk_m : 0 <= b_min b < 60;
  bk_s : 0 <= b_sec b < 60;
  bk_wd : b_wday b = (Z.quot ms 1000 / 86400 + 4) mod 7;
  bk_yd : b_yday b = Z.quot ms 1000 / 86400 - dby (b_year b);
  bk_year : - 26575 <= b_year b <= 30515
}.
Arguments bk_ms {ms b}. Arguments bk_valid {ms b}. Arguments bk_day {ms b}. Arguments bk_sec {ms b}.
Arguments bk_h {ms b}. Arguments bk_m {ms b}. Arguments bk_s {ms b}. Arguments bk_wd {ms b}.
Arguments bk_yd {ms b}. Arguments bk_year {ms b}.

Lemma quot_range ms : ms_range ms -> - 900000000000 <= Z.quot ms 1000 <= 900000000000.
Proof.
  intros H. unfold ms_range in H. pose proof (Z.quot_rem' ms 1000). pose proof (Z.rem_bound_abs ms 1000 ltac:(lia)).
  assert (Z.abs (Z.rem ms 1000) <= 999) by lia. lia.
Qed.

Lemma bdt_from_ms_ok ms : ms_range ms -> exists b, bdt_from_ms ms = Ret b /\ bdt_ok ms b.
Proof.
  intros H. pose proof (quot_range ms H) as Q.
  destruct (gmtime64_ok (Z.quot ms 1000)) as (r & E & G).
  { unfold time_range. change (2 ^ 55) with 36028797018963968. lia. }
  unfold bdt_from_ms. rewrite E.
  pose proof (year_bounds _ r Q G) as Y.
  pose proof (gk_h G). pose proof (gk_m G). pose proof (gk_s G).
  pose proof (gk_valid G) as [V1 V2]. cbn [dy dm dd] in V1, V2.
  pose proof (month_length_bounds (tm_year r + 1900) (tm_mon r + 1)).
  pose proof (Z.rem_bound_abs ms 1000 ltac:(lia)).
  pose proof (Z.mod_pos_bound (Z.quot ms 1000 / 86400 + 4) 7 ltac:(lia)). pose proof (gk_wd G).
  pose proof (dn_in_year _ (gk_valid G)) as B. rewrite (gk_day G) in B. cbn [dy] in B. rewrite dby_succ in B.
  pose proof (ylen_bounds (tm_year r + 1900)). pose proof (gk_yd G).
  unfold mk_bdt. rewrite !s16_id by lia.
  eexists. split; [reflexivity | ]. constructor; cbn [b_ms b_sec b_min b_hour b_wday b_mday b_month b_yday b_year]; try lia.
  - split; cbn [dy dm dd]; lia.
  - exact (gk_day G).
  - exact (gk_sec G).
Qed.

Lemma ms_from_bdt_gen b : 1 <= b_month b ->
  ms_from_bdt b =
  let t := (dby (b_year b + (b_month b - 1) / 12) + dbm (b_year b + (b_month b - 1) / 12) ((b_month b - 1) mod 12 + 1)
            + (b_mday b - 1)) * 86400 + b_hour b * 3600 + b_min b * 60 + b_sec b in
  if t =? -1 then Throws else Ret (t * 1000 + b_ms b).
Proof.
  intros H. unfold ms_from_bdt. rewrite timegm64_ok by (cbn [tm_mon]; lia).
  cbn [tm_sec tm_min tm_hour tm_mday tm_mon tm_year].
  replace (b_year b - 1900 + (b_month b - 1) / 12 + 1900) with (b_year b + (b_month b - 1) / 12) by lia. reflexivity.
Qed.

Lemma ms_from_bdt_valid b : 1 <= b_month b <= 12 ->
  ms_from_bdt b =
  let t := dn (mkDate (b_year b) (b_month b) (b_mday b)) * 86400 + b_hour b * 3600 + b_min b * 60 + b_sec b in
  if t =? -1 then Throws else Ret (t * 1000 + b_ms b).
Proof.
  intros H. rewrite ms_from_bdt_gen by lia. rewrite Z.div_small, Z.mod_small by lia.
  unfold dn. cbn [dy dm dd]. rewrite Z.add_0_r. replace (b_month b - 1 + 1) with (b_month b) by lia. reflexivity.
Qed.

Lemma bdt_roundtrip ms b : bdt_ok ms b -> Z.quot ms 1000 <> -1 -> ms_from_bdt b = Ret ms.
Proof.
  intros G N. destruct (bk_valid G) as [V _]. cbn [dm] in V. rewrite ms_from_bdt_valid by exact V.
  cbv zeta. rewrite (bk_day G). pose proof (bk_sec G). pose proof (Z.div_mod (Z.quot ms 1000) 86400 ltac:(lia)).
  replace (Z.quot ms 1000 / 86400 * 86400 + b_hour b * 3600 + b_min b * 60 + b_sec b) with (Z.quot ms 1000) by lia.
  destruct (Z.eqb_spec (Z.quot ms 1000) (-1)); [congruence | ].
  rewrite (bk_ms G). pose proof (Z.quot_rem' ms 1000). f_equal. lia.
Qed.

Lemma bdt_roundtrip_throws ms b : bdt_ok ms b -> Z.quot ms 1000 = -1 -> ms_from_bdt b = Throws.
Proof.
  intros G N. destruct (bk_valid G) as [V _]. cbn [dm] in V. rewrite ms_from_bdt_valid by exact V.
  cbv zeta. rewrite (bk_day G). pose proof (bk_sec G). pose proof (Z.div_mod (Z.quot ms 1000) 86400 ltac:(lia)).
  replace (Z.quot ms 1000 / 86400 * 86400 + b_hour b * 3600 + b_min b * 60 + b_sec b) with (Z.quot ms 1000) by lia.
  rewrite N. reflexivity.
Qed.

(** The other direction, from the epoch on. *)
Lemma day_of_dn n d : valid_date d -> dn d = n -> day_is n d.
Proof. intros V <-. apply dn_day_is. exact V. Qed.

Lemma hms_inj h m s h' m' s' : 0 <= m < 60 -> 0 <= s < 60 -> 0 <= m' < 60 -> 0 <= s' < 60 ->
  h * 3600 + m * 60 + s = h' * 3600 + m' * 60 + s' -> h = h' /\ m = m' /\ s = s'.
Proof. lia. Qed.
