(** Model of the calendar conversions of stingraykit/time/posix/TimeEngine.cpp
    (gmtime64_r, timegm64 - the versions compiled under STINGRAYKIT_32_BIT_TIME_T; the other
    configuration calls the C library instead, which is not modelled),
    stingraykit/time/BrokenDownTime.{h,cpp} and the arithmetic of stingraykit/time/Time.{h,cpp}.

    C's [/] and [%] are [Z.quot] and [Z.rem].  Casts to [int], [s16], [u32], [s64] and [u64] are
    written out and wrap; signed arithmetic between the casts is unbounded (an overflow there is
    undefined behaviour in the code; the theorems' hypotheses keep the values in range).
    Loops run on fuel and return [None] when it is used up; reading outside a table is [None] too. *)
From Verif Require Import Base.
Local Open Scope Z_scope.

Definition wrapn (bits x : Z) : Z := (x + 2 ^ (bits - 1)) mod 2 ^ bits - 2 ^ (bits - 1).
Definition s16 : Z -> Z := wrapn 16.
Definition s32 : Z -> Z := wrapn 32.
Definition s64 : Z -> Z := wrapn 64.
Definition u8 (x : Z) : Z := x mod 2 ^ 8.
Definition u32 (x : Z) : Z := x mod 2 ^ 32.
Definition u64 (x : Z) : Z := x mod 2 ^ 64.

(** TimeEngine.cpp:26 LEAP_CHECK (n counts from 1900). *)
Definition leap_check (n : Z) : bool :=
  (Z.rem (n + 1900) 400 =? 0) || ((Z.rem (n + 1900) 4 =? 0) && negb (Z.rem (n + 1900) 100 =? 0)).

(** TimeEngine.cpp:27 WRAP (a, b, m): the new [a] and [b]. *)
Definition WRAP (a b m : Z) : Z * Z := if a <? 0 then (a + m, b - 1) else (a, b).

(** TimeEngine.cpp:32-38 days_in_months, rows 0 and 1 (13 entries each; the last one is 0) ... *)
Definition month_row (leap : bool) : list Z :=
  if leap then [31; 29; 31; 30; 31; 30; 31; 31; 30; 31; 30; 31; 0]
  else [31; 28; 31; 30; 31; 30; 31; 31; 30; 31; 30; 31; 0].
(** ... and rows 2 and 3. *)
Definition cum_row (leap : bool) : list Z :=
  if leap then [0; 31; 60; 91; 121; 152; 182; 213; 244; 274; 305; 335; 366]
  else [0; 31; 59; 90; 120; 151; 181; 212; 243; 273; 304; 334; 365].

(** Indexing a row; a negative or too large index is outside the row. *)
Definition at_ (l : list Z) (i : Z) : option Z :=
  if (0 <=? i) then nth_error l (Z.to_nat i) else None.

(** days_in_months[leap + 2][12] *)
Definition year_len (leap : bool) : Z := if leap then 366 else 365.

(** TimeEngine.cpp:40 *)
Definition days_in_gregorian_cycle : Z := 365 * 400 + 100 - 4 + 1.

(** struct tm, the fields used. *)
Record Tm := mkTm { tm_sec : Z; tm_min : Z; tm_hour : Z; tm_mday : Z; tm_mon : Z; tm_year : Z;
                    tm_wday : Z; tm_yday : Z }.

(** TimeEngine.cpp:77-82 *)
Fixpoint year_up (fuel : nat) (m year : Z) : option (Z * Z) :=
  match fuel with
  | O => None
  | S f =>
      let len := year_len (leap_check year) in
      if len <=? m then year_up f (m - len) (year + 1) else Some (m, year)
  end.

(** TimeEngine.cpp:85-89 *)
Fixpoint month_up (fuel : nat) (leap : bool) (m mon : Z) : option (Z * Z) :=
  match fuel with
  | O => None
  | S f =>
      match at_ (month_row leap) mon with
      | None => None
      | Some len => if len <=? m then month_up f leap (m - len) (mon + 1) else Some (m, mon)
      end
  end.

(** TimeEngine.cpp:100-105 *)
Fixpoint year_down (fuel : nat) (m year : Z) : option (Z * Z) :=
  match fuel with
  | O => None
  | S f =>
      let len := year_len (leap_check year) in
      if m <? - len then year_down f (m + len) (year - 1) else Some (m, year)
  end.

(** TimeEngine.cpp:108-113 (the loop and the addition after it). *)
Fixpoint month_down (fuel : nat) (leap : bool) (m mon : Z) : option (Z * Z) :=
  match fuel with
  | O => None
  | S f =>
      match at_ (month_row leap) mon with
      | None => None
      | Some len => if m <? - len then month_down f leap (m + len) (mon - 1) else Some (m + len, mon)
      end
  end.

(** The fuel given to the year loops: 800 years and one more test. *)
Definition year_fuel : nat := 801.
Definition month_fuel : nat := 13.

(** TimeEngine.cpp:43-125 gmtime64_r *)
Definition gmtime64 (t : Z) : option Tm :=
  let v_sec := s32 (Z.rem t 60) in
  let time := Z.quot t 60 in
  let v_min := s32 (Z.rem time 60) in
  let time := Z.quot time 60 in
  let v_hour := s32 (Z.rem time 24) in
  let tday := Z.quot time 24 in
  let '(v_sec, v_min) := WRAP v_sec v_min 60 in
  let '(v_min, v_hour) := WRAP v_min v_hour 60 in
  let '(v_hour, tday) := WRAP v_hour tday 24 in
  let v_wday := s32 (Z.rem (tday + 4) 7) in
  let v_wday := if v_wday <? 0 then v_wday + 7 else v_wday in
  let r :=
    if 0 <=? tday then
      let cycles := s32 (Z.quot tday days_in_gregorian_cycle) in
      match year_up year_fuel (tday - cycles * days_in_gregorian_cycle) (70 + cycles * 400) with
      | None => None
      | Some (m, year) =>
          match month_up month_fuel (leap_check year) m 0 with
          | None => None
          | Some (m, mon) => Some (m, mon, year)
          end
      end
    else
      let cycles := s32 (Z.quot tday days_in_gregorian_cycle + 1) in
      match year_down year_fuel (tday - cycles * days_in_gregorian_cycle) (70 - 1 + cycles * 400) with
      | None => None
      | Some (m, year) =>
          match month_down month_fuel (leap_check year) m 11 with
          | None => None
          | Some (m, mon) => Some (m, mon, year)
          end
      end in
  match r with
  | None => None
  | Some (m, mon, year) =>
      match at_ (cum_row (leap_check year)) mon with
      | None => None
      | Some c => Some (mkTm v_sec v_min v_hour (s32 m + 1) mon year v_wday (c + s32 m))
      end
  end.

(** TimeEngine.cpp:150-155 *)
Fixpoint days_up (fuel : nat) (days year orig : Z) : option Z :=
  match fuel with
  | O => None
  | S f => if year <? orig then days_up f (days + year_len (leap_check year)) (year + 1) orig
           else Some days
  end.

(** TimeEngine.cpp:159-164 (do .. while) *)
Fixpoint days_down (fuel : nat) (days year orig : Z) : option Z :=
  match fuel with
  | O => None
  | S f => let days := days - year_len (leap_check year) in
           let year := year - 1 in
           if orig <=? year then days_down f days year orig else Some days
  end.

(** TimeEngine.cpp:128-173 timegm64 *)
Definition timegm64 (d : Tm) : option Z :=
  let orig := tm_year d + Z.quot (tm_mon d) 12 in
  let '(orig, days) :=
    if 100 <? orig then
      let cycles := Z.quot (orig - 100) 400 in
      (orig - cycles * 400, cycles * days_in_gregorian_cycle)
    else if orig <? -300 then
      let cycles := Z.quot (orig - 100) 400 in
      (orig - cycles * 400, cycles * days_in_gregorian_cycle)
    else (orig, 0) in
  let odays :=
    if 70 <? orig then days_up year_fuel days 70 orig
    else if orig <? 70 then days_down year_fuel days 69 orig
    else Some days in
  match odays, at_ (cum_row (leap_check orig)) (Z.rem (tm_mon d) 12) with
  | Some days, Some c =>
      let days := days + c + (tm_mday d - 1) in
      Some (days * 60 * 60 * 24 + tm_hour d * 60 * 60 + tm_min d * 60 + tm_sec d)
  | _, _ => None
  end.

(** BrokenDownTime.h:29-46: nine s16 fields. *)
Record Bdt := mkBdt { b_ms : Z; b_sec : Z; b_min : Z; b_hour : Z; b_wday : Z; b_mday : Z;
                      b_month : Z; b_yday : Z; b_year : Z }.
(** BrokenDownTime.h:44-46, the conversions of the arguments to s16. *)
Definition mk_bdt (ms sec min hour wday mday month yday year : Z) : Bdt :=
  mkBdt (s16 ms) (s16 sec) (s16 min) (s16 hour) (s16 wday) (s16 mday) (s16 month) (s16 yday) (s16 year).

(** What a call can do: return, throw, or run into undefined behaviour. *)
Inductive R (A : Type) := Ret (a : A) | Throws | Undefined.
Arguments Ret {A} a.
Arguments Throws {A}.
Arguments Undefined {A}.

(** TimeEngine.cpp:237-254 *)
Definition ms_from_bdt (b : Bdt) : R Z :=
  match timegm64 (mkTm (b_sec b) (b_min b) (b_hour b) (b_mday b) (b_month b - 1) (b_year b - 1900) 0 0) with
  | None => Undefined
  | Some result => if result =? -1 then Throws else Ret (result * 1000 + b_ms b)
  end.

(** TimeEngine.cpp:257-268 *)
Definition bdt_from_ms (ms : Z) : R Bdt :=
  match gmtime64 (Z.quot ms 1000) with
  | None => Undefined
  | Some b => Ret (mk_bdt (Z.rem ms 1000) (tm_sec b) (tm_min b) (tm_hour b) (tm_wday b) (tm_mday b)
                     (tm_mon b + 1) (tm_yday b) (tm_year b + 1900))
  end.

(** BrokenDownTime.cpp:82-83 *)
Definition day_start (b : Bdt) : Bdt :=
  mk_bdt 0 0 0 0 (b_wday b) (b_mday b) (b_month b) (b_yday b) (b_year b).

(** BrokenDownTime.cpp:86-94; ArrayGet outside the table throws. *)
Definition max_days_in_month (year month : Z) : R Z :=
  if (month =? 2) && ((Z.rem year 4 =? 0) && (negb (Z.rem year 100 =? 0) || (Z.rem year 400 =? 0)))
  then Ret 29
  else match at_ [31; 28; 31; 30; 31; 30; 31; 31; 30; 31; 30; 31] (month - 1) with
       | Some d => Ret d
       | None => Throws
       end.

(** Time.cpp:48-49 *)
Definition max_days_in_year (year : Z) : Z :=
  if (Z.rem year 4 =? 0) && (negb (Z.rem year 100 =? 0) || (Z.rem year 400 =? 0)) then 366 else 365.

Definition rbind {A B} (r : R A) (f : A -> R B) : R B :=
  match r with Ret a => f a | Throws => Throws | Undefined => Undefined end.

(** TimeEngine.cpp:229-234, Time.cpp:306-317.  [off] is the offset of the time kind in minutes: 0 for
    Utc, GetMinutesFromUtc() for Local. *)
Definition break_down (off : Z) (ms : Z) : R Bdt := bdt_from_ms (ms + 60000 * off).
Definition from_bdt (off : Z) (b : Bdt) : R Z := rbind (ms_from_bdt b) (fun r => Ret (r - 60000 * off)).

(** Time.cpp:42-46 *)
Definition bcd_value (byte : Z) : Z := u8 (Z.land (Z.shiftr byte 4) 15 * 10 + Z.land byte 15).
Definition bcd_encode (v : Z) : Z := u8 (Z.shiftl (v / 10) 4 + v mod 10).

(** Time.cpp:243-249; the duration in milliseconds *)
Definition from_bcd_duration (b : Z) : Z :=
  1000 * (3600 * bcd_value (Z.land (Z.shiftr b 16) 255) + 60 * bcd_value (Z.land (Z.shiftr b 8) 255)
          + bcd_value (Z.land b 255)).

(** Time.cpp:459-460 *)
Definition mjd_to_epoch (mjd bcd : Z) : Z := (mjd - 40587) * 86400 * 1000 + from_bcd_duration bcd.
(** Time.cpp:463-464 *)
Definition get_mjd (ms : Z) : Z := s32 (40587 + Z.quot ms (1000 * 86400)).
(** Time.cpp:467-471 *)
Definition get_bcd_time (off ms : Z) : R Z :=
  rbind (break_down off ms) (fun b =>
    Ret (u32 (Z.shiftl (bcd_encode (u8 (b_hour b))) 16 + Z.shiftl (bcd_encode (u8 (b_min b))) 8
              + bcd_encode (u8 (b_sec b))))).

(** Time.cpp:478-479: the difference of two Times is 1000 * (ms difference) microseconds
    (Time.h:143-144), divided by TimeDuration::Day(). *)
Definition days_to (off ms : Z) (e : Bdt) : R Z :=
  rbind (from_bdt off (day_start e)) (fun a =>
  rbind (break_down off ms) (fun b =>
  rbind (from_bdt off (day_start b)) (fun c =>
    Ret (s32 (Z.quot (1000 * (a - c)) (1000 * 1000 * 60 * 60 * 24)))))).
(** Time.cpp:474-475 *)
Definition days_to_time (off ms ms' : Z) : R Z :=
  rbind (break_down off ms') (fun e => days_to off ms e).

(** Time.cpp:447-452 *)
Definition to_ntp (ms : Z) : Z := u64 (Z.quot ms 1000 + 2208988800).
Definition from_ntp (ts : Z) : Z := s64 (u64 (u64 (ts - 2208988800) * 1000)).
(** Time.cpp:455-456 *)
Definition from_windows (ticks : Z) : Z :=
  s64 (u64 (u64 (u64 (ticks / 10000000 - 11644473600) * 1000) + ticks mod 10000000)).

(** NtpTimestamp.cpp:13-33 *)
Definition ntp64_to_time (ts : Z) : Z :=
  let ip := u32 (Z.shiftr ts 32) in
  let seconds := u64 (ip - 2208988800) in
  let fp := u32 (u64 (ts - ip)) in
  let ms := fp / 2 ^ 32 in
  s64 (u64 (seconds * 1000 + ms)).
Definition ntp64_from_time (ms : Z) : Z :=
  let s := Z.quot ms 1000 in
  let ip := u32 (s + 2208988800) in
  let fp := u32 (u64 (s * 2 ^ 32)) in
  Z.lor (Z.shiftl ip 32) fp.

(** Time.cpp:650-668 ParseResult::ToTimeDuration (all components are s16); the result in
    microseconds.  [base] is in milliseconds. *)
Definition to_time_duration (base Years Months Weeks Days Hours Minutes Seconds : Z) : R Z :=
  if (Years =? 0) && (Months =? 0) then
    Ret (1000 * 1000 * 60 * 60 * 24 * (Weeks * 7 + Days) + 1000 * 1000 * 60 * 60 * Hours
         + 1000 * 1000 * 60 * Minutes + 1000 * 1000 * Seconds)
  else
    rbind (break_down 0 base) (fun b =>
    rbind (from_bdt 0 (mk_bdt (b_ms b) (b_sec b + Seconds) (b_min b + Minutes) (b_hour b + Hours) (b_wday b)
                        (b_mday b + Weeks * 7 + Days) (b_month b + Months) (b_yday b) (b_year b + Years)))
      (fun t => Ret (1000 * (t - base)))).

(** The components ToIso8601 prints. *)
Record Iso := mkIso { i_years : Z; i_months : Z; i_days : Z; i_hours : Z; i_minutes : Z; i_seconds : Z }.

(** Time.cpp:804-809 *)
Fixpoint iso_years (fuel : nat) (days year years : Z) : option (Z * Z * Z) :=
  match fuel with
  | O => None
  | S f =>
      let size := max_days_in_year year in
      if size <=? days then iso_years f (s16 (days - size)) (s16 (year + 1)) (s16 (years + 1))
      else Some (days, year, years)
  end.
(** Time.cpp:814-826 *)
Fixpoint iso_months (fuel : nat) (days year month months : Z) : option (Z * Z) :=
  match fuel with
  | O => None
  | S f =>
      match max_days_in_month year month with
      | Ret size =>
          if size <=? days then
            let '(month', year') := if 12 <? month + 1 then (1, s16 (year + 1)) else (month + 1, year) in
            iso_months f (s16 (days - size)) year' month' (s16 (months + 1))
          else Some (days, months)
      | _ => None
      end
  end.

(** Time.h:40-45 *)
Definition get_seconds (us : Z) : Z := Z.quot (Z.quot us 1000) 1000.
Definition get_minutes (us : Z) : Z := Z.quot (get_seconds us) 60.
Definition get_hours (us : Z) : Z := Z.quot (get_minutes us) 60.
Definition get_days (us : Z) : Z := Z.quot (get_hours us) 24.

(** Time.cpp:769-827 ToIso8601 up to the printing; [us] is the duration in microseconds, [base] in
    milliseconds. *)
Definition to_iso (us : Z) (base : option Z) : R Iso :=
  if us <? 0 then Throws
  else
    let hours := get_hours us in
    let minutes := s16 (Z.rem (get_minutes us) 60) in
    let seconds := s16 (Z.rem (get_seconds us) 60) in
    match base with
    | None => Ret (mkIso 0 0 0 (s16 hours) minutes seconds)
    | Some ms =>
        rbind (break_down 0 ms) (fun b =>
          let late := (2 <? b_month b) || ((b_month b =? 2) && (b_mday b =? 29)) in
          let y0 := if late then s16 (b_year b + 1) else b_year b in
          match iso_years (S (Z.to_nat (s16 (get_days us)))) (s16 (get_days us)) y0 0 with
          | None => Undefined
          | Some (days, y, years) =>
              let y := if late then s16 (y - 1) else y in
              match iso_months (S (Z.to_nat days)) days y (b_month b) 0 with
              | None => Undefined
              | Some (days, months) =>
                  Ret (mkIso years months days (s16 (Z.rem hours 24)) minutes seconds)
              end
          end)
    end.

(** Time.cpp:613-620 TimeCmp with jitter [j] (microseconds). *)
Definition time_cmp (j a b : Z) : comparison :=
  let distance := if b <? a then 1000 * (a - b) else 1000 * (b - a) in
  if distance <=? j then Eq else Z.compare a b.

(** BrokenDownTime.cpp:106-118 Compare: the first differing member, in this order. *)
Definition bdt_compare (a b : Bdt) : comparison :=
  let lex (c d : comparison) := match c with Eq => d | _ => c end in
  lex (Z.compare (b_ms a) (b_ms b)) (lex (Z.compare (b_sec a) (b_sec b))
  (lex (Z.compare (b_min a) (b_min b)) (lex (Z.compare (b_hour a) (b_hour b))
  (lex (Z.compare (b_wday a) (b_wday b)) (lex (Z.compare (b_mday a) (b_mday b))
  (lex (Z.compare (b_month a) (b_month b)) (lex (Z.compare (b_yday a) (b_yday b))
  (Z.compare (b_year a) (b_year b))))))))).

(** Time.cpp:61-62 RoundToMilliseconds, microseconds in, milliseconds out. *)
Definition round_to_ms (us : Z) : Z :=
  Z.quot us 1000 + (if Z.abs (Z.rem us 1000) <? 500 then 0 else if us <? 0 then -1 else 1).
