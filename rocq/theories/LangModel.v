(** Model of language codes, of the checkpoint profiler and of the bandwidth
    reporter.
    Source: stingraykit/locale/LangCode.{h,cpp},
    stingraykit/diagnostics/CheckpointProfiler.cpp, stingraykit/BandwidthReporter.h. *)
From Coq Require Import ZArith List Bool.
Import ListNotations.
Open Scope Z_scope.

(** Strings are lists of bytes (0 to 255); char is signed, as on x86. *)
Notation str := (list Z) (only parsing).

(** DoToUpper, DoToLower, LangCode.cpp 18-23 (a negative char is in neither
    range, so the byte decides). *)
Definition upper (c : Z) : Z := if (97 <=? c) && (c <=? 122) then c - 97 + 65 else c.
Definition lower (c : Z) : Z := if (65 <=? c) && (c <=? 90) then c - 65 + 97 else c.

(** The value of a char with this byte. *)
Definition schar (b : Z) : Z := if b <? 128 then b else b - 256.

(** Bytes of a code: (code >> 16) & 0xff and so on. *)
Definition byte2 (code : Z) := code / 65536 mod 256.
Definition byte1 (code : Z) := code / 256 mod 256.
Definition byte0 (code : Z) := code mod 256.

(** ToUpper(u32), LangCode.cpp 26-40: the chars are promoted to int, so their
    signs are extended before they are added. *)
Definition upper_code (code : Z) : Z :=
  if code =? 0 then code
  else (schar (upper (byte2 code)) * 65536 + schar (upper (byte1 code)) * 256 + schar (upper (byte0 code))) mod 2 ^ 32.

(** LangCode(u32), LangCode.cpp 51-55; None: the check throws. *)
Definition of_u32 (code : Z) : option Z :=
  if negb (code / 2 ^ 24 =? 0) then None else Some (upper_code code).

(** LangCode(const std::string&), LangCode.cpp 58-69 (the three shifted bytes
    do not overlap, so | is written as a sum). *)
Definition of_string (s : str) : option Z :=
  match s with
  | [a; b; c] => Some (upper a * 65536 + upper b * 256 + upper c)
  | _ => None
  end.

(** A char array as a C string. *)
Fixpoint until_nul (s : str) : str :=
  match s with [] => [] | c :: r => if c =? 0 then [] else c :: until_nul r end.

(** ToString, LangCode.cpp 72-79. *)
Definition to_string (code : Z) : str :=
  if code =? 0 then [] else until_nul [byte2 code; byte1 code; byte0 code].
(** To2LetterString, 82-86. *)
Definition to_2letter (code : Z) : str := until_nul [lower (byte2 code); lower (byte1 code)].

Definition str_eqb (a b : str) : bool := if list_eq_dec Z.eq_dec a b then true else false.

(** From2Letter, 89-103. *)
Definition from_2letter (s : str) : option Z :=
  if (length s <? 2)%nat then None
  else let sub := map upper (firstn 2 s) in
       if str_eqb sub [82; 85] then of_string [114; 117; 115]
       else if str_eqb sub [69; 78] then of_string [101; 110; 103]
       else Some 0.

(** FromString, LangCode.h 46-47; From3Letter, LangCode.cpp 106-107. *)
Definition from_string (s : str) : option Z :=
  if (length s =? 2)%nat then from_2letter s else of_string s.

(** operator <, LangCode.h 39-40. *)
Definition code_lt (a b : Z) : bool := a <? b.

(** * Checkpoint profiler *)

(** A checkpoint without a name is called #n, n the number of those before. *)
Inductive cname := Named (s : str) | Numbered (n : nat).

(** The time at which an operation reads the clock is a parameter. *)
Inductive pop := PStart (t : Z) | PCheckpoint (name : str) (t : Z) | PStop.
Record prof := Prof { p_start : option Z; p_times : list (cname * Z) }.
Definition prof0 : prof := Prof None [].

(** The loop of Stop, CheckpointProfiler.cpp 74-79. *)
Fixpoint differences (prev : Z) (ts : list (cname * Z)) : list (cname * Z) :=
  match ts with
  | [] => []
  | (n, d) :: r => (n, d - prev) :: differences d r
  end.

(** Checkpoint, 47-56; Start, 59-65; Stop, 68-83 (the result is emitted). *)
Definition pstep (s : prof) (o : pop) : prof * option (list (cname * Z)) :=
  match o with
  | PStart t => (Prof (Some t) [], None)
  | PCheckpoint name t =>
      match p_start s with
      | None => (s, None)
      | Some t0 =>
          let n := match name with [] => Numbered (length (p_times s)) | _ => Named name end in
          (Prof (p_start s) (p_times s ++ [(n, t - t0)]), None)
      end
  | PStop => (Prof None [], Some (differences 0 (p_times s)))
  end.
Fixpoint prun (s : prof) (os : list pop) : prof :=
  match os with [] => s | o :: r => prun (fst (pstep s o)) r end.
(** The result of stopping after a history. *)
Definition stopped (os : list pop) : option (list (cname * Z)) := snd (pstep (prun prof0 os) PStop).

(** * Bandwidth reporter *)

(** BPush n: the consumer takes n bytes; BReport ms: the timer fires ms
    milliseconds after the last report or the construction. *)
Inductive bop := BPush (n : Z) | BReport (ms : Z).
Record bstate := BState { b_total : Z; b_since : Z }.
Definition bstate0 := BState 0 0.
Record breport := BR { r_data : Z; r_total : Z; r_speed : Z }.
Definition u64 (z : Z) := z mod 2 ^ 64.

(** BytesProcessed, BandwidthReporter.h 61-66; Report, 44-52 (ms is positive:
    a division by zero ends the process, None). *)
Definition bstep (s : bstate) (o : bop) : option (bstate * option breport) :=
  match o with
  | BPush n => Some (BState (u64 (b_total s + n)) (u64 (b_since s + n)), None)
  | BReport ms =>
      if ms =? 0 then None
      else Some (BState (b_total s) 0, Some (BR (b_since s) (b_total s) (u64 (b_since s * 1000) / ms / 1024)))
  end.
Fixpoint brun (s : bstate) (os : list bop) : option bstate :=
  match os with
  | [] => Some s
  | o :: r => match bstep s o with Some (s', _) => brun s' r | None => None end
  end.
(** The report made after a history. *)
Definition reported (os : list bop) (ms : Z) : option breport :=
  match brun bstate0 os with
  | Some s => match bstep s (BReport ms) with Some (_, r) => r | None => None end
  | None => None
  end.
