(** Model of the integer part of stingraykit/string/ToString.h (FromString), stingraykit/string/string_stream.cpp
    (what ToString writes for an integer) and stingraykit/string/HumanReadableSize.cpp.

    A string is a list of character codes.  An integer type is its two limits; the limits are those of bool, of an
    unsigned or of a two's complement type. *)
From Verif Require Import Base.
Local Open Scope Z_scope.

Inductive ires (A : Type) : Type := IOk (a : A) | IArgument | IFormat | IRange.
Arguments IOk {A}. Arguments IArgument {A}. Arguments IFormat {A}. Arguments IRange {A}.

(** std::numeric_limits<T>::min() and max() *)
Record ity := mkT { t_min : Z; t_max : Z }.
Definition unsigned_t (w : Z) : ity := mkT 0 (2 ^ w - 1).
Definition signed_t (w : Z) : ity := mkT (- 2 ^ (w - 1)) (2 ^ (w - 1) - 1).
Definition bool_t : ity := mkT 0 1.
Definition is_signed (t : ity) : bool := t_min t <? 0.

(** A conversion to a type of 2^w values that starts at lo. *)
Definition conv (t : ity) (v : Z) : Z := t_min t + (v - t_min t) mod (t_max t - t_min t + 1).
(** ToString.h:35 and 63: ValueType is T unless T is narrower than a byte, as bool is *)
Definition value_t (t : ity) : ity :=
  if is_signed t then if t_max t <? 127 then signed_t 8 else t
  else if t_max t <? 255 then unsigned_t 8 else t.

(** ToString.h:38-41 and 66-67; / and % truncate *)
Definition min_mul (t : ity) : Z := Z.quot (t_min t) 10.
Definition min_rem (t : ity) : Z := Z.rem (t_min t) 10 * -1.
Definition max_mul (t : ity) : Z := Z.quot (t_max t) 10.
Definition max_rem (t : ity) : Z := Z.rem (t_max t) 10.

(** ToString.h:47-56 *)
Definition eval_signed (t : ity) (value inc : Z) (negative : bool) : ires Z :=
  if negative
  then if (min_mul t <? value) || ((value =? min_mul t) && (inc <=? min_rem t))
       then IOk (conv (value_t t) (value * 10 + - inc)) else IRange
  else if (value <? max_mul t) || ((value =? max_mul t) && (inc <=? max_rem t))
       then IOk (conv (value_t t) (value * 10 + inc)) else IRange.
(** ToString.h:71-78 *)
Definition eval_unsigned (t : ity) (value inc : Z) (negative : bool) : ires Z :=
  if negative then IRange
  else if (value <? max_mul t) || ((value =? max_mul t) && (inc <=? max_rem t))
       then IOk (conv (value_t t) (value * 10 + inc)) else IRange.
Definition eval (t : ity) := if is_signed t then eval_signed t else eval_unsigned t.

(** ToString.h:107-108 *)
Fixpoint parse_loop (t : ity) (negative : bool) (value : Z) (s : list Z) : ires Z :=
  match s with
  | [] => IOk value
  | ch :: s' => match eval t value (ch - 48) negative with
                | IOk v => parse_loop t negative v s'
                | e => e
                end
  end.
(** ToString.h:104 *)
Definition is_digit (ch : Z) : bool := (48 <=? ch) && (ch <=? 57).
(** ToString.h:86-111; '-' is 45, '+' is 43.  The final static_cast<ObjectType> is a conversion. *)
Definition from_string (t : ity) (s : list Z) : ires Z :=
  match s with
  | [] => IArgument
  | c :: s' =>
      let negative := c =? 45 in
      let body := if negative || (c =? 43) then s' else s in
      if forallb is_digit body
      then match parse_loop t negative 0 body with IOk v => IOk (conv t v) | e => e end
      else IFormat
  end.

(** string_stream.cpp:26-34: [pos] bytes of the buffer are still free; None is a write in front of the buffer *)
Fixpoint insert_loop (pos : nat) (value : Z) (buf : list Z) : option (list Z) :=
  match pos with
  | O => None
  | S pos' => if 10 <=? value then insert_loop pos' (value / 10) (value mod 10 + 48 :: buf)
              else Some (value + 48 :: buf)
  end.
(** string_stream.cpp:24-36; the buffer has 32 bytes *)
Definition insert_integral (value : Z) : option (list Z) := insert_loop 32 value [].
(** string_stream.cpp:41-42 and 48-57: [u] is the unsigned type of the same width, the negated value is converted to it *)
Definition to_string (w : Z) (value : Z) : option (list Z) :=
  let u := unsigned_t w in
  if value <? 0 then match insert_integral (conv u (- conv u value)) with Some l => Some (45 :: l) | None => None end
  else insert_integral (conv u value).
(** string_stream.cpp:18-19: "true" and "false" *)
Definition bool_to_string (b : bool) : list Z :=
  if b then [116; 114; 117; 101] else [102; 97; 108; 115; 101].
(** string_stream.h:50-51 and 112-113: a char is written as it is *)
Definition char_to_string (c : Z) : list Z := [c].

(** HumanReadableSize.cpp:20: "kMGTPE" *)
Definition suffixes : list Z := [107; 77; 71; 84; 80; 69].
Definition u64 (v : Z) : Z := v mod 2 ^ 64.
(** HumanReadableSize.cpp:35-47 for one i; [delta] is size * allowedErrorFactor (computed in float by the code, here
    any number) *)
Definition rounded_in_units (size : Z) (i : nat) : Z :=
  let meas := 2 ^ (10 * Z.of_nat i) in
  size / meas + (if (1 <? meas) && (meas / 2 <=? size mod meas) then 1 else 0).
Definition human_fits (size delta : Z) (i : nat) : bool :=
  let rounded := u64 (rounded_in_units size i * 2 ^ (10 * Z.of_nat i)) in
  (u64 (size - delta) <=? rounded) && (rounded <=? u64 (size + delta)).
(** HumanReadableSize.cpp:35-49: i, i - 1, ..., 0; None is LogicException("Conversion failed") *)
Fixpoint human_loop (size delta : Z) (ws : list Z) (i : nat) : option (list Z) :=
  if human_fits size delta i
  then match to_string 64 (u64 (rounded_in_units size i)) with
       | Some l => Some (l ++ ws ++ match i with O => [] | S k => [nth k suffixes 0] end)
       | None => None
       end
  else match i with O => None | S i' => human_loop size delta ws i' end.
(** HumanReadableSize.cpp:26-50; a blank is 32 *)
Definition to_human (size delta : Z) (whitespace : bool) : option (list Z) :=
  let ws := if whitespace then [32] else [] in
  if size =? 0 then Some (48 :: ws) else human_loop size delta ws (length suffixes).

(** HumanReadableSize.cpp:66-68 *)
Fixpoint find_suffix (c : Z) (l : list Z) (i : nat) : option nat :=
  match l with
  | [] => None
  | x :: l' => if c =? x then Some i else find_suffix c l' (S i)
  end.
(** HumanReadableSize.cpp:53-72: the regular expression is digits, at least one, then one of the suffixes *)
Definition from_human (s : list Z) : ires Z :=
  match from_string (unsigned_t 64) s with
  | IOk v => IOk v
  | _ =>
      match rev s with
      | c :: x :: r =>
          let num := rev (x :: r) in
          match find_suffix c suffixes 0 with
          | Some i => if forallb is_digit num
                      then match from_string (unsigned_t 64) num with
                           | IOk v => IOk (u64 (v * 2 ^ (10 * Z.of_nat (i + 1))))
                           | e => e
                           end
                      else IFormat
          | None => IFormat
          end
      | _ => IFormat
      end
  end.
