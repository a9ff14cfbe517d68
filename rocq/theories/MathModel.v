(** Model of stingraykit/math.h, math.cpp, NumericRange.h, BitwiseOperations.h and IntegerBuilder.h.

    Integers are Z with the wrapping of their type written out.  u64 wraps at 2^64. *)
From Verif Require Import Base ITextModel.
Local Open Scope Z_scope.

(** Arithmetic of an unsigned type of [w] bits: narrower types than int are computed in int (no wrap for the values used here). *)
Definition arith (w x : Z) : Z := if w <? 32 then x else x mod 2 ^ w.
(** math.h:22-26 for an unsigned type; None is the exception *)
Definition align_up (w value boundary : Z) : option Z :=
  if boundary =? 0 then None
  else Some (arith w (boundary * (arith w (arith w (value + boundary) - 1) / boundary)) mod 2 ^ w).
(** math.h:29-33 *)
Definition align_down (w value boundary : Z) : option Z :=
  if boundary =? 0 then None else Some (arith w (boundary * (value / boundary)) mod 2 ^ w).
(** math.h:22-33 for a signed type: / truncates; without overflow, which would be undefined *)
Definition align_up_signed (value boundary : Z) : option Z :=
  if boundary =? 0 then None else Some (boundary * Z.quot (value + boundary - 1) boundary).
Definition align_down_signed (value boundary : Z) : option Z :=
  if boundary =? 0 then None else Some (boundary * Z.quot value boundary).

(** math.h:36, at most [fuel] calls *)
Fixpoint gcd (fuel : nat) (a b : Z) : option Z :=
  match fuel with
  | O => None
  | S f => if b =? 0 then Some a else gcd f b (a mod b)
  end.
(** math.h:37; None is a division by zero *)
Definition lcm (fuel : nat) (a b : Z) : option Z :=
  match gcd fuel a b with
  | None => None
  | Some g => if g =? 0 then None else Some ((a / g * b) mod 2 ^ 64)
  end.

(** math.h:55-70: the sequence of powers from [cur] on, at most [fuel] of them *)
Fixpoint powers (fuel : nat) (number cur : Z) : option (list Z) :=
  match fuel with
  | O => None
  | S f => if cur <=? (2 ^ 64 - 1) / number
           then match powers f number (cur * number) with Some l => Some (cur :: l) | None => None end
           else Some [cur]
  end.
(** std::binary_search (math.h:80) on indices [lo, lo + n) of the array: lower_bound and a comparison *)
Fixpoint lower_bound (fuel : nat) (arr : list Z) (x : Z) (lo n : nat) : nat :=
  match fuel with
  | O => lo
  | S f => match n with
           | O => lo
           | _ => let half := Nat.div2 n in
                  let mid := (lo + half)%nat in
                  if nth mid arr 0 <? x then lower_bound f arr x (mid + 1) (n - half - 1) else lower_bound f arr x lo half
           end
  end.
Definition binary_search (arr : list Z) (x : Z) : bool :=
  let i := lower_bound (length arr + 1) arr x 0 (length arr) in
  (i <? length arr)%nat && negb (x <? nth i arr 0).
(** math.h:76-87 *)
Definition is_power_of (number testee : Z) : option bool :=
  match powers 65 number 1 with Some arr => Some (binary_search arr testee) | None => None end.

(** math.h:44-49 *)
Record fraction_info := mkF { f_fraction : Z; f_precision : nat; f_overflow : bool }.

(** math.cpp:22-29: [k] = precision - targetPrecision turns; the fraction and wasOverflow *)
Fixpoint round_loop (k : nat) (radix fraction : Z) (was : bool) : Z * bool :=
  match k with
  | O => (fraction, was)
  | S k' => let over := radix / 2 + radix mod 2 <=? fraction mod radix in
            round_loop k' radix (fraction / radix + (if over then 1 else 0)) (was || over)
  end.
(** math.cpp:34-36 *)
Fixpoint precision_base (n : nat) (radix base : Z) : Z :=
  match n with O => base | S n' => precision_base n' radix ((base * radix) mod 2 ^ 64) end.
(** math.cpp:18-43 *)
Definition round_fraction (fraction : Z) (precision target : nat) (radix : Z) : fraction_info :=
  let p := Nat.min precision target in
  let (fr, was) := round_loop (precision - target) radix fraction false in
  if negb was then mkF fr p false
  else let base := precision_base p radix 1 in
       let over := base <=? fr in
       let fr' := if over then fr - base else fr in
       mkF fr' (if fr' =? 0 then 0%nat else p) over.

(** math.cpp:58-62: [fuel] bounds the turns *)
Fixpoint scale_loop (fuel : nat) (radix remainder : Z) (precision : nat) : option (Z * nat) :=
  match fuel with
  | O => None
  | S f => if remainder <=? (2 ^ 64 - 1) / radix then scale_loop f radix ((remainder * radix) mod 2 ^ 64) (S precision)
           else Some (remainder, precision)
  end.
(** math.cpp:48-67 *)
Definition fraction_remainder (dividend divisor : Z) (target : nat) (radix : Z) : ires fraction_info :=
  if divisor =? 0 then IArgument
  else if negb (1 <? radix) then IArgument
  else let remainder := dividend mod divisor in
       if remainder =? 0 then IOk (mkF 0 0 false)
       else match scale_loop 65 radix remainder 0 with
            | Some (r, p) => IOk (round_fraction (r / divisor) p target radix)
            | None => IFormat      (* a loop that has not ended: shown not to happen *)
            end.

(** math.cpp:81-85: [n] = targetPrecision - precision turns *)
Fixpoint pad_loop (n : nat) (fraction : Z) : ires Z :=
  match n with
  | O => IOk fraction
  | S n' => if fraction <=? (2 ^ 64 - 1) / 10 then pad_loop n' ((fraction * 10) mod 2 ^ 64) else IRange
  end.
(** math.cpp:70-88 *)
Definition parse_fraction (s : list Z) (target : nat) : ires fraction_info :=
  match from_string (unsigned_t 64) s with
  | IOk fraction =>
      if fraction =? 0 then IOk (mkF 0 0 false)
      else match pad_loop (target - length s) fraction with
           | IOk fr => IOk (round_fraction fr (Nat.max (length s) target) target 10)
           | IArgument => IArgument | IFormat => IFormat | IRange => IRange
           end
  | IArgument => IArgument | IFormat => IFormat | IRange => IRange
  end.

(** NumericRange.h:16-75 over an ordered arithmetic type *)
Record nrange := mkN { n_start : Z; n_end : Z }.
(** NumericRange.h:29-30 *)
Definition make_range (s e : Z) : option nrange := if s <=? e then Some (mkN s e) else None.
(** NumericRange.h:41-46 *)
Definition n_is_empty (r : nrange) : bool := n_start r =? n_end r.
Definition n_empty : nrange := mkN 0 0.
(** NumericRange.h:38-39 *)
Definition n_contains (r : nrange) (t : Z) : bool := negb (n_is_empty r) && (n_start r <=? t) && (t <=? n_end r).
Definition n_contains_strict (r : nrange) (t : Z) : bool := (n_start r <? t) && (t <? n_end r).
(** NumericRange.h:48-53 *)
Definition n_intersecting (a b : nrange) : bool :=
  if n_is_empty a || n_is_empty b then false else (n_start a <? n_end b) && (n_start b <? n_end a).
(** NumericRange.h:55-64 *)
Definition n_intersect (a b : nrange) : option nrange :=
  if n_is_empty a || n_is_empty b then Some n_empty
  else let s := Z.max (n_start a) (n_start b) in
       let e := Z.min (n_end a) (n_end b) in
       if e <=? s then Some n_empty else make_range s e.
(** NumericRange.h:66-75 *)
Definition n_union (a b : nrange) : option nrange :=
  if n_is_empty a then Some b else if n_is_empty b then Some a
  else make_range (Z.min (n_start a) (n_start b)) (Z.max (n_end a) (n_end b)).
(** NumericRange.h:77 *)
Definition n_clamp (r : nrange) (t : Z) : Z := Z.max (n_start r) (Z.min t (n_end r)).

(** BitwiseOperations.h:28-57: (Integer)1 << Index as a value of the type t (two's complement) *)
Definition bit (t : ity) (i : Z) : Z := conv t (2 ^ i).
Definition test_bit (t : ity) (i number : Z) : bool := negb (Z.land number (bit t i) =? 0).
Definition set_bit (t : ity) (i number : Z) : Z := conv t (Z.lor number (bit t i)).
Definition reset_bit (t : ity) (i number : Z) : Z := conv t (Z.land number (Z.lnot (bit t i))).
Definition flip_bit (t : ity) (i number : Z) : Z := conv t (Z.lxor number (bit t i)).
(** BitwiseOperations.h:62-81 *)
Definition transform : list Z := [
  0x00; 0x80; 0x40; 0xc0; 0x20; 0xa0; 0x60; 0xe0; 0x10; 0x90; 0x50; 0xd0; 0x30; 0xb0; 0x70; 0xf0;
  0x08; 0x88; 0x48; 0xc8; 0x28; 0xa8; 0x68; 0xe8; 0x18; 0x98; 0x58; 0xd8; 0x38; 0xb8; 0x78; 0xf8;
  0x04; 0x84; 0x44; 0xc4; 0x24; 0xa4; 0x64; 0xe4; 0x14; 0x94; 0x54; 0xd4; 0x34; 0xb4; 0x74; 0xf4;
  0x0c; 0x8c; 0x4c; 0xcc; 0x2c; 0xac; 0x6c; 0xec; 0x1c; 0x9c; 0x5c; 0xdc; 0x3c; 0xbc; 0x7c; 0xfc;
  0x02; 0x82; 0x42; 0xc2; 0x22; 0xa2; 0x62; 0xe2; 0x12; 0x92; 0x52; 0xd2; 0x32; 0xb2; 0x72; 0xf2;
  0x0a; 0x8a; 0x4a; 0xca; 0x2a; 0xaa; 0x6a; 0xea; 0x1a; 0x9a; 0x5a; 0xda; 0x3a; 0xba; 0x7a; 0xfa;
  0x06; 0x86; 0x46; 0xc6; 0x26; 0xa6; 0x66; 0xe6; 0x16; 0x96; 0x56; 0xd6; 0x36; 0xb6; 0x76; 0xf6;
  0x0e; 0x8e; 0x4e; 0xce; 0x2e; 0xae; 0x6e; 0xee; 0x1e; 0x9e; 0x5e; 0xde; 0x3e; 0xbe; 0x7e; 0xfe;
  0x01; 0x81; 0x41; 0xc1; 0x21; 0xa1; 0x61; 0xe1; 0x11; 0x91; 0x51; 0xd1; 0x31; 0xb1; 0x71; 0xf1;
  0x09; 0x89; 0x49; 0xc9; 0x29; 0xa9; 0x69; 0xe9; 0x19; 0x99; 0x59; 0xd9; 0x39; 0xb9; 0x79; 0xf9;
  0x05; 0x85; 0x45; 0xc5; 0x25; 0xa5; 0x65; 0xe5; 0x15; 0x95; 0x55; 0xd5; 0x35; 0xb5; 0x75; 0xf5;
  0x0d; 0x8d; 0x4d; 0xcd; 0x2d; 0xad; 0x6d; 0xed; 0x1d; 0x9d; 0x5d; 0xdd; 0x3d; 0xbd; 0x7d; 0xfd;
  0x03; 0x83; 0x43; 0xc3; 0x23; 0xa3; 0x63; 0xe3; 0x13; 0x93; 0x53; 0xd3; 0x33; 0xb3; 0x73; 0xf3;
  0x0b; 0x8b; 0x4b; 0xcb; 0x2b; 0xab; 0x6b; 0xeb; 0x1b; 0x9b; 0x5b; 0xdb; 0x3b; 0xbb; 0x7b; 0xfb;
  0x07; 0x87; 0x47; 0xc7; 0x27; 0xa7; 0x67; 0xe7; 0x17; 0x97; 0x57; 0xd7; 0x37; 0xb7; 0x77; 0xf7;
  0x0f; 0x8f; 0x4f; 0xcf; 0x2f; 0xaf; 0x6f; 0xef; 0x1f; 0x9f; 0x5f; 0xdf; 0x3f; 0xbf; 0x7f; 0xff ].
Definition reverse_bits (b : Z) : Z := nth (Z.to_nat b) transform 0.

(** A shift count is only defined below the width of the promoted type (int has 32 bits); None is undefined behaviour. *)
Definition shift_ok (w n : Z) : bool := (0 <=? n) && (n <? Z.max w 32).
(** IntegerBuilder.h:51-54: static_cast<U>(~0) is all ones of an unsigned U and -1 of a signed one *)
Definition reset_msb (u : ity) (w field count : Z) : option Z :=
  if shift_ok w count then Some (conv u (Z.land field (Z.shiftr (if is_signed u then -1 else t_max u) count))) else None.
(** IntegerBuilder.h:34-43 into an unsigned result of [rw] bits; U = [u] has [w] bits; 8*sizeof(U) - fieldSize is a size_t *)
Definition append (rw : Z) (u : ity) (w result field size : Z) : option Z :=
  if shift_ok rw size
  then match reset_msb u w field ((w - size) mod 2 ^ 64) with
       | Some x => Some (Z.lor ((result * 2 ^ size) mod 2 ^ rw) x mod 2 ^ rw)
       | None => None
       end
  else None.
