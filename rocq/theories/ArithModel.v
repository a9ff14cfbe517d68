(** compression/ArithmeticCoder.h and compression/ArithmeticDecoder.h.

    u32 values are integers reduced modulo 2^32 by every operation that can leave the
    range ([w32]).  Simplifications: the consumer functor collects the bits in a list and
    the bit source is a list (false once it is exhausted); _underflowBits does not wrap
    (it would take 2^32 consecutive underflows); a failed check is [None]. *)
From Coq Require Import List ZArith Bool.
Import ListNotations.
Local Open Scope Z_scope.

Definition w32 (x : Z) : Z := x mod 2 ^ 32.

Definition bit (b : bool) : Z := if b then 1 else 0.

(** FirstBit, SecondBit: ArithmeticCoder.h:75-76, ArithmeticDecoder.h:70-71 *)
Definition first_bit (v : Z) : bool := negb (Z.land v 0x40000000 =? 0).
Definition second_bit (v : Z) : bool := negb (Z.land v 0x20000000 =? 0).

(** Shift: ArithmeticCoder.h:71-72, ArithmeticDecoder.h:65-66 *)
Definition shift_low (v : Z) : Z := Z.land (w32 (Z.shiftl v 1)) 0x7FFFFFFF.
Definition shift_high (v : Z) : Z := Z.lor (Z.land (w32 (Z.shiftl v 1)) 0x7FFFFFFF) 1.
(** ArithmeticDecoder.h:67 *)
Definition shift_code (v : Z) (b : bool) : Z := Z.lor (Z.land (w32 (Z.shiftl v 1)) 0x7FFFFFFF) (bit b).

(** a symbol as the coder sees it: (symbolLow, symbolHigh, scale) *)
Record sym := mk_sym { s_low : Z; s_high : Z; s_scale : Z }.

(** the check at ArithmeticCoder.h:30 / ArithmeticDecoder.h:41 *)
Definition sym_ok (y : sym) : bool := (s_low y <? s_high y) && (s_high y <=? s_scale y).

(** ArithmeticCoder.h:31 / ArithmeticDecoder.h:34, 42 *)
Definition range_of (low high scale : Z) : Z := w32 (w32 (high - low) + 1) / scale.
(** ArithmeticCoder.h:33-34 / ArithmeticDecoder.h:43-44 *)
Definition new_high (low range sh : Z) : Z := w32 (w32 (low + w32 (range * sh)) - 1).
Definition new_low (low range sl : Z) : Z := w32 (low + w32 (range * sl)).

(** ** Coder, lines 16-25 *)
Record coder := mk_coder { low : Z; high : Z; under : nat }.
Definition coder0 : coder := mk_coder 0 0x7FFFFFFF 0.

(** the loop of Encode, lines 35-54; None: [fuel] iterations were not enough *)
Fixpoint renorm (fuel : nat) (c : coder) : option (list bool * coder) :=
  match fuel with
  | O => None
  | S fuel =>
      if Bool.eqb (first_bit (low c)) (first_bit (high c)) then
        let out := first_bit (low c) :: repeat (negb (first_bit (low c))) (under c) in
        match renorm fuel (mk_coder (shift_low (low c)) (shift_high (high c)) 0) with
        | Some (o, c') => Some (out ++ o, c')
        | None => None
        end
      else if second_bit (low c) && negb (second_bit (high c)) then
        renorm fuel (mk_coder (shift_low (Z.land (low c) 0x1FFFFFFF)) (shift_high (Z.lor (high c) 0x20000000)) (S (under c)))
      else Some ([], c)
  end.

(** the loop runs at most 31 times (see enough_fuel) *)
Definition loop_fuel : nat := 32.

(** Encode, lines 28-55 *)
Definition encode (c : coder) (y : sym) : option (list bool * coder) :=
  if sym_ok y then
    let range := range_of (low c) (high c) (s_scale y) in
    if range =? 0 then None
    else renorm loop_fuel (mk_coder (new_low (low c) range (s_low y)) (new_high (low c) range (s_high y)) (under c))
  else None.

(** EndOfData, lines 58-66: the bits it emits *)
Fixpoint flush (fuel : nat) (l h : Z) : list bool :=
  match fuel with
  | O => []
  | S fuel => if l =? h then [] else first_bit l :: flush fuel (shift_low l) (shift_low h)
  end.
Definition end_of_data (c : coder) : list bool := flush 32 (low c) (high c).

(** a sequence of Encode calls *)
Fixpoint encode_all (c : coder) (ys : list sym) : option (list bool * coder) :=
  match ys with
  | [] => Some ([], c)
  | y :: ys =>
      match encode c y with
      | Some (o, c1) => match encode_all c1 ys with Some (o2, c2) => Some (o ++ o2, c2) | None => None end
      | None => None
      end
  end.

(** ** Decoder, lines 16-30 *)
Record decoder := mk_decoder { d_low : Z; d_high : Z; d_code : Z; d_src : list bool }.

(** the functor f() *)
Definition get_bit (src : list bool) : bool * list bool :=
  match src with [] => (false, []) | b :: t => (b, t) end.

Fixpoint read_code (n : nat) (code : Z) (src : list bool) : Z * list bool :=
  match n with
  | O => (code, src)
  | S n => let (b, src) := get_bit src in read_code n (Z.lor (w32 (Z.shiftl code 1)) (bit b)) src
  end.
Definition decoder_of (src : list bool) : decoder :=
  let (code, src) := read_code 31 0 src in mk_decoder 0 0x7FFFFFFF code src.

(** GetProbability, lines 32-36 *)
Definition get_probability (d : decoder) (scale : Z) : Z :=
  w32 (d_code d - d_low d) / range_of (d_low d) (d_high d) scale.

(** Shift, lines 63-68 *)
Definition d_shift (d : decoder) : decoder :=
  let (b, src) := get_bit (d_src d) in
  mk_decoder (shift_low (d_low d)) (shift_high (d_high d)) (shift_code (d_code d) b) src.

(** the loop of SymbolDecoded, lines 45-58 *)
Fixpoint d_renorm (fuel : nat) (d : decoder) : option decoder :=
  match fuel with
  | O => None
  | S fuel =>
      if Bool.eqb (first_bit (d_low d)) (first_bit (d_high d)) then d_renorm fuel (d_shift d)
      else if second_bit (d_low d) && negb (second_bit (d_high d)) then
        d_renorm fuel (d_shift (mk_decoder (Z.land (d_low d) 0x1FFFFFFF) (Z.lor (d_high d) 0x20000000) (Z.lxor (d_code d) 0x20000000) (d_src d)))
      else Some d
  end.

(** SymbolDecoded, lines 39-59 *)
Definition symbol_decoded (d : decoder) (y : sym) : option decoder :=
  if sym_ok y then
    let range := range_of (d_low d) (d_high d) (s_scale y) in
    d_renorm loop_fuel (mk_decoder (new_low (d_low d) range (s_low y)) (new_high (d_low d) range (s_high y)) (d_code d) (d_src d))
  else None.
