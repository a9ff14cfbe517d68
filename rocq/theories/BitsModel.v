(** BitsGetterProxy / BitsSetterImpl (stingraykit/BitsGetter.h) and BasicBitStream
    (stingraykit/io/BitStream.h).

    A buffer is the list of its bytes, each a number in 0..255.  [t] is the width in bits of
    ShiftableT (BitsGetter.h:30-34): 8, 16, 32 or 64; for bool it is 32.  Arithmetic on a
    narrower type is done by C++ in int, so shifts happen in [prom t] bits; a shift by at
    least that many bits is undefined behaviour ([UB]).  Left shifts of small values in int
    are taken to wrap (gcc's definition).  [base] is the bytesOffset of BasicBitsGetter /
    BasicBitsSetter (lines 364-366, 392-396) or _offset >> 3 in BitStream.
    Unsafe(Const)ByteData, whose accesses are not checked at all, is not modelled. *)
From Coq Require Import List ZArith Bool Arith.
Import ListNotations.

Inductive out (A : Type) := Ok (a : A) | Throw | UB.
Arguments Ok {A} a.  Arguments Throw {A}.  Arguments UB {A}.
Definition bind {A B} (o : out A) (f : A -> out B) : out B :=
  match o with Ok a => f a | Throw => Throw | UB => UB end.

(** Integral promotion: operands narrower than int become int. *)
Definition prom (t : nat) : nat := Nat.max t 32.
(** Conversion to an unsigned type of [w] bits. *)
Definition trunc (w : nat) (v : Z) : Z := (v mod 2 ^ Z.of_nat w)%Z.
Definition shl (v : Z) (k : nat) : Z := Z.shiftl v (Z.of_nat k).
Definition shr (v : Z) (k : nat) : Z := Z.shiftr v (Z.of_nat k).

(** MinimalTypeSelector::AlignedSize * 8, lines 36-42 *)
Definition minimal (size : nat) : nat :=
  let bytes := (size + 7) / 8 in
  if 4 <? bytes then 64 else if 2 <? bytes then 32 else if 1 <? bytes then 16 else 8.

(** SwappableType::Swap on an m-bit word, lines 61-88 (the portable loop of lines 76-88; the
    gcc intrinsics compute the same): byte i goes to byte m/8-1-i. *)
Fixpoint swap_loop (m i : nat) (value r : Z) : Z :=
  match i with
  | O => r
  | S i' => swap_loop m i' value (Z.lor r (shl (Z.land (shr value (8 * i')) 255) ((m / 8 - i' - 1) * 8)))
  end.
Definition swap (m : nat) (value : Z) : Z := swap_loop m (m / 8) value 0%Z.

(** mask, lines 127-129 and 262-264 *)
Definition mask (t len : nat) : Z := if t <=? len then Z.ones (Z.of_nat t) else Z.ones (Z.of_nat len).

(** UseMasks, line 117 *)
Definition use_masks (off size : nat) : bool := negb (off mod 8 =? 0) || negb (size mod 8 =? 0).

(** BytesRequirement, lines 143, 197, 275, 334 *)
Definition required (off size : nat) : nat := (off + size + 7) / 8.

Definition byte (buf : list Z) (i : nat) : Z := nth i buf 0%Z.
Fixpoint put (buf : list Z) (i : nat) (v : Z) : list Z :=
  match buf, i with
  | [], _ => []
  | _ :: l, O => v :: l
  | x :: l, S i => x :: put l i v
  end.

(** The masked getter's loop, lines 149-166 ([fuel] bounds the iterations; each consumes at
    least one bit). *)
Fixpoint get_loop (fuel t : nat) (buf : list Z) (cur msb count : nat) (result : Z) : out Z :=
  match fuel with
  | O => Ok result
  | S fuel =>
      if count =? 0 then Ok result
      else if count <=? msb then
        Ok (trunc t (Z.lor result (Z.land (shr (byte buf cur) (msb - count)) (mask t count))))
      else if prom t <=? count - msb then UB
      else get_loop fuel t buf (S cur) 8 (count - msb)
             (trunc t (Z.lor result (trunc (prom t) (shl (Z.land (byte buf cur) (mask t msb)) (count - msb)))))
  end.

(** The byte-aligned getter's loop, lines 207-208. *)
Fixpoint get_bytes (t : nat) (buf : list Z) (pos count : nat) (result : Z) : Z :=
  match count with
  | O => result
  | S count => get_bytes t buf (S pos) count (trunc t (Z.lor (trunc (prom t) (shl result 8)) (byte buf pos)))
  end.

(** The conversion of the little-endian getter, lines 170 and 211. *)
Definition get_le (t size : nat) (result : Z) : out Z :=
  let m := minimal size in
  if (m <? size) || (prom t <=? m - size) then UB
  else Ok (trunc t (swap m (trunc m (trunc (prom t) (shl result (m - size)))))).

(** BitsGetterProxy::operator T, lines 134-173 and 190-213; the view of the buffer starts at
    byte [base] (BasicByteData(data, offset), collection/ByteData.h:406-408, throws when
    base > size). *)
Definition get (be : bool) (t : nat) (buf : list Z) (base off size : nat) : out Z :=
  if length buf <? base then Throw
  else if length buf - base <? required off size then Throw
  else
    bind (if use_masks off size then get_loop (S size) t buf (base + off / 8) (8 - off mod 8) size 0%Z
          else Ok (get_bytes t buf (base + off / 8) (size / 8) 0%Z))
         (fun r => if be then Ok r else get_le t size r).

(** The masked setter's loop, lines 290-310. *)
Definition not8 (v : Z) : Z := trunc 8 (Z.lnot v).
Fixpoint set_loop (fuel t : nat) (buf : list Z) (cur msb count : nat) (v : Z) : out (list Z) :=
  match fuel with
  | O => Ok buf
  | S fuel =>
      if count =? 0 then Ok buf
      else if count <=? msb then
        let shift := msb - count in
        let b := Z.land (byte buf cur) (not8 (shl (mask t count) shift)) in
        Ok (put buf cur (trunc 8 (Z.lor b (Z.land (trunc (prom t) (shl v shift)) (shl (mask t count) shift)))))
      else if prom t <=? count - msb then UB
      else
        let b := Z.land (byte buf cur) (not8 (mask t msb)) in
        set_loop fuel t (put buf cur (trunc 8 (Z.lor b (Z.land (shr v (count - msb)) (mask t msb))))) (S cur) 8 (count - msb) v
  end.

(** The byte-aligned setter's loop, lines 346-350: from the last byte to the first. *)
Fixpoint set_bytes (buf : list Z) (pos count : nat) (v : Z) : list Z :=
  match count with
  | O => buf
  | S count => set_bytes (put buf (pos + count) (trunc 8 v)) pos count (shr v 8)
  end.

(** ByteDataResizer::RequireSize, BitsGetter.h:239-249: only ByteArray has it
    (collection/ByteData.h:211-216, an array without size limit); the new bytes are 0. *)
Definition require_size (grow : bool) (buf : list Z) (n : nat) : list Z :=
  if grow then buf ++ repeat 0%Z (n - length buf) else buf.

(** BitsSetterImpl::Set, lines 269-311 and 328-351; BufResizer, lines 411-415.
    [v] is the value as ShiftableT. *)
Definition set (be grow : bool) (t : nat) (buf : list Z) (base off size : nat) (v : Z) : out (list Z) :=
  let buf := require_size grow buf base in
  if length buf <? base then Throw
  else
    let buf := require_size grow buf (base + required off size) in
    if length buf - base <? required off size then Throw
    else
      let v := if be then v else trunc t (swap (minimal size) (trunc (minimal size) v)) in
      if use_masks off size then set_loop (S size) t buf (base + off / 8) (8 - off mod 8) size v
      else Ok (set_bytes buf (base + off / 8) (size / 8) v).

(** ** BasicBitStream, io/BitStream.h *)
Record stream := mk_stream { sbuf : list Z; spos : nat }.

(** Read + conversion of the proxy to a T with ShiftableT of [t] bits, lines 150-156 and
    34-63: the position moves first, so it moves even when the conversion throws. *)
Definition read (be : bool) (t size : nat) (s : stream) : stream * out Z :=
  (mk_stream (sbuf s) (spos s + size), get be t (sbuf s) (spos s / 8) (spos s mod 8) size).
(** Peek, lines 158-160 *)
Definition peek (be : bool) (t size : nat) (s : stream) : out Z :=
  get be t (sbuf s) (spos s / 8) (spos s mod 8) size.
(** Write and DoWrite, lines 252-257 and 271-287: the position moves only after DoWrite.
    Set throws before it has written anything, so a throwing Write leaves the stream alone. *)
Definition write (be grow : bool) (t size : nat) (v : Z) (s : stream) : stream * out unit :=
  match set be grow t (sbuf s) (spos s / 8) (spos s mod 8) size v with
  | Ok buf => (mk_stream buf (spos s + size), Ok tt)
  | Throw => (s, Throw)
  | UB => (s, UB)
  end.
(** Seek, Skip, CanRead, AtEnd, lines 146-148 and 259-260 *)
Definition seek (n : nat) (s : stream) : stream := mk_stream (sbuf s) n.
Definition skip (n : nat) (s : stream) : stream := mk_stream (sbuf s) (spos s + n).
Definition can_read (n : nat) (s : stream) : bool := spos s + n <=? 8 * length (sbuf s).
Definition at_end (s : stream) : bool := length (sbuf s) <=? spos s / 8.

(** Sequencing of stream operations: an exception leaves the rest undone. *)
Definition andthen {A B} (x : stream * out A) (f : stream -> A -> stream * out B) : stream * out B :=
  match x with
  | (s, Ok a) => f s a
  | (s, Throw) => (s, Throw)
  | (s, UB) => (s, UB)
  end.

(** WriteArray, lines 234-246, for elements whose ShiftableT has [t] bits *)
Fixpoint write_array (be grow : bool) (t size : nat) (l : list Z) (s : stream) : stream * out unit :=
  match l with
  | [] => (s, Ok tt)
  | v :: l => andthen (write be grow t size v s) (fun s _ => write_array be grow t size l s)
  end.
(** ReadArray, lines 219-232; the first failing read throws out of the loop *)
Fixpoint read_array (be : bool) (t size n : nat) (s : stream) : stream * out (list Z) :=
  match n with
  | O => (s, Ok [])
  | S n => andthen (read be t size s) (fun s v =>
             andthen (read_array be t size n s) (fun s l => (s, Ok (v :: l))))
  end.

(** WriteLengthPrefixedString / ...Array, lines 175-180 and 191-196: the length is a size_t,
    the characters are u8 / char *)
Definition write_prefixed (be grow : bool) (prefix : nat) (str : list Z) (s : stream) : stream * out unit :=
  andthen (write be grow 64 prefix (Z.of_nat (length str)) s) (fun s _ => write_array be grow 8 8 str s).
(** ReadLengthPrefixedString / ...Array, lines 162-173 and 182-189 *)
Definition read_prefixed (be : bool) (prefix : nat) (s : stream) : stream * out (list Z) :=
  andthen (read be 64 prefix s) (fun s n => read_array be 8 8 (Z.to_nat n) s).
(** WriteNullTerminatedString, lines 210-214 (term = 0) *)
Definition write_terminated (be grow : bool) (term : Z) (str : list Z) (s : stream) : stream * out unit :=
  andthen (write_array be grow 8 8 str s) (fun s _ => write be grow 8 8 term s).
(** ReadStringTerminatedBy, lines 198-208.  Every character takes 8 bits of the buffer, so the
    loop ends (at the latest by an exception) after one more read than the buffer has bytes. *)
Fixpoint read_until (fuel : nat) (be : bool) (term : Z) (s : stream) : stream * out (list Z) :=
  match fuel with
  | O => (s, UB)
  | S fuel => andthen (read be 8 8 s) (fun s c =>
      if (c =? term)%Z then (s, Ok [])
      else andthen (read_until fuel be term s) (fun s l => (s, Ok (c :: l))))
  end.
Definition read_terminated (be : bool) (term : Z) (s : stream) : stream * out (list Z) :=
  read_until (S (length (sbuf s))) be term s.
