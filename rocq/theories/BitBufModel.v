(** The bit buffers of the PPM compressor and decompressor:
    BitsToBytesBuffer<BufferSizeBytes> (compression/ppm/PpmCompressor.h:22-91) and
    BytesToBitsBuffer<BufferSizeBytes> (compression/ppm/PpmDecompressor.h:20-77).

    [n] is BufferSizeBytes.  The byte array _buffer is modelled by its bits: position
    8*b+k is bit 7-k of byte b.  size_t is nat (the theorems show that no subtraction
    underflows on the histories they range over).  The consumer functor is an oracle
    that says how many bytes it takes, capped by the size it is offered. *)
From Coq Require Import List Arith Bool.
From Verif Require Import Conc.
Import ListNotations.

Record buf := mk_buf { bits : nat -> bool; wo : nat; ro : nat; contig : bool }.

(** lines 34-37 / 32-35 *)
Definition buf0 : buf := mk_buf (fun _ => false) 0 0 true.

(** GetDataSizeBits, GetFreeSizeBits: PpmCompressor.h:39-43, PpmDecompressor.h:37-44 *)
Definition data_bits (n : nat) (s : buf) : nat := if contig s then wo s - ro s else 8 * n - ro s + wo s.
Definition free_bits (n : nat) (s : buf) : nat := 8 * n - data_bits n s.

Definition slice_bits (f : nat -> bool) (off len : nat) : list bool := map f (seq off len).

(** ** BitsToBytesBuffer *)
(** AddBit, lines 45-55 *)
Definition add_bit (n : nat) (s : buf) (b : bool) : buf :=
  let f := fupd (bits s) (wo s) (bits s (wo s) || b) in
  let w := S (wo s) in
  if w =? 8 * n then mk_buf f 0 (ro s) (negb (contig s)) else mk_buf f w (ro s) (contig s).

(** DoConsume, lines 76-90: what the consumer was given and took *)
Definition offered (n : nat) (s : buf) : nat := if contig s then wo s / 8 - ro s / 8 else n - ro s / 8.
Definition consume (n : nat) (s : buf) (want : nat) : list bool * nat * buf :=
  let off := 8 * (ro s / 8) in
  let k := Nat.min want (offered n s) in
  let out := slice_bits (bits s) off (8 * k) in
  let f := fun i => if (off <=? i) && (i <? off + 8 * k) then false else bits s i in   (* memset *)
  let r := ro s + 8 * k in
  (out, k, if r =? 8 * n then mk_buf f (wo s) 0 (negb (contig s)) else mk_buf f (wo s) r (contig s)).

(** EndOfData, lines 61-69; the consumer takes [want i] bytes in its i-th call; None: not
    finished within [fuel] calls *)
Definition round_up (s : buf) : buf := mk_buf (bits s) (8 * ((wo s + 7) / 8)) (ro s) (contig s).
Fixpoint drain (fuel n : nat) (want : nat -> nat) (i : nat) (s : buf) : option (list bool * bool * buf) :=
  match fuel with
  | O => None
  | S fuel =>
      if data_bits n s =? 0 then Some ([], true, s)
      else let '(out, k, s') := consume n s (want i) in
           if k =? 0 then Some (out, false, s')
           else match drain fuel n want (S i) s' with
                | Some (o, r, s'') => Some (out ++ o, r, s'')
                | None => None
                end
  end.
Definition end_of_data (fuel n : nat) (want : nat -> nat) (s : buf) : option (list bool * bool * buf) :=
  drain fuel n want 0 (round_up s).

(** ** BytesToBitsBuffer *)
(** GetBit, lines 46-57 *)
Definition get_bit (n : nat) (s : buf) : bool * buf :=
  let b := bits s (ro s) in
  let r := S (ro s) in
  (b, if r =? 8 * n then mk_buf (bits s) (wo s) 0 (negb (contig s)) else mk_buf (bits s) (wo s) r (contig s)).

(** AddBytes, lines 59-72; [data] is the bits of the bytes; the number of bytes taken *)
Definition free_run (n : nat) (s : buf) : nat := if contig s then n - wo s / 8 else ro s / 8 - wo s / 8.
Definition add_bytes (n : nat) (s : buf) (data : list bool) : nat * buf :=
  let k := Nat.min (length data / 8) (free_run n s) in
  let off := 8 * (wo s / 8) in
  let f := fun i => if (off <=? i) && (i <? off + 8 * k) then nth (i - off) data false else bits s i in   (* memcpy *)
  let w := wo s + 8 * k in
  (k, if w =? 8 * n then mk_buf f 0 (ro s) (negb (contig s)) else mk_buf f w (ro s) (contig s)).
