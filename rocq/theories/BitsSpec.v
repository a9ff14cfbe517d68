(** What a user means by "the bits of a buffer": independent of the accessors' loops. *)
From Coq Require Import List ZArith Bool Arith.
Import ListNotations.

(** Bit [k] of a buffer, counting from the most significant bit of byte 0. *)
Definition bit_at (buf : list Z) (k : nat) : bool :=
  Z.testbit (nth (k / 8) buf 0%Z) (Z.of_nat (7 - k mod 8)).

(** The big-endian number formed by the [size] bits that start at bit [off]. *)
Fixpoint field (buf : list Z) (off size : nat) : Z :=
  match size with
  | O => 0%Z
  | S n => (2 * field buf off n + Z.b2z (bit_at buf (off + n)))%Z
  end.

(** The little-endian number formed by [n] whole bytes' worth of bits starting at bit [off]. *)
Fixpoint field_le (buf : list Z) (off n : nat) : Z :=
  match n with
  | O => 0%Z
  | S n => (field buf off 8 + 256 * field_le buf (off + 8) n)%Z
  end.

(** A buffer of bytes. *)
Definition bytes (buf : list Z) : Prop := Forall (fun b => (0 <= b < 256)%Z) buf.

(** [buf'] is [buf] with exactly the bits [off, off+size) replaced by those of [v]. *)
Definition replaced (buf buf' : list Z) (off size : nat) (v : Z) : Prop :=
  length buf' = length buf /\
  forall k, bit_at buf' k =
    if (off <=? k) && (k <? off + size) then Z.testbit v (Z.of_nat (off + size - 1 - k)) else bit_at buf k.

(** The unsigned types a value can be held in (ShiftableType). *)
Definition word (t : nat) : Prop := t = 8 \/ t = 16 \/ t = 32 \/ t = 64.

(** The number a big- or little-endian accessor addresses. *)
Definition number (be : bool) (buf : list Z) (off size : nat) : Z :=
  if be then field buf off size else field_le buf off (size / 8).

(** A string up to its first terminator. *)
Fixpoint until (term : Z) (str : list Z) : list Z :=
  match str with
  | [] => []
  | c :: l => if (c =? term)%Z then [] else c :: until term l
  end.
