(** Vocabulary for C24: histories of the two bit buffers. *)
From Coq Require Import List Arith Bool.
From Verif Require Import BitBufModel.
Import ListNotations.

(** the compressor's buffer: bits added so far, bits handed to the consumer so far *)
Inductive hist (n : nat) : buf -> list bool -> list bool -> Prop :=
| h_init : hist n buf0 [] []
| h_add s a c b : hist n s a c -> 0 < free_bits n s -> hist n (add_bit n s b) (a ++ [b]) c
| h_consume s a c want out k s' : hist n s a c -> consume n s want = (out, k, s') -> hist n s' a (c ++ out).

(** the bits, packed into bytes: padded with zeros to whole bytes *)
Definition padded (a : list bool) : list bool := a ++ repeat false ((8 - length a mod 8) mod 8).

(** the decompressor's buffer: bits of the bytes accepted so far, bits read so far.  Bytes are
    added 8 bits each, and a bit is read only when there is one. *)
Inductive rhist (n : nat) : buf -> list bool -> list bool -> Prop :=
| r_init : rhist n buf0 [] []
| r_add s a c data k s' : rhist n s a c -> length data mod 8 = 0 -> add_bytes n s data = (k, s') ->
    rhist n s' (a ++ firstn (8 * k) data) c
| r_get s a c b s' : rhist n s a c -> 0 < data_bits n s -> get_bit n s = (b, s') -> rhist n s' a (c ++ [b]).
