(** C03-C05: io/CircularBufferBase.h, io/MemoryCircularBuffer.h, io/ICircularBuffer.h. *)
From Verif Require Import Base CircularModel CircularSpec CircularProofs.
Set Implicit Arguments.
Local Open Scope Z_scope.

(** C03 (DiscardOnOverflow = false) and C04 (DiscardOnOverflow = true): every run
    over a non-empty storage answers like the bounded byte queue of [CircularSpec],
    up to the first of the two situations listed in [broken], if any occurs.
    In particular there is no out-of-bounds access ([RUB]) before that. *)
Theorem C03_bounded_fifo_partial : forall (A : Type) (storage : list A) (os : list (op A)),
  storage <> [] ->
  allowed_run false (zlen storage) (mkQ [] [] 0) os (snd (run false (sys_init storage) os)).
Proof. intros A. exact (@bounded_fifo A false). Qed.
Print Assumptions C03_bounded_fifo_partial.

Theorem C04_discard_keeps_newest_partial : forall (A : Type) (storage : list A) (os : list (op A)),
  storage <> [] ->
  allowed_run true (zlen storage) (mkQ [] [] 0) os (snd (run true (sys_init storage) os)).
Proof. intros A. exact (@bounded_fifo A true). Qed.
Print Assumptions C04_discard_keeps_newest_partial.

(** C03, full statement refuted: a reserver of size 0 does not lock the buffer, and
    its destruction unlocks the bytes held by another reserver: the second Pop hands
    out the bytes 1;2 again while the first reserver still holds them. *)
Theorem C03_empty_reserver_refuted :
  snd (run false (sys_init [0;0;0;0])
        [OPop 2; OPush [1;2;3]; OPop 2; ORelease 0; OPop 2; OGetData 0; OGetData 1;
         ORelease 0; ORelease 0; OGetSize]) =
  [RSize 0; RUnit; RSize 2; RUnit; RSize 2; RBytes [1;2]; RBytes [1;2];
   RUnit; RUnit; RSize 7].
Proof. reflexivity. Qed.
Print Assumptions C03_empty_reserver_refuted.

(** C05, full statement refuted: Clear (CircularBufferBase.h:204-223) does not reset
    [_dataIsContiguous]: clearing a full buffer leaves it full, clearing a wrapped
    one makes it full. No reserver is involved. *)
Theorem C05_clear_refuted :
  snd (run false (sys_init [0;0;0;0]) [OPush [1;2;3;4]; OClear; OGetSize; OFreeSize]) =
    [RUnit; RUnit; RSize 4; RSize 0] /\
  snd (run false (sys_init [0;0;0;0])
    [OPush [1;2;3]; OPop 3; ORelease 0; OPush [4;5]; OGetSize; OClear; OGetSize; OPush [6]]) =
    [RUnit; RSize 3; RUnit; RUnit; RSize 2; RUnit; RSize 4; RFull].
Proof. split; reflexivity. Qed.
Print Assumptions C05_clear_refuted.

(** Non-vacuity: a run which wraps around, is rejected when full and when locked,
    and never meets a [broken] situation. *)
Example circular_run :
  snd (run false (sys_init [0;0;0;0])
    [OPush [1;2;3]; OPop 2; OGetData 0; OPop 1; ORelease 0; OPush [4;5;6]; OPush [7]; OGetAll; OPop 9;
     ORelease 0; OPop 9; OGetData 0; ORelease 0; OGetSize; OPush [8]; OPop 1; OClear; OGetSize]) =
  [RUnit; RSize 2; RBytes [1;2]; RNotFreed; RUnit; RUnit; RFull; RBytes [3;4;5;6]; RSize 2;
     RUnit; RSize 2; RBytes [5;6]; RUnit; RSize 0; RUnit; RSize 1; RUnit; RSize 1].
Proof. reflexivity. Qed.

Example circular_discard_run :
  snd (run true (sys_init [0;0;0;0])
    [OPush [1;2;3]; OPush [4;5]; OGetAll; OPush [6;7;8;9;10;11]; OGetAll; OPop 1; OPush [12]; OGetAll]) =
  [RUnit; RUnit; RBytes [2;3;4;5]; RUnit; RBytes [8;9;10;11]; RSize 1; RNotFreed; RBytes [8;9;10;11]].
Proof. reflexivity. Qed.
