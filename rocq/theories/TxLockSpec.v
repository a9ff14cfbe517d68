(** Vocabulary for C17. *)
From Coq Require Import List.
From Verif Require Import Conc TxLockModel.

(** a transaction object belonging to thread t exists (its constructor has taken
    effect and its destructor has not finished) *)
Definition has_transaction (s : st) (t : nat) : Prop :=
  match pcs s t with CtorUnlock | Live | DtorLock | DtorSet | DtorBcast | DtorUnlock => True | _ => False end.

(** thread t is inside StartTransaction *)
Definition starting (s : st) (t : nat) : Prop :=
  match pcs s t with CtorLock | Check | Asleep | Woken Broadcasted | Result Broadcasted => True | _ => False end.

Definition reachable (s : st) : Prop := exists ls, steps step init ls s.
