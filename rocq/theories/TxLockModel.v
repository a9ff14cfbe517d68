(** The transaction lock of TransactionalDictionary.h / TransactionalSet.h /
    TransactionalList.h: HasTransaction, Guard and the condition variable
    TransactionCompleted.  Any number of threads (ids are naturals); each label
    (t, choice) lets thread t do its next step.

    Simplifications: Wait(Guard, token) (thread/posix/PosixConditionVariable.cpp:102-118)
    is: release Guard and sleep; be woken by Broadcast, spuriously, by cancellation
    or by timeout; re-acquire Guard; return.  Broadcast does not throw.  Threads
    that hold Guard for other reasons (reads, Commit) acquire and release it
    ([Busy]). *)
From Coq Require Import List Arith Bool.
From Verif Require Import Base Conc.
Import ListNotations.
Set Implicit Arguments.

(** ConditionWaitResult *)
Inductive wres := Broadcasted | Cancelled | TimedOut.

Inductive pc :=
| Idle                (* holds no transaction *)
| CtorLock            (* TransactionalDictionary.h:247 MutexLock l(Guard) *)
| Check               (* 249 while (HasTransaction) *)
| Asleep              (* 254 inside Wait, on the condition variable *)
| Woken (r : wres)    (* 254 inside Wait, re-acquiring Guard *)
| Result (r : wres)   (* 254-259 switch *)
| CtorUnlock          (* 262-263 HasTransaction set; leaving the constructor *)
| Live                (* the client owns a transaction *)
| DtorLock            (* 267 *)
| DtorSet             (* 268 *)
| DtorBcast           (* 269 *)
| DtorUnlock          (* 270 *)
| Throwing            (* 257-258: exception; ~MutexLock pending *)
| Failed              (* StartTransaction threw *)
| Busy.               (* Guard held for something else *)

Record st := mk_st { pcs : nat -> pc; guard : option nat; has : bool }.
Definition init : st := mk_st (fun _ => Idle) None false.

Inductive choice := Go | GoBusy | WakeSpurious | WakeCancel | WakeTimeout.

Definition wake_all (f : nat -> pc) : nat -> pc :=
  fun u => match f u with Asleep => Woken Broadcasted | p => p end.

Definition go (s : st) (t : nat) (p : pc) : st := mk_st (fupd (pcs s) t p) (guard s) (has s).
Definition acquire (s : st) (t : nat) (p : pc) : option st :=
  match guard s with
  | Some _ => None
  | None => Some (mk_st (fupd (pcs s) t p) (Some t) (has s))
  end.
Definition release (s : st) (t : nat) (p : pc) : st := mk_st (fupd (pcs s) t p) None (has s).

Definition step (s : st) (l : nat * choice) : option st :=
  let t := fst l in
  match pcs s t, snd l with
  | Idle, Go => Some (go s t CtorLock)
  | Idle, GoBusy => acquire s t Busy
  | Busy, Go => Some (release s t Idle)
  | CtorLock, Go => acquire s t Check
  | Check, Go =>
      if has s then Some (release s t Asleep)
      else Some (mk_st (fupd (pcs s) t CtorUnlock) (guard s) true)
  | Asleep, WakeSpurious => Some (go s t (Woken Broadcasted))
  | Asleep, WakeCancel => Some (go s t (Woken Cancelled))
  | Asleep, WakeTimeout => Some (go s t (Woken TimedOut))
  | Woken r, Go => acquire s t (Result r)
  | Result Broadcasted, Go => Some (go s t Check)
  | Result _, Go => Some (go s t Throwing)
  | Throwing, Go => Some (release s t Failed)
  | Failed, Go => Some (go s t Idle)
  | CtorUnlock, Go => Some (release s t Live)
  | Live, Go => Some (go s t DtorLock)
  | DtorLock, Go => acquire s t DtorSet
  | DtorSet, Go => Some (mk_st (fupd (pcs s) t DtorBcast) (guard s) false)
  | DtorBcast, Go => Some (mk_st (fupd (wake_all (pcs s)) t DtorUnlock) (guard s) (has s))
  | DtorUnlock, Go => Some (release s t Idle)
  | _, _ => None
  end.
