(** thread/Barrier.h:22-58.  Any number of threads call Wait again and again on a
    barrier for [n] threads.  A critical section under _mutex is one step;
    _cv.Wait(_mutex) releases the mutex and sleeps in one step, is left by Broadcast or
    spuriously, and the mutex is taken again in a later step. *)
From Coq Require Import List Arith Bool.
From Verif Require Import Base Conc.
Import ListNotations.
Set Implicit Arguments.

(** ghost: [r] is the number of times the barrier has opened and closed again *)
Inductive event :=
| EEnter (t r : nat)            (* t was counted, line 43 *)
| EExit (t r : nat) (b : bool). (* t's Wait returned b *)

Inductive pc :=
| Idle
| WaitClosed            (* line 42, asleep *)
| WokenClosed
| WaitOpen (r : nat)    (* line 49, asleep *)
| WokenOpen (r : nat).

Record st := mk_st {
  pcs : nat -> pc;
  count : nat;          (* _currentCount *)
  releasing : bool;     (* _releasing *)
  round : nat;          (* ghost *)
  log : list event }.   (* ghost, newest first *)

Definition init : st := mk_st (fun _ => Idle) 0 false 0 [].

Inductive choice := Go | Spurious.

(** _cv.Broadcast() *)
Definition wake_all (f : nat -> pc) : nat -> pc :=
  fun u => match f u with WaitClosed => WokenClosed | WaitOpen r => WokenOpen r | p => p end.

(** lines 50-56, for the thread t of round r, holding the mutex *)
Definition leave (s : st) (t r : nat) : st :=
  if count s - 1 =? 0
  then mk_st (fupd (wake_all (pcs s)) t Idle) 0 false (S (round s)) (EExit t r true :: log s)
  else mk_st (fupd (pcs s) t Idle) (count s - 1) (releasing s) (round s) (EExit t r false :: log s).

(** lines 41-57 *)
Definition enter (n : nat) (s : st) (t : nat) : st :=
  if releasing s then mk_st (fupd (pcs s) t WaitClosed) (count s) (releasing s) (round s) (log s)
  else
    let s1 := mk_st (pcs s) (S (count s)) (releasing s) (round s) (EEnter t (round s) :: log s) in
    if S (count s) =? n
    then leave (mk_st (wake_all (pcs s1)) (count s1) true (round s1) (log s1)) t (round s1)
    else mk_st (fupd (pcs s1) t (WaitOpen (round s1))) (count s1) (releasing s1) (round s1) (log s1).

Definition step (n : nat) (s : st) (l : nat * choice) : option st :=
  let t := fst l in
  match pcs s t, snd l with
  | Idle, Go => Some (enter n s t)
  | WokenClosed, Go => Some (enter n s t)
  | WokenOpen r, Go => Some (leave s t r)
  | WaitClosed, Spurious => Some (mk_st (fupd (pcs s) t WokenClosed) (count s) (releasing s) (round s) (log s))
  | WaitOpen r, Spurious => Some (mk_st (fupd (pcs s) t (WokenOpen r)) (count s) (releasing s) (round s) (log s))
  | _, _ => None
  end.
