(** promise / future / shared_future: stingraykit/future.h.

    A label is one critical section of future_impl::_mutex (or a call that touches only the promise
    object).  A thread inside wait()/get() is Blocked on the condition variable or Woken and about to
    re-check; a wake-up may be spurious.  Values and exceptions are of arbitrary types. *)
From Coq Require Import List Arith Lia Bool.
From Verif Require Import Conc.
Import ListNotations.
Set Implicit Arguments.

Section Future.
Variables V E : Type.

(** future_result, lines 60-109: value, user exception, or BrokenPromise *)
Inductive outcome := Val (v : V) | Exc (e : E) | Broken.

Inductive tst := TIdle | TBlocked (i : nat) (isget : bool) | TWoken (i : nat) (isget : bool).

Record st := mkS {
  res   : nat -> option outcome;        (* _result of shared state i *)
  made  : nat;                          (* shared states created so far: 0 .. made-1 *)
  prom  : nat -> option (nat * bool);   (* promise object: (_futureImpl, _futureRetrieved) *)
  thr   : nat -> tst
}.
Definition init : st := mkS (fun _ => None) 0 (fun _ => None) (fun _ => TIdle).

Inductive lab :=
| LNew (p : nat)                 (* promise(), line 293 *)
| LDestroy (p : nat)             (* ~promise(), line 296 *)
| LSwap (p q : nat)              (* promise::swap, line 299 *)
| LGetFuture (p : nat)           (* lines 302-303 *)
| LSetValue (p : nat) (v : V)    (* lines 305, 171-177 *)
| LSetExc (p : nat) (e : E)      (* lines 308, 137-145 *)
| LWait (t i : nat)              (* wait(token), lines 127-128, 151-162, on shared state i *)
| LGet (t i : nat)               (* get(), lines 130-135 *)
| LRun (t : nat)                 (* the loop of do_wait after a wake-up, lines 153-154 *)
| LSpurious (t : nat)            (* spurious wake-up *)
| LCancel (t : nat)              (* Wait returned Cancelled or TimedOut, lines 157-158 *)
| LReady (i : nat).              (* is_ready, line 123 *)

Inductive obs :=
| ONone | OFuture (i : nat) | ORetrieved | OAlready | OSet (i : nat) | OIgnored
| OReady (i : nat) | OGot (i : nat) (r : outcome) | OCancelled | OBool (i : nat) (b : bool).

(** _condition.Broadcast(), lines 148-149 *)
Definition wake (i : nat) (f : nat -> tst) : nat -> tst :=
  fun t => match f t with TBlocked j g => if Nat.eqb i j then TWoken j g else TBlocked j g | x => x end.

(** do_wait's test, line 153, for a thread that holds the mutex *)
Definition check (s : st) (t i : nat) (g : bool) : st * obs :=
  match res s i with
  | Some r => (mkS (res s) (made s) (prom s) (fupd (thr s) t TIdle), if g then OGot i r else OReady i)
  | None => (mkS (res s) (made s) (prom s) (fupd (thr s) t (TBlocked i g)), ONone)
  end.

(** future_impl::set_value / set_exception on shared state i *)
Definition put (s : st) (i : nat) (r : outcome) : st :=
  mkS (fupd (res s) i (Some r)) (made s) (prom s) (wake i (thr s)).

Definition step (s : st) (l : lab) : option (st * obs) :=
  match l with
  | LNew p =>
      match prom s p with
      | Some _ => None
      | None => Some (mkS (res s) (S (made s)) (fupd (prom s) p (Some (made s, false))) (thr s), ONone)
      end
  | LDestroy p =>
      match prom s p with
      | None => None
      | Some (i, _) =>
          let s' := mkS (res s) (made s) (fupd (prom s) p None) (thr s) in
          match res s i with
          | Some _ => Some (s', OIgnored)
          | None => Some (put s' i Broken, OSet i)
          end
      end
  | LSwap p q =>
      match prom s p, prom s q with
      | Some (i, a), Some (j, b) =>
          if Nat.eqb p q then None
          else Some (mkS (res s) (made s) (fupd (fupd (prom s) p (Some (j, a))) q (Some (i, b))) (thr s), ONone)
      | _, _ => None
      end
  | LGetFuture p =>
      match prom s p with
      | None => None
      | Some (i, true) => Some (s, ORetrieved)
      | Some (i, false) => Some (mkS (res s) (made s) (fupd (prom s) p (Some (i, true))) (thr s), OFuture i)
      end
  | LSetValue p v =>
      match prom s p with
      | None => None
      | Some (i, _) => match res s i with Some _ => Some (s, OAlready) | None => Some (put s i (Val v), OSet i) end
      end
  | LSetExc p e =>
      match prom s p with
      | None => None
      | Some (i, _) => match res s i with Some _ => Some (s, OIgnored) | None => Some (put s i (Exc e), OSet i) end
      end
  | LWait t i => match thr s t with TIdle => if i <? made s then Some (check s t i false) else None | _ => None end
  | LGet t i => match thr s t with TIdle => if i <? made s then Some (check s t i true) else None | _ => None end
  | LRun t => match thr s t with TWoken i g => Some (check s t i g) | _ => None end
  | LSpurious t => match thr s t with TBlocked i g => Some (mkS (res s) (made s) (prom s) (fupd (thr s) t (TWoken i g)), ONone) | _ => None end
  | LCancel t =>
      match thr s t with
      | TBlocked i false => Some (mkS (res s) (made s) (prom s) (fupd (thr s) t TIdle), OCancelled)
      | _ => None
      end
  | LReady i => if i <? made s then Some (s, OBool i (match res s i with Some _ => true | None => false end)) else None
  end.

Inductive run : st -> list (lab * obs) -> st -> Prop :=
| run_nil s : run s [] s
| run_cons s l o s1 ls s2 : step s l = Some (s1, o) -> run s1 ls s2 -> run s ((l, o) :: ls) s2.
End Future.
Arguments Broken {V E}. Arguments LNew {V E}. Arguments LDestroy {V E}. Arguments LSwap {V E}. Arguments LGetFuture {V E}.
Arguments LSetExc {V E}. Arguments LSetValue {V E}. Arguments LWait {V E}. Arguments LGet {V E}. Arguments LRun {V E}. Arguments LSpurious {V E}.
Arguments LCancel {V E}. Arguments LReady {V E}. Arguments ONone {V E}. Arguments OFuture {V E}. Arguments ORetrieved {V E}.
Arguments OAlready {V E}. Arguments OSet {V E}. Arguments OIgnored {V E}. Arguments OReady {V E}. Arguments OGot {V E}.
Arguments OCancelled {V E}. Arguments OBool {V E}. Arguments Val {V E}. Arguments Exc {V E}.
