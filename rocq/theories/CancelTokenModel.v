(** thread/CancellationToken.cpp: Cancel, Reset, TryRegister-, TryUnregister-,
    UnregisterCancellationHandler, Sleep, as an interleaving machine.

    Any number of agents (ids are naturals) act on one token; an agent is one
    activity (a Cancel call, one registration scope, one Sleep call after another).
    A thread that does several of these at once counts as several agents, which only
    adds interleavings.  Every critical section under _mutex is one step: all accesses
    to _cancelled, _cancelDone, _cancelHandler and the condition variable that matter
    here are made under that mutex.  _cond.Wait releases the mutex and sleeps in one
    step; it is left by Broadcast, by timeout or spuriously, and the mutex is taken
    again in a later step.

    Not modelled: NotifyDestruction (lines 23-29, logging), IsCancelled's relaxed read
    (46-47), a handler that throws out of Cancel (line 63).

    [log] is a ghost: newest event first. *)
From Coq Require Import List Arith Bool.
From Verif Require Import Base Conc.
Import ListNotations.
Set Implicit Arguments.

(** one event per observable effect; registrations are numbered *)
Inductive event :=
| ERegistered (r : nat)            (* TryRegisterCancellationHandler returned true *)
| EHandlerStart (r : nat)          (* handler->Cancel() called *)
| EHandlerEnd (r : nat)            (* ... returned *)
| EUnregistered (r : nat) (b : bool) (* Unregister returned b, or TryUnregister returned true *)
| ECancelled                       (* _cancelled set *)
| ECancelDone                      (* that Cancel finished *)
| ESlept (b : bool).               (* Sleep returned b *)

Inductive pc :=
| Idle
| Cancelling (h : option nat)   (* Cancel: line 60-62, cancelHandler = h *)
| InHandler (r : nat)           (* line 63, inside the handler *)
| CancelTail                    (* line 65 *)
| Registered (r : nat)          (* holds registration r *)
| Unreg (r : nat)               (* TryUnregister returned false, or about to Unregister *)
| UnregWait (r : nat)           (* line 113, asleep *)
| UnregWoken (r : nat)          (* line 113, re-acquiring the mutex *)
| SleepWait (timed : bool)      (* lines 39/41, asleep *)
| SleepWoken (timed : bool) (timedOut : bool).

Record st := mk_st {
  pcs : nat -> pc;
  cancelled : bool;         (* _cancelled *)
  done : bool;              (* _cancelDone *)
  handler : option nat;     (* _cancelHandler *)
  next : nat;               (* ghost: next registration number *)
  log : list event }.

(** lines 16-20 *)
Definition init : st := mk_st (fun _ => Idle) false false None 0 [].

Inductive choice :=
| Go
| DoCancel | DoRegister | DoTryUnregister | DoUnregister | DoSleep (timed : bool)
| DoReset
| Spurious | Timeout.

(** _cond.Broadcast(), line 68 *)
Definition wake_all (f : nat -> pc) : nat -> pc :=
  fun u => match f u with
           | UnregWait r => UnregWoken r
           | SleepWait t => SleepWoken t false
           | p => p
           end.

Definition to (s : st) (t : nat) (p : pc) : st :=
  mk_st (fupd (pcs s) t p) (cancelled s) (done s) (handler s) (next s) (log s).
Definition logged (s : st) (e : event) : st :=
  mk_st (pcs s) (cancelled s) (done s) (handler s) (next s) (e :: log s).
Definition unset_handler (s : st) : st :=
  mk_st (pcs s) (cancelled s) (done s) None (next s) (log s).

(** the loop of lines 112-114, the mutex being held *)
Definition await_done (s : st) (t r : nat) : st :=
  if done s then logged (to s t Idle) (EUnregistered r false) else to s t (UnregWait r).

Definition step (s : st) (l : nat * choice) : option st :=
  let t := fst l in
  match pcs s t, snd l with
  (* Cancel, lines 50-60 *)
  | Idle, DoCancel =>
      if cancelled s then Some s
      else Some (mk_st (fupd (pcs s) t (Cancelling (handler s))) true (done s) (handler s) (next s) (ECancelled :: log s))
  (* lines 62-63 *)
  | Cancelling (Some r), Go => Some (logged (to s t (InHandler r)) (EHandlerStart r))
  | InHandler r, Go => Some (logged (to s t CancelTail) (EHandlerEnd r))
  | Cancelling None, Go => Some (to s t CancelTail)
  (* lines 65-69 *)
  | CancelTail, Go =>
      Some (mk_st (fupd (wake_all (pcs s)) t Idle) (cancelled s) true (handler s) (next s) (ECancelDone :: log s))
  (* Reset, lines 73-80; the failed checks throw and change nothing *)
  | Idle, DoReset =>
      match handler s with
      | Some _ => Some s
      | None => if Bool.eqb (cancelled s) (done s)
                then Some (mk_st (pcs s) false false None (next s) (log s)) else Some s
      end
  (* TryRegisterCancellationHandler, lines 83-92 *)
  | Idle, DoRegister =>
      if cancelled s then Some s
      else match handler s with
           | Some _ => Some s                                     (* throws, line 89 *)
           | None => Some (mk_st (fupd (pcs s) t (Registered (next s))) (cancelled s) (done s)
                                 (Some (next s)) (S (next s)) (ERegistered (next s) :: log s))
           end
  (* TryUnregisterCancellationHandler, lines 95-101 *)
  | Registered r, DoTryUnregister =>
      if cancelled s then Some (unset_handler (to s t (Unreg r)))
      else Some (logged (unset_handler (to s t Idle)) (EUnregistered r true))
  (* UnregisterCancellationHandler, lines 104-115 *)
  | Registered r, DoUnregister | Unreg r, DoUnregister =>
      if cancelled s then Some (unset_handler (await_done s t r))
      else Some (logged (unset_handler (to s t Idle)) (EUnregistered r true))
  | UnregWait r, Spurious => Some (to s t (UnregWoken r))
  | UnregWoken r, Go => Some (await_done s t r)
  (* Sleep, lines 32-43 *)
  | Idle, DoSleep timed =>
      if cancelled s then Some (logged s (ESlept false)) else Some (to s t (SleepWait timed))
  | SleepWait timed, Spurious => Some (to s t (SleepWoken timed false))
  | SleepWait true, Timeout => Some (to s t (SleepWoken true true))
  | SleepWoken _ timedOut, Go => Some (logged (to s t Idle) (ESlept timedOut))
  | _, _ => None
  end.
