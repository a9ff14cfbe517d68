(** thread/TaskLifeToken.cpp: TryStartExecution / FinishExecution / Kill on one
    TaskLifeTokenImpl, used through LocalExecutionGuard (lines 60-75),
    CancellableFunction (function/CancellableFunction.h:48-63), TaskLifeToken::Release
    and TaskLifeHolder::Release.

    Any number of threads.  _sync is a recursive mutex
    (thread/posix/PosixThreadEngine.cpp:259), so a guarded task may itself run guarded
    tasks of the same token or call Release: every thread has a stack of frames, each
    of which holds the mutex once.

    Not modelled: NotifyDestruction and _threadId (lines 18-22, 31, 42, 51-52: they
    only decide what is logged); Reset (92-96, 103-108), which is Release followed by a
    new token. *)
From Coq Require Import List Arith Bool.
From Verif Require Import Base Conc.
Import ListNotations.
Set Implicit Arguments.

Inductive frame :=
| TryLocked      (* TryStartExecution between lines 27 and 29 *)
| Running        (* a guarded task is executing *)
| KillLocked     (* Kill between lines 49 and 54 *)
| KillSet.       (* Kill between lines 54 and 55 *)

Inductive event :=
| EStarted (t : nat)               (* the guard allowed execution: the task starts *)
| EFinished (t : nat)
| ERefused (t : nat)               (* the guard refused *)
| EReleased (t : nat) (n : nat)    (* Release returned in t, from inside n guarded tasks *)
| EDummy (t : nat).                (* a task with a dummy tester ran *)

Record st := mk_st {
  stack : nat -> list frame;       (* innermost first *)
  owner : option nat;              (* _sync *)
  depth : nat;                     (* its recursion count *)
  alive : bool;                    (* _alive *)
  log : list event }.              (* ghost, newest first *)

(** line 33-35 of TaskLifeToken.h; CreateDeadTaskToken starts with alive = false *)
Definition init (a : bool) : st := mk_st (fun _ => []) None 0 a [].

Inductive choice := DoTry | DoFinish | DoRelease | DoDummy | Go.

Definition lock (s : st) (t : nat) (f : frame) : option st :=
  match owner s with
  | Some u => if u =? t then Some (mk_st (fupd (stack s) t (f :: stack s t)) (Some t) (S (depth s)) (alive s) (log s)) else None
  | None => Some (mk_st (fupd (stack s) t (f :: stack s t)) (Some t) 1 (alive s) (log s))
  end.
(** pops the innermost frame and unlocks once *)
Definition unlock (s : st) (t : nat) (e : event) : st :=
  mk_st (fupd (stack s) t (tl (stack s t))) (if depth s =? 1 then None else owner s) (depth s - 1) (alive s) (e :: log s).
Definition running_frames (l : list frame) : nat :=
  length (filter (fun f => match f with Running => true | _ => false end) l).

(** only user code (no frame, or a running task) calls the API *)
Definition user (l : list frame) : bool :=
  match l with [] | Running :: _ => true | _ => false end.

Definition step (s : st) (l : nat * choice) : option st :=
  let t := fst l in
  match snd l with
  | DoTry => if user (stack s t) then lock s t TryLocked else None             (* 27 *)
  | DoRelease => if user (stack s t) then lock s t KillLocked else None        (* 49 *)
  | DoDummy =>                                                                 (* 61-64: no _impl *)
      if user (stack s t) then Some (mk_st (stack s) (owner s) (depth s) (alive s) (EDummy t :: log s)) else None
  | DoFinish =>                                                                (* 71-75, 40-44 *)
      match stack s t with Running :: _ => Some (unlock s t (EFinished t)) | _ => None end
  | Go =>
      match stack s t with
      | TryLocked :: _ =>                                                      (* 29-36 *)
          if alive s
          then Some (mk_st (fupd (stack s) t (Running :: tl (stack s t))) (owner s) (depth s) (alive s) (EStarted t :: log s))
          else Some (unlock s t (ERefused t))
      | KillLocked :: _ =>                                                     (* 54 *)
          Some (mk_st (fupd (stack s) t (KillSet :: tl (stack s t))) (owner s) (depth s) false (log s))
      | KillSet :: fs => Some (unlock s t (EReleased t (running_frames fs)))   (* 55 *)
      | _ => None
      end
  end.
