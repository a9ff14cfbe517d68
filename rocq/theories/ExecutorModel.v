(** thread/ThreadTaskExecutor.cpp and thread/ThreadlessTaskExecutor.cpp: queues of tasks run by one thread at a time.

    Tasks are numbered in the order AddTask accepted them.  Each region under _syncRoot is one step; running a task
    happens between two steps, with the mutex released, so AddTask by anybody (the task itself included) can come
    in between.  [alive]: whether the task's FutureExecutionTester let it run (LocalExecutionGuard, lines 85-87 / 89-91;
    the token itself is C19).  [exn]: the task threw and the exception went to the handler (lines 97-98 / 101-102).
    Not modelled: an exception thrown by the exception handler, profiling, logging. *)
From Coq Require Import List Arith Bool.
From Verif Require Import Conc.
Import ListNotations.
Set Implicit Arguments.

Inductive ev :=
| EAdd (id : nat) | EStart (id : nat) | ESkip (id : nat) | EFinish (id : nat) (exn : bool)
| EExit                                   (* the worker thread is gone, the destructor of the executor returns *)
| EClear (ids : list nat)
| EBusy (tid : nat) | EBegin (tid : nat) | EEnd (tid : nat) (interrupted : bool).

(** ** ThreadTaskExecutor *)
Inductive wpc := WLoop | WSleep | WExec (id : nat) | WGone.
Record tst := { q : list nat; nid : nat; w : wpc; cancelled : bool; lg : list ev }.
Definition tinit : tst := {| q := []; nid := 0; w := WLoop; cancelled := false; lg := [] |}.
Inductive tact :=
| TAdd                        (* AddTask, lines 39-47 *)
| TStep (alive : bool)        (* the worker under the mutex: lines 62-73 *)
| TDone (exn : bool)          (* ExecuteTask returns, line 76, mutex taken again *)
| TWake                       (* _condVar.Wait returns: broadcast, cancellation or spuriously *)
| TCancel.                    (* the destructor of _worker cancels the token before joining *)
Definition tstep (s : tst) (a : tact) : option tst :=
  match a with
  | TAdd => match w s with
            | WGone => None                          (* the executor is destroyed *)
            | p => Some {| q := q s ++ [nid s]; nid := S (nid s); w := match p with WSleep => WLoop | p => p end; cancelled := cancelled s; lg := lg s ++ [EAdd (nid s)] |}
            end
  | TStep alive =>
      match w s with
      | WLoop =>
          if negb (cancelled s) || negb (match q s with [] => true | _ => false end)
          then match q s with
               | [] => Some {| q := []; nid := nid s; w := WSleep; cancelled := cancelled s; lg := lg s |}
               | t :: r => if alive then Some {| q := r; nid := nid s; w := WExec t; cancelled := cancelled s; lg := lg s ++ [EStart t] |}
                           else Some {| q := r; nid := nid s; w := WLoop; cancelled := cancelled s; lg := lg s ++ [ESkip t] |}
               end
          else Some {| q := q s; nid := nid s; w := WGone; cancelled := cancelled s; lg := lg s ++ [EExit] |}
      | _ => None
      end
  | TDone exn => match w s with WExec t => Some {| q := q s; nid := nid s; w := WLoop; cancelled := cancelled s; lg := lg s ++ [EFinish t exn] |} | _ => None end
  | TWake => match w s with WSleep => Some {| q := q s; nid := nid s; w := WLoop; cancelled := cancelled s; lg := lg s |} | _ => None end
  | TCancel => Some {| q := q s; nid := nid s; w := match w s with WSleep => WLoop | p => p end; cancelled := true; lg := lg s |}
  end.

(** ** ThreadlessTaskExecutor *)
Record lst := { lq : list nat; lnid : nat; active : option nat; running : option nat; llg : list ev }.   (* active: _activeExecutor *)
Definition linit : lst := {| lq := []; lnid := 0; active := None; running := None; llg := [] |}.
Inductive lact :=
| LAdd                                  (* lines 31-35 *)
| LExec (tid : nat)                     (* ExecuteTasks called by a thread, lines 40-49 *)
| LTake (tid : nat) (alive : bool)      (* one turn of the loop, lines 51-56 *)
| LDone (tid : nat) (exn : bool)        (* the task returns, line 59 *)
| LEnd (tid : nat) (why : option bool)  (* the loop ends: None: queue empty; Some false: token cancelled; Some true: InterruptionPoint threw *)
| LClear.                               (* lines 66-74 *)
Definition lstep (s : lst) (a : lact) : option lst :=
  match a with
  | LAdd => Some {| lq := lq s ++ [lnid s]; lnid := S (lnid s); active := active s; running := running s; llg := llg s ++ [EAdd (lnid s)] |}
  | LExec tid =>
      match active s with
      | Some _ => Some {| lq := lq s; lnid := lnid s; active := active s; running := running s; llg := llg s ++ [EBusy tid] |}
      | None => Some {| lq := lq s; lnid := lnid s; active := Some tid; running := running s; llg := llg s ++ [EBegin tid] |}
      end
  | LTake tid alive =>
      match active s, running s, lq s with
      | Some t, None, x :: r =>
          if t =? tid then
            if alive then Some {| lq := r; lnid := lnid s; active := active s; running := Some x; llg := llg s ++ [EStart x] |}
            else Some {| lq := r; lnid := lnid s; active := active s; running := None; llg := llg s ++ [ESkip x] |}
          else None
      | _, _, _ => None
      end
  | LDone tid exn =>
      match active s, running s with
      | Some t, Some x => if t =? tid then Some {| lq := lq s; lnid := lnid s; active := active s; running := None; llg := llg s ++ [EFinish x exn] |} else None
      | _, _ => None
      end
  | LEnd tid why =>
      match active s, running s with
      | Some t, None =>
          if (t =? tid) && match why, lq s with None, _ :: _ => false | _, _ => true end
          then Some {| lq := lq s; lnid := lnid s; active := None; running := None; llg := llg s ++ [EEnd tid (match why with Some true => true | _ => false end)] |}   (* line 48: reset on every exit *)
          else None
      | _, _ => None
      end
  | LClear => Some {| lq := []; lnid := lnid s; active := active s; running := running s; llg := llg s ++ [EClear (lq s)] |}
  end.
