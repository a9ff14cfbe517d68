(* Model of the adapters between signals, futures and executors: signal/ValueFromSignalObtainer.h, signal/SignalToFuture.h,
   function/AsyncFunction.h, with the part of signal/signals.h and signal/signal_connector.h that they go through and the
   shared state of future.h. *)
From Coq Require Import List Bool Arith.
From Verif Require Import TxEnumModel.
Import ListNotations.

(** * Values from the current state of a signal *)
Section Send.
Variables S A : Type.
Variable slot : S -> A -> S * bool.       (* one call of the slot; true: it threw a std::exception *)
Variable returns : bool.                  (* the signal's exception handler returns (signals.h DefaultSignalExceptionHandler
                                             logs and returns) or throws itself *)

(* What a call ended with: the slot's state, how often the exception handler was called, and whether an exception left. *)
Record sent := mk_sent { final : S; handled : nat; thrown : bool }.

(* The populator's calls of the wrapped slot (signals.h 47-53: ExceptionHandlerWrapper), and then its own exception if it
   throws one; an exception that leaves the wrapped slot leaves the populator *)
Fixpoint populate (s : S) (h : nat) (calls : list A) (own : bool) : sent :=
  match calls with
  | [] => mk_sent s h own
  | a :: r => let (s', t) := slot s a in
              if t then if returns then populate s' (h + 1) r own else mk_sent s' (h + 1) true
              else populate s' h r own
  end.
(* signals.h 264-268: DoSendCurrentState, with WRAP_EXCEPTION_HANDLING 60-64 around the populator *)
Definition send_current_state (s : S) (calls : list A) (own : bool) : sent :=
  let p := populate s 0 calls own in
  if thrown p then mk_sent (final p) (handled p + 1) (negb returns) else p.
(* signal_connector.h 58-62: a connector made by make_dummy_signal_connector has no implementation *)
Definition connector_send (impl : option (list A * bool)) (s : S) : sent :=
  match impl with Some (calls, own) => send_current_state s calls own | None => mk_sent s 0 false end.
End Send.
Arguments mk_sent {S}. Arguments final {S}. Arguments handled {S}. Arguments thrown {S}.

Inductive answer (A : Type) := Answer (a : A) | Raised.
Arguments Answer {A}. Arguments Raised {A}.

Section Obtain.
Variable A : Type.
Variable returns : bool.
(* ValueFromSignalObtainer.h 189-193, 121-125 (with A a tuple), 233-237 (with A = unit) *)
Definition value_slot (s : option A) (a : A) : option A * bool :=
  match s with Some _ => (s, true) | None => (Some a, false) end.
Variable W : Type.
Variable wrap : A -> W.
Variable null : W.
(* 254-262 GetValueFromSignal, 156-162 GetTupleFromSignal *)
Definition get_value (impl : option (list A * bool)) : answer W :=
  let r := connector_send _ _ value_slot returns impl None in
  if thrown r then Raised else Answer (match final r with Some v => wrap v | None => null end).
(* 265-271, 274-279 HasValueInSignal, 165-171 HasTupleInSignal *)
Definition has_value (impl : option (list A * bool)) : answer bool :=
  let r := connector_send _ _ value_slot returns impl None in
  if thrown r then Raised else Answer (match final r with Some _ => true | None => false end).

(* 41 and 44-48: the two calls of ValuesFromSignalCollector's Invoker *)
Definition collect_slot (s : list A) (a : A) : list A * bool := (s ++ [a], false).
Definition collect_op_slot (s : list A) (a : cop * A) : list A * bool :=
  match fst a with OpAdded => (s ++ [snd a], false) | _ => (s, true) end.
(* 75-81, 84-90 GetValuesFromSignal *)
Definition get_values (impl : option (list A * bool)) : answer (list A) :=
  let r := connector_send _ _ collect_slot returns impl [] in if thrown r then Raised else Answer (final r).
Definition get_op_values (impl : option (list (cop * A) * bool)) : answer (list A) :=
  let r := connector_send _ _ collect_op_slot returns impl [] in if thrown r then Raised else Answer (final r).
End Obtain.

(** * A function called in an executor, with a future for its result *)
Section Async.
Variables V E : Type.
(* what a call of the user's function does: it returns, throws a std::exception, or throws something else *)
Inductive called := Returned (v : V) | Threw (e : E) | ThrewOther.
(* the shared state of the promise (future.h 60-109) *)
Inductive outcome := Val (v : V) | Exc (e : E) | Broken.
Inductive caller := CStart | CMade | CAdded | CDone.

Record ast := mk_ast {
  result : option outcome;      (* _futureImpl's result *)
  caller_at : caller;           (* DoAddTask 90-96; it holds the promise from CMade to CDone *)
  retrieved : bool;             (* _futureRetrieved, future.h 302-303 *)
  copies : nat;                 (* FuncWrapper objects: the executor copies its tasks (ThreadTaskExecutor.cpp 70) *)
  running : nat;                (* calls of FuncWrapper under way *)
  calls : list called;          (* what the calls of the function did, in the order they ended *)
  escaped : nat                 (* exceptions that left FuncWrapper *)
}.
Definition ainit : ast := mk_ast None CStart false 0 0 [] 0.

Inductive alab := AMake | AAdd | AGet | ACopy | ADrop | ABegin | AEnd (o : called).

(* future.h 296-297: the last holder of the promise goes *)
Definition release (s : ast) : ast :=
  match copies s, caller_at s with
  | 0, CDone => mk_ast (match result s with None => Some Broken | r => r end) (caller_at s) (retrieved s) (copies s) (running s) (calls s) (escaped s)
  | _, _ => s
  end.
Definition holds_task (s : ast) : bool := running s <? copies s.

Definition astep (s : ast) (l : alab) : option ast :=
  match l with
  | AMake => match caller_at s with CStart => Some (mk_ast None CMade false 0 0 [] 0) | _ => None end    (* 93 *)
  | AAdd => match caller_at s with CMade => Some (mk_ast (result s) CAdded (retrieved s) 1 0 (calls s) (escaped s)) | _ => None end  (* 94 *)
  | AGet => match caller_at s with                                                                        (* 95 *)
            | CAdded => if retrieved s then None
                        else Some (release (mk_ast (result s) CDone true (copies s) (running s) (calls s) (escaped s)))
            | _ => None end
  (* the executor copies and drops the task as it likes, and calls it when it likes; a copy that is being called stays *)
  | ACopy => if 0 <? copies s then Some (mk_ast (result s) (caller_at s) (retrieved s) (copies s + 1) (running s) (calls s) (escaped s)) else None
  | ADrop => if holds_task s then Some (release (mk_ast (result s) (caller_at s) (retrieved s) (copies s - 1) (running s) (calls s) (escaped s))) else None
  | ABegin => if holds_task s then Some (mk_ast (result s) (caller_at s) (retrieved s) (copies s) (running s + 1) (calls s) (escaped s)) else None
  | AEnd o =>                                                                                             (* 49-55 *)
      if 0 <? running s then
        Some (match o with
        | Returned v =>                       (* set_value (future.h 171-177) throws PromiseAlreadySatisfied if it is set; that is
                                                 caught and set_exception (137-145) does nothing *)
            mk_ast (match result s with None => Some (Val v) | r => r end) (caller_at s) (retrieved s) (copies s) (running s - 1) (calls s ++ [o]) (escaped s)
        | Threw e =>
            mk_ast (match result s with None => Some (Exc e) | r => r end) (caller_at s) (retrieved s) (copies s) (running s - 1) (calls s ++ [o]) (escaped s)
        | ThrewOther => mk_ast (result s) (caller_at s) (retrieved s) (copies s) (running s - 1) (calls s ++ [o]) (escaped s + 1)
        end)
      else None
  end.
End Async.
Arguments Returned {V E}. Arguments Threw {V E}. Arguments ThrewOther {V E}.
Arguments Val {V E}. Arguments Exc {V E}. Arguments Broken {V E}.
Arguments mk_ast {V E}. Arguments result {V E}. Arguments caller_at {V E}. Arguments retrieved {V E}. Arguments copies {V E}.
Arguments running {V E}. Arguments calls {V E}. Arguments escaped {V E}.
Arguments AMake {V E}. Arguments AAdd {V E}. Arguments AGet {V E}. Arguments ACopy {V E}. Arguments ADrop {V E}. Arguments ABegin {V E}. Arguments AEnd {V E}.
Arguments release {V E}. Arguments holds_task {V E}.

(** * A future for the first value of a signal *)
Section ToFuture.
Variable V : Type.
Inductive phase := Building | Alive | Releasing | Disconnected | Gone.
Record wst := mk_wst {
  wresult : option (option V);   (* None: not set; Some None: BrokenPromise *)
  wphase : phase;
  entered : list V;              (* slots under way: their execution guard (signals.h 87-88) let them in, set_value not yet called *)
  leaving : nat;                 (* slots that have called set_value and still hold the guard *)
  wsets : list V;                (* values for which set_value was called, in that order *)
  whandled : nat;                (* exceptions given to the signal's handler *)
  wtaken : bool;                 (* _future.valid() *)
  wretrieved : bool;             (* the promise's _futureRetrieved *)
  wrefused : bool;               (* GetFuture threw FutureAlreadyRetrieved *)
  dangling : bool                (* the promise was used after its destruction *)
}.
Definition winit : wst := mk_wst None Building [] 0 [] 0 false false false false.
Inductive wlab := WPopulate (v : V) | WConnected | WEnter (v : V) | WSet (i : nat) | WLeave | WGetFuture | WRelease | WDisconnected | WDestroy.

Definition after_destroy (p : phase) : bool := match p with Gone => true | _ => false end.
(* the slot Bind(&promise::set_value, wrap_ref(_promise), _1) (SignalToFuture.h 32, 54; future.h 171-177), called with v *)
Definition do_set (s : wst) (v : V) (rest : list V) (lv : nat) : wst :=
  mk_wst (match wresult s with None => Some (Some v) | r => r end) (wphase s) rest lv (wsets s ++ [v])
    (match wresult s with None => whandled s | Some _ => whandled s + 1 end) (wtaken s) (wretrieved s) (wrefused s) (dangling s || after_destroy (wphase s)).

Definition wstep (s : wst) (l : wlab) : option wst :=
  match l with
  (* the constructor: Connect with sendCurrentState (signals.h 141-148), then the token is there *)
  | WPopulate v => match wphase s with Building => Some (do_set s v (entered s) (leaving s)) | _ => None end
  | WConnected => match wphase s with
      | Building => Some (mk_wst (wresult s) Alive (entered s) (leaving s) (wsets s) (whandled s) (wtaken s) (wretrieved s) (wrefused s) (dangling s)) | _ => None end
  (* the signal is invoked: the slot is entered unless the token is being released *)
  | WEnter v => match wphase s with
      | Alive => Some (mk_wst (wresult s) (wphase s) (entered s ++ [v]) (leaving s) (wsets s) (whandled s) (wtaken s) (wretrieved s) (wrefused s) (dangling s))
      | _ => Some s end
  | WSet i => match nth_error (entered s) i with
      | Some v => Some (do_set s v (firstn i (entered s) ++ skipn (S i) (entered s)) (leaving s + 1)) | None => None end
  | WLeave => if 0 <? leaving s then
      Some (mk_wst (wresult s) (wphase s) (entered s) (leaving s - 1) (wsets s) (whandled s) (wtaken s) (wretrieved s) (wrefused s) (dangling s)) else None
  (* 34-39, 56-61 *)
  | WGetFuture => match wphase s with
      | Alive => Some (if wtaken s then s
          else if wretrieved s then mk_wst (wresult s) (wphase s) (entered s) (leaving s) (wsets s) (whandled s) (wtaken s) (wretrieved s) true (dangling s)
          else mk_wst (wresult s) (wphase s) (entered s) (leaving s) (wsets s) (whandled s) true true (wrefused s) (dangling s))
      | _ => None end
  (* the destructor: members go in reverse order: _connection (27; signals.h 130-134: Release waits for the slots under way),
     _future, _promise *)
  | WRelease => match wphase s with
      | Alive => Some (mk_wst (wresult s) Releasing (entered s) (leaving s) (wsets s) (whandled s) (wtaken s) (wretrieved s) (wrefused s) (dangling s)) | _ => None end
  | WDisconnected => match wphase s, entered s, leaving s with
      | Releasing, [], 0 => Some (mk_wst (wresult s) Disconnected [] 0 (wsets s) (whandled s) (wtaken s) (wretrieved s) (wrefused s) (dangling s)) | _, _, _ => None end
  | WDestroy => match wphase s with
      | Disconnected => Some (mk_wst (match wresult s with None => Some None | r => r end) Gone (entered s) (leaving s) (wsets s) (whandled s) (wtaken s) (wretrieved s) (wrefused s) (dangling s)) | _ => None end
  end.
End ToFuture.
Arguments mk_wst {V}. Arguments wresult {V}. Arguments wphase {V}. Arguments entered {V}. Arguments leaving {V}. Arguments wsets {V}.
Arguments whandled {V}. Arguments wtaken {V}. Arguments wretrieved {V}. Arguments wrefused {V}. Arguments dangling {V}.
Arguments WPopulate {V}. Arguments WConnected {V}. Arguments WEnter {V}. Arguments WSet {V}. Arguments WLeave {V}. Arguments WGetFuture {V}.
Arguments WRelease {V}. Arguments WDisconnected {V}. Arguments WDestroy {V}.
