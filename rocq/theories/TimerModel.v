(** timer/Timer.cpp: one Timer with its worker thread (ThreadFunc), any number of
    client threads calling SetTimeout/SetTimer and resetting the returned tokens, also
    from inside tasks.

    Simplifications: a critical section under the queue mutex is one step; the
    TaskLifeToken of a callback is its verified behaviour (C19): alive / dead, and its
    mutex is held by the worker while the task runs.  _cond.Wait sleeps until
    Broadcast, its deadline, cancellation or a spurious wake-up.  TimeDuration is an
    unbounded integer; the clock (_monotonic.Elapsed()) never goes back.  AddTask
    (168-175) is SetTimeout 0 with a token that is never reset.  Not modelled: the
    profiler session (296-300), logging, exceptions thrown by _exceptionHandler.

    Ghosts: sequence numbers in queue entries (insertion order), [log] (newest first). *)
From Coq Require Import List Arith Bool ZArith.
From Verif Require Import Base Conc.
Import ListNotations.
Set Implicit Arguments.
Local Open Scope Z_scope.

(** CallbackInfo, lines 46-90; [queued] is _iterator, [alive] its TaskLifeToken *)
Record info := mk_info {
  due : Z;                  (* _timeToTrigger *)
  period : option Z;        (* _period *)
  erased : bool;            (* _erased *)
  queued : bool;            (* _iterator is set *)
  alive : bool;             (* _token *)
  pushed : bool;            (* ghost: the SetTimeout/SetTimer call got past its Push *)
  removed : bool }.         (* ghost: RemoveTask got past Erase *)
Definition no_info : info := mk_info 0 None false false false false false.

(** one entry of the multimap: key, insertion number, callback *)
Record entry := mk_entry { e_due : Z; e_seq : nat; e_id : nat }.

Inductive event :=
| ECreated (id : nat) (at_ timeout : Z) (p : option Z)   (* SetTimeout / SetTimer called at that clock *)
| EQueued (id : nat) (due : Z)      (* Push put id into the queue *)
| EPopped (id : nat) (at_ : Z)      (* the worker took it out at that clock *)
| EDispatch (id : nat) (at_ : Z)    (* the clock read at line 249 *)
| EStart (id : nat) (at_ : Z)       (* the task starts *)
| EFinish (id : nat)
| ERefused (id : nat)               (* its token was dead *)
| EReleased (inTask : bool) (id : nat). (* reset of the token returned; inTask: called from a task of this timer *)

Inductive wpc :=
| WLoop                              (* line 234, mutex held *)
| WSleep (deadline : option Z)       (* lines 238 / 266 *)
| WPopped (id : nat)                 (* line 247 *)
| WExec (id : nat) (start : Z)       (* line 251 -> 292 *)
| WRun (id : nat) (start : Z)        (* lines 299/302 *)
| WAfter (id : nat) (start : Z)      (* line 253 *)
| WDrain (limit : Z)                 (* line 271, mutex held *)
| WDrainExec (limit : Z) (id : nat)  (* line 282 -> 292 *)
| WDrainRun (limit : Z) (id : nat)
| WDone.

Record st := mk_st {
  now : Z;
  infos : nat -> info;
  next : nat;               (* ghost: callbacks created so far *)
  queue : list entry;       (* CallbackQueue::_container *)
  seq : nat;                (* ghost: next insertion number *)
  stop : bool;              (* the worker's cancellation token *)
  wp : wpc;
  log : list event }.

Definition init : st := mk_st 0 (fun _ => no_info) 0 [] 0 false WLoop [].

(** std::multimap::emplace: after all entries with a key not greater *)
Fixpoint insert (e : entry) (q : list entry) : list entry :=
  match q with
  | [] => [e]
  | x :: t => if e_due e <? e_due x then e :: q else x :: insert e t
  end.

(** Broadcast *)
Definition wake (w : wpc) : wpc := match w with WSleep _ => WLoop | w => w end.

Definition set_info (s : st) (id : nat) (i : info) : st :=
  mk_st (now s) (fupd (infos s) id i) (next s) (queue s) (seq s) (stop s) (wp s) (log s).
Definition set_wp (s : st) (w : wpc) : st :=
  mk_st (now s) (infos s) (next s) (queue s) (seq s) (stop s) w (log s).
Definition logged (s : st) (e : event) : st :=
  mk_st (now s) (infos s) (next s) (queue s) (seq s) (stop s) (wp s) (e :: log s).

(** CallbackQueue::Push, lines 101-106 *)
Definition push (s : st) (id : nat) : st :=
  let i := infos s id in
  if erased i then s
  else mk_st (now s) (fupd (infos s) id (mk_info (due i) (period i) (erased i) true (alive i) (pushed i) (removed i)))
             (next s) (insert (mk_entry (due i) (seq s) id) (queue s)) (S (seq s)) (stop s) (wp s) (EQueued id (due i) :: log s).

(** CallbackQueue::Erase, lines 109-119 *)
Definition erase (s : st) (id : nat) : st :=
  let i := infos s id in
  mk_st (now s) (fupd (infos s) id (mk_info (due i) (period i) true false (alive i) (pushed i) true))
        (next s)
        (if queued i then filter (fun e => negb (Nat.eqb (e_id e) id)) (queue s) else queue s)
        (seq s) (stop s) (wp s) (log s).

(** CallbackQueue::Pop, lines 122-133 *)
Definition pop (s : st) : option (nat * st) :=
  match queue s with
  | [] => None
  | e :: q =>
      let i := infos s (e_id e) in
      Some (e_id e, mk_st (now s) (fupd (infos s) (e_id e) (mk_info (due i) (period i) (erased i) false (alive i) (pushed i) (removed i)))
                          (next s) q (seq s) (stop s) (wp s) (EPopped (e_id e) (now s) :: log s))
  end.

(** TaskLifeToken::Release (TaskLifeToken.cpp:47-55), line 77 *)
Definition kill (s : st) (inTask : bool) (id : nat) : st :=
  let i := infos s id in
  logged (set_info s id (mk_info (due i) (period i) (erased i) (queued i) false (pushed i) (removed i))) (EReleased inTask id).

(** CallbackInfo::Restart, line 82 *)
Definition restart (s : st) (id : nat) (d : Z) : st :=
  let i := infos s id in
  set_info s id (mk_info d (period i) (erased i) (queued i) (alive i) (pushed i) (removed i)).

Definition running (w : wpc) : option nat :=
  match w with WRun id _ | WDrainRun _ id => Some id | _ => None end.

Inductive label :=
| Tick (d : nat)                             (* time passes *)
| Create (timeout : Z) (p : option Z)        (* lines 180 / 199 *)
| Insert (id : nat)                          (* lines 183-187 / 202-206 *)
| Remove (id : nat)                          (* RemoveTask, lines 214-217 *)
| Release (inTask : bool) (id : nat)         (* RemoveTask, line 218 *)
| Stop                                       (* ~Timer asks the worker to stop *)
| Wake                                       (* spurious wake-up of the worker *)
| Deadline                                   (* its timed wait expires *)
| W.                                         (* the worker's next step *)

Definition step (s : st) (l : label) : option st :=
  match l with
  | Tick d => Some (mk_st (now s + Z.of_nat d) (infos s) (next s) (queue s) (seq s) (stop s) (wp s) (log s))
  | Create timeout p =>
      Some (mk_st (now s) (fupd (infos s) (next s) (mk_info (now s + timeout) p false false true false false))
                  (S (next s)) (queue s) (seq s) (stop s) (wp s) (ECreated (next s) (now s) timeout p :: log s))
  | Insert id =>
      if (Nat.ltb id (next s)) && negb (pushed (infos s id))
      then
        let i := infos s id in
        let s1 := push (set_info s id (mk_info (due i) (period i) (erased i) (queued i) (alive i) true (removed i))) id in
        Some (set_wp s1 (wake (wp s1)))
      else None
  | Remove id =>
      if pushed (infos s id) && negb (removed (infos s id)) then Some (erase s id) else None
  | Release inTask id =>
      if removed (infos s id) && alive (infos s id)
      then match running (wp s) with
           | Some j => if inTask || negb (Nat.eqb j id) then Some (kill s inTask id) else None   (* Kill waits for the task *)
           | None => if inTask then None else Some (kill s inTask id)
           end
      else None
  | Stop => Some (mk_st (now s) (infos s) (next s) (queue s) (seq s) true (wake (wp s)) (log s))
  | Wake => match wp s with WSleep _ => Some (set_wp s WLoop) | _ => None end
  | Deadline => match wp s with
                | WSleep (Some d) => if d <=? now s then Some (set_wp s WLoop) else None
                | _ => None
                end
  | W =>
      match wp s with
      | WLoop =>
          if stop s then Some (set_wp s (WDrain (now s)))                 (* 234, 270 *)
          else match queue s with
               | [] => Some (set_wp s (WSleep None))                      (* 236-240 *)
               | e :: _ =>
                   if due (infos s (e_id e)) <=? now s                    (* 242-245 *)
                   then match pop s with
                        | Some (id, s1) => Some (set_wp s1 (WPopped id))
                        | None => None
                        end
                   else Some (set_wp s (WSleep (Some (due (infos s (e_id e))))))   (* 263-266 *)
               end
      | WPopped id => Some (logged (set_wp s (WExec id (now s))) (EDispatch id (now s)))   (* 249 *)
      | WExec id start =>                                                 (* 292-294 *)
          if alive (infos s id) then Some (logged (set_wp s (WRun id start)) (EStart id (now s)))
          else Some (logged (set_wp s (WAfter id start)) (ERefused id))
      | WRun id start => Some (logged (set_wp s (WAfter id start)) (EFinish id))
      | WAfter id start =>                                                (* 253-259 *)
          match period (infos s id) with
          | Some p => Some (set_wp (push (restart s id (start + p)) id) WLoop)
          | None => Some (set_wp s WLoop)
          end
      | WDrain limit =>                                                   (* 271-284 *)
          match queue s with
          | [] => Some (set_wp s WDone)
          | e :: _ =>
              if limit <? due (infos s (e_id e)) then Some (set_wp s WDone)
              else match pop s with
                   | Some (id, s1) => Some (set_wp s1 (WDrainExec limit id))
                   | None => None
                   end
          end
      | WDrainExec limit id =>
          if alive (infos s id) then Some (logged (set_wp s (WDrainRun limit id)) (EStart id (now s)))
          else Some (logged (set_wp s (WDrain limit)) (ERefused id))
      | WDrainRun limit id => Some (logged (set_wp s (WDrain limit)) (EFinish id))
      | WSleep _ | WDone => None
      end
  end.
