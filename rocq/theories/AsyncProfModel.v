(* Model of diagnostics/AsyncProfiler.h and .cpp: the list of running sessions, the thread that reports those that run for too
   long, and the constructor and destructor of a session, as a transition system. Clock readings are on one monotone clock. *)
From Coq Require Import List Bool ZArith.
From Verif Require Import Conc.
Import ListNotations.
Local Open Scope Z_scope.

(* What can be observed, in the order in which it happened *)
Inductive event :=
| Started (s : nat) (born listed : Z)        (* a session's constructor: its clock reading for _startTime, and the one in AddSession *)
| Ended (s : nat)                            (* its destructor's RemoveSession *)
| Sampled (s : nat) (at_ until elapsed : Z)  (* the thread found s overdue at at_, and let it wait again at the reading until *)
| Reported (s : nat) (elapsed : Z).          (* the line in the log *)

(* AsyncProfiler.h 50-61: SessionImpl; bad: its name is made by a function that throws (63-68) *)
Record entry := mk_entry { sid : nat; born : Z; due : Z; bad : bool }.

Inductive thread :=
| Ready                                (* about to take the mutex and run one iteration of the loop *)
| Idle                                 (* Wait(_mutex, token), AsyncProfiler.cpp 96 *)
| Asleep (read entered wake : Z)       (* Wait(_mutex, TimedCancellationToken(...)), 105: when the clock was read for timeNow and
                                          again by the token (TimedCancellationToken.cpp 23-27), and when the token expires *)
| Woken                                (* the condition was broadcast, or the wait was cancelled *)
| Reporting (s : nat) (elapsed : Z)    (* 119-120, without the mutex *)
| Died                                 (* an exception left ThreadFunc *)
| Finished.                            (* ThreadFunc returned *)

Record st := mk_st {
  clock : Z;
  sessions : list entry;      (* _sessions *)
  next : nat;                 (* the number of sessions constructed so far *)
  thr : thread;
  stopping : bool;            (* the destructor of the profiler is joining the thread *)
  hist : list event
}.
Definition init (t : Z) : st := mk_st t [] 0 Ready false [].

Inductive label :=
| Tick (t : Z)                      (* the clock shows t *)
| Begin (b : Z) (throwing : bool)   (* Session::Session, whose reading of _startTime was b *)
| End (s : nat)                     (* Session::~Session *)
| Stop                              (* ~AsyncProfiler: possible when no session is left, as each holds the profiler (h 97) *)
| Wake                              (* Wait returns as it was notified, or its token has expired or is cancelled *)
| Spurious                          (* Wait returns for no reason *)
| Check (t : Z)                     (* an iteration of ThreadFunc's loop, up to the next wait or unlock; t: its second clock reading *)
| Report.                           (* cpp 120 *)

(* ConditionVariable::Broadcast *)
Definition broadcast (w : thread) : thread := match w with Idle | Asleep _ _ _ => Woken | _ => w end.
(* IntrusiveList::erase of that session *)
Fixpoint erase (s : nat) (l : list entry) : list entry :=
  match l with [] => [] | x :: r => if Nat.eqb (sid x) s then r else x :: erase s r end.
Definition is_first (s : nat) (l : list entry) : bool := match l with x :: _ => Nat.eqb (sid x) s | [] => false end.
Fixpoint listed (s : nat) (l : list entry) : bool := match l with [] => false | x :: r => Nat.eqb (sid x) s || listed s r end.

Section Step.
Variable timeout : Z.      (* _timeout: 30 s, cpp 84 *)
Definition step (m : st) (a : label) : option st :=
  match a with
  | Tick t => if clock m <=? t then Some (mk_st t (sessions m) (next m) (thr m) (stopping m) (hist m)) else None
  | Begin b throwing =>                                                  (* cpp 26-37, 125-132 *)
      if (b <=? clock m) && negb (stopping m) then
        let l := sessions m ++ [mk_entry (next m) b (clock m + timeout) throwing] in
        Some (mk_st (clock m) l (S (next m)) (if is_first (next m) l then broadcast (thr m) else thr m) (stopping m)
                    (hist m ++ [Started (next m) b (clock m)]))
      else None
  | End s =>                                                             (* cpp 68, 135-141 *)
      if listed s (sessions m) then
        Some (mk_st (clock m) (erase s (sessions m)) (next m) (if is_first s (sessions m) then broadcast (thr m) else thr m)
                    (stopping m) (hist m ++ [Ended s]))
      else None
  | Stop => match sessions m with
            | [] => Some (mk_st (clock m) [] (next m) (thr m) true (hist m))
            | _ => None end
  | Wake => match thr m with
            | Woken => Some (mk_st (clock m) (sessions m) (next m) Ready (stopping m) (hist m))
            | Asleep _ _ w => if w <=? clock m then Some (mk_st (clock m) (sessions m) (next m) Ready (stopping m) (hist m)) else None
            | Idle => if stopping m then Some (mk_st (clock m) (sessions m) (next m) Ready (stopping m) (hist m)) else None
            | _ => None end
  | Spurious => match thr m with
            | Idle | Asleep _ _ _ => Some (mk_st (clock m) (sessions m) (next m) Ready (stopping m) (hist m))
            | _ => None end
  | Check t =>                                                           (* cpp 92-119 *)
      match thr m with
      | Ready =>
        if clock m <=? t then
          if stopping m then Some (mk_st (clock m) (sessions m) (next m) Finished (stopping m) (hist m))      (* 92 *)
          else match sessions m with
          | [] => Some (mk_st (clock m) [] (next m) Idle (stopping m) (hist m))                               (* 94-98 *)
          | x :: r =>
            if clock m <? due x then                                                                          (* 103-107 *)
              Some (mk_st t (x :: r) (next m) (Asleep (clock m) t (t + (due x - clock m))) (stopping m) (hist m))
            else                                                                                              (* 109-119 *)
              let l := r ++ [mk_entry (sid x) (born x) (t + timeout) (bad x)] in
              if bad x then Some (mk_st t l (next m) Died (stopping m) (hist m ++ [Sampled (sid x) (clock m) t (clock m - born x)]))
              else Some (mk_st t l (next m) (Reporting (sid x) (clock m - born x)) (stopping m)
                               (hist m ++ [Sampled (sid x) (clock m) t (clock m - born x)]))
          end
        else None
      | _ => None end
  | Report => match thr m with
      | Reporting s e => Some (mk_st (clock m) (sessions m) (next m) Ready (stopping m) (hist m ++ [Reported s e]))
      | _ => None end
  end.
End Step.
