(** A threadsafe signal: stingraykit/signal/signals.h (SignalImplBase<true>, SignalImpl::InvokeAll,
    signal_locker) with the TaskLifeToken of every synchronous connection
    (thread/TaskLifeToken.cpp:25-55).

    Any number of threads, each with a stack of frames: a slot may itself emit, connect, disconnect
    (including its own connection) or take a signal_locker.  The signal's mutex and the tokens' mutexes
    are recursive (thread/posix/PosixThreadEngine.cpp:259).

    Simplifications: one signal; the populator sends the elements of a state [hist] which the user
    only extends under a signal_locker together with an emission (the usage documented in
    signals.h:424-461), and it reads that state when connect starts; a slot returns or throws a
    std::exception (which InvokeAll and DoSendCurrentState swallow, lines 60-64, 255, 266-267), it
    never throws anything else; LocalHandlersCopy/IntrusiveList are lists; the connection's handler
    object outlives the copies made of it (copies share the token by counted pointer). *)
From Coq Require Import List Arith Bool.
From Verif Require Import Conc SignalSpec.
Import ListNotations.
Set Implicit Arguments.

Section Signal.
Variable A : Type.

Inductive frame :=
| FLock                                   (* a live signal_locker, lines 274-286 *)
| FEmit (e : nat) (a : A) (rem : list nat)(* InvokeAll, the rest of localCopy, lines 254-255 *)
| FSlot (c : nat)                         (* the slot inside CancellableStorage::Invoke, line 89 *)
| FConn (c : nat) (rem : list A)          (* Connect holding the mutex, lines 143-147; rem: still to be sent *)
| FPSlot (c : nat)                        (* the slot called by the populator, line 266 *)
| FDisc (c : nat).                        (* ~Connection between lines 132 and 133 *)

(** a recursive mutex: owner and count *)
Definition mutex := option (nat * nat).
Definition lock (m : mutex) (t : nat) : option mutex :=
  match m with None => Some (Some (t, 1)) | Some (u, n) => if u =? t then Some (Some (t, S n)) else None end.
Definition unlock (m : mutex) : mutex :=
  match m with Some (u, S (S n)) => Some (u, S n) | _ => None end.

Record st := mkS {
  handlers : list nat;             (* _handlers *)
  mu : mutex;                      (* the signal's mutex *)
  alive : nat -> bool;             (* _alive of the token of connection c *)
  tmu : nat -> mutex;              (* _sync of the token of connection c *)
  stk : nat -> list frame;         (* innermost first *)
  next : nat;                      (* connections created so far *)
  ems : nat;                       (* ghost: emissions so far *)
  hist : list A }.                 (* the user's state *)

Definition init : st := mkS [] None (fun _ => true) (fun _ => None) (fun _ => []) 0 0 [].

Inductive lab :=
| LLock (t : nat) | LUnlock (t : nat) | LEmit (t : nat) (a : A) | LAdd (t : nat) (a : A)
| LConnect (t : nat) (populate : bool) | LDisc (t c : nat) | LNext (t : nat) | LReturn (t : nat).

(** only user code calls the API *)
Definition user (l : list frame) : bool :=
  match l with [] | FLock :: _ | FSlot _ :: _ | FPSlot _ :: _ => true | _ => false end.
Definition in_slot (l : list frame) : bool :=
  existsb (fun f => match f with FSlot _ | FPSlot _ => true | _ => false end) l.

Definition push (s : st) (t : nat) (f : frame) : nat -> list frame := fupd (stk s) t (f :: stk s t).
Definition repl (s : st) (t : nat) (fs : list frame) : nat -> list frame := fupd (stk s) t (fs ++ tl (stk s t)).

Definition step (s : st) (l : lab) : option (st * obs A) :=
  match l with
  | LLock t =>                                                             (* 282-285 *)
      if user (stk s t) then
        match lock (mu s) t with
        | Some m => Some (mkS (handlers s) m (alive s) (tmu s) (push s t FLock) (next s) (ems s) (hist s), OLocked t)
        | None => None
        end
      else None
  | LUnlock t =>
      match stk s t with
      | FLock :: _ => Some (mkS (handlers s) (unlock (mu s)) (alive s) (tmu s) (repl s t []) (next s) (ems s) (hist s), OUnlocked t)
      | _ => None
      end
  | LEmit t a =>                                                           (* 248-252: localCopy under the mutex *)
      if user (stk s t) then
        match lock (mu s) t with
        | Some _ => Some (mkS (handlers s) (mu s) (alive s) (tmu s) (push s t (FEmit (ems s) a (handlers s))) (next s) (S (ems s)) (hist s),
                          OEmit t (ems s) a)
        | None => None
        end
      else None
  | LAdd t a =>                                                            (* the pattern of lines 436-441 *)
      match stk s t with
      | FLock :: _ =>
          Some (mkS (handlers s) (mu s) (alive s) (tmu s) (push s t (FEmit (ems s) a (handlers s))) (next s) (S (ems s)) (hist s ++ [a]),
                OAdd t (ems s) a (in_slot (stk s t)))
      | _ => None
      end
  | LConnect t p =>                                                        (* 143-145 *)
      if user (stk s t) then
        match lock (mu s) t with
        | Some m => Some (mkS (handlers s) m (alive s) (tmu s) (push s t (FConn (next s) (if p then hist s else []))) (S (next s)) (ems s) (hist s),
                          OConnecting t (next s) p)
        | None => None
        end
      else None
  | LDisc t c =>                                                           (* 132, 173-177 *)
      if user (stk s t) && existsb (Nat.eqb c) (handlers s) then
        match lock (mu s) t with
        | Some _ => Some (mkS (remove Nat.eq_dec c (handlers s)) (mu s) (alive s) (tmu s) (push s t (FDisc c)) (next s) (ems s) (hist s), ODisc t c)
        | None => None
        end
      else None
  | LNext t =>
      match stk s t with
      | FEmit e a (c :: rem) :: _ =>                                       (* 255, 87-89, TaskLifeToken.cpp:25-37 *)
          match lock (tmu s c) t with
          | None => None
          | Some m =>
              if alive s c
              then Some (mkS (handlers s) (mu s) (alive s) (fupd (tmu s) c m) (repl s t [FSlot c; FEmit e a rem]) (next s) (ems s) (hist s), OCall t e c a)
              else Some (mkS (handlers s) (mu s) (alive s) (tmu s) (repl s t [FEmit e a rem]) (next s) (ems s) (hist s), OSkip t e c)
          end
      | FEmit e a [] :: _ =>                                               (* 256 *)
          Some (mkS (handlers s) (mu s) (alive s) (tmu s) (repl s t []) (next s) (ems s) (hist s), OEmitted t e)
      | FConn c (a :: rem) :: _ =>                                         (* 266-267 *)
          Some (mkS (handlers s) (mu s) (alive s) (tmu s) (repl s t [FPSlot c; FConn c rem]) (next s) (ems s) (hist s), OPop t c a)
      | FConn c [] :: _ =>                                                 (* 147, 128, 167-171 *)
          Some (mkS (handlers s ++ [c]) (unlock (mu s)) (alive s) (tmu s) (repl s t []) (next s) (ems s) (hist s), OConnected t c)
      | FDisc c :: _ =>                                                    (* 133; TaskLifeToken.cpp:47-55 *)
          match lock (tmu s c) t with
          | None => None
          | Some _ => Some (mkS (handlers s) (mu s) (fupd (alive s) c false) (tmu s) (repl s t []) (next s) (ems s) (hist s), ODisconnected t c)
          end
      | _ => None
      end
  | LReturn t =>
      match stk s t with
      | FSlot c :: _ =>                                                    (* 90; TaskLifeToken.cpp:40-44 *)
          Some (mkS (handlers s) (mu s) (alive s) (fupd (tmu s) c (unlock (tmu s c))) (repl s t []) (next s) (ems s) (hist s), OReturn t c)
      | FPSlot c :: _ =>
          Some (mkS (handlers s) (mu s) (alive s) (tmu s) (repl s t []) (next s) (ems s) (hist s), OReturn t c)
      | _ => None
      end
  end.

(** every history of the signal: state and trace (newest last) *)
Inductive reach : st -> list (obs A) -> Prop :=
| reach_init : reach init []
| reach_step s tr l s' o : reach s tr -> step s l = Some (s', o) -> reach s' (tr ++ [o]).

Fixpoint execs (s : st) (ls : list lab) (tr : list (obs A)) : option (st * list (obs A)) :=
  match ls with
  | [] => Some (s, tr)
  | l :: ls => match step s l with Some (s', o) => execs s' ls (tr ++ [o]) | None => None end
  end.
End Signal.
Arguments LLock {A}. Arguments LUnlock {A}. Arguments LConnect {A}. Arguments LDisc {A}. Arguments LNext {A}. Arguments LReturn {A}.
Arguments FLock {A}. Arguments FSlot {A}. Arguments FPSlot {A}. Arguments FDisc {A}.
