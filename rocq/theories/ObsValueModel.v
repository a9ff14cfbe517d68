(* Model of ObservableValue (stingraykit/ObservableValue.h) over its signal (stingraykit/signal/signals.h).

   Simplifications, stated once:
   - every member function holds the mutex of the signal for its whole duration (ObservableValue.h 127, 136;
     signals.h 143, 152, 175) and calls its slots inside, so calls made by different threads do not overlap: a
     history is a sequence of calls.  The mutex is recursive, so a slot may itself call the same object: those
     nested calls ARE modelled, to any depth.
   - a slot is any program: on every call it makes an arbitrary finite sequence of calls on the same object
     (the rules below let the sequence be chosen freely) and then returns or throws a std::exception, which the
     exception handler of the signal swallows (signals.h 60-64, 255, 266-267).  Other exceptions are not modelled.
   - the type of the value, its comparer and the way ParamPassingType passes it (by value for built-in types,
     by const reference for the others, metaprogramming/ParamPassingType.h 16-38) are parameters.
   - slots connected through an executor (signals.h 373-383) are represented by the posting of their call. *)
From Coq Require Import List Bool Arith.
Import ListNotations.

Section M.
Variable T : Type.
Variable eqb : T -> T -> bool.           (* EqualsCmp, ObservableValue.h 79, 99 *)
Variable by_ref : bool.                  (* ParamPassingType is const T& (true) or T (false), IObservableValue.h 20-22 *)

(* ObservableValue.h 37-74: the population policies, ConditionalPopulation with its default value *)
Inductive policy := Mandatory | Conditional (dflt : T) | Disabled.

(* ObservableValue.h 50-51, 61-62, 72-73 *)
Definition need_populate (p : policy) (v : T) : bool :=
  match p with Mandatory => true | Conditional d => negb (eqb v d) | Disabled => false end.

Variable pol : policy.

(* the calls: Set (125-132), Get (134-138), OnChanged().connect(slot, sendCurrentState) (140-141, signals.h 361-371),
   destruction of the connection token (signals.h 130-134) *)
Inductive op := OSet (v : T) | OGet | OConnect (send : bool) | ODisconnect (c : nat).

(* what a user can see, in order; a connection is named by the number of the connect call that made it *)
Inductive ev :=
| ESet (v : T)                       (* Set(v) starts, with the mutex taken *)
| EGet (v : T)                       (* Get returns v *)
| ERecv (c : nat) (v : T)            (* the slot of connection c is called with v *)
| EConn (c : nat) (send : bool) (v : T)  (* connect returns the token of c; the value then is v *)
| EDisc (c : nat).                   (* the token of c has been destroyed *)

(* _val (98), the handlers of the signal in their order (signals.h 138), the next name, the events (newest first) *)
Record st := mk { val : T; conns : list nat; next : nat; log : list ev }.

Definition emit (e : ev) (s : st) : st := mk (val s) (conns s) (next s) (e :: log s).
Definition store (v : T) (s : st) : st := mk v (conns s) (next s) (log s).               (* ObservableValue.h 130 *)
Definition fresh (s : st) : st := mk (val s) (conns s) (S (next s)) (log s).
Definition add (c : nat) (s : st) : st := mk (val s) (conns s ++ [c]) (next s) (log s).  (* signals.h 167-171 *)
Definition del (c : nat) (s : st) : st :=                                                (* signals.h 173-177 *)
  mk (val s) (filter (fun x => negb (x =? c)) (conns s)) (next s) (log s).
Definition alive (c : nat) (s : st) : bool := existsb (Nat.eqb c) (conns s).

Definition init (v : T) : st := mk v [] 0 [].                                            (* 105-114 *)

(* what a slot may call while it is being told a change, and while it is being populated *)
Record discipline := { in_slot : op -> Prop; in_pop : op -> Prop }.
Variable D : discipline.

Inductive code := COp (o : op) | COps (l : list op) | CAll (hs : list nat) (arg : T).

Inductive run : st -> code -> st -> Prop :=
(* ObservableValue.h 127-129 *)
| r_set_same s v : eqb (val s) v = true -> run s (COp (OSet v)) (emit (ESet v) s)
(* 130-131, signals.h 246-256: the handlers are copied, then called one by one *)
| r_set s v s' : eqb (val s) v = false ->
    run (store v (emit (ESet v) s)) (CAll (conns s) v) s' -> run s (COp (OSet v)) s'
(* 136-137 *)
| r_get s : run s (COp OGet) (emit (EGet (val s)) s)
(* signals.h 141-148 without population *)
| r_conn_quiet s send : send && need_populate pol (val s) = false ->
    run s (COp (OConnect send)) (emit (EConn (next s) send (val s)) (add (next s) (fresh s)))
(* signals.h 144-145, 264-268, ObservableValue.h 147-148: the slot is called BEFORE it is added to the handlers *)
| r_conn_pop s send ops s1 : send && need_populate pol (val s) = true ->
    Forall (in_pop D) ops ->
    run (emit (ERecv (next s) (val s)) (fresh s)) (COps ops) s1 ->
    run s (COp (OConnect send)) (emit (EConn (next s) send (val s1)) (add (next s) s1))
(* signals.h 130-134 *)
| r_disc s c : alive c s = true -> run s (COp (ODisconnect c)) (emit (EDisc c) (del c s))
(* the body of a slot *)
| r_ops_nil s : run s (COps []) s
| r_ops_cons s o l s1 s2 : run s (COp o) s1 -> run s1 (COps l) s2 -> run s (COps (o :: l)) s2
(* signals.h 254-255 *)
| r_all_nil s a : run s (CAll [] a) s
(* signals.h 85-90: the guard refuses, the token was released meanwhile *)
| r_all_skip s c hs a s' : alive c s = false -> run s (CAll hs a) s' -> run s (CAll (c :: hs) a) s'
(* the slot is called; whether it returns or throws, the loop goes on *)
| r_all_call s c hs a ops s1 s' : alive c s = true ->
    Forall (in_slot D) ops ->
    run (emit (ERecv c (if by_ref then val s else a)) s) (COps ops) s1 ->
    run s1 (CAll hs a) s' -> run s (CAll (c :: hs) a) s'.

(* a whole history: the calls of all threads, one after another *)
Definition history (v0 : T) (ops : list op) (s : st) : Prop := run (init v0) (COps ops) s.

End M.

Arguments Mandatory {T}. Arguments Disabled {T}. Arguments Conditional {T} _.
Arguments OSet {T} _. Arguments OGet {T}. Arguments OConnect {T} _. Arguments ODisconnect {T} _.
Arguments ESet {T} _. Arguments EGet {T} _. Arguments ERecv {T} _ _. Arguments EConn {T} _ _ _. Arguments EDisc {T} _.
Arguments mk {T} _ _ _ _. Arguments val {T} _. Arguments conns {T} _. Arguments next {T} _. Arguments log {T} _.
Arguments in_slot {T} _ _. Arguments in_pop {T} _ _.
Arguments COp {T} _. Arguments COps {T} _. Arguments CAll {T} _ _.
