(* Threads, in terms of what was observed *)
From Coq Require Import List Bool Arith.
From Verif Require Import Conc ThreadModel.
Import ListNotations.

(* uses of a thread or of its object *)
Definition concerns (t : nat) (e : event) : Prop :=
  match e with
  | FuncBegan u | FuncEnded u | DtorBegan u _ | DtorReturned u | Touched u | Signalled u | Escaped u | JoinedSelf u | CtorReturned u => u = t
  end.
Definition begins (t : nat) (h : list event) : nat := length (filter (fun e => match e with FuncBegan u => Nat.eqb u t | _ => false end) h).
Definition ends (t : nat) (h : list event) : nat := length (filter (fun e => match e with FuncEnded u => Nat.eqb u t | _ => false end) h).

(* The thread at which the time of t is to be counted: the nearest ancestor that has not exited *)
Fixpoint nearest (fuel : nat) (par : nat -> option nat) (exited : nat -> bool) (t : nat) : option nat :=
  match fuel with
  | 0 => None
  | S f => match par t with
           | None => None
           | Some p => if exited p then nearest f par exited p else Some p
           end
  end.
Fixpoint sum (l : list nat) : nat := match l with [] => 0 | x :: r => x + sum r end.

(* the steps that the constructor and the destructor of t wait for, and their own *)
Definition makes (t : nat) (l : label) : Prop := l = Register t \/ l = Notify t \/ l = CtorReturn t.
Definition finishes (t : nat) (l : label) : Prop := l = Unguard t \/ l = Release t \/ l = Leave t \/ l = Join t.

(* every thread exits after the threads that it has made *)
Definition structured (ls : list slabel) : Prop :=
  forall pre t cpu post s, ls = pre ++ SExit t cpu :: post -> steps sstep sinit pre s -> forall c, parent s c = Some t -> over s c <> None.
