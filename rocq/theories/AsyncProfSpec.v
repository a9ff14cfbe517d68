(* The watchdog of sessions, in terms of what was observed. *)
From Coq Require Import List Bool ZArith.
From Verif Require Import AsyncProfModel.
Import ListNotations.
Local Open Scope Z_scope.

Section Spec.
Variable timeout : Z.
(* When a session that is still running should next be found overdue: a timeout after it was listed or last found overdue.
   None: it has not started or has ended. *)
Definition next_due (s : nat) (o : option Z) (e : event) : option Z :=
  match e with
  | Started s' _ l => if Nat.eqb s' s then Some (l + timeout) else o
  | Ended s' => if Nat.eqb s' s then None else o
  | Sampled s' _ u _ => if Nat.eqb s' s then Some (u + timeout) else o
  | Reported _ _ => o
  end.
Definition due_of (h : list event) (s : nat) : option Z := fold_left (next_due s) h None.
Definition running (h : list event) (s : nat) : Prop := due_of h s <> None.
End Spec.

(* the sessions that were found overdue with their running times, and those reported *)
Fixpoint samples (h : list event) : list (nat * Z) :=
  match h with [] => [] | Sampled s _ _ e :: r => (s, e) :: samples r | _ :: r => samples r end.
Fixpoint reports (h : list event) : list (nat * Z) :=
  match h with [] => [] | Reported s e :: r => (s, e) :: reports r | _ :: r => reports r end.
Definition started (h : list event) : nat := length (filter (fun e => match e with Started _ _ _ => true | _ => false end) h).

(* the steps of the profiler's own thread *)
Definition of_thread (a : label) : Prop := match a with Wake | Check _ | Report => True | _ => False end.
(* by how much the thread overslept already when it went to sleep: the time between its two readings of the clock *)
Definition slack (w : thread) : Z := match w with Asleep r e _ => e - r | _ => 0 end.
Definition asleep (w : thread) : Prop := match w with Idle | Asleep _ _ _ => True | _ => False end.
