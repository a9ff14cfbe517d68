(** * What a user expects of counting pointers *)
From Coq Require Import List Arith Bool ZArith.
From Verif Require Import CountModel.
Import ListNotations.

(** how often o is in a list of pointers *)
Definition refs (o : obj) (l : list ptr) : nat := length (filter (fun p => match p with Some q => Nat.eqb o q | None => false end) l).

(** the pointers in a thread's temporaries *)
Definition held_by (m : micro) : list ptr := match m with MSet _ p => [p] | MDec o => [Some o] | _ => [] end.

(** the pointers to o that exist: in variables, in temporaries, in members of objects *)
Definition owners (s : state) (o : obj) : nat :=
  list_sum (map (fun th => refs o (vars th) + refs o (flat_map held_by (todo th))) (threads s)) +
  list_sum (map (fun x => refs o (members x)) (heap s)).

(** every operation but the one that adopts an owned raw pointer *)
Definition legal (c : op) : Prop := match c with ResetRaw _ => False | _ => True end.

(** the states of all programs, with their threads interleaved in any way *)
Inductive reach (ns : list nat) : state -> Prop :=
  | reach_init : reach ns (initial ns)
  | reach_start s t c s' : reach ns s -> legal c -> start s t c = Some s' -> reach ns s'
  | reach_micro s t s' : reach ns s -> micro_step s t = Some s' -> reach ns s'.

Definition exists_object (s : state) (o : obj) : Prop := o < length (heap s).
Definition is_alive (s : state) (o : obj) : Prop := alive (the s o) = true.
(** no operation is under way *)
Definition quiet (s : state) : Prop := forall th, In th (threads s) -> todo th = [].
Definition is_var (s : state) (t i : nat) (o : obj) : Prop := exists th, nth_error (threads s) t = Some th /\ var th i = Some o.
(** o can be reached from a variable *)
Inductive accessible (s : state) : obj -> Prop :=
  | acc_var t i o : is_var s t i o -> accessible s o
  | acc_member p o : accessible s p -> In (Some o) (members (the s p)) -> accessible s o.
(** the objects' pointers form no cycle *)
Definition acyclic (s : state) : Prop := exists rank : obj -> nat, forall p o, In (Some o) (members (the s p)) -> rank o < rank p.

(** n atomic steps, by any threads, of operations already begun *)
Inductive runs : nat -> state -> state -> Prop :=
  | runs_0 s : runs 0 s s
  | runs_S n s t s1 s2 : micro_step s t = Some s1 -> runs n s1 s2 -> runs (S n) s s2.
