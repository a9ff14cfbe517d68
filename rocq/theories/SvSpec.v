(** What the searches and comparisons of strings mean. *)
From Verif Require Import Base SvModel.

(** v stands in d at position i. *)
Definition occurs (d v : view) (i : nat) : Prop := exists a b, d = a ++ v ++ b /\ length a = i.
(** the character at i is one of v / none of v *)
Definition one_of (d v : view) (i : nat) : Prop := exists c, nth_error d i = Some c /\ In c v.
Definition none_of (d v : view) (i : nat) : Prop := exists c, nth_error d i = Some c /\ ~ In c v.

(** The least position from pos on, the greatest up to the limit: what a search returns. *)
Definition least (P : nat -> Prop) (pos : nat) (r : fres) : Prop :=
  match r with
  | Found i => (pos <= i)%nat /\ P i /\ (forall j, (pos <= j < i)%nat -> ~ P j)
  | Npos => forall j, (pos <= j)%nat -> ~ P j
  | Fault => False
  end.
Definition upto (pos : option nat) (i : nat) : Prop := match pos with Some p => (i <= p)%nat | None => True end.
Definition greatest (P : nat -> Prop) (pos : option nat) (r : fres) : Prop :=
  match r with
  | Found i => upto pos i /\ P i /\ (forall j, (i < j)%nat -> upto pos j -> ~ P j)
  | Npos => forall j, upto pos j -> ~ P j
  | Fault => False
  end.

(** Lexicographic order by character code. *)
Inductive lex_lt : view -> view -> Prop :=
| lex_nil y b : lex_lt [] (y :: b)
| lex_head x y a b : (x < y)%Z -> lex_lt (x :: a) (y :: b)
| lex_tail x a b : lex_lt a b -> lex_lt (x :: a) (x :: b).
