(** Occurrences of patterns in a text. *)
From Coq Require Import List Arith.
Import ListNotations.
Set Implicit Arguments.
Definition occurs (p text : list nat) (start : nat) : Prop := exists a b, text = a ++ p ++ b /\ length a = start.
(** the index is the last one under which this very pattern was added *)
Definition last_index (ps : list (list nat)) (i : nat) (p : list nat) : Prop :=
  nth_error ps i = Some p /\ forall j, i < j -> nth_error ps j <> Some p.
(** occurrences in the order the text is read: by end position, longer pattern first *)
Definition earlier (x y : list nat * nat * nat) : Prop :=
  let '(p, _, s) := x in let '(q, _, t) := y in
  s + length p < t + length q \/ (s + length p = t + length q /\ length q < length p).
