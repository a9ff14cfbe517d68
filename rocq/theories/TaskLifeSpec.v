(** Vocabulary for C19. *)
From Coq Require Import List Arith.
From Verif Require Import Conc TaskLifeModel.
Import ListNotations.

(** [a]: whether the token was created alive *)
Definition reachable (a : bool) (s : st) : Prop := exists ls, steps step (init a) ls s.
(** thread t is executing a guarded task of the token *)
Definition running (s : st) (t : nat) : Prop := In Running (stack s t).
(** event e is in the history and [before] is what had happened by then *)
Definition happened (h : list event) (e : event) (before : list event) : Prop :=
  exists after, h = after ++ e :: before.
