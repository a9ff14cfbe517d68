(** * What a user expects of token pools *)
From Coq Require Import List Arith Bool.
From Verif Require Import PoolModel.
Import ListNotations.

Inductive reach (ps : list (list op)) : state -> Prop :=
  | reach_init : reach ps (initial ps)
  | reach_step s t s' : reach ps s -> step s t s' -> reach ps s'.
(** n steps of any threads *)
Inductive runs : nat -> state -> state -> Prop :=
  | runs_0 s : runs 0 s s
  | runs_S n s t s1 s2 : step s t s1 -> runs n s1 s2 -> runs (S n) s s2.

(** the tokens a thread is about to destroy *)
Definition dropping (l : list micro) : list nat := flat_map (fun m => match m with MClean k => [tid k] | _ => [] end) l.
Definition held (s : state) : list nat := map (fun e => tid (snd e)) (store s).
Definition being_dropped (s : state) : list nat := flat_map dropping (threads s).
Definition tokens_at (s : state) (p k : nat) : list nat := map (fun e => tid (snd e)) (filter (fun e => (fst (fst e) =? p) && (snd (fst e) =? k)) (store s)).
Definition tokens_of (s : state) (p : nat) : list nat := map (fun e => tid (snd e)) (filter (fun e => fst (fst e) =? p) (store s)).
(** the tokens a call is to release *)
Definition to_release (s : state) (o : op) : list nat :=
  match o with Release p k => tokens_at s p k | ReleaseAll p | Replace p _ _ => tokens_of s p | _ => [] end.

(** steps during which thread t has not finished what is above r on its stack *)
Inductive during (t : nat) (r : list micro) : state -> state -> Prop :=
  | during_0 s : during t r s s
  | during_S s u s1 s2 : step s u s1 -> (exists y, nth_error (threads s1) t = Some (y ++ r)) -> during t r s1 s2 -> during t r s s2.
