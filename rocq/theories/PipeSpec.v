(** Specification of data pipes. *)
From Coq Require Import List.
From Verif Require Import PipeModel.
Import ListNotations.

(** One stage makes ys, and the state s', of the sequence xs. *)
Inductive Makes {D S} (f : stage D S) : S -> list D -> list D -> S -> Prop :=
| M_nil : forall s, Makes f s [] [] s
| M_cons : forall s x xs ys s1 zs s2, step f s x = (ys, s1) -> Makes f s1 xs zs s2 ->
    Makes f s (x :: xs) (ys ++ zs) s2.

(** Each stage gets the whole sequence the one before makes. *)
Inductive Chain {D S} : list (stage D S) -> list S -> list D -> list D -> list S -> Prop :=
| Ch_nil : forall xs, Chain [] [] xs xs []
| Ch_cons : forall f fs s ss xs ys s' zs ss', Makes f s xs ys s' -> Chain fs ss ys zs ss' ->
    Chain (f :: fs) (s :: ss) xs zs (s' :: ss').
