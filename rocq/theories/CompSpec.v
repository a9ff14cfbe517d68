(** * What it means for a comparison to be usable for sorting and for map keys *)

From Coq Require Import ZArith List Bool Arith.
Import ListNotations.
Local Open Scope Z_scope.

(** A three-way comparison that is a total preorder: exchanging the operands flips the sign, and
    "not greater" is transitive.  (Then [c x x = 0], and "equal" is an equivalence that everything
    else respects.) *)
Record three_way {A : Type} (c : A -> A -> Z) : Prop := {
  tw_flip : forall x y, Z.sgn (c x y) = - Z.sgn (c y x);
  tw_trans : forall x y z, c x y <= 0 -> c y z <= 0 -> c x z <= 0
}.

(** What std::sort, std::map, flat_map ... demand of a "less". *)
Record strict_weak {A : Type} (lt : A -> A -> bool) : Prop := {
  sw_irrefl : forall x, lt x x = false;
  sw_trans : forall x y z, lt x y = true -> lt y z = true -> lt x z = true;
  sw_incomp : forall x y z, lt x y = false -> lt y x = false -> lt y z = false -> lt z y = false ->
                            lt x z = false /\ lt z x = false
}.

Record equivalence {A : Type} (eq : A -> A -> bool) : Prop := {
  eqv_refl : forall x, eq x x = true;
  eqv_sym : forall x y, eq x y = true -> eq y x = true;
  eqv_trans : forall x y z, eq x y = true -> eq y z = true -> eq x z = true
}.

(** [eq] is exactly "neither is less". *)
Definition agrees {A : Type} (lt eq : A -> A -> bool) : Prop :=
  forall x y, eq x y = true <-> lt x y = false /\ lt y x = false.

(** Lexicographic order of two sequences of the same kind of things: there is a position up to which
    all pairs are equal and at which [l] has already ended or has the smaller thing. *)
Definition lex_less {A : Type} (item : A -> A -> Z) (l r : list A) : Prop :=
  exists n, (forall i x y, (i < n)%nat -> nth_error l i = Some x -> nth_error r i = Some y -> item x y = 0) /\
            (n <= length l)%nat /\ (n <= length r)%nat /\
            match nth_error l n, nth_error r n with
            | None, Some _ => True
            | Some x, Some y => item x y < 0
            | _, None => False
            end.
Definition lex_equal {A : Type} (item : A -> A -> Z) (l r : list A) : Prop :=
  Forall2 (fun x y => item x y = 0) l r.

(** Letters of both cases are the same letter: the 26 pairs, and nothing else. *)
Definition same_letter (a b : Z) : Prop :=
  a = b \/ (65 <= a <= 90 /\ b = a + 32) \/ (65 <= b <= 90 /\ a = b + 32).
