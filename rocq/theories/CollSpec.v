(** What maps, sets, multimaps and multisets over a strict weak order are. *)
From Verif Require Import Base.

Definition swo {K} (lt : K -> K -> bool) : Prop :=
  (forall a, lt a a = false) /\ (forall a b c, lt a b = true -> lt b c = true -> lt a c = true) /\
  (forall a b c, lt a c = true -> lt a b = true \/ lt b c = true).
Definition eqv {K} (lt : K -> K -> bool) (a b : K) : bool := negb (lt a b) && negb (lt b a).

Section spec.
  Variables K E : Type.
  Variable key : E -> K.
  Variable lt : K -> K -> bool.
  (** increasing, and nondecreasing *)
  Definition increasing (l : list E) : Prop := forall i j a b, i < j -> nth_error l i = Some a -> nth_error l j = Some b -> lt (key a) (key b) = true.
  Definition nondecreasing (l : list E) : Prop := forall i j a b, i < j -> nth_error l i = Some a -> nth_error l j = Some b -> lt (key b) (key a) = false.
  (** the elements with a key, in order; the first one *)
  Definition class (l : list E) (k : K) : list E := filter (fun e => eqv lt (key e) k) l.
  Definition lookup (l : list E) (k : K) : option E := hd_error (class l k).
  (** what is at a key or behind it, before it or at it *)
  Definition from (l : list E) (k : K) : list E := filter (fun e => negb (lt (key e) k)) l.
  Definition upto (l : list E) (k : K) : list E := filter (fun e => negb (lt k (key e))) l.
End spec.
(** the value semantics of the operations on a collection *)
Definition plain_change {C} (f : C -> option C) (c : C) : C := match f c with Some c' => c' | None => c end.
