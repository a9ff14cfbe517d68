(** What it means that a range shows a list. *)
From Verif Require Import Base RgModel.

(** [P i s]: the range in state s stands at position i of the list l; position length l is the end. *)
Record forward {A} (o : rops A) (l : list A) (P : nat -> st o -> Prop) : Prop := {
  fw_bound : forall i s, P i s -> (i <= length l)%nat;
  fw_valid : forall i s, P i s -> valid o s = (i <? length l)%nat;
  fw_get : forall i s a, P i s -> nth_error l i = Some a -> exists s', get o s = (Some a, s') /\ P i s';
  fw_first : forall i s, P i s -> exists s', first o s = (true, s') /\ P 0%nat s';
  fw_next : forall i s, P i s -> (i < length l)%nat -> exists s', next o s = (true, s') /\ P (S i) s' }.
(** Also backwards from every element, to the last element, and equality is equality of positions. *)
Record bidirectional {A} (o : rops A) (l : list A) (P : nat -> st o -> Prop) : Prop := {
  bi_forward : forward o l P;
  bi_last : forall i s, P i s -> exists s', last o s = (true, s') /\ P (length l - 1)%nat s';
  bi_prev : forall i s, P i s -> (0 < i < length l)%nat -> exists s', prev o s = (true, s') /\ P (i - 1)%nat s';
  bi_equals : forall i j s t, P i s -> P j t -> equals o s t = (i =? j)%nat }.
(** Backwards from the end as well. *)
Definition back_from_end {A} (o : rops A) (l : list A) (P : nat -> st o -> Prop) : Prop :=
  forall s, P (length l) s -> l <> [] -> exists s', prev o s = (true, s') /\ P (length l - 1)%nat s'.
(** Steps out of the list and Get at the end throw and leave the position as it is. *)
Record strict {A} (o : rops A) (l : list A) (P : nat -> st o -> Prop) : Prop := {
  sr_next : forall s, P (length l) s -> exists s', next o s = (false, s') /\ P (length l) s';
  sr_prev : forall s, P 0%nat s -> exists s', prev o s = (false, s') /\ P 0%nat s';
  sr_get : forall s, P (length l) s -> exists s', get o s = (None, s') /\ P (length l) s' }.
(** Random access: the position is the position, and Move goes exactly as far as asked or throws. *)
Record random_access {A} (o : rops A) (m : mops o) (l : list A) (P : nat -> st o -> Prop) : Prop := {
  ra_position : forall i s, P i s -> position m s = Z.of_nat i;
  ra_size : forall i s, P i s -> size m s = Z.of_nat (length l);
  ra_move : forall i s d, P i s -> (0 <= Z.of_nat i + d <= Z.of_nat (length l))%Z ->
    exists s', move m d s = (true, s') /\ P (Z.to_nat (Z.of_nat i + d)) s';
  ra_refuse : forall i s d, P i s -> (- 2 ^ 31 <= d < 2 ^ 31)%Z -> ~ (0 <= Z.of_nat i + d <= Z.of_nat (length l))%Z ->
    exists s', move m d s = (false, s') /\ P i s' }.

(** Cutting a list into fragments of max elements; only the last may be shorter, none is empty. *)
Inductive chunks {A} (max : nat) : list A -> list (list A) -> Prop :=
| chunks_nil : chunks max [] []
| chunks_last l : l <> [] -> (length l <= max)%nat -> chunks max l [l]
| chunks_cons c l cs : length c = max -> l <> [] -> chunks max l cs -> chunks max (c ++ l) (c :: cs).

(** Pairs up to the end of the shorter list. *)
Fixpoint zip_with {A B C} (f : A -> B -> C) (l : list A) (m : list B) {struct l} : list C :=
  match l, m with
  | x :: l', y :: m' => f x y :: zip_with f l' m'
  | _, _ => []
  end.

(** The range in state s shows the list l and stands at position i of it: forwards; in both directions; also backwards from the end;
    also with every step out of the list refused; also with random access. *)
Definition shows_forward {A} (o : rops A) (l : list A) (i : nat) (s : st o) : Prop := exists P, P i s /\ forward o l P.
Definition shows {A} (o : rops A) (l : list A) (i : nat) (s : st o) : Prop := exists P, P i s /\ bidirectional o l P.
Definition shows_back {A} (o : rops A) (l : list A) (i : nat) (s : st o) : Prop := exists P, P i s /\ bidirectional o l P /\ back_from_end o l P.
Definition shows_strict {A} (o : rops A) (l : list A) (i : nat) (s : st o) : Prop :=
  exists P, P i s /\ bidirectional o l P /\ back_from_end o l P /\ strict o l P.
Definition shows_random {A} (o : rops A) (m : mops o) (l : list A) (i : nat) (s : st o) : Prop :=
  exists P, P i s /\ bidirectional o l P /\ back_from_end o l P /\ strict o l P /\ random_access o m l P.
