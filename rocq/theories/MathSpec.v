(** What alignment, powers, rounding, ranges and bits mean. *)
From Verif Require Import Base ITextModel MathModel.
Local Open Scope Z_scope.

Definition multiple_of (b m : Z) : Prop := exists k, m = k * b.
(** m is the least multiple of b that is not less than v / the greatest one not greater than v. *)
Definition least_multiple (b v m : Z) : Prop := multiple_of b m /\ v <= m /\ (forall x, multiple_of b x -> v <= x -> m <= x).
Definition greatest_multiple (b v m : Z) : Prop := multiple_of b m /\ m <= v /\ (forall x, multiple_of b x -> x <= v -> x <= m).

(** The number a fraction_info stands for, in units of radix^-p for p not less than its precision. *)
Definition stands_for (radix : Z) (i : fraction_info) (p : nat) : Z :=
  (if f_overflow i then radix ^ Z.of_nat p else 0) + f_fraction i * radix ^ Z.of_nat (p - f_precision i).
(** It is a fraction: less than one, and its precision is at most p. *)
Definition proper (radix : Z) (i : fraction_info) (p : nat) : Prop :=
  (f_precision i <= p)%nat /\ 0 <= f_fraction i < radix ^ Z.of_nat (f_precision i).
(** Dropping k digits rounds up from this remainder on: 5, 45, 445, ... in radix 10. *)
Fixpoint round_up_from (k : nat) (radix : Z) : Z :=
  match k with
  | O => 1
  | S k' => (radix / 2 + radix mod 2 - 1) * radix ^ Z.of_nat k' + round_up_from k' radix
  end.

(** The points of a range: closed, and empty if both ends are equal. *)
Definition inside (r : nrange) (t : Z) : Prop := n_start r < n_end r /\ n_start r <= t <= n_end r.
Definition valid (r : nrange) : Prop := n_start r <= n_end r.

(** The bits of a field, most significant first, and the number a bit string stands for. *)
Definition field_bits (f : Z) (n : nat) : list bool := map (fun i => Z.testbit f (Z.of_nat i)) (rev (seq 0 n)).
Definition bits_number (l : list bool) : Z := fold_left (fun a (b : bool) => 2 * a + (if b then 1 else 0)) l 0.
