(** What a joined sequence is. *)
From Coq Require Import List ZArith.
From Verif Require Import JoinModel.
Import ListNotations.
Local Open Scope Z_scope.

Section S.
Variable A : Type.
Variable cs : list (list A).

(** The sequence: the containers one after another. *)
Definition joined : list A := concat cs.
Definition total : Z := Z.of_nat (length joined).

(** The iterators a user can get, with the position the user counts on: begin() is at 0, end() at the number of elements,
    and moving by d, a difference_type, adds d. *)
Inductive at_ : jit -> Z -> Prop :=
| at_begin it : j_begin cs = Some it -> at_ it 0
| at_end : at_ (j_end cs) total
| at_moved it n d it' : at_ it n -> - 2 ^ 63 <= d < 2 ^ 63 -> advance cs it d = Some it' -> at_ it' (n + d).

(** The elements from position n to position m. *)
Definition between (n m : Z) : list A := firstn (Z.to_nat (m - n)) (skipn (Z.to_nat n) joined).

(** What a visitor sees in one call: the elements first..last of one of the containers, [None] if that is no range in it. *)
Definition seen (call : nat * Z * Z) : option (list A) :=
  let '(i, first, last) := call in
  match nth_error cs i with
  | Some c => if ((0 <=? first) && (first <=? last) && (last <=? Z.of_nat (length c)))%bool
              then Some (firstn (Z.to_nat (last - first)) (skipn (Z.to_nat first) c)) else None
  | None => None
  end.
End S.
Arguments joined {A}. Arguments total {A}. Arguments at_ {A}. Arguments between {A}. Arguments seen {A}.
