(** Model of collection/DataJoiner.h: several containers of bytes shown as one random access
    sequence, with the operators of collection/iterator_base.h.

    Simplifications: the containers (a tuple of pointers to containers of different types) are a
    list of lists, the variant of their iterators is the number of the container and an offset in
    it; [difference_type] is [Z] without overflow (which would be undefined), [size_t] is taken
    modulo 2^64; bytes are values of any type. *)
From Coq Require Import List ZArith Bool Lia.
Import ListNotations.
Local Open Scope Z_scope.

Section Join.
Variable A : Type.
Variable cs : list (list A).              (* *_containers, DataJoiner.h:219; there is at least one: Get<0>, Get<ContainersCount - 1> *)

(** DataJoiner.h:61-77 IteratorVariant: the alternative, and the iterator as an offset from begin() *)
Record jit := mkJ { which : nat; off : Z }.

(** size() of a container *)
Definition csize (c : list A) : Z := Z.of_nat (length c).

(** DataJoiner.h:148-171 with metaprogramming/ForIf.h:16-33: None is the exception "Unknown index!" *)
Fixpoint distance_loop (i : nat) (l : list (list A)) (it : jit) (result : Z) : option Z :=
  match l with
  | [] => None
  | c :: r => if negb (Nat.eqb (which it) i) then distance_loop (S i) r it (result + csize c)
              else Some (result + off it)
  end.
Definition from_begin (it : jit) : option Z := distance_loop 0 cs it 0.

(** DataJoiner.h:173-191: the iterator found, or what is left of [diff] *)
Fixpoint advance_loop (i : nat) (l : list (list A)) (diff : Z) : jit + Z :=
  match l with
  | [] => inr diff
  | c :: r => if csize c <=? diff then advance_loop (S i) r (diff - csize c) else inl (mkJ i diff)
  end.
(** DataJoiner.h:104-108 CreateEnd *)
Definition j_end : jit := mkJ (length cs - 1) (csize (last cs [])).
(** DataJoiner.h:193-201; the argument is converted to [size_t]; None is the exception "Offset is too big!",
    and the iterator keeps its value then *)
Definition set_from_begin (offset : Z) : option jit :=
  match advance_loop 0 cs (offset mod 2 ^ 64) with
  | inl it => Some it
  | inr rest => if rest =? 0 then Some j_end else None
  end.
(** DataJoiner.h:96-102 CreateBegin *)
Definition j_begin : option jit := set_from_begin 0.

(** DataJoiner.h:91-92 *)
Definition advance (it : jit) (diff : Z) : option jit :=
  match from_begin it with Some n => set_from_begin (n + diff) | None => None end.
Definition distance_to (it other : jit) : option Z :=
  match from_begin other, from_begin it with Some b, Some a => Some (b - a) | _, _ => None end.
(** DataJoiner.h:85, 118-122: None is a read outside of the container *)
Definition deref (it : jit) : option A :=
  match nth_error cs (which it) with Some c => if off it <? 0 then None else nth_error c (Z.to_nat (off it)) | None => None end.
(** DataJoiner.h:86-89 *)
Definition equal (it other : jit) : option bool := option_map (fun d => d =? 0) (distance_to it other).
Definition increment (it : jit) : option jit := advance it 1.
Definition decrement (it : jit) : option jit := advance it (-1).

(** iterator_base.h:97-126: operators [], +, - (a number), - (an iterator) *)
Definition op_index (it : jit) (diff : Z) : option A := match advance it diff with Some x => deref x | None => None end.
Definition op_plus (it : jit) (diff : Z) : option jit := advance it diff.
Definition op_minus (it : jit) (diff : Z) : option jit := advance it (- diff).
Definition op_diff (it other : jit) : option Z := distance_to other it.
(** iterator_base.h:129-146 *)
Definition op_eq (it other : jit) : option bool := equal it other.
Definition op_ne (it other : jit) : option bool := option_map negb (op_eq it other).
Definition op_lt (it other : jit) : option bool := option_map (fun d => 0 <? d) (distance_to it other).
Definition op_gt (it other : jit) : option bool := op_lt other it.
Definition op_le (it other : jit) : option bool := option_map negb (op_lt other it).
Definition op_ge (it other : jit) : option bool := option_map negb (op_lt it other).

(** A loop over [from, to) with operators != * ++ of the iterators; None is an exception, a read outside,
    or more than [fuel] turns. *)
Fixpoint walk (fuel : nat) (it e : jit) : option (list A) :=
  match fuel with
  | O => None
  | S f => match op_ne it e with
           | Some true => match deref it, increment it with
                          | Some x, Some it' => option_map (cons x) (walk f it' e)
                          | _, _ => None
                          end
           | Some false => Some []
           | None => None
           end
  end.

(** DataJoiner.h:229-234, 245-253, metaprogramming/For.h:16-33 *)
Definition j_size : Z := fold_left (fun r c => (r + csize c) mod 2 ^ 64) cs 0.

(** DataJoiner.h:110-145: the calls of the visitor: the container, first and last.  The check that both
    iterators are of one joiner is by construction. *)
Fixpoint intervals_loop (i : nat) (l : list (list A)) (from to : jit) : list (nat * Z * Z) :=
  match l with
  | [] => []
  | c :: r =>
    (if (which from <=? i)%nat && (i <=? which to)%nat then
       let first := if Nat.eqb (which from) i then off from else 0 in
       let last := if Nat.eqb (which to) i then off to else csize c in
       if negb (first =? last) then [(i, first, last)] else []
     else []) ++ intervals_loop (S i) r from to
  end.
Definition intervals (from to : jit) : list (nat * Z * Z) := intervals_loop 0 cs from to.

End Join.
Arguments csize {A}.
Arguments distance_loop {A}.
Arguments from_begin {A}.
Arguments advance_loop {A}.
Arguments j_end {A}.
Arguments set_from_begin {A}.
Arguments j_begin {A}.
Arguments advance {A}.
Arguments distance_to {A}.
Arguments deref {A}.
Arguments equal {A}.
Arguments increment {A}.
Arguments decrement {A}.
Arguments op_index {A}.
Arguments op_plus {A}.
Arguments op_minus {A}.
Arguments op_diff {A}.
Arguments op_eq {A}.
Arguments op_ne {A}.
Arguments op_lt {A}.
Arguments op_gt {A}.
Arguments op_le {A}.
Arguments op_ge {A}.
Arguments walk {A}.
Arguments j_size {A}.
Arguments intervals_loop {A}.
Arguments intervals {A}.
