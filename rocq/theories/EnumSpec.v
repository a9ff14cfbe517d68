(** * What a user expects of enumerators: a cursor over a list *)
From Coq Require Import List Arith Bool ZArith Sorted.
From Verif Require Import EnumModel.
Import ListNotations.

(** a user calls the three methods in any order; each call answers or throws *)
Inductive call := Valid | Get | Next.
Inductive answer (A : Type) :=
  | IsValid (b : bool)
  | Got (x : A)
  | Moved
  | Thrown.
Arguments IsValid {A}. Arguments Got {A}. Arguments Moved {A}. Arguments Thrown {A}.

(** the answers of an enumerator; a Next that throws leaves it as it was *)
Fixpoint run {A} (m : machine A) (s : st m) (cs : list call) : list (answer A) :=
  match cs with
  | [] => []
  | Valid :: r => IsValid (valid m s) :: run m s r
  | Get :: r => match get m s with (Some x, s') => Got x :: run m s' r | (None, s') => Thrown :: run m s' r end
  | Next :: r => match next m s with Some s' => Moved :: run m s' r | None => Thrown :: run m s r end
  end.

(** the answers of a cursor over a list; an item None is one whose Get throws *)
Fixpoint cursor {A} (l : list (option A)) (cs : list call) : list (answer A) :=
  match cs with
  | [] => []
  | Valid :: r => IsValid (match l with [] => false | _ => true end) :: cursor l r
  | Get :: r => match l with Some x :: _ => Got x | _ => Thrown end :: cursor l r
  | Next :: r => match l with _ :: t => Moved :: cursor t r | [] => Thrown :: cursor l r end
  end.

Definition enumerates {A} (m : machine A) (s : st m) (l : list (option A)) : Prop := forall cs, run m s cs = cursor l cs.
Definition enumerates_all {A} (m : machine A) (s : st m) (l : list A) : Prop := enumerates m s (map Some l).

(** for (; en->Valid(); en->Next()) v.push_back(en->Get()): the items and the enumerator afterwards *)
Inductive walk {A} (m : machine A) : st m -> list A -> st m -> Prop :=
  | walk_end s : valid m s = false -> walk m s [] s
  | walk_item s x s1 s2 l s3 : valid m s = true -> get m s = (Some x, s1) -> next m s1 = Some s2 -> walk m s2 l s3 ->
      walk m s (x :: l) s3.

(** the items of a type: those the cast accepts, cast *)
Definition those_of {S A} (cast : S -> option A) (l : list S) : list A :=
  flat_map (fun x => match cast x with Some y => [y] | None => [] end) l.

(** the rest of a list from the first item that fails p *)
Fixpoint drop_while {A} (p : A -> bool) (l : list A) : list A :=
  match l with [] => [] | x :: r => if p x then drop_while p r else l end.

(** a list of changes leads from one list to another: unchanged items are pairs that compare equal *)
Inductive leads {A} (cmp : A -> A -> Z) : list A -> list A -> list (diff_entry A) -> Prop :=
  | leads_done : leads cmp [] [] []
  | leads_same a b s d e : cmp a b = 0%Z -> leads cmp s d e -> leads cmp (a :: s) (b :: d) e
  | leads_removed a s d e : leads cmp s d e -> leads cmp (a :: s) d (Removed a :: e)
  | leads_added b s d e : leads cmp s d e -> leads cmp s (b :: d) (Added b :: e).
Definition removed_items {A} (e : list (diff_entry A)) : list A := flat_map (fun x => match x with Removed a => [a] | _ => [] end) e.
Definition added_items {A} (e : list (diff_entry A)) : list A := flat_map (fun x => match x with Added a => [a] | _ => [] end) e.
Definition item {A} (e : diff_entry A) : A := match e with Added a | Removed a => a end.

(** a comparer that orders *)
Definition orders {A} (cmp : A -> A -> Z) : Prop :=
  (forall a b, (cmp a b < 0)%Z <-> (0 < cmp b a)%Z) /\
  (forall a b c, (cmp a b <= 0)%Z -> (cmp b c <= 0)%Z -> (cmp a c <= 0)%Z).
Definition ascending {A} (cmp : A -> A -> Z) : list A -> Prop := StronglySorted (fun a b => (cmp a b < 0)%Z).
(** the items of l that compare equal to none of m *)
Definition not_in {A} (cmp : A -> A -> Z) (m l : list A) : list A :=
  filter (fun a => forallb (fun b => negb (Z.eqb (cmp a b) 0)) m) l.

(** the position of a range over l *)
Definition at_position {A} (l : list A) (k : nat) (s : list A * nat) : Prop := snd s = k /\ fst s = skipn k l /\ k <= length l.
