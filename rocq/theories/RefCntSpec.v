(** * What users of the reference counting collections rely on

    Written in terms of the history of operations (newest first), with functors that do not throw. *)

From Coq Require Import List Arith Bool ZArith.
From Verif Require Import RefCntModel.
Import ListNotations.
Set Implicit Arguments.

Section Spec.
  Variables K V : Type.
  Variable less : K -> K -> bool.
  Notation same := (same less).

  (** the comparer is a strict weak order *)
  Record order : Prop := {
    o_irrefl : forall a, less a a = false;
    o_trans : forall a b c, less a b = true -> less b c = true -> less a c = true;
    o_same : forall a b c, same a b = true -> same b c = true -> same a c = true }.

  Inductive op := OAdd (k : K) (v : V) | OErase (k : K) | OClear.

  (** references to the key: one more for every add, one less for every erase that finds one *)
  Fixpoint refs_to (h : list op) (k : K) : nat :=
    match h with
    | [] => 0
    | OAdd k' _ :: h => if same k k' then S (refs_to h k) else refs_to h k
    | OErase k' :: h => if same k k' then pred (refs_to h k) else refs_to h k
    | OClear :: _ => 0
    end.
  (** what is held for the key: the key and value of the add that made the count one *)
  Fixpoint held (h : list op) (k : K) : option (K * V) :=
    match h with
    | [] => None
    | OAdd k' v :: h => if same k k' then (if refs_to h k =? 0 then Some (k', v) else held h k) else held h k
    | OErase k' :: h => if same k k' then (if refs_to h k <=? 1 then None else held h k) else held h k
    | OClear :: _ => None
    end.
  (** what the functors are called with, for the key, oldest first *)
  Fixpoint told (h : list op) (k : K) : list (callback K V) :=
    match h with
    | [] => []
    | OAdd k' v :: h' => told h' k ++ (if same k k' && (refs_to h' k =? 0) then [Added k' v] else [])
    | OErase k' :: h' =>
        told h' k ++ (if same k k' && (refs_to h' k =? 1)
                      then match held h' k with Some (q, v) => [Removed q v] | None => [] end else [])
    | OClear :: h' => told h' k ++ match held h' k with Some (q, v) => [Removed q v] | None => [] end
    end.

  Definition about (k : K) (c : callback K V) : bool :=
    match c with Added q _ | Removed q _ => same k q end.

  (** added, removed, added, ...: [x] is what is held before *)
  Fixpoint alternate (x : option (K * V)) (l : list (callback K V)) : Prop :=
    match l with
    | [] => True
    | Added q v :: l => x = None /\ alternate (Some (q, v)) l
    | Removed q v :: l => x = Some (q, v) /\ alternate None l
    end.

  (** the model, run over a history *)
  Definition do_op (mo : impl K V) (o : op) : impl K V * list (callback K V) :=
    match o with
    | OAdd k v => let r := add less mo k (fun _ => Some v) in (st r, calls r)
    | OErase k => let r := erase less mo k false in (st r, calls r)
    | OClear => let r := clear mo None in (st r, calls r)
    end.
  Fixpoint run (h : list op) : impl K V * list (callback K V) :=
    match h with
    | [] => ([], [])
    | o :: h => let '(m, l) := run h in let '(m', l') := do_op m o in (m', l ++ l')
    end.
End Spec.

(** one value, one counter: set, released, set, ... *)
Fixpoint in_turn {C} (is_set : C -> bool) (on : bool) (l : list C) : Prop :=
  match l with [] => True | c :: l => is_set c = negb on /\ in_turn is_set (is_set c) l end.

(** the two sides of a bimap say the same *)
Definition consistent {L R} (b : bimap L R) : Prop :=
  (forall l r, In (l, r) (lmap b) <-> In (r, l) (rmap b)) /\ NoDup (map fst (lmap b)) /\ NoDup (map fst (rmap b)).
