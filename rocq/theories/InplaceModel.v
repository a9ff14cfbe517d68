(** collection/inplace_vector.h: the first N elements live in raw in-place storage, the rest in a std::vector.

    Raw storage (core utils StorageFor) is a list of N slots, each empty or holding a live object: constructing into
    a live slot or destroying an empty one is undefined behaviour ([None]). Constructors of the element type may
    throw: [k] is how many more constructions succeed ([None]: all).
    Simplified: std::vector is a list, its assignment operators have the standard's guarantees (a throwing copy
    into an empty vector leaves it empty, a move leaves the source empty); capacity of the dynamic part is not modelled. *)
From Coq Require Import List Arith Bool.
From Verif Require Import Conc.
Import ListNotations.
Set Implicit Arguments.

Section Inplace.
Variable T : Type.
Variable moved : T.              (* the value of an object that was moved from *)
Variable N : nat.                (* InplaceCapacity, line 26: not 0 *)

Record iv := { ss : nat; dyn : list T; slots : list (option T) }.   (* lines 92-94 *)
Definition empty_iv : iv := {| ss := 0; dyn := []; slots := repeat None N |}.   (* line 97 *)

Fixpoint set_slot (l : list (option T)) (i : nat) (v : option T) : list (option T) :=
  match l, i with
  | [], _ => []
  | _ :: l, 0 => v :: l
  | x :: l, S i => x :: set_slot l i v
  end.
(** StorageFor::Ctor / Dtor / Ref *)
Definition ctor (v : iv) (i : nat) (x : T) : option iv :=
  match nth_error (slots v) i with Some None => Some {| ss := ss v; dyn := dyn v; slots := set_slot (slots v) i (Some x) |} | _ => None end.
Definition dtor (v : iv) (i : nat) : option iv :=
  match nth_error (slots v) i with Some (Some _) => Some {| ss := ss v; dyn := dyn v; slots := set_slot (slots v) i None |} | _ => None end.
Definition ref (v : iv) (i : nat) : option T := match nth_error (slots v) i with Some (Some x) => Some x | _ => None end.
Definition with_ss (v : iv) n := {| ss := n; dyn := dyn v; slots := slots v |}.
Definition with_dyn (v : iv) d := {| ss := ss v; dyn := d; slots := slots v |}.

(** Dtor, lines 271-276; the loop from [i], [n] turns left *)
Fixpoint dtor_from (n i : nat) (v : iv) : option iv :=
  match n with
  | 0 => Some (with_ss v 0)
  | S n => match dtor v i with Some v => dtor_from n (S i) v | None => None end
  end.
Definition Dtor (v : iv) : option iv := dtor_from (ss v) 0 v.
(** lines 190-194 *)
Definition clear (v : iv) : option iv := Dtor (with_dyn v []).
(** line 178 *)
Definition size (v : iv) : nat := ss v + length (dyn v).

(** the outcome of a call: the new object, and whether it threw *)
Inductive res := Ok (v : iv) | Thrown (v : iv).
Definition next_k (k : option nat) : option (option nat) := match k with None => Some None | Some 0 => None | Some (S k) => Some (Some k) end.

(** push_back, lines 196-216 (both overloads: they differ in how the value is made) *)
Definition push_back (v : iv) (x : T) (k : option nat) : option res :=
  match next_k k with
  | None => Some (Thrown v)
  | Some _ =>
      if ss v <? N then match ctor v (ss v) x with Some v' => Some (Ok (with_ss v' (S (ss v)))) | None => None end
      else Some (Ok (with_dyn v (dyn v ++ [x])))
  end.

(** at, lines 137-147: [Some None] is the IndexOutOfRangeException *)
Definition at_ (v : iv) (i : nat) : option (option T) :=
  if size v <=? i then Some None
  else if i <? ss v then match ref v i with Some x => Some (Some x) | None => None end
  else match nth_error (dyn v) (i - ss v) with Some x => Some (Some x) | None => None end.

(** vectors by identity: copy and move assignment may name the same object on both sides *)
Definition heap := nat -> iv.

(** the loop of Copy, lines 235-239, [n] turns at most *)
Fixpoint copy_static (n : nat) (h : heap) (d s : nat) (k : option nat) : option (heap * bool * option nat) :=
  match n with
  | 0 => Some (h, true, k)
  | S n =>
      if ss (h d) <? ss (h s)
      then match next_k k with
           | None => Some (h, false, k)
           | Some k =>
             match ref (h s) (ss (h d)) with
             | Some x => match ctor (h d) (ss (h d)) x with
                         | Some v => copy_static n (fupd h d (with_ss v (S (ss v)))) d s k
                         | None => None
                         end
             | None => None
             end
           end
      else Some (h, true, k)
  end.
Definition budget (k : option nat) (n : nat) : bool := match k with None => true | Some k => n <=? k end.
(** Copy, lines 231-248; the result says whether it threw *)
Definition copy_ (h : heap) (d s : nat) (k : option nat) : option (heap * bool) :=
  match copy_static (S N) h d s k with
  | None => None
  | Some (h, ok, k) =>
      if ok && budget k (length (dyn (h s)))
      then Some (fupd h d (with_dyn (h d) (dyn (h s))), true)
      else match Dtor (h d) with Some v => Some (fupd h d v, false) | None => None end
  end.
(** operator = (const inplace_vector&), lines 112-117 *)
Definition copy_assign (h : heap) (d s : nat) (k : option nat) : option (heap * bool) :=
  match clear (h d) with None => None | Some v => copy_ (fupd h d v) d s k end.
(** the copy constructor, lines 101-103: [d] is a new object *)
Definition copy_ctor (h : heap) (d s : nat) (k : option nat) : option (heap * bool) := copy_ (fupd h d empty_iv) d s k.

(** the loop of Move, lines 254-258 *)
Fixpoint move_static (n : nat) (h : heap) (d s : nat) (k : option nat) : option (heap * bool) :=
  match n with
  | 0 => Some (h, true)
  | S n =>
      if ss (h d) <? ss (h s)
      then match next_k k with
           | None => Some (h, false)
           | Some k =>
             match ref (h s) (ss (h d)) with
             | Some x =>
                 let h1 := fupd h s {| ss := ss (h s); dyn := dyn (h s); slots := set_slot (slots (h s)) (ss (h d)) (Some moved) |} in
                 match ctor (h1 d) (ss (h1 d)) x with
                 | Some v => move_static n (fupd h1 d (with_ss v (S (ss v)))) d s k
                 | None => None
                 end
             | None => None
             end
           end
      else Some (h, true)
  end.
(** Move, lines 250-269 *)
Definition move_ (h : heap) (d s : nat) (k : option nat) : option (heap * bool) :=
  match move_static (S N) h d s k with
  | None => None
  | Some (h, true) =>
      match Dtor (h s) with
      | None => None
      | Some v => let h := fupd h s v in
                  let x := dyn (h s) in
                  let h := fupd h s (with_dyn (h s) []) in
                  Some (fupd h d (with_dyn (h d) x), true)
      end
  | Some (h, false) => match Dtor (h d) with Some v => Some (fupd h d v, false) | None => None end
  end.
(** operator = (inplace_vector&&), lines 119-124 *)
Definition move_assign (h : heap) (d s : nat) (k : option nat) : option (heap * bool) :=
  match clear (h d) with None => None | Some v => move_ (fupd h d v) d s k end.

Inductive op := OPush (d : nat) (x : T) (k : option nat) | OClear (d : nat) | OCopy (d s : nat) (k : option nat)
  | OCopyCtor (d s : nat) (k : option nat) | OMove (d s : nat) (k : option nat).
(** one call; a copy constructor makes a fresh object, so it never names itself *)
Definition step (h : heap) (o : op) : option (heap * bool) :=
  match o with
  | OPush d x k => match push_back (h d) x k with None => None | Some (Ok v) => Some (fupd h d v, true) | Some (Thrown v) => Some (fupd h d v, false) end
  | OClear d => match clear (h d) with None => None | Some v => Some (fupd h d v, true) end
  | OCopy d s k => copy_assign h d s k
  | OCopyCtor d s k => if d =? s then Some (h, false) else
      match clear (h d) with None => None | Some v => copy_ctor (fupd h d v) d s k end  (* the name d is reused: its old object is destroyed, line 109 *)
  | OMove d s k => move_assign h d s k
  end.
End Inplace.
