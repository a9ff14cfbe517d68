(** collection/IntrusiveList.h: circular doubly linked list whose links live in the elements.
    Nodes (elements and list roots) are addresses; the memory is the two link fields.  Not modelled: destruction
    (the node destructor, line 42, does nothing; the list destructor, line 133, asserts emptiness). *)
From Coq Require Import List Arith Bool.
From Verif Require Import Conc.
Import ListNotations.
Set Implicit Arguments.

Record mem := { prv : nat -> nat; nxt : nat -> nat }.    (* line 34 *)
(** lines 37-40: every node starts linked to itself *)
Definition init : mem := {| prv := fun n => n; nxt := fun n => n |}.
(** lines 46-51 *)
Definition unlink (m : mem) (v : nat) : mem :=
  let p := prv m v in let n := nxt m v in
  let m1 := {| prv := fupd (prv m) n p; nxt := nxt m |} in
  let m2 := {| prv := prv m1; nxt := fupd (nxt m1) (prv m1 v) (nxt m1 v) |} in
  {| prv := fupd (prv m2) v v; nxt := fupd (nxt m2) v v |}.
(** line 53 *)
Definition unlinked (m : mem) (v : nat) : bool := nxt m v =? v.
(** lines 55-61 *)
Definition insert_before (m : mem) (v node : nat) : mem :=
  let m1 := {| prv := fupd (prv m) v (prv m node); nxt := nxt m |} in
  let m2 := {| prv := prv m1; nxt := fupd (nxt m1) v node |} in
  let m3 := {| prv := prv m2; nxt := fupd (nxt m2) (prv m2 v) v |} in
  {| prv := fupd (prv m3) (nxt m3 v) v; nxt := nxt m3 |}.
(** lines 145-146 *)
Definition push_back (m : mem) (r v : nat) : mem := insert_before m v r.
Definition erase (m : mem) (v : nat) : mem := unlink m v.
(** line 142 *)
Definition empty (m : mem) (r : nat) : bool := unlinked m r.
(** iteration, lines 99-100 and 136-140: from [x], following [f], until the root; None if it takes more than [fuel] steps *)
Fixpoint walk (f : nat -> nat) (fuel x r : nat) : option (list nat) :=
  if x =? r then Some []
  else match fuel with
       | 0 => None
       | S fuel => match walk f fuel (f x) r with Some l => Some (x :: l) | None => None end
       end.
Definition forward (m : mem) (r fuel : nat) := walk (nxt m) fuel (nxt m r) r.
Definition backward (m : mem) (r fuel : nat) := walk (prv m) fuel (prv m r) r.

Inductive op := Push (r v : nat) | Erase (v : nat).
Definition exec1 (m : mem) (o : op) : mem := match o with Push r v => push_back m r v | Erase v => erase m v end.
