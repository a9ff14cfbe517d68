(** Copy-on-write cells shared with snapshot holders, as used by the
    transactional collections (stingraykit/collection/TransactionalDictionary.h,
    TransactionalSet.h).

    Memory is a list of containers: shared_ptr<MapType> is an address into it.
    A Holder object (TransactionalDictionary.h:61-69) is an index into the table
    of holders: the address of the container it pins and whether a strong
    reference to it is left.  Reference counts are abstracted to "alive/not":
    the environment drops the last reference with [drop_holder]. *)
From Coq Require Import List Bool Arith.
From Verif Require Import Base.
Import ListNotations.
Set Implicit Arguments.

Section Cow.
  Variable M : Type.
  Variable emp : M.   (* the empty container *)

  (** A pair like  MapTypePtr _added; mutable HolderWeakPtr _addedHolder;
      (TransactionalDictionary.h:198-199, 234-237) *)
  Record cell := mk_cell { c_ptr : nat; c_wk : option nat }.
  Record hp := mk_hp { mem : list M; hold : list (nat * bool) }.

  Fixpoint setnth {A} (n : nat) (x : A) (l : list A) : list A :=
    match l, n with
    | [], _ => []
    | _ :: t, O => x :: t
    | y :: t, S n => y :: setnth n x t
    end.

  Definition rd (h : hp) (p : nat) : M := nth p (mem h) emp.
  Definition wr (h : hp) (p : nat) (m : M) : hp := mk_hp (setnth p m (mem h)) (hold h).
  Definition val (h : hp) (c : cell) : M := rd h (c_ptr c).

  (** make_shared_ptr<MapType>(..) stored into a pointer with a fresh weak holder *)
  Definition new_cell (h : hp) (m : M) : cell * hp :=
    (mk_cell (length (mem h)) None, mk_hp (mem h ++ [m]) (hold h)).

  (** HolderWeakPtr::lock / expired *)
  Definition lock (h : hp) (c : cell) : option nat :=
    match c_wk c with
    | None => None
    | Some i => match nth_error (hold h) i with Some (_, true) => Some i | _ => None end
    end.

  (** TransactionalDictionary.h:79-87 Utils::GetItemsHolder *)
  Definition get_holder (h : hp) (c : cell) : nat * cell * hp :=
    match lock h c with
    | Some i => (i, c, h)
    | None => let i := length (hold h) in
              (i, mk_cell (c_ptr c) (Some i), mk_hp (mem h) (hold h ++ [(c_ptr c, true)]))
    end.

  (** TransactionalDictionary.h:89-97 Utils::CopyOnWrite; src = null allocates an
      empty container *)
  Definition cow (h : hp) (c : cell) (src : option M) : bool * cell * hp :=
    match lock h c with
    | None => (false, c, h)
    | Some _ =>
        let (c', h') := new_cell h (match src with Some m => m | None => emp end) in
        (true, c', h')
    end.

  (** The idiom  CopyXOnWrite(_x.get()); _x->f(..)  *)
  Definition modify (h : hp) (c : cell) (f : M -> M) : cell * hp :=
    let '(_, c1, h1) := cow h c (Some (val h c)) in
    (c1, wr h1 (c_ptr c1) (f (val h1 c1))).

  (** The idiom  if (!CopyXOnWrite(src)) *_x = src  (or clear() for null) *)
  Definition assign (h : hp) (c : cell) (src : option M) : cell * hp :=
    let '(copied, c1, h1) := cow h c src in
    if copied then (c1, h1)
    else (c1, wr h1 (c_ptr c1) (match src with Some m => m | None => emp end)).

  (** the last strong reference to holder i goes away *)
  Definition drop_holder (h : hp) (i : nat) : hp :=
    match nth_error (hold h) i with
    | Some (p, _) => mk_hp (mem h) (setnth i (p, false) (hold h))
    | None => h
    end.

  (** the content pinned by holder i *)
  Definition hval (h : hp) (i : nat) : M :=
    match nth_error (hold h) i with Some (p, _) => rd h p | None => emp end.
  Definition halive (h : hp) (i : nat) : Prop := exists p, nth_error (hold h) i = Some (p, true).
End Cow.
