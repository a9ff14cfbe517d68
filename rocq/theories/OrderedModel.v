(** collection/ordered_map.h (and ordered_set.h, the case V = unit): entries in a std::list in insertion
    order plus a std::set of pointers to them ordered by key.

    An entry is a heap cell; the id of the cell stands for ValueEntry*, for its node in the list
    (OrderedIt) and for its node in the set (SortedIt): nodes of both containers are stable.  A
    const_iterator/iterator is [Some id], end() is [None].  Not modelled: allocators, swap (exchanges the
    two states), reverse iteration. *)
From Coq Require Import List Arith Bool.
Import ListNotations.
Set Implicit Arguments.

Section Ordered.
Variables C K V : Type.
Variable less : C -> K -> K -> bool.   (* Compare::operator () of a comparator object *)
Variable c0 : C.                       (* Compare() *)
Variable dflt : V.                     (* T() *)

Record st := { cmp : C;                (* _sorted's CompareImpl, lines 36-48 *)
               heap : nat -> option (K * V);
               ord : list nat;         (* _ordered, line 157 *)
               srt : list nat;         (* _sorted, line 158, in its iteration order *)
               next : nat }.

Definition hupd (h : nat -> option (K * V)) (i : nat) (x : option (K * V)) : nat -> option (K * V) :=
  fun j => if j =? i then x else h j.
Definition lt_key (s : st) (i : nat) (k : K) : bool := match heap s i with Some e => less (cmp s) (fst e) k | None => false end.  (* 408-410 *)
Definition key_lt (s : st) (k : K) (i : nat) : bool := match heap s i with Some e => less (cmp s) k (fst e) | None => false end.  (* 413-415 *)

(** std::set::lower_bound: what is before and from the first element not less than the key on *)
Fixpoint split_lower (s : st) (k : K) (l : list nat) : list nat * list nat :=
  match l with
  | i :: l' => if lt_key s i k then let '(a, b) := split_lower s k l' in (i :: a, b) else ([], l)
  | [] => ([], [])
  end.
(** std::list::insert *)
Fixpoint list_insert (l : list nat) (pos : option nat) (x : nat) : list nat :=
  match pos, l with
  | Some p, y :: l' => if y =? p then x :: l else y :: list_insert l' pos x
  | _, _ => l ++ [x]
  end.
Definition list_erase (l : list nat) (x : nat) : list nat := filter (fun y => negb (y =? x)) l.

(** lines 385-399; [throws]: inserting into _sorted runs out of memory *)
Definition insert_at (throws : bool) (s : st) (pos : option nat) (before after : list nat) (e : K * V) : st * option nat :=
  let i := next s in
  let h := hupd (heap s) i (Some e) in
  let o := list_insert (ord s) pos i in
  if throws
  then ({| cmp := cmp s; heap := hupd h i None; ord := list_erase o i; srt := srt s; next := S i |}, None)
  else ({| cmp := cmp s; heap := h; ord := o; srt := before ++ i :: after; next := S i |}, Some i).

(** the three searches, lines 356-361, 367-372, 377-382 (insert, emplace, operator [] use end() or the hint
    as the place in the list).  Result: the entry the returned iterator denotes and whether it was
    inserted; None: an exception left the call *)
Definition do_insert (throws : bool) (s : st) (pos : option nat) (e : K * V) : st * option (nat * bool) :=
  let '(a, b) := split_lower s (fst e) (srt s) in
  match b with
  | i :: _ => if key_lt s (fst e) i then let '(s', r) := insert_at throws s pos a b e in (s', option_map (fun i => (i, true)) r) else (s, Some (i, false))
  | [] => let '(s', r) := insert_at throws s pos a b e in (s', option_map (fun i => (i, true)) r)
  end.

(** std::set::find with a key: lower_bound, then check; lines 332-342 *)
Definition find (s : st) (k : K) : option nat :=
  match snd (split_lower s k (srt s)) with
  | i :: _ => if key_lt s k i then None else Some i
  | [] => None
  end.
Definition count (s : st) (k : K) : nat := match find s k with Some _ => 1 | None => 0 end.   (* 329-330 *)
Definition deref (s : st) (i : nat) : option (K * V) := heap s i.                              (* 112-113 *)
Definition at_key (s : st) (k : K) : option V := match find s k with Some i => option_map snd (heap s i) | None => None end.  (* 218-230 *)

(** lines 294-304: the ValueEntryHolder in the list node owns the entry *)
Definition erase_it (s : st) (i : nat) : st :=
  {| cmp := cmp s; heap := hupd (heap s) i None; ord := list_erase (ord s) i; srt := list_erase (srt s) i; next := next s |}.
Fixpoint next_of (l : list nat) (i : nat) : option nat :=
  match l with x :: l' => if x =? i then hd_error l' else next_of l' i | [] => None end.
(** lines 306-311; None: the end of the list is passed (undefined behaviour) *)
Fixpoint erase_range (fuel : nat) (s : st) (first last : option nat) : option st :=
  if match first, last with Some a, Some b => a =? b | None, None => true | _, _ => false end then Some s
  else match fuel, first with
       | S fuel, Some a => erase_range fuel (erase_it s a) (next_of (ord s) a) last
       | _, _ => None
       end.
(** lines 313-321 *)
Definition erase_key (s : st) (k : K) : st * nat := match find s k with Some i => (erase_it s i, 1) | None => (s, 0) end.
(** lines 258-262 *)
Definition clear (s : st) : st := {| cmp := cmp s; heap := fun _ => None; ord := []; srt := []; next := next s |}.
Definition empty (c : C) : st := {| cmp := c; heap := fun _ => None; ord := []; srt := []; next := 0 |}.
(** lines 276-281 *)
Definition insert_range (s : st) (es : list (K * V)) : st := fold_left (fun s e => fst (do_insert false s None e)) es s.
(** what iterating yields *)
Definition items (s : st) : list (K * V) := flat_map (fun i => match heap s i with Some e => [e] | None => [] end) (ord s).
(** lines 182-188: the copy is built with Compare() *)
Definition copy (other : st) : st := insert_range (empty c0) (items other).
(** lines 202-207; [self]: the argument is the object itself *)
Definition copy_assign (self : bool) (s other : st) : st :=
  let s1 := clear s in insert_range s1 (items (if self then s1 else other)).

Inductive op :=
| Insert (throws : bool) (pos : option nat) (e : K * V)   (* insert, emplace, with and without hint *)
| Index (throws : bool) (k : K)                           (* operator [], 232-236 *)
| Write (i : nat) (v : V)                                 (* it->second = v *)
| EraseIt (i : nat) | EraseRange (first last : option nat) | EraseKey (k : K) | Clear.

Definition valid (s : st) (p : option nat) : bool := match p with Some i => existsb (Nat.eqb i) (ord s) | None => true end.
Definition write (s : st) (i : nat) (v : V) : st :=
  {| cmp := cmp s; heap := hupd (heap s) i (option_map (fun e => (fst e, v)) (heap s i)); ord := ord s; srt := srt s; next := next s |}.
(** None: an invalid iterator was passed (undefined behaviour) *)
Definition step (s : st) (o : op) : option st :=
  match o with
  | Insert t p e => if valid s p then Some (fst (do_insert t s p e)) else None
  | Index t k => Some (fst (do_insert t s None (k, dflt)))
  | Write i v => if valid s (Some i) then Some (write s i v) else None
  | EraseIt i => if valid s (Some i) then Some (erase_it s i) else None
  | EraseRange a b => if valid s a && valid s b then erase_range (length (ord s)) s a b else None
  | EraseKey k => Some (fst (erase_key s k))
  | Clear => Some (clear s)
  end.
Fixpoint runs (s : st) (os : list op) : option st :=
  match os with [] => Some s | o :: os => match step s o with Some s' => runs s' os | None => None end end.
End Ordered.
Arguments Write {K V}. Arguments Index {K V}. Arguments EraseIt {K V}. Arguments EraseRange {K V}. Arguments EraseKey {K V}. Arguments Clear {K V}.
