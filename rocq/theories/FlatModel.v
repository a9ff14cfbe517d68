(** collection/flat_map.h and collection/flat_set.h: a sorted std::vector of pairs.  flat_set is the case
    V = unit (flat_set.h:121-230 has the same code with the key as the value).

    Iterators are positions.  std::lower_bound / std::upper_bound are modelled by the library's
    binary search.  Not modelled: allocators, reserve, move versions (same effect), reverse
    iteration, comparison operators (element-wise on the vector), iterator invalidation. *)
From Coq Require Import List Arith Bool.
Import ListNotations.
Set Implicit Arguments.

Section Flat.
Variables K V : Type.
Variable less : K -> K -> bool.        (* _cmp *)
Variable dflt : V.                     (* T() *)

Definition cont := list (K * V).       (* _container, lines 75 *)

(** std::partition_point's loop: first position in [first, first+len) where p is false *)
Fixpoint bsearch (p : nat -> bool) (fuel first len : nat) : nat :=
  match fuel, len with
  | S fuel, S _ =>
      let half := len / 2 in
      let mid := first + half in
      if p mid then bsearch p fuel (S mid) (len - half - 1) else bsearch p fuel first half
  | _, _ => first
  end.
Definition at_ (l : cont) (i : nat) (f : K * V -> bool) : bool :=
  match nth_error l i with Some e => f e | None => false end.
(** lines 288-289 *)
Definition lower_bound (l : cont) (k : K) : nat := bsearch (fun i => at_ l i (fun e => less (fst e) k)) (length l) 0 (length l).
(** lines 291-292 *)
Definition upper_bound (l : cont) (k : K) : nat := bsearch (fun i => at_ l i (fun e => negb (less k (fst e)))) (length l) 0 (length l).
(** std::equal_range, lines 285-286 *)
Definition equal_range (l : cont) (k : K) : nat * nat := (lower_bound l k, upper_bound l k).

(** std::vector::insert / emplace / erase *)
Definition vinsert (l : cont) (i : nat) (e : K * V) : cont := firstn i l ++ e :: skipn i l.
Definition verase (l : cont) (i : nat) : cont := firstn i l ++ skipn (S i) l.
Definition verase_range (l : cont) (i j : nat) : cont := firstn i l ++ skipn j l.

(** lines 269-275: the position, or end() *)
Definition find (l : cont) (k : K) : nat :=
  let r := lower_bound l k in
  if at_ l r (fun e => less k (fst e)) then length l else r.
(** lines 266-267 *)
Definition count (l : cont) (k : K) : nat := if find l k =? length l then 0 else 1.
(** lines 126-138; None: KeyNotFoundException *)
Definition at_key (l : cont) (k : K) : option V :=
  let r := find l k in if r =? length l then None else option_map snd (nth_error l r).

(** "result == end() || _cmp(key, result->first)" *)
Definition absent_at (l : cont) (r : nat) (k : K) : bool :=
  (r =? length l) || at_ l r (fun e => less k (fst e)).
(** lines 180-194, 224-231 (insert, emplace) *)
Definition insert (l : cont) (e : K * V) : cont * nat * bool :=
  let r := lower_bound l (fst e) in
  if absent_at l r (fst e) then (vinsert l r e, r, true) else (l, r, false).
(** lines 196-208, 234-240 (insert with hint, emplace_hint) *)
Definition insert_hint (l : cont) (h : nat) (e : K * V) : cont * nat :=
  if ((h =? 0) || at_ l (h - 1) (fun x => less (fst x) (fst e)))
     && ((h =? length l) || at_ l h (fun x => less (fst e) (fst x)))
  then (vinsert l h e, h)
  else let '(l', r, _) := insert l e in (l', r).
(** lines 140-154: operator [] returns a reference to the element at the position *)
Definition index (l : cont) (k : K) : cont * nat :=
  let r := lower_bound l k in
  if absent_at l r k then (vinsert l r (k, dflt), r) else (l, r).
(** writing through that reference: m[k] = v *)
Definition vset (l : cont) (i : nat) (v : V) : cont :=
  match nth_error l i with Some e => firstn i l ++ (fst e, v) :: skipn (S i) l | None => l end.
Definition assign (l : cont) (k : K) (v : V) : cont := let '(l', r) := index l k in vset l' r v.
(** lines 251-258 *)
Definition erase_key (l : cont) (k : K) : cont * nat :=
  let r := find l k in if r =? length l then (l, 0) else (verase l r, 1).
(** lines 210-221 and the constructors 91-122: insert one by one *)
Definition insert_range (l : cont) (es : list (K * V)) : cont := fold_left (fun l e => fst (fst (insert l e))) es l.

Inductive op :=
| Insert (e : K * V) | InsertHint (h : nat) (e : K * V) | Index (k : K) | Assign (k : K) (v : V)
| InsertRange (es : list (K * V)) | Erase (k : K) | ErasePos (i : nat) | EraseRange (i j : nat) | Clear.

(** None: the iterator given is not a valid one (undefined behaviour) *)
Definition step (l : cont) (o : op) : option cont :=
  match o with
  | Insert e => Some (fst (fst (insert l e)))
  | InsertHint h e => if h <=? length l then Some (fst (insert_hint l h e)) else None
  | Index k => Some (fst (index l k))
  | Assign k v => Some (assign l k v)
  | InsertRange es => Some (insert_range l es)
  | Erase k => Some (fst (erase_key l k))
  | ErasePos i => if i <? length l then Some (verase l i) else None                       (* 242-246 *)
  | EraseRange i j => if (i <=? j) && (j <=? length l) then Some (verase_range l i j) else None  (* 248-249 *)
  | Clear => Some []
  end.
Fixpoint runs (l : cont) (os : list op) : option cont :=
  match os with [] => Some l | o :: os => match step l o with Some l' => runs l' os | None => None end end.
End Flat.
Arguments Index {K V}. Arguments Erase {K V}. Arguments ErasePos {K V}. Arguments EraseRange {K V}. Arguments Clear {K V}.
