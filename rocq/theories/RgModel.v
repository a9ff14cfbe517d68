(** Model of stingraykit/collection/Range.h: ranges and range adapters.

    A range type is a record of operations on its state.  An operation returns whether it completed (false: it threw) and
    the state it left behind.  Get is const in the code but may fill a cache, so it returns a state too. *)
From Verif Require Import Base MathModel.

Record rops (A : Type) := mkOps {
  st : Type;
  valid : st -> bool;
  get : st -> option A * st;
  equals : st -> st -> bool;
  first : st -> bool * st;
  next : st -> bool * st;
  last : st -> bool * st;
  prev : st -> bool * st }.
Arguments mkOps {A}. Arguments st {A}. Arguments valid {A}. Arguments get {A}. Arguments equals {A}.
Arguments first {A}. Arguments next {A}. Arguments last {A}. Arguments prev {A}.
(** Random access: GetPosition and GetSize are size_t, Move takes an int *)
Record mops {A} (o : rops A) := mkMove { position : st o -> Z; size : st o -> Z; move : Z -> st o -> bool * st o }.
Arguments mkMove {A o}. Arguments position {A o}. Arguments size {A o}. Arguments move {A o}.
Definition size_t (x : Z) : Z := (x mod 2 ^ 64)%Z.

(** Sequencing: the rest runs unless something threw *)
Definition andthen {X} (r : bool * X) (f : X -> bool * X) : bool * X := if fst r then f (snd r) else r.
(** The state of a part lifted into the whole *)
Definition lift {X Y} (f : X -> Y) (r : bool * X) : bool * Y := (fst r, f (snd r)).

(** Range.h:97-144: IteratorRange over [l]: begin is 0, end is length l, the state is the position of _it
    (all ranges compared here have the same begin and end) *)
Definition iterator_ops {A} (l : list A) : rops A := mkOps nat
  (fun i => negb (i =? length l)%nat)
  (fun i => (if (i =? length l)%nat then None else nth_error l i, i))
  Nat.eqb
  (fun _ => (true, 0%nat))
  (fun i => if (i =? length l)%nat then (false, i) else (true, S i))
  (fun _ => (true, if (length l =? 0)%nat then length l else (length l - 1)%nat))
  (fun i => if (i =? 0)%nat then (false, i) else (true, (i - 1)%nat)).
Definition iterator_move {A} (l : list A) : mops (iterator_ops l) :=
  @mkMove A (iterator_ops l) Z.of_nat (fun _ => Z.of_nat (length l))
    (fun d (i : nat) => if (size_t (Z.of_nat i + d) <=? Z.of_nat (length l))%Z then (true, Z.to_nat (Z.of_nat i + d)) else (false, i)).

(** Range.h:97-144 again, with the sequence as part of the state, so that ranges over several sequences have one type.  Equals is
    only used for ranges over the same sequence, so the begin and end iterators are not compared. *)
Definition span_ops (A : Type) : rops A := mkOps (list A * nat)%type
  (fun s => valid (iterator_ops (fst s)) (snd s))
  (fun s => (fst (get (iterator_ops (fst s)) (snd s)), s))
  (fun s t => Nat.eqb (snd s) (snd t))
  (fun s => lift (pair (fst s)) (first (iterator_ops (fst s)) (snd s)))
  (fun s => lift (pair (fst s)) (next (iterator_ops (fst s)) (snd s)))
  (fun s => lift (pair (fst s)) (last (iterator_ops (fst s)) (snd s)))
  (fun s => lift (pair (fst s)) (prev (iterator_ops (fst s)) (snd s))).

Section Filter.
  Context {A : Type} (o : rops A) (pred : A -> bool).
  (** Range.h:185-189, at most [fuel] turns; Get throws when it has nothing *)
  Fixpoint find_next (fuel : nat) (s : st o) : bool * st o :=
    match fuel with
    | O => (false, s)
    | S f => if valid o s
             then match get o s with
                  | (Some x, s1) => if pred x then (true, s1) else andthen (next o s1) (find_next f)
                  | (None, s1) => (false, s1)
                  end
             else (true, s)
    end.
  (** Range.h:191-195 *)
  Fixpoint find_prev (fuel : nat) (s : st o) : bool * st o :=
    match fuel with
    | O => (false, s)
    | S f => if valid o s
             then match get o s with
                  | (Some x, s1) => if pred x then (true, s1) else andthen (prev o s1) (find_prev f)
                  | (None, s1) => (false, s1)
                  end
             else (true, s)
    end.
  (** Range.h:197-212; [fst_] is a copy of the range at its first element *)
  Fixpoint find_prev_inv (fuel : nat) (fst_ s : st o) : bool * st o :=
    match fuel with
    | O => (false, s)
    | S f => if valid o s
             then match get o s with
                  | (Some x, s1) => if pred x then (true, s1)
                                    else if equals o s1 fst_ then andthen (last o s1) (next o)
                                    else andthen (prev o s1) (find_prev_inv f fst_)
                  | (None, s1) => (false, s1)
                  end
             else (true, s)
    end.
  (** Range.h:172-182; the fuel is a bound on the number of elements *)
  Definition filter_ops (fuel : nat) : rops A := mkOps (st o)
    (valid o)
    (get o)
    (equals o)
    (fun s => andthen (first o s) (find_next fuel))
    (fun s => andthen (next o s) (find_next fuel))
    (fun s => andthen (last o s) (fun s1 => andthen (first o s1) (fun f => find_prev_inv fuel f s1)))
    (fun s => andthen (prev o s) (find_prev fuel)).
  Definition filter_make (fuel : nat) (s : st o) : bool * st o := find_next fuel s.
End Filter.

(** Range.h:320-387: RangeReverser: _impl and _implBeforeBegin *)
Section Reverse.
  Context {A : Type} (o : rops A).
  Definition rev_first (s : st o * bool) : bool * (st o * bool) := lift (fun i => (i, false)) (last o (fst s)).
  (** Range.h:354-361: a copy is moved to First() for the comparison *)
  Definition rev_next (s : st o * bool) : bool * (st o * bool) :=
    let (ok, f) := first o (fst s) in
    if ok then if equals o (fst s) f then (true, (fst s, true)) else lift (fun i => (i, snd s)) (prev o (fst s))
    else (false, s).
  Definition rev_last (s : st o * bool) : bool * (st o * bool) := lift (fun i => (i, false)) (first o (fst s)).
  Definition rev_prev (s : st o * bool) : bool * (st o * bool) :=
    if snd s then (true, (fst s, false)) else lift (fun i => (i, false)) (next o (fst s)).
  Definition reverse_ops : rops A := mkOps (st o * bool)%type
    (fun s => negb (snd s) && valid o (fst s))
    (fun s => if snd s then (None, s) else let (x, i) := get o (fst s) in (x, (i, false)))
    (fun s t => equals o (fst s) (fst t) && Bool.eqb (snd s) (snd t))
    rev_first rev_next rev_last rev_prev.
  Definition reverse_make (s : st o) : bool * (st o * bool) := rev_first (s, false).
  (** Range.h:379-386; the flag is not changed by Move *)
  Definition reverse_move (m : mops o) : mops reverse_ops :=
    @mkMove A reverse_ops (fun s => size_t (size m (fst s) - position m (fst s) - (if snd s then 0 else 1)))
      (fun s => size m (fst s)) (fun d s => lift (fun i => (i, snd s)) (move m (- d) (fst s))).
End Reverse.

(** Range.h:390-428: RangeTransformer with its cache; RangeCaster (216-250) is the same with a cast for the functor *)
Section Transform.
  Context {A B : Type} (o : rops A) (f : A -> B).
  Definition tr (r : bool * st o) : bool * (st o * option B) := lift (fun i => (i, None)) r.
  Definition transform_ops : rops B := mkOps (st o * option B)%type
    (fun s => valid o (fst s))
    (fun s => match snd s with
              | Some y => (Some y, s)
              | None => match get o (fst s) with
                        | (Some x, i) => (Some (f x), (i, Some (f x)))
                        | (None, i) => (None, (i, None))
                        end
              end)
    (fun s t => equals o (fst s) (fst t))
    (fun s => tr (first o (fst s)))
    (fun s => tr (next o (fst s)))
    (fun s => tr (last o (fst s)))
    (fun s => tr (prev o (fst s))).
  Definition transform_make (s : st o) : st o * option B := (s, None).
  (** Range.h:418-420 *)
  Definition transform_move (m : mops o) : mops transform_ops :=
    @mkMove B transform_ops (fun s => position m (fst s)) (fun s => size m (fst s)) (fun d s => tr (move m d (fst s))).
End Transform.

(** Range.h:431-508: RangeDropper: _initial and _impl *)
Section Drop.
  Context {A : Type} (o : rops A).
  (** Range.h:501-507 *)
  Fixpoint do_drop (count : nat) (s : st o) : bool * st o :=
    match count with
    | O => (true, s)
    | S c => if valid o s then andthen (next o s) (do_drop c) else (true, s)
    end.
  Definition drop_ops : rops A := mkOps (st o * st o)%type
    (fun s => valid o (snd s))
    (fun s => let (x, i) := get o (snd s) in (x, (fst s, i)))
    (fun s t => equals o (fst s) (fst t) && equals o (snd s) (snd t))
    (fun s => (true, (fst s, fst s)))
    (fun s => lift (pair (fst s)) (next o (snd s)))
    (fun s => if valid o (fst s) then lift (pair (fst s)) (last o (snd s)) else (true, (fst s, fst s)))
    (fun s => if equals o (snd s) (fst s) then (false, s) else lift (pair (fst s)) (prev o (snd s))).
  Definition drop_make (count : nat) (s : st o) : bool * (st o * st o) := lift (fun i => (i, i)) (do_drop count s).
  (** Range.h:487-498 *)
  Definition drop_move (m : mops o) : mops drop_ops :=
    let pos := fun s : st o * st o => size_t (position m (snd s) - position m (fst s)) in
    let siz := fun s : st o * st o => size_t (size m (snd s) - position m (fst s)) in
    @mkMove A drop_ops pos siz
      (fun d s => if (size_t (pos s + d) <=? siz s)%Z then lift (pair (fst s)) (move m d (snd s)) else (false, s)).
End Drop.

(** Range.h:511-596: RangeTaker: _initial, _impl, _index; _count is fixed *)
Section Take.
  Context {A : Type} (o : rops A) (count : nat).
  Record tstate := mkT { t_initial : st o; t_impl : st o; t_index : nat }.
  Definition take_valid (s : tstate) : bool := valid o (t_impl s) && (t_index s <? count)%nat.
  Definition take_first (s : tstate) : bool * tstate := (true, mkT (t_initial s) (t_initial s) 0).
  Definition take_next (s : tstate) : bool * tstate :=
    if take_valid s then lift (fun i => mkT (t_initial s) i (S (t_index s))) (next o (t_impl s)) else (false, s).
  Definition take_prev (s : tstate) : bool * tstate :=
    if (0 <? t_index s)%nat then lift (fun i => mkT (t_initial s) i (t_index s - 1)) (prev o (t_impl s)) else (false, s).
  (** Range.h:555-560 *)
  Fixpoint take_last_loop (fuel : nat) (s p : tstate) : bool * tstate :=
    match fuel with
    | O => (false, p)
    | S f => if take_valid s
             then let (ok, s1) := take_next s in
                  if ok then if take_valid s1 then let (ok2, p1) := take_next p in if ok2 then take_last_loop f s1 p1 else (false, p1)
                             else take_last_loop f s1 p
                  else (false, p)
             else (true, p)
    end.
  Definition take_ops : rops A := mkOps tstate
    take_valid
    (fun s => if take_valid s then let (x, i) := get o (t_impl s) in (x, mkT (t_initial s) i (t_index s)) else (None, s))
    (fun s t => equals o (t_initial s) (t_initial t) && equals o (t_impl s) (t_impl t) && (t_index s =? t_index t)%nat)
    take_first take_next
    (fun s => let f := snd (take_first s) in
              let (ok, p) := take_last_loop (count + 1) f f in (ok, mkT (t_initial s) (t_impl p) (t_index p)))
    take_prev.
  Definition take_make (s : st o) : tstate := mkT s s 0.
  (** Range.h:583-595 *)
  Definition take_move (m : mops o) : mops take_ops :=
    let siz := fun s : tstate => Z.min (size_t (size m (t_initial s) - position m (t_initial s))) (Z.of_nat count) in
    @mkMove A take_ops (fun s : tstate => Z.of_nat (t_index s)) siz
      (fun d (s : tstate) => if (size_t (Z.of_nat (t_index s) + d) <=? siz s)%Z
                then let (ok, i) := move m d (t_impl s) in
                     (ok, mkT (t_initial s) i (if ok then Z.to_nat (Z.of_nat (t_index s) + d) else t_index s))
                else (false, s)).
End Take.
Arguments mkT {A o}. Arguments t_initial {A o}. Arguments t_impl {A o}. Arguments t_index {A o}.

(** Range.h:599-661: RangeCycler *)
Section Cycle.
  Context {A : Type} (o : rops A).
  Definition check_valid (s : st o) : bool * st o := (valid o s, s).
  Definition cycle_next (s : st o) : bool * st o :=
    andthen (next o s) (fun s1 => if valid o s1 then (true, s1) else andthen (first o s1) check_valid).
  Definition cycle_prev (s : st o) : bool * st o :=
    let (ok, f) := first o s in
    if ok then andthen (if equals o s f then last o s else prev o s) check_valid else (false, s).
  Definition cycle_ops : rops A := mkOps (st o) (fun _ => true) (get o) (equals o)
    (fun s => andthen (first o s) check_valid) cycle_next (fun s => andthen (last o s) check_valid) cycle_prev.
  Definition cycle_make (s : st o) : bool * st o := (valid o s, s).
End Cycle.

(** Range.h:664-732: RangeSplitter over the list [l]: the state is the position of _it; the cached fragment is left out
    (it is a function of the position and reset by every move).  A fragment is the list of its elements. *)
Section Split.
  Context {A : Type} (l : list A) (max : nat).
  Definition frag_size (i : nat) : nat := Nat.min max (length l - i).
  (** AlignDown (math.h:29-33) on non-negative values; None is its exception *)
  Definition align (v : nat) : option nat := if (max =? 0)%nat then None else Some (max * (v / max))%nat.
  Definition split_ops : rops (list A) := mkOps nat
    (fun i => negb (i =? length l)%nat)
    (fun i => (if (i =? length l)%nat then None else Some (firstn (frag_size i) (skipn i l)), i))
    Nat.eqb
    (fun _ => (true, 0%nat))
    (fun i => if (i =? length l)%nat then (false, i) else (true, (i + frag_size i)%nat))
    (fun i => match align (length l) with Some j => (true, j) | None => (false, i) end)
    (fun i => if (i =? 0)%nat then (false, i) else match align (i - 1) with Some j => (true, j) | None => (false, i) end).
End Split.

(** Range.h:749-855: RangeFlattener: the outer range and the current inner range *)
Section Flatten.
  Context {C A : Type} (o : rops C) (o2 : rops A) (to_range : C -> st o2).
  Definition opt_equals (x y : option (st o2)) : bool :=
    match x, y with Some a, Some b => equals o2 a b | None, None => true | _, _ => false end.
  (** Range.h:826-836 *)
  Fixpoint fl_find_next (fuel : nat) (s : st o) : bool * (st o * option (st o2)) :=
    match fuel with
    | O => (false, (s, None))
    | S f => if valid o s
             then match get o s with
                  | (Some c, s1) => if valid o2 (to_range c) then (true, (s1, Some (to_range c)))
                                    else let (ok, s2) := next o s1 in if ok then fl_find_next f s2 else (false, (s2, None))
                  | (None, s1) => (false, (s1, None))
                  end
             else (true, (s, None))
    end.
  (** Range.h:838-854 *)
  Fixpoint fl_find_prev (fuel : nat) (s : st o) : bool * (st o * option (st o2)) :=
    match fuel with
    | O => (false, (s, None))
    | S f => match get o s with
             | (Some c, s1) =>
                 let (ok, r) := last o2 (to_range c) in
                 if ok then if valid o2 r then (true, (s1, Some r))
                            else let (ok2, f1) := first o s1 in
                                 if ok2 then if equals o s1 f1 then (true, (s1, None))
                                             else let (ok3, s2) := prev o s1 in if ok3 then fl_find_prev f s2 else (false, (s2, None))
                                 else (false, (s1, None))
                 else (false, (s1, None))
             | (None, s1) => (false, (s1, None))
             end
    end.
  (** Range.h:786-798 *)
  Definition fl_next (fuel : nat) (s : st o * option (st o2)) : bool * (st o * option (st o2)) :=
    match snd s with
    | None => (false, s)
    | Some r => let (ok, r1) := next o2 r in
                if ok then if valid o2 r1 then (true, (fst s, Some r1))
                           else let (ok2, s1) := next o (fst s) in if ok2 then fl_find_next fuel s1 else (false, (s1, Some r1))
                else (false, (fst s, Some r1))
    end.
  (** Range.h:800-815 *)
  Definition fl_prev (fuel : nat) (s : st o * option (st o2)) : bool * (st o * option (st o2)) :=
    match snd s with
    | None => (false, s)
    | Some r => let (ok, f) := first o2 r in
                if ok
                then if negb (equals o2 r f) then let (ok1, r1) := prev o2 r in (ok1, (fst s, Some r1))
                     else let (ok2, f2) := first o (fst s) in
                          if ok2 then if negb (equals o (fst s) f2)
                                      then let (ok3, s1) := prev o (fst s) in if ok3 then fl_find_prev fuel s1 else (false, (s1, Some r))
                                      else (true, (fst s, None))
                          else (false, s)
                else (false, s)
    end.
  Definition flatten_ops (fuel : nat) : rops A := mkOps (st o * option (st o2))%type
    (fun s => match snd s with Some _ => true | None => false end)
    (fun s => match snd s with Some r => let (x, r1) := get o2 r in (x, (fst s, Some r1)) | None => (None, s) end)
    (fun s t => equals o (fst s) (fst t) && opt_equals (snd s) (snd t))
    (fun s => let (ok, s1) := first o (fst s) in if ok then fl_find_next fuel s1 else (false, (s1, snd s)))
    (fl_next fuel)
    (* Range.h:817-823 and 840-841 *)
    (fun s => let (ok, s1) := last o (fst s) in
              if ok then if valid o s1 then fl_find_prev fuel s1 else (true, (s1, None)) else (false, (s1, snd s)))
    (fl_prev fuel).
  Definition flatten_make (fuel : nat) (s : st o) : bool * (st o * option (st o2)) := fl_find_next fuel s.
End Flatten.

(** Range.h:858-979: RangeZipper of two ranges (the code has any number; the calls go from the first to the last).  The cached value
    is left out here: it is reset by every move that completes. *)
Section Zip.
  Context {A B C : Type} (o1 : rops A) (o2 : rops B) (f : A -> B -> C).
  Definition zstate : Type := (st o1 * st o2)%type.
  Definition both (f1 : st o1 -> bool * st o1) (f2 : st o2 -> bool * st o2) (s : zstate) : bool * zstate :=
    let (ok1, a) := f1 (fst s) in
    if ok1 then let (ok2, b) := f2 (snd s) in (ok2, (a, b)) else (false, (a, snd s)).
  Definition zip_valid (s : zstate) : bool := valid o1 (fst s) && valid o2 (snd s).
  (** Range.h:967-971 *)
  Fixpoint zip_last_loop (fuel : nat) (s : zstate) (empty : bool) : bool * (zstate * bool) :=
    match fuel with
    | O => (false, (s, empty))
    | S k => if zip_valid s then let (ok, s1) := both (next o1) (next o2) s in if ok then zip_last_loop k s1 false else (false, (s1, empty))
             else (true, (s, empty))
    end.
  Definition zip_ops (fuel : nat) : rops C := mkOps zstate
    zip_valid
    (fun s => match get o1 (fst s) with
              | (None, a) => (None, (a, snd s))
              | (Some x, a) => match get o2 (snd s) with (Some y, b) => (Some (f x y), (a, b)) | (None, b) => (None, (a, b)) end
              end)
    (fun s t => equals o1 (fst s) (fst t) && equals o2 (snd s) (snd t))
    (both (first o1) (first o2))
    (both (next o1) (next o2))
    (fun s => let (ok, s1) := both (first o1) (first o2) s in
              if ok then let (ok2, r) := zip_last_loop fuel s1 true in
                         if ok2 then if snd r then (true, fst r) else both (prev o1) (prev o2) (fst r) else (false, fst r)
              else (false, s1))
    (both (prev o1) (prev o2)).
End Zip.

(** Range.h:997-1146: RangeConcater; the ranges are given as a list of states of one range type *)
Section Concat.
  Context {A : Type} (o : rops A) (ranges : list (st o)).
  Definition cstate : Type := option (nat * st o).
  (** Range.h:1041-1047: the first valid range from index i on *)
  Fixpoint c_forward (i : nat) (l : list (st o)) : cstate :=
    match l with [] => None | r :: l' => if valid o r then Some (i, r) else c_forward (S i) l' end.
  (** Range.h:1049-1055: the last element of the last non-empty range up to index n - 1 *)
  Fixpoint c_backward (n : nat) : bool * cstate :=
    match n with
    | O => (true, None)
    | S i => match nth_error ranges i with
             | None => (false, None)
             | Some r => let (ok, r1) := last o r in if ok then if valid o r1 then (true, Some (i, r1)) else c_backward i else (false, None)
             end
    end.
  Definition concat_first (s : cstate) : bool * cstate := (true, c_forward 0 ranges).
  Definition concat_next (s : cstate) : bool * cstate :=
    match s with
    | None => (false, s)
    | Some (i, r) => let (ok, r1) := next o r in
                     if ok then if valid o r1 then (true, Some (i, r1)) else (true, c_forward (S i) (skipn (S i) ranges))
                     else (false, Some (i, r1))
    end.
  Definition concat_prev (s : cstate) : bool * cstate :=
    match s with
    | None => (false, s)
    | Some (i, r) => let (ok, f) := first o r in
                     if ok then if equals o r f then c_backward i else let (ok2, r1) := prev o r in (ok2, Some (i, r1))
                     else (false, s)
    end.
  Definition concat_ops : rops A := mkOps cstate
    (fun s => match s with Some _ => true | None => false end)
    (fun s => match s with Some (i, r) => let (x, r1) := get o r in (x, Some (i, r1)) | None => (None, s) end)
    (fun s t => match s, t with
                | Some (i, r), Some (j, q) => (i =? j)%nat && equals o r q
                | None, None => true
                | _, _ => false
                end)
    concat_first concat_next (fun _ => c_backward (length ranges)) concat_prev.
  Definition concat_make : cstate := snd (concat_first None).
End Concat.

(** Range.h:1149-1216: RangeSingle *)
Definition single_ops {A} (x : A) : rops A := mkOps bool
  (fun v => v)
  (fun v => (if v then Some x else None, v))
  Bool.eqb
  (fun _ => (true, true))
  (fun v => if v then (true, false) else (false, v))
  (fun _ => (true, true))
  (fun v => if v then (false, v) else (true, true)).
Definition single_move {A} (x : A) : mops (single_ops x) :=
  let pos := fun v : bool => if v then 0%Z else 1%Z in
  @mkMove A (single_ops x) pos (fun _ => 1%Z)
    (fun d v => if (size_t (pos v + d) <=? 1)%Z then (true, (size_t (pos v + d) =? 0)%Z) else (false, v)).

(** The loop "for (; range.Valid(); range.Next()) body" of the algorithms (Range.h:1219-1543): the body gets the value and either
    goes on with a new accumulator or returns.  None: Get or Next threw, or the loop has not ended. *)
Section Loop.
  Context {A X R : Type} (o : rops A) (body : X -> A -> X + R) (done : X -> R).
  Fixpoint loop (fuel : nat) (x : X) (s : st o) : option R :=
    match fuel with
    | O => None
    | S f => if valid o s
             then match get o s with
                  | (Some a, s1) => match body x a with
                                    | inr r => Some r
                                    | inl x' => let (ok, s2) := next o s1 in if ok then loop f x' s2 else None
                                    end
                  | (None, _) => None
                  end
             else Some (done x)
    end.
End Loop.
(** Range.h:1349-1355, 1358-1402, 1405-1464, 1478-1512, 1521-1543 *)
Definition rg_count {A} (o : rops A) fuel s : option nat := loop o (fun n (_ : A) => inl (S n)) (fun n => n) fuel 0%nat s.
Definition rg_contains {A} (o : rops A) (p : A -> bool) fuel s : option bool :=
  loop o (fun (x : unit) a => if p a then inr true else inl x) (fun _ => false) fuel tt s.
Definition rg_index_of {A} (o : rops A) (p : A -> bool) fuel s : option (option nat) :=
  loop o (fun n a => if p a then inr (Some n) else inl (S n)) (fun _ => None) fuel 0%nat s.
Definition rg_any_of {A} (o : rops A) (p : A -> bool) fuel s : option bool :=
  loop o (fun (x : unit) a => if p a then inr true else inl x) (fun _ => false) fuel tt s.
Definition rg_all_of {A} (o : rops A) (p : A -> bool) fuel s : option bool :=
  loop o (fun (x : unit) a => if negb (p a) then inr false else inl x) (fun _ => true) fuel tt s.
Definition rg_none_of {A} (o : rops A) (p : A -> bool) fuel s : option bool :=
  loop o (fun (x : unit) a => if p a then inr false else inl x) (fun _ => true) fuel tt s.
Definition rg_element_at {A} (o : rops A) (index : nat) fuel s : option (option A) :=
  loop o (fun n a => if (index =? n)%nat then inr (Some a) else inl (S n)) (fun _ => None) fuel 0%nat s.
Definition rg_min {A} (o : rops A) (less : A -> A -> bool) fuel s : option (option A) :=
  loop o (fun r a => inl (match r with None => Some a | Some m => if less a m then Some a else r end)) (fun r => r) fuel None s.
Definition rg_max {A} (o : rops A) (less : A -> A -> bool) fuel s : option (option A) :=
  loop o (fun r a => inl (match r with None => Some a | Some m => if less m a then Some a else r end)) (fun r => r) fuel None s.
Definition rg_fold {A X} (o : rops A) (f : X -> A -> X) (x : X) fuel s : option X :=
  loop o (fun r a => inl (f r a)) (fun r => r) fuel x s.
Definition rg_fold1 {A} (o : rops A) (f : A -> A -> A) fuel s : option (option A) :=
  loop o (fun r a => inl (Some (match r with None => a | Some m => f m a end))) (fun r => r) fuel None s.

(** for (auto x : range): begin() is First(), end() is Last() and Next() if that is valid, and the loop runs while they differ
    (RangeBase.h:68-69 and 81-82) *)
Section ForEach.
  Context {A : Type} (o : rops A).
  Fixpoint for_loop (fuel : nat) (it stop : st o) : option (list A) :=
    match fuel with
    | O => None
    | S f => if equals o it stop then Some []
             else match get o it with
                  | (Some a, s1) => let (ok, s2) := next o s1 in
                                    if ok then match for_loop f s2 stop with Some l => Some (a :: l) | None => None end else None
                  | (None, _) => None
                  end
    end.
  Definition range_end (s : st o) : bool * st o := andthen (last o s) (fun r => if valid o r then next o r else (true, r)).
  Definition range_for (fuel : nat) (s : st o) : option (list A) :=
    let (ok1, b) := first o s in
    let (ok2, e) := range_end s in
    if ok1 && ok2 then for_loop fuel b e else None.
End ForEach.
