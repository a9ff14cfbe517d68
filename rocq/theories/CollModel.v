(** Model of the plain collections: GenericDictionary.h, GenericSet.h (over std::map, std::set and their flat
    counterparts), GenericList.h, MultiMapDictionary.h, SortedMultiSet.h.

    The STL containers: a vector is a list, a (multi)map or (multi)set the list of its elements in iteration order.
    An iterator is a position in it, [length] is end().  lower_bound and upper_bound are the partition points
    the search trees find. *)
From Verif Require Import Base.

Section sorted.
  Variables K E : Type.
  (** the key of an element (itself, in a set) and the comparator *)
  Variable key : E -> K.
  Variable lt : K -> K -> bool.

  (** std::map::lower_bound: the first position whose key is not less *)
  Fixpoint lower_bound (l : list E) (k : K) : nat :=
    match l with [] => 0 | e :: l' => if lt (key e) k then S (lower_bound l' k) else 0 end.
  (** std::map::upper_bound: the first position whose key is greater *)
  Fixpoint upper_bound (l : list E) (k : K) : nat :=
    match l with [] => 0 | e :: l' => if lt k (key e) then 0 else S (upper_bound l' k) end.
  (** inserting before a position (emplace_hint, insert), and erase of an iterator *)
  Definition insert_at (l : list E) (i : nat) (e : E) : list E := firstn i l ++ e :: skipn i l.
  Definition erase_at (l : list E) (i : nat) : list E := firstn i l ++ skipn (S i) l.
  (** std::map::find and std::set::find *)
  Definition find_pos (l : list E) (k : K) : option nat :=
    let i := lower_bound l k in
    match nth_error l i with Some e => if lt k (key e) then None else Some i | None => None end.
  Definition find_elem (l : list E) (k : K) : option E :=
    match find_pos l k with Some i => nth_error l i | None => None end.

  (** GenericDictionary.h:98-99, GenericSet.h:93-94 *)
  Definition u_contains (l : list E) (k : K) : bool := match find_pos l k with Some _ => true | None => false end.
  (** GenericDictionary.h:101-108, GenericSet.h:96-103: what the enumerator enumerates *)
  Definition u_find (l : list E) (k : K) : list E := match find_pos l k with Some i => skipn i l | None => [] end.
  (** GenericDictionary.h:110-117, GenericSet.h:105-112 *)
  Definition u_rfind (l : list E) (k : K) : list E := match find_pos l k with Some i => rev (firstn (S i) l) | None => [] end.
  (** GenericDictionary.h:187-200, GenericSet.h:160-173: [copied] is the result of CopyOnWrite *)
  Definition u_add (copied : bool) (l : list E) (e : E) : option (list E) :=
    let i := lower_bound l (key e) in
    match nth_error l i with
    | Some e' => if lt (key e) (key e')
                 then Some (if copied then insert_at l (lower_bound l (key e)) e else insert_at l i e) else None
    | None => Some (if copied then insert_at l (lower_bound l (key e)) e else insert_at l i e)
    end.
  (** GenericDictionary.h:209-218; [update] puts the value of the second into the first *)
  Definition u_set (update : E -> E -> E) (l : list E) (e : E) : list E :=
    let i := lower_bound l (key e) in
    match nth_error l i with
    | Some e' => if lt (key e) (key e') then insert_at l i e else firstn i l ++ update e' e :: skipn (S i) l
    | None => insert_at l i e
    end.
  (** std::map::erase by key *)
  Definition erase_key (l : list E) (k : K) : list E := match find_pos l k with Some i => erase_at l i | None => l end.
  (** GenericDictionary.h:144-156, GenericSet.h:117-129 *)
  Definition u_remove (copied : bool) (l : list E) (k : K) : option (list E) :=
    match find_pos l k with
    | Some i => Some (if copied then erase_key l k else erase_at l i)
    | None => None
    end.
  (** GenericDictionary.h:158-173, GenericSet.h:131-146, MultiMapDictionary.h:203-218, SortedMultiSet.h:160-175: the loop *)
  Fixpoint remove_where (pred : E -> bool) (l : list E) : list E * nat :=
    match l with
    | [] => ([], 0)
    | e :: l' => let '(r, n) := remove_where pred l' in if pred e then (r, S n) else (e :: r, n)
    end.

  (** MultiMapDictionary.h:108-109, SortedMultiSet.h:98-99 *)
  Definition m_count (l : list E) (k : K) : nat := upper_bound l k - lower_bound l k.
  (** MultiMapDictionary.h:111-118, SortedMultiSet.h:101-108 *)
  Definition m_find (l : list E) (k : K) : list E :=
    match nth_error l (lower_bound l k) with
    | Some e => if lt k (key e) then [] else skipn (lower_bound l k) l
    | None => []
    end.
  (** MultiMapDictionary.h:120-129, SortedMultiSet.h:110-119; None if it reads the element before the first *)
  Definition m_rfind (l : list E) (k : K) : option (list E) :=
    let it := upper_bound l k in
    if Nat.eqb it (length l) then Some []
    else match it with
         | O => None
         | S p => match nth_error l p with
                  | Some e => if lt (key e) k then Some [] else Some (rev (firstn it l))
                  | None => None
                  end
         end.
  (** MultiMapDictionary.h:131-146 *)
  Definition m_first (l : list E) (k : K) : option E :=
    match nth_error l (lower_bound l k) with Some e => if lt k (key e) then None else Some e | None => None end.
  (** MultiMapDictionary.h:148-155 *)
  Definition m_range (l : list E) (k : K) : list E := firstn (upper_bound l k - lower_bound l k) (skipn (lower_bound l k) l).
  (** MultiMapDictionary.h:157-161, SortedMultiSet.h:121-125: a multimap inserts at the upper bound *)
  Definition m_add (l : list E) (e : E) : list E := insert_at l (upper_bound l (key e)) e.
  (** MultiMapDictionary.h:163-182: the loop over the equal range; [matches] is the test of the value *)
  Fixpoint m_remove_loop (matches : E -> bool) (copied : bool) (l : list E) (k : K) (fuel offset : nat) : option (list E) :=
    match fuel with
    | O => None
    | S f =>
        match nth_error l (lower_bound l k + offset) with
        | None => None
        | Some e =>
            if matches e
            then Some (if copied then erase_at l (lower_bound l k + offset) else erase_at l (lower_bound l k + offset))
            else m_remove_loop matches copied l k f (S offset)
        end
    end.
  Definition m_remove_first (matches : E -> bool) (copied : bool) (l : list E) (k : K) : option (list E) :=
    m_remove_loop matches copied l k (upper_bound l k - lower_bound l k) 0.
  (** SortedMultiSet.h:127-139 *)
  Definition ms_remove_first (copied : bool) (l : list E) (k : K) : option (list E) :=
    match nth_error l (lower_bound l k) with
    | Some e => if lt k (key e) then None else Some (if copied then erase_at l (lower_bound l k) else erase_at l (lower_bound l k))
    | None => None
    end.
  (** erasing [n] times at position [i]: MultiMapDictionary.h:193-198, SortedMultiSet.h:150-155 *)
  Fixpoint erase_times (n : nat) (l : list E) (i : nat) : list E * nat :=
    match n with O => (l, 0) | S n' => let '(r, c) := erase_times n' (erase_at l i) i in (r, S c) end.
  (** std::multimap::erase by key *)
  Definition erase_all_key (l : list E) (k : K) : list E * nat :=
    (firstn (lower_bound l k) l ++ skipn (upper_bound l k) l, upper_bound l k - lower_bound l k).
  (** MultiMapDictionary.h:184-201, SortedMultiSet.h:141-158 *)
  Definition m_remove_all (copied : bool) (l : list E) (k : K) : option (list E * nat) :=
    if Nat.eqb (lower_bound l k) (upper_bound l k) then None
    else Some (if copied then erase_all_key l k else erase_times (upper_bound l k - lower_bound l k) l (lower_bound l k)).
End sorted.
Arguments insert_at {E}. Arguments erase_at {E}. Arguments remove_where {E}.

Section plain_list.
  Variable A : Type.
  Variable eqA : A -> A -> bool.
  (** GenericList.h:93-100: std::find and the distance to it *)
  Fixpoint index_of (l : list A) (x : A) : option nat :=
    match l with [] => None | y :: l' => if eqA y x then Some 0 else option_map S (index_of l' x) end.
  (** GenericList.h:102-115: None is the exception, or false *)
  Definition l_get (l : list A) (i : nat) : option A := if Nat.ltb i (length l) then nth_error l i else None.
  (** GenericList.h:123-128 *)
  Definition l_set (l : list A) (i : nat) (x : A) : option (list A) :=
    if Nat.ltb i (length l) then Some (firstn i l ++ x :: skipn (S i) l) else None.
  (** GenericList.h:130-135 *)
  Definition l_insert (l : list A) (i : nat) (x : A) : option (list A) :=
    if Nat.leb i (length l) then Some (insert_at l i x) else None.
  (** GenericList.h:137-142 *)
  Definition l_remove_at (l : list A) (i : nat) : option (list A) :=
    if Nat.ltb i (length l) then Some (erase_at l i) else None.
  (** GenericList.h:144-155 *)
  Definition l_remove (l : list A) (x : A) : option (list A) :=
    match index_of l x with Some i => Some (erase_at l i) | None => None end.
  (** GenericList.h:157-164: std::remove_if and the number of what is erased *)
  Definition l_remove_all (pred : A -> bool) (l : list A) : list A * nat :=
    (filter (fun x => negb (pred x)) l, length l - length (filter (fun x => negb (pred x)) l)).
End plain_list.

(** Copy on write (GenericDictionary.h:39-61, 83-90, 175-184, 231-254 and the same in the others).  [heap] are the
    containers made so far; [cur] is the one of _map; an enumerator (or reverse enumerable) holds a Holder, which
    keeps the container [e_kept] alive, and its iterators go over the container [e_map].  The weak pointer
    [holder] is expired when no enumerator has the Holder. *)
Section cow.
  Variable C : Type.
  Variable V : Type.
  Record enumerator := mkEn { e_id : nat; e_holder : nat; e_kept : nat; e_map : nat; e_view : C -> V }.
  Record cow := mkCow { heap : list C; cur : nat; holder : option (nat * nat); ens : list enumerator; next : nat }.
  Definition content (s : cow) : option C := nth_error (heap s) (cur s).
  Definition expired (s : cow) : bool :=
    match holder s with Some (h, _) => negb (existsb (fun e => Nat.eqb (e_holder e) h) (ens s)) | None => true end.
  Definition upd (l : list C) (i : nat) (x : C) : list C := firstn i l ++ x :: skipn (S i) l.
  (** an empty container *)
  Definition start (c : C) : cow := mkCow [c] 0 None [] 0.
  (** CopyMap (231-235) of [c] *)
  Definition copy_map (s : cow) (c : C) : cow := mkCow (heap s ++ [c]) (length (heap s)) None (ens s) (next s).
  (** CopyOnWrite (247-254) *)
  Definition copy_on_write (s : cow) : cow :=
    if expired s then s else match content s with Some c => copy_map s c | None => s end.
  (** a change of the container in place *)
  Definition write (f : C -> C) (s : cow) : cow :=
    match content s with Some c => mkCow (upd (heap s) (cur s) (f c)) (cur s) (holder s) (ens s) (next s) | None => s end.
  (** a change; None is the one that finds nothing to do before CopyOnWrite *)
  Definition change (f : C -> option C) (s : cow) : cow :=
    match content s with
    | Some c => match f c with Some c' => write (fun _ => c') (copy_on_write s) | None => s end
    | None => s
    end.
  (** Clear (175-184) *)
  Definition clear (empty : C) (s : cow) : cow := if expired s then write (fun _ => empty) s else copy_map s empty.
  (** GetMapHolder and an enumerator (86-90, 237-245) *)
  Definition enumerate (view : C -> V) (s : cow) : cow :=
    let '(h, m) := match holder s with
                   | Some hm => if expired s then (next s, cur s) else hm
                   | None => (next s, cur s) end in
    mkCow (heap s) (cur s) (Some (h, m)) (mkEn (next s) h m (cur s) view :: ens s) (S (next s)).
  (** the enumerator [i] is destroyed *)
  Definition drop (i : nat) (s : cow) : cow :=
    mkCow (heap s) (cur s) (holder s) (filter (fun e => negb (Nat.eqb (e_id e) i)) (ens s)) (next s).
  (** what the enumerator shows now *)
  Definition shows (s : cow) (e : enumerator) : option V := option_map (e_view e) (nth_error (heap s) (e_map e)).

  Inductive cop :=
  | OChange (f : C -> option C) | OClear (empty : C) | OAssign (c : C) | OEnum (view : C -> V) | ODrop (i : nat).
  Definition step (s : cow) (o : cop) : cow :=
    match o with
    | OChange f => change f s | OClear c => clear c s | OAssign c => copy_map s c | OEnum v => enumerate v s | ODrop i => drop i s
    end.
  Definition run (s : cow) (l : list cop) : cow := fold_left step l s.
End cow.
