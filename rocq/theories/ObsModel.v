(** Model of the observable collections: ObservableDictionaryWrapper.h, ObservableSetWrapper.h, ObservableListWrapper.h,
    MultiMapObservableDictionary.h, SortedObservableMultiSet.h, ObservableDictionaryKeyValue.h, ObservableSetEntry.h.

    Every method holds the lock of the signal (signal_locker) from beginning to end, so calls from several threads
    happen one after another and a method is a function from the content to the new content.  It also gives the
    events it signals, each with the content at that moment, and its result.  Delivery to the slots is C35. *)
From Verif Require Import Base CollModel.

(** CollectionOp *)
Inductive op := Added | Updated | Removed.

(** ObservableDictionaryWrapper over any wrapped dictionary: [elems] is what its enumerator enumerates; None of
    [w_add] and [w_remove] is the false they return without a change. *)
Section dict.
  Variables K V C : Type.
  Variable elems : C -> list (K * V).
  Variable w_get : C -> K -> option V.
  Variable w_add : C -> K -> V -> option C.
  Variable w_set : C -> K -> V -> C.
  Variable w_remove : C -> K -> option C.
  Definition dev := (op * K * V)%type.
  Definition dtrace := list (dev * C).

  (** ObservableDictionaryWrapper.h:124-132 *)
  Definition d_add (c : C) (k : K) (v : V) : C * dtrace * bool :=
    match w_add c k v with Some c' => (c', [((Added, k, v), c')], true) | None => (c, [], false) end.
  (** ObservableDictionaryWrapper.h:134-140 *)
  Definition d_set (c : C) (k : K) (v : V) : C * dtrace :=
    let update := match w_get c k with Some _ => true | None => false end in
    let c' := w_set c k v in
    (c', [((if update then Updated else Added, k, v), c')]).
  (** ObservableDictionaryWrapper.h:142-152 *)
  Definition d_remove (c : C) (k : K) : C * dtrace * bool :=
    match w_get c k with
    | None => (c, [], false)
    | Some value => let c' := match w_remove c k with Some c' => c' | None => c end in (c', [((Removed, k, value), c')], true)
    end.
  (** ObservableDictionaryWrapper.h:157-163 and 170-174: the loop; the enumerator is a snapshot (C56) *)
  Fixpoint d_remove_each (l : list (K * V)) (c : C) : C * dtrace * nat :=
    match l with
    | [] => (c, [], 0)
    | (k, v) :: l' =>
        let c1 := match w_remove c k with Some c1 => c1 | None => c end in
        let '(c2, t, n) := d_remove_each l' c1 in (c2, ((Removed, k, v), c1) :: t, S n)
    end.
  (** ObservableDictionaryWrapper.h:154-165 *)
  Definition d_remove_where (pred : K * V -> bool) (c : C) : C * dtrace * nat := d_remove_each (filter pred (elems c)) c.
  (** ObservableDictionaryWrapper.h:167-175 *)
  Definition d_clear (c : C) : C * dtrace := let '(c', t, _) := d_remove_each (elems c) c in (c', t).
  (** ObservableDictionaryWrapper.h:184-188 *)
  Definition d_populate (c : C) : list dev := map (fun e => (Added, fst e, snd e)) (elems c).

  Inductive dop := DAdd (k : K) (v : V) | DSet (k : K) (v : V) | DRemove (k : K) | DRemoveWhere (pred : K * V -> bool) | DClear.
  Definition d_step (c : C) (o : dop) : C * dtrace :=
    match o with
    | DAdd k v => fst (d_add c k v) | DSet k v => d_set c k v | DRemove k => fst (d_remove c k)
    | DRemoveWhere p => fst (d_remove_where p c) | DClear => d_clear c
    end.
  Fixpoint d_run (c : C) (l : list dop) : C * dtrace :=
    match l with [] => (c, []) | o :: l' => let '(c1, t1) := d_step c o in let '(c2, t2) := d_run c1 l' in (c2, t1 ++ t2) end.

  (** The key of a dictionary as an observable value: ObservableDictionaryKeyValue.h.  [N] is the type of the value
      (optional<V>, or V itself when it is nullable), [some] the conversion, [null] the null. *)
  Section keyvalue.
    Variable N : Type.
    Variable some : V -> N.
    Variable null : N.
    (** EqualsCmp_ *)
    Variable comparer : K -> K -> bool.
    (** ObservableDictionaryKeyValue.h:53-57 *)
    Definition kv_get (key : K) (c : C) : N := match w_get c key with Some v => some v | None => null end.
    (** ObservableDictionaryKeyValue.h:66-70: what is signalled for an event of the dictionary *)
    Definition kv_on (key : K) (e : dev) : option N :=
      let '(o, k, v) := e in
      if comparer key k then Some (match o with Removed => null | _ => some v end) else None.
    (** what an observer saw last: first what the populator gave (72-73) *)
    Definition kv_seen (key : K) (first : N) (l : list dev) : N := fold_left (fun n e => match kv_on key e with Some m => m | None => n end) l first.
    (** ObservableDictionaryKeyValue.h:102-117; [get] is operator * of the optional, None for a null *)
    Definition kv_set (get : N -> option V) (key : K) (c : C) (n : N) : C * dtrace :=
      match get n with Some v => d_set c key v | None => fst (d_remove c key) end.
  End keyvalue.

  (** Handlers that change the collection they listen to.  [logs] is what each observer got; a slot runs to its end,
      with all it does to the collection, before the next slot is called (the mutex is recursive). *)
  Fixpoint rexec (fuel : nat) (hs : list (dev -> list dop)) (c : C) (logs : list (list dev)) (o : dop) : C * list (list dev) :=
    match fuel with
    | O => (c, logs)
    | S f =>
        let '(c1, t) := d_step c o in
        fold_left (fun st ev =>
          fold_left (fun st ih =>
            let '(i, h) := ih in
            let '(c2, logs2) := st in
            let logs3 := map (fun jl => if Nat.eqb (fst jl) i then snd jl ++ [ev] else snd jl) (combine (seq 0 (length logs2)) logs2) in
            fold_left (fun st2 o2 => rexec f hs (fst st2) (snd st2) o2) (h ev) (c2, logs3))
            (combine (seq 0 (length hs)) hs) st)
          (map fst t) (c1, logs)
    end.
End dict.

(** The wrapped dictionaries.  Over std::map and flat_map (CollModel); whether the container was copied is any
    function of the content. *)
Section sorted_dict.
  Variables K V : Type.
  Variable lt : K -> K -> bool.
  Variable copied : list (K * V) -> bool.
  Definition s_get (l : list (K * V)) (k : K) : option V := option_map snd (find_elem K (K * V) fst lt l k).
  Definition s_add (l : list (K * V)) (k : K) (v : V) : option (list (K * V)) := u_add K (K * V) fst lt (copied l) l (k, v).
  Definition s_set (l : list (K * V)) (k : K) (v : V) : list (K * V) := u_set K (K * V) fst lt (fun a b => (fst a, snd b)) l (k, v).
  Definition s_remove (l : list (K * V)) (k : K) : option (list (K * V)) := u_remove K (K * V) fst lt (copied l) l k.
End sorted_dict.
(** Over ordered_map (GenericDictionary.h:202-229, the overloads without lower_bound): the entries in the order of
    insertion, as C37 proves of ordered_map.  [eqk] is equivalence under the comparator. *)
Section ordered_dict.
  Variables K V : Type.
  Variable eqk : K -> K -> bool.
  Definition o_get (l : list (K * V)) (k : K) : option V := option_map snd (find (fun e => eqk (fst e) k) l).
  Definition o_add (l : list (K * V)) (k : K) (v : V) : option (list (K * V)) :=
    match find (fun e => eqk (fst e) k) l with Some _ => None | None => Some (l ++ [(k, v)]) end.
  Definition o_set (l : list (K * V)) (k : K) (v : V) : list (K * V) :=
    match find (fun e => eqk (fst e) k) l with
    | Some _ => map (fun e => if eqk (fst e) k then (fst e, v) else e) l
    | None => l ++ [(k, v)]
    end.
  Definition o_remove (l : list (K * V)) (k : K) : option (list (K * V)) :=
    match find (fun e => eqk (fst e) k) l with Some _ => Some (filter (fun e => negb (eqk (fst e) k)) l) | None => None end.
End ordered_dict.

(** ObservableSetWrapper over any wrapped set. *)
Section set.
  Variables K C : Type.
  Variable elems : C -> list K.
  Variable w_add : C -> K -> option C.
  Variable w_remove : C -> K -> option C.
  Definition sev := (op * K)%type.
  Definition strace := list (sev * C).
  (** ObservableSetWrapper.h:110-118 *)
  Definition e_add (c : C) (k : K) : C * strace * bool :=
    match w_add c k with Some c' => (c', [((Added, k), c')], true) | None => (c, [], false) end.
  (** ObservableSetWrapper.h:120-128 *)
  Definition e_remove (c : C) (k : K) : C * strace * bool :=
    match w_remove c k with Some c' => (c', [((Removed, k), c')], true) | None => (c, [], false) end.
  (** ObservableSetWrapper.h:133-139, 146-150 *)
  Fixpoint e_remove_each (l : list K) (c : C) : C * strace * nat :=
    match l with
    | [] => (c, [], 0)
    | k :: l' =>
        let c1 := match w_remove c k with Some c1 => c1 | None => c end in
        let '(c2, t, n) := e_remove_each l' c1 in (c2, ((Removed, k), c1) :: t, S n)
    end.
  (** ObservableSetWrapper.h:130-141, 143-151 *)
  Definition e_remove_where (pred : K -> bool) (c : C) : C * strace * nat := e_remove_each (filter pred (elems c)) c.
  Definition e_clear (c : C) : C * strace := let '(c', t, _) := e_remove_each (elems c) c in (c', t).
  (** ObservableSetWrapper.h:160-164 *)
  Definition e_populate (c : C) : list sev := map (fun k => (Added, k)) (elems c).
  Inductive sop := SAdd (k : K) | SRemove (k : K) | SRemoveWhere (pred : K -> bool) | SClear.
  Definition e_step (c : C) (o : sop) : C * strace :=
    match o with
    | SAdd k => fst (e_add c k) | SRemove k => fst (e_remove c k) | SRemoveWhere p => fst (e_remove_where p c) | SClear => e_clear c
    end.
  Fixpoint e_run (c : C) (l : list sop) : C * strace :=
    match l with [] => (c, []) | o :: l' => let '(c1, t1) := e_step c o in let '(c2, t2) := e_run c1 l' in (c2, t1 ++ t2) end.
  (** ObservableSetEntry.h:43-44, 53-60; [w_has] is Contains *)
  Variable w_has : C -> K -> bool.
  Variable comparer : K -> K -> bool.
  Definition en_on (key : K) (e : sev) : option bool := if comparer key (snd e) then Some (match fst e with Added => true | _ => false end) else None.
  Definition en_seen (key : K) (first : bool) (l : list sev) : bool := fold_left (fun n e => match en_on key e with Some m => m | None => n end) l first.
  (** ObservableSetEntry.h:81-87 *)
  Definition en_set (key : K) (c : C) (b : bool) : C * strace := if b then fst (e_add c key) else fst (e_remove c key).
End set.

(** ObservableListWrapper; None is the exception of the wrapped list, before anything changed. *)
Section obslist.
  Variable A : Type.
  Variable eqA : A -> A -> bool.
  Definition lev := (op * nat * A)%type.
  Definition ltrace := list (lev * list A).
  (** ObservableListWrapper.h:116-121 (GenericList.h: Add is push_back) *)
  Definition ol_add (c : list A) (x : A) : list A * ltrace := let c' := c ++ [x] in (c', [((Added, length c' - 1, x), c')]).
  (** ObservableListWrapper.h:123-128 *)
  Definition ol_set (c : list A) (i : nat) (x : A) : option (list A * ltrace) :=
    match l_set A c i x with Some c' => Some (c', [((Updated, i, x), c')]) | None => None end.
  (** ObservableListWrapper.h:130-135 *)
  Definition ol_insert (c : list A) (i : nat) (x : A) : option (list A * ltrace) :=
    match l_insert A c i x with Some c' => Some (c', [((Added, i, x), c')]) | None => None end.
  (** ObservableListWrapper.h:137-143 *)
  Definition ol_remove_at (c : list A) (i : nat) : option (list A * ltrace) :=
    match l_get A c i with
    | None => None
    | Some value => match l_remove_at A c i with Some c' => Some (c', [((Removed, i, value), c')]) | None => None end
    end.
  (** ObservableListWrapper.h:145-154 *)
  Definition ol_remove (c : list A) (x : A) : option (list A * ltrace * bool) :=
    match index_of A eqA c x with
    | Some i => match ol_remove_at c i with Some (c', t) => Some (c', t, true) | None => None end
    | None => Some (c, [], false)
    end.
  (** ObservableListWrapper.h:161-171: [count] iterations are left *)
  Fixpoint ol_remove_loop (pred : A -> bool) (count index ret : nat) (c : list A) : option (list A * ltrace * nat) :=
    match count with
    | O => Some (c, [], ret)
    | S n =>
        let real := index - ret in
        match l_get A c real with
        | None => None
        | Some value =>
            if pred value
            then match l_remove_at A c real with
                 | None => None
                 | Some c1 => match ol_remove_loop pred n (S index) (S ret) c1 with
                              | Some (c2, t, r) => Some (c2, ((Removed, real, value), c1) :: t, r)
                              | None => None
                              end
                 end
            else ol_remove_loop pred n (S index) ret c
        end
    end.
  (** ObservableListWrapper.h:156-173 *)
  Definition ol_remove_all (pred : A -> bool) (c : list A) : option (list A * ltrace * nat) := ol_remove_loop pred (length c) 0 0 c.
  (** ObservableListWrapper.h:175-180: the loop, at most [fuel] times; None if it has not ended *)
  Fixpoint ol_clear (fuel : nat) (c : list A) : option (list A * ltrace) :=
    match fuel with
    | O => None
    | S f => match c with
             | [] => Some (c, [])
             | _ => match ol_remove_at c 0 with
                    | None => None
                    | Some (c1, t1) => match ol_clear f c1 with Some (c2, t2) => Some (c2, t1 ++ t2) | None => None end
                    end
             end
    end.
  (** ObservableListWrapper.h:189-194 *)
  Fixpoint ol_populate (i : nat) (c : list A) : list lev := match c with [] => [] | x :: c' => (Added, i, x) :: ol_populate (S i) c' end.
  Inductive lop := LAdd (x : A) | LSet (i : nat) (x : A) | LInsert (i : nat) (x : A) | LRemoveAt (i : nat) | LRemove (x : A) | LRemoveAll (pred : A -> bool) | LClear.
  (** a call that throws changes and signals nothing *)
  Definition ol_step (c : list A) (o : lop) : list A * ltrace :=
    let keep (r : option (list A * ltrace)) := match r with Some p => p | None => (c, []) end in
    match o with
    | LAdd x => ol_add c x | LSet i x => keep (ol_set c i x) | LInsert i x => keep (ol_insert c i x) | LRemoveAt i => keep (ol_remove_at c i)
    | LRemove x => keep (option_map fst (ol_remove c x)) | LRemoveAll p => keep (option_map fst (ol_remove_all p c)) | LClear => keep (ol_clear (S (length c)) c)
    end.
  Fixpoint ol_run (c : list A) (l : list lop) : list A * ltrace :=
    match l with [] => (c, []) | o :: l' => let '(c1, t1) := ol_step c o in let '(c2, t2) := ol_run c1 l' in (c2, t1 ++ t2) end.
End obslist.

(** MultiMapObservableDictionary *)
Section multimap.
  Variables K V : Type.
  Variable lt : K -> K -> bool.
  Variable veq : V -> V -> bool.
  Variable copied : list (K * V) -> bool.
  Notation C := (list (K * V)).
  Definition mtrace := list ((op * K * V) * C).
  (** MultiMapObservableDictionary.h:137-142 *)
  Definition mm_add (c : C) (k : K) (v : V) : C * mtrace := let c' := m_add K (K * V) fst lt c (k, v) in (c', [((Added, k, v), c')]).
  (** MultiMapDictionary.h:170: the test of RemoveFirst *)
  Definition wanted (v : option V) (e : K * V) : bool := match v with Some v => veq v (snd e) | None => true end.
  (** _wrapped.RemoveFirst: MultiMapDictionary.h:163-182 *)
  Definition w_remove_first (c : C) (k : K) (v : option V) : C :=
    match m_remove_first K (K * V) fst lt (wanted v) (copied c) c k with Some c' => c' | None => c end.
  (** MultiMapObservableDictionary.h:144-164 *)
  Definition mm_remove_first (c : C) (k : K) (value_ : option V) : C * mtrace * bool :=
    match find (wanted value_) (m_range K (K * V) fst lt c k) with
    | None => (c, [], false)
    | Some e => let c' := w_remove_first c k (Some (snd e)) in (c', [((Removed, k, snd e), c')], true)
    end.
  (** MultiMapObservableDictionary.h:171-178, 187-191, 199-202 *)
  Fixpoint mm_remove_each (l : list (K * V)) (c : C) : C * mtrace * nat :=
    match l with
    | [] => (c, [], 0)
    | (k, v) :: l' =>
        let c1 := w_remove_first c k (Some v) in
        let '(c2, t, n) := mm_remove_each l' c1 in (c2, ((Removed, k, v), c1) :: t, S n)
    end.
  (** the part of an enumeration before the key changes: 172-173 *)
  Fixpoint while_key (k : K) (l : list (K * V)) : list (K * V) :=
    match l with [] => [] | e :: l' => if (lt (fst e) k || lt k (fst e))%bool then [] else e :: while_key k l' end.
  (** MultiMapObservableDictionary.h:166-180 *)
  Definition mm_remove_all (c : C) (k : K) : C * mtrace * nat := mm_remove_each (while_key k (m_find K (K * V) fst lt c k)) c.
  (** MultiMapObservableDictionary.h:182-203 *)
  Definition mm_remove_where (pred : K * V -> bool) (c : C) : C * mtrace * nat := mm_remove_each (filter pred c) c.
  Definition mm_clear (c : C) : C * mtrace := let '(c', t, _) := mm_remove_each c c in (c', t).
  (** MultiMapObservableDictionary.h:212-216 *)
  Definition mm_populate (c : C) : list (op * K * V) := map (fun e => (Added, fst e, snd e)) c.
  Inductive mop := MAdd (k : K) (v : V) | MRemoveFirst (k : K) (v : option V) | MRemoveAll (k : K) | MRemoveWhere (pred : K * V -> bool) | MClear.
  Definition mm_step (c : C) (o : mop) : C * mtrace :=
    match o with
    | MAdd k v => mm_add c k v | MRemoveFirst k v => fst (mm_remove_first c k v) | MRemoveAll k => fst (mm_remove_all c k)
    | MRemoveWhere p => fst (mm_remove_where p c) | MClear => mm_clear c
    end.
  Fixpoint mm_run (c : C) (l : list mop) : C * mtrace :=
    match l with [] => (c, []) | o :: l' => let '(c1, t1) := mm_step c o in let '(c2, t2) := mm_run c1 l' in (c2, t1 ++ t2) end.
End multimap.

(** SortedObservableMultiSet *)
Section multiset.
  Variable K : Type.
  Variable lt : K -> K -> bool.
  Variable copied : list K -> bool.
  Notation C := (list K).
  Definition mstrace := list ((op * K) * C).
  (** SortedObservableMultiSet.h:120-125 *)
  Definition ms_add (c : C) (k : K) : C * mstrace := let c' := m_add K K (fun x => x) lt c k in (c', [((Added, k), c')]).
  (** SortedObservableMultiSet.h:127-135 *)
  Definition mso_remove_first (c : C) (k : K) : C * mstrace * bool :=
    match ms_remove_first K K (fun x => x) lt (copied c) c k with Some c' => (c', [((Removed, k), c')], true) | None => (c, [], false) end.
  (** SortedObservableMultiSet.h:141-149, 157-162, 169-173 *)
  Fixpoint ms_remove_each (l : list K) (c : C) : C * mstrace * nat :=
    match l with
    | [] => (c, [], 0)
    | k :: l' =>
        let c1 := match ms_remove_first K K (fun x => x) lt (copied c) c k with Some c1 => c1 | None => c end in
        let '(c2, t, n) := ms_remove_each l' c1 in (c2, ((Removed, k), c1) :: t, S n)
    end.
  (** 143-144 *)
  Fixpoint while_value (k : K) (l : list K) : list K :=
    match l with [] => [] | e :: l' => if (lt e k || lt k e)%bool then [] else e :: while_value k l' end.
  (** SortedObservableMultiSet.h:137-174 *)
  Definition mso_remove_all (c : C) (k : K) : C * mstrace * nat := ms_remove_each (while_value k (m_find K K (fun x => x) lt c k)) c.
  Definition mso_remove_where (pred : K -> bool) (c : C) : C * mstrace * nat := ms_remove_each (filter pred c) c.
  Definition mso_clear (c : C) : C * mstrace := let '(c', t, _) := ms_remove_each c c in (c', t).
  (** SortedObservableMultiSet.h:183-187 *)
  Definition mso_populate (c : C) : list (op * K) := map (fun k => (Added, k)) c.
  Inductive msop := MsAdd (k : K) | MsRemoveFirst (k : K) | MsRemoveAll (k : K) | MsRemoveWhere (pred : K -> bool) | MsClear.
  Definition mso_step (c : C) (o : msop) : C * mstrace :=
    match o with
    | MsAdd k => ms_add c k | MsRemoveFirst k => fst (mso_remove_first c k) | MsRemoveAll k => fst (mso_remove_all c k)
    | MsRemoveWhere p => fst (mso_remove_where p c) | MsClear => mso_clear c
    end.
  Fixpoint mso_run (c : C) (l : list msop) : C * mstrace :=
    match l with [] => (c, []) | o :: l' => let '(c1, t1) := mso_step c o in let '(c2, t2) := mso_run c1 l' in (c2, t1 ++ t2) end.
End multiset.
