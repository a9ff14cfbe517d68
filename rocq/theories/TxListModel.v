(** Model of stingraykit/collection/TransactionalList.h.

    Simplifications as for the dictionary (TxDictModel.v): calls are atomic, slots
    only observe, std::vector never throws; ValueEqualsComparer and the operator==
    used by std::find are the same equality.  Shared pointers, the mutable weak
    holder and copy-on-write are modelled on the heap of CowModel.v. *)
From Coq Require Import List Bool Arith.
From Verif Require Import Base TxEnumModel CowModel.
Import ListNotations.
Set Implicit Arguments.

Section TxList.
  Variable V : Type.
  Variable veq : V -> V -> bool.

  Notation vec := (list V).
  Notation rd := (rd (@nil V)).
  Notation val := (val (@nil V)).
  Notation entry := (cop * (nat * V))%type.  (* DiffEntryType *)

  (** TransactionalList.h:62-73, the loop of MakeDiff from [index], [tail] =
      tailIndex; [old]/[new] are the elements from [index] on *)
  Fixpoint make_diff_from (index tail : nat) (old new : vec) {struct old} : list entry :=
    match old, new with
    | [], [] => []
    | o :: old', [] => (OpRemoved, (index - tail, o)) :: make_diff_from (S index) (S tail) old' []
    | [], _ =>
        (fix added (index : nat) (new : vec) : list entry :=
           match new with [] => [] | n :: new' => (OpAdded, (index, n)) :: added (S index) new' end) index new
    | o :: old', n :: new' =>
        (if veq o n then [] else [(OpRemoved, (index, o)); (OpAdded, (index, n))])
        ++ make_diff_from (S index) tail old' new'
    end.
  (** TransactionalList.h:55-76 MakeDiff *)
  Definition make_diff (old new : vec) : list entry := make_diff_from 0 0 old new.

  (** TransactionalList.h:137-143 ImplData (Items), 167-171 Transaction.  [act]: a
      Transaction object exists; [old], [new], [cached] are used only then. *)
  Record lst := mk_lst {
    lhh : hp vec; pub : nat; act : bool;
    old : nat; new : option cell; cached : option (list entry) }.
  Definition linit : lst := mk_lst (mk_hp [[]] []) 0 false 0 None None.

  Definition published s : vec := rd (lhh s) (pub s).
  (** const VectorType& items = _newItems ? *_newItems : *_oldItems; (222, 228, ..) *)
  Definition tx_items s : vec :=
    match new s with Some c => val (lhh s) c | None => rd (lhh s) (old s) end.

  (** what the client gets: STL iterators into a pinned vector, the reversed ones
      (90-100), the populator (102-135), or a diff vector owned by the enumerable *)
  Inductive lenum :=
  | LFwd (h : nat) | LRev (h : nat) | LPop (h : nat) | LDf (d : list entry).
  Definition lholders (e : lenum) : list nat :=
    match e with LFwd h | LRev h | LPop h => [h] | LDf _ => [] end.

  Fixpoint numbered (i : nat) (l : vec) : list (nat * V) :=
    match l with [] => [] | x :: t => (i, x) :: numbered (S i) t end.
  (** Plain elements are tagged OpUpdated with their position. *)
  Definition lyields (h : hp vec) (e : lenum) : list entry :=
    match e with
    | LFwd i => map (fun x => (OpUpdated, x)) (numbered 0 (hval [] h i))
    | LRev i => map (fun x => (OpUpdated, x)) (numbered 0 (rev (hval [] h i)))
    | LPop i => map (fun x => (OpAdded, x)) (numbered 0 (hval [] h i))
    | LDf d => d
    end.

  Inductive lop :=
  | LCGet (i : nat) | LCTryGet (i : nat) | LCCount | LCIsEmpty | LCContains (v : V) | LCIndexOf (v : V)
  | LCEnum | LCReverse | LCPopulate | LStart | LEnd
  | LGet (i : nat) | LTryGet (i : nat) | LCount | LIsEmpty | LContains (v : V) | LIndexOf (v : V)
  | LEnum | LReverse
  | LAdd (v : V) | LSet (i : nat) (v : V) | LInsert (i : nat) (v : V) | LRemoveAt (i : nat)
  | LRemove (v : V) | LRemoveAll (p : V -> bool) | LClear | LApply (e : entry)
  | LDiff | LIsDirty | LCommit | LRevert
  | LDrop (h : nat).

  Inductive lres :=
  | LRNone | LRUnit | LRBool (b : bool) | LRNat (n : nat) | LRVal (v : V) | LRExn | LROpt (o : option V)
  | LRIdx (o : option nat)
  | LREnum (e : lenum) (now : list entry)
  | LRCommit (sent : option (list entry)).

  (** std::find + std::distance (223, 230, 290, 446, 453) *)
  Fixpoint index_of (v : V) (l : vec) : option nat :=
    match l with
    | [] => None
    | x :: t => if veq x v then Some 0 else option_map S (index_of v t)
    end.
  (** vector::insert / erase / operator[]= at a valid position *)
  Definition insert_at (i : nat) (v : V) (l : vec) : vec := firstn i l ++ v :: skipn i l.
  Definition erase_at (i : nat) (l : vec) : vec := firstn i l ++ skipn (S i) l.
  Definition set_at (i : nat) (v : V) (l : vec) : vec := setnth i v l.

  (** a Holder (82-88) or a plain shared pointer keeping vector [p] alive *)
  Definition pin (h : hp vec) (p : nat) : nat * hp vec :=
    (length (hold h), mk_hp (mem h) (hold h ++ [(p, true)])).

  (** TransactionalList.h:377-388 GetItemsHolder *)
  Definition items_holder (s : lst) : nat * lst :=
    match new s with
    | None => let (i, h) := pin (lhh s) (old s) in (i, mk_lst h (pub s) (act s) (old s) (new s) (cached s))
    | Some c => let '(i, c, h) := get_holder (lhh s) c in (i, mk_lst h (pub s) (act s) (old s) (Some c) (cached s))
    end.
  (** 419-429 *)
  Definition pub_holder (s : lst) : nat * lst :=
    let (i, h) := pin (lhh s) (pub s) in (i, mk_lst h (pub s) (act s) (old s) (new s) (cached s)).

  (** TransactionalList.h:390-401 CopyOnWrite followed by _newItems->f(..) *)
  Definition write (s : lst) (f : vec -> vec) : lst :=
    let '(c, h) :=
      match new s with
      | None => new_cell (lhh s) (rd (lhh s) (old s))
      | Some c => let '(_, c, h) := cow [] (lhh s) c (Some (val (lhh s) c)) in (c, h)
      end in
    mk_lst (wr h (c_ptr c) (f (val h c))) (pub s) (act s) (old s) (Some c) None.

  (** TransactionalList.h:403-408 ResetWrite *)
  Definition reset_write (s : lst) : lst := mk_lst (lhh s) (pub s) (act s) (old s) None None.

  (** TransactionalList.h:310-321 Clear *)
  Definition clear (s : lst) : lst :=
    let fresh := let (c, h) := new_cell (lhh s) [] in mk_lst h (pub s) (act s) (old s) (Some c) None in
    match new s with
    | Some c =>
        match lock (lhh s) c with
        | None => mk_lst (wr (lhh s) (c_ptr c) []) (pub s) (act s) (old s) (Some c) None
        | Some _ => fresh
        end
    | None => fresh
    end.

  (** 259-266 Set, 268-275 Insert, 277-284 RemoveAt *)
  Definition set_ (s : lst) (i : nat) (v : V) : lst * lres :=
    if i <? length (tx_items s) then (write s (set_at i v), LRUnit) else (s, LRExn).
  Definition insert (s : lst) (i : nat) (v : V) : lst * lres :=
    if i <=? length (tx_items s) then (write s (insert_at i v), LRUnit) else (s, LRExn).
  Definition remove_at (s : lst) (i : nat) : lst * lres :=
    if i <? length (tx_items s) then (write s (erase_at i), LRUnit) else (s, LRExn).

  (** 323-337 Apply: Added and Updated both call Set *)
  Definition apply (s : lst) (e : entry) : lst * lres :=
    match fst e with
    | OpAdded | OpUpdated => set_ s (fst (snd e)) (snd (snd e))
    | OpRemoved => remove_at s (fst (snd e))
    end.

  (** 339-360 Commit *)
  Definition commit (s : lst) : lst * lres :=
    match new s with
    | None => (reset_write s, LRCommit None)
    | Some c =>
        let d := match cached s with Some d => d | None => make_diff (rd (lhh s) (old s)) (val (lhh s) c) end in
        match d with
        | [] => (reset_write s, LRCommit None)
        | _ => (reset_write (mk_lst (lhh s) (c_ptr c) (act s) (c_ptr c) (new s) (cached s)), LRCommit (Some d))
        end
    end.

  (** 365-371 Diff *)
  Definition diff (s : lst) : lst * lres :=
    match cached s with
    | Some d => (s, LREnum (LDf d) d)
    | None =>
        match new s with
        | Some c =>
            let d := make_diff (rd (lhh s) (old s)) (val (lhh s) c) in
            (mk_lst (lhh s) (pub s) (act s) (old s) (new s) (Some d), LREnum (LDf d) d)
        | None => (s, LREnum (LDf []) [])
        end
    end.

  Definition ret (x : nat * lst) (mk : nat -> lenum) : lst * lres :=
    let (i, s) := x in (s, LREnum (mk i) (lyields (lhh s) (mk i))).

  (** reads of a vector: 214-251, 431-474 *)
  Definition r_get (l : vec) (i : nat) : lres := match nth_error l i with Some v => LRVal v | None => LRExn end.
  Definition r_empty (l : vec) : bool := match l with [] => true | _ => false end.
  Definition r_contains (l : vec) (v : V) : bool := match index_of v l with Some _ => true | None => false end.

  Definition lstep (s : lst) (o : lop) : lst * lres :=
    let tx (r : lst * lres) := if act s then r else (s, LRNone) in
    match o with
    | LCGet i => (s, r_get (published s) i)
    | LCTryGet i => (s, LROpt (nth_error (published s) i))
    | LCCount => (s, LRNat (length (published s)))
    | LCIsEmpty => (s, LRBool (r_empty (published s)))
    | LCContains v => (s, LRBool (r_contains (published s) v))
    | LCIndexOf v => (s, LRIdx (index_of v (published s)))
    | LCEnum => ret (pub_holder s) LFwd
    | LCReverse => ret (pub_holder s) LRev
    (* 154-158 OnChangedPopulator *)
    | LCPopulate => if r_empty (published s) then (s, LRUnit) else ret (pub_holder s) LPop
    (* 174-196 *)
    | LStart => if act s then (s, LRNone)
                else (mk_lst (lhh s) (pub s) true (pub s) None None, LRUnit)
    (* 198-203 *)
    | LEnd => tx (mk_lst (lhh s) (pub s) false (old s) (new s) (cached s), LRUnit)
    | LGet i => tx (s, r_get (tx_items s) i)
    | LTryGet i => tx (s, LROpt (nth_error (tx_items s) i))
    | LCount => tx (s, LRNat (length (tx_items s)))
    | LIsEmpty => tx (s, LRBool (r_empty (tx_items s)))
    | LContains v => tx (s, LRBool (r_contains (tx_items s) v))
    | LIndexOf v => tx (s, LRIdx (index_of v (tx_items s)))
    | LEnum => tx (ret (items_holder s) LFwd)
    | LReverse => tx (ret (items_holder s) LRev)
    (* 253-257 *)
    | LAdd v => tx (write s (fun l => l ++ [v]), LRUnit)
    | LSet i v => tx (set_ s i v)
    | LInsert i v => tx (insert s i v)
    | LRemoveAt i => tx (remove_at s i)
    (* 286-299 *)
    | LRemove v => tx (match index_of v (tx_items s) with
                       | None => (s, LRBool false)
                       | Some i => (write s (erase_at i), LRBool true)
                       end)
    (* 301-308 *)
    | LRemoveAll p => tx (write s (filter (fun x => negb (p x))), LRNat (length (filter p (tx_items s))))
    | LClear => tx (clear s, LRUnit)
    | LApply e => tx (apply s e)
    | LDiff => tx (diff s)
    (* 373-374 *)
    | LIsDirty => tx (s, LRBool (match new s with Some _ => true | None => false end))
    | LCommit => tx (commit s)
    | LRevert => tx (reset_write s, LRUnit)
    | LDrop i => (mk_lst (drop_holder (lhh s) i) (pub s) (act s) (old s) (new s) (cached s), LRUnit)
    end.

  Fixpoint lrun (s : lst) (ops : list lop) : lst * list lres :=
    match ops with
    | [] => (s, [])
    | o :: t => let (s1, r) := lstep s o in let (s2, rs) := lrun s1 t in (s2, r :: rs)
    end.
End TxList.

Arguments LCGet {V} _. Arguments LCTryGet {V} _. Arguments LCCount {V}. Arguments LCIsEmpty {V}.
Arguments LCEnum {V}. Arguments LCReverse {V}. Arguments LCPopulate {V}. Arguments LStart {V}. Arguments LEnd {V}.
Arguments LGet {V} _. Arguments LTryGet {V} _. Arguments LCount {V}. Arguments LIsEmpty {V}.
Arguments LEnum {V}. Arguments LReverse {V}. Arguments LRemoveAt {V} _. Arguments LClear {V}. Arguments LDiff {V}.
Arguments LIsDirty {V}. Arguments LCommit {V}. Arguments LRevert {V}. Arguments LDrop {V} _.
Arguments LRNone {V}. Arguments LRUnit {V}. Arguments LRBool {V} _. Arguments LRNat {V} _. Arguments LRExn {V}.
Arguments LRIdx {V} _. Arguments LRCommit {V} _. Arguments LREnum {V} _ _. Arguments LROpt {V} _.
Arguments LFwd {V} _. Arguments LRev {V} _. Arguments LPop {V} _.
