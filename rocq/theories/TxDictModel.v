(** Model of stingraykit/collection/TransactionalDictionary.h.

    Simplifications: the calls are atomic (every access to the shared ImplData is
    under Guard or, for the transaction object, exclusive because only one
    transaction is alive: C17 in TxLock*.v); a slot connected to OnChanged only
    observes (signal dispatch itself is not modelled); a std::map never throws.
    Memory, holders and copy-on-write are modelled (CowModel.v). *)
From Coq Require Import List Bool Arith.
From Verif Require Import Base SortedMap TxEnumModel CowModel.
Import ListNotations.
Set Implicit Arguments.

Section Dict.
  Variables K V : Type.
  Variable klt : K -> K -> bool.   (* KeyLessComparer *)
  Variable veq : V -> V -> bool.   (* ValueEqualsComparer *)

  Notation mapt := (list (K * V)).  (* MapType *)
  Notation find := (mfind klt).
  Notation has := (mhas klt).

  (** TransactionalDictionary.h:117-193 the four enumeration directions *)
  Inductive dir := DFwd | DRev | DFind (k : K) | DRFind (k : K).

  (** ..Direction::Begin(holder) .. End(holder) as the elements visited:
      130-134 forward, 165-169 reverse, 148-149 lower_bound,
      184-192 lower_bound and one step further if the key is present *)
  Definition dir_elems (d : dir) (l : mapt) : mapt :=
    match d with
    | DFwd => l
    | DRev => rev l
    | DFind k => snd (mlower klt k l)
    | DRFind k =>
        let (before, from) := mlower klt k l in
        match from with
        | [] => rev before
        | x :: _ => if klt k (fst x) then rev before else rev (before ++ [x])
        end
    end.
  (** 124-128, 159-163 LessComparer *)
  Definition dir_lt (d : dir) (a b : K * V) : bool :=
    match d with
    | DFwd | DFind _ => klt (fst a) (fst b)
    | DRev | DRFind _ => klt (fst b) (fst a)
    end.

  (** Enumerator/enumerable objects given to the client; they own holders. *)
  Inductive enumr :=
  | EnEmpty                                  (* MakeEmptyEnumerator *)
  | EnTx (d : dir) (hi ha hr : nat)          (* SortedCollectionTransactionEnumerator *)
  | EnColl (d : dir) (hi : nat)              (* STL iterators into the pinned map *)
  | EnDiff (ha hr : nat)                     (* SortedCollectionTransactionDiffEnumerator *)
  | EnPop (hi : nat).                        (* OnChangedPopulator: everything Added *)

  Definition holders_of (e : enumr) : list nat :=
    match e with
    | EnEmpty => []
    | EnTx _ a b c => [a; b; c]
    | EnColl _ a => [a]
    | EnDiff a b => [a; b]
    | EnPop a => [a]
    end.

  Notation heap := (hp mapt).
  Notation hval := (hval (@nil (K * V))).
  Notation val := (val (@nil (K * V))).

  (** What a client that walks the enumerator gets, given the memory. None = an
      exception.  Diff entries are tagged; plain elements are tagged OpUpdated. *)
  Definition yields (h : heap) (e : enumr) : option (list (cop * (K * V))) :=
    match e with
    | EnEmpty => Some []
    | EnTx d hi ha hr =>
        option_map (List.map (fun p => (OpUpdated, p)))
          (enum_list (dir_lt d) (dir_elems d (hval h hi)) (dir_elems d (hval h ha)) (dir_elems d (hval h hr)))
    | EnColl d hi => Some (List.map (fun p => (OpUpdated, p)) (dir_elems d (hval h hi)))
    | EnDiff ha hr => Some (diff_list (dir_lt DFwd) (hval h ha) (hval h hr))
    | EnPop hi => Some (List.map (fun p => (OpAdded, p)) (hval h hi))
    end.

  (** TransactionalDictionary.h:195-206 ImplData, 232-237 Transaction.  [act]:
      a Transaction object exists.  While it does not, [ad] and [rm] are unused. *)
  Record st := mk_st { hh : heap; it : cell; ad : cell; rm : cell; act : bool }.

  Definition init : st := mk_st (mk_hp [[]; []; []] []) (mk_cell 0 None) (mk_cell 1 None) (mk_cell 2 None) false.

  Definition items s := val (hh s) (it s).
  Definition added s := val (hh s) (ad s).
  Definition removed s := val (hh s) (rm s).

  Inductive op :=
  (* collection *)
  | CGet (k : K) | CTryGet (k : K) | CCount | CIsEmpty | CContains (k : K)
  | CEnum | CReverse | CFind (k : K) | CReverseFind (k : K) | CPopulate
  | OStart | OEnd
  (* transaction *)
  | OGet (k : K) | OTryGet (k : K) | OCount | OIsEmpty | OContains (k : K)
  | OEnum | OReverse | OFind (k : K) | OReverseFind (k : K)
  | OAdd (k : K) (v : V) | OSet (k : K) (v : V) | ORemove (k : K)
  | ORemoveWhere (p : K -> V -> bool) | OClear | OApply (e : cop * (K * V))
  | ODiff | OIsDirty | OCommit | ORevert
  (* a client lets go of the last reference to a holder *)
  | EDrop (i : nat).

  Inductive res :=
  | RNone                               (* no such object / StartTransaction would wait *)
  | RUnit | RBool (b : bool) | RNat (n : nat)
  | RVal (v : V) | RExn | ROpt (o : option V)
  | REnum (e : enumr) (now : option (list (cop * (K * V))))
      (* the object, and what it yields when walked at once *)
  | RCommit (sent : option (list (cop * (K * V)))).
      (* the diff passed to OnChanged, if it was invoked *)

  (** TransactionalDictionary.h:79-87, 513-523 on the three cells *)
  Definition hold_items (s : st) : nat * st :=
    let '(i, c, h) := get_holder (hh s) (it s) in (i, mk_st h c (ad s) (rm s) (act s)).
  Definition hold_added (s : st) : nat * st :=
    let '(i, c, h) := get_holder (hh s) (ad s) in (i, mk_st h (it s) c (rm s) (act s)).
  Definition hold_removed (s : st) : nat * st :=
    let '(i, c, h) := get_holder (hh s) (rm s) in (i, mk_st h (it s) (ad s) c (act s)).
  Definition mod_added (s : st) (f : mapt -> mapt) : st :=
    let (c, h) := modify [] (hh s) (ad s) f in mk_st h (it s) c (rm s) (act s).
  Definition mod_removed (s : st) (f : mapt -> mapt) : st :=
    let (c, h) := modify [] (hh s) (rm s) f in mk_st h (it s) (ad s) c (act s).
  Definition set_added (s : st) (src : option mapt) : st :=
    let (c, h) := assign [] (hh s) (ad s) src in mk_st h (it s) c (rm s) (act s).
  Definition set_removed (s : st) (src : option mapt) : st :=
    let (c, h) := assign [] (hh s) (rm s) src in mk_st h (it s) (ad s) c (act s).

  Definition ret_enum (s : st) (e : enumr) : st * res := (s, REnum e (yields (hh s) e)).

  (** 272-276, 290, 298: make_shared_ptr<..Enumerator>(items, added, removed holders) *)
  Definition tx_enum (s : st) (d : dir) : st * res :=
    let (i, s) := hold_items s in
    let (a, s) := hold_added s in
    let (r, s) := hold_removed s in
    ret_enum s (EnTx d i a r).

  Definition coll_enum (s : st) (d : dir) : st * res :=
    let (i, s) := hold_items s in ret_enum s (EnColl d i).

  (** 284-285 ContainsKey *)
  Definition tx_contains (s : st) (k : K) : bool :=
    has k (added s) || (has k (items s) && negb (has k (removed s))).

  (** 303-314 Get, 316-333 TryGet *)
  Definition tx_get (s : st) (k : K) : option V :=
    match find k (added s) with
    | Some v => Some v
    | None =>
        match find k (items s) with
        | Some v => if negb (has k (removed s)) then Some v else None
        | None => None
        end
    end.

  (** 335-356 Add *)
  Definition tx_add (s : st) (k : K) (v : V) : st * bool :=
    match find k (items s) with
    | Some iv =>
        if negb (has k (removed s)) || has k (added s) then (s, false)
        else if veq v iv then (mod_removed s (merase klt k), true)
        else (mod_added s (memplace klt k v), true)
    | None =>
        if has k (added s) then (s, false)
        else (mod_added s (memplace klt k v), true)
    end.

  (** 358-401 Set *)
  Definition tx_set (s : st) (k : K) (v : V) : st :=
    let tail s :=   (* 387-400 *)
      match find k (added s) with
      | Some av => if negb (veq v av) then mod_added s (mput klt k v) else s
      | None => mod_added s (memplace klt k v)
      end in
    match find k (items s) with
    | Some iv =>
        if veq v iv then
          let s := if has k (added s) then mod_added s (merase klt k) else s in
          if has k (removed s) then mod_removed s (merase klt k) else s
        else
          tail (if negb (has k (removed s)) then mod_removed s (memplace klt k iv) else s)
    | None => tail s
    end.

  (** 403-424 Remove *)
  Definition tx_remove (s : st) (k : K) : st * bool :=
    if has k (added s) then (mod_added s (merase klt k), true)
    else if has k (removed s) then (s, false)
    else match find k (items s) with
         | Some iv => (mod_removed s (memplace klt k iv), true)
         | None => (s, false)
         end.

  (** 426-454 RemoveWhere; pred is a pure function *)
  Definition tx_remove_where (s : st) (p : K -> V -> bool) : st * nat :=
    let pp (x : K * V) := p (fst x) (snd x) in
    let n1 := length (filter pp (added s)) in
    let s := mod_added s (filter (fun x => negb (pp x))) in
    let step acc (x : K * V) :=
      let '(r, n) := acc in
      if has (fst x) r || negb (pp x) then (r, n)
      else (memplace klt (fst x) (snd x) r, S n) in
    let '(r, n2) := fold_left step (items s) (removed s, n1) in
    (mod_removed s (fun _ => r), n2).

  (** 456-463 Clear *)
  Definition tx_clear (s : st) : st :=
    let s := set_added s None in set_removed s (Some (items s)).

  (** 503-510 Revert *)
  Definition tx_revert (s : st) : st :=
    let s := set_added s None in set_removed s None.

  (** 465-473 Apply *)
  Definition tx_apply (s : st) (e : cop * (K * V)) : st :=
    match fst e with
    | OpAdded | OpUpdated => tx_set s (fst (snd e)) (snd (snd e))
    | OpRemoved => fst (tx_remove s (fst (snd e)))
    end.

  (** 475-476 Diff *)
  Definition tx_diff (s : st) : enumr * st :=
    let (a, s) := hold_added s in
    let (r, s) := hold_removed s in
    (EnDiff a r, s).

  (** 494-495: emplace every added pair; None = LogicException *)
  Fixpoint emplace_all (l : mapt) (m : mapt) : option mapt :=
    match l with
    | [] => Some m
    | (k, v) :: t => if has k m then None else emplace_all t (memplace klt k v m)
    end.

  (** 481-501 Commit *)
  Definition tx_commit (s : st) : st * res :=
    if match added s, removed s with [], [] => true | _, _ => false end then (s, RCommit None)
    else
      let (d, s) := tx_diff s in
      let '(_, c, h) := cow [] (hh s) (it s) (Some (items s)) in
      let s := mk_st h c (ad s) (rm s) (act s) in
      let m1 := fold_left (fun m x => merase klt (fst x) m) (removed s) (items s) in
      match emplace_all (added s) m1 with
      | None => (mk_st (wr (hh s) (c_ptr c) m1) c (ad s) (rm s) (act s), RExn)
      | Some m2 =>
          let s := mk_st (wr (hh s) (c_ptr c) m2) c (ad s) (rm s) (act s) in
          let sent := yields (hh s) d in    (* 497 OnChanged(diff) *)
          (tx_revert s, RCommit (Some (match sent with Some l => l | None => [] end)))
      end.

  Definition step (s : st) (o : op) : st * res :=
    let tx (r : st * res) := if act s then r else (s, RNone) in
    match o with
    (* 534-606 *)
    | CEnum => coll_enum s DFwd
    | CReverse => coll_enum s DRev
    | CCount => (s, RNat (length (items s)))
    | CIsEmpty => (s, RBool (match items s with [] => true | _ => false end))
    | CContains k => (s, RBool (has k (items s)))
    | CFind k => if has k (items s) then coll_enum s (DFind k) else ret_enum s EnEmpty
    | CReverseFind k => if has k (items s) then coll_enum s (DRFind k) else ret_enum s EnEmpty
    | CGet k => (s, match find k (items s) with Some v => RVal v | None => RExn end)
    | CTryGet k => (s, ROpt (find k (items s)))
    (* 220-224 OnChangedPopulator for a new slot *)
    | CPopulate =>
        match items s with
        | [] => (s, RUnit)
        | _ => let (i, s) := hold_items s in ret_enum s (EnPop i)
        end
    (* 240-263 *)
    | OStart =>
        if act s then (s, RNone)
        else let (a, h) := new_cell (hh s) [] in
             let (r, h) := new_cell h [] in
             (mk_st h (it s) a r true, RUnit)
    (* 265-270 *)
    | OEnd => tx (mk_st (hh s) (it s) (ad s) (rm s) false, RUnit)
    | OEnum => tx (tx_enum s DFwd)
    | OReverse => tx (tx_enum s DRev)
    (* 278-282 *)
    | OCount => tx (s, RNat (length (items s) - length (removed s) + length (added s)))
    | OIsEmpty => tx (s, RBool (match added s with [] => true | _ => false end
                                && (length (items s) =? length (removed s))))
    | OContains k => tx (s, RBool (tx_contains s k))
    (* 287-301 *)
    | OFind k => tx (if tx_contains s k then tx_enum s (DFind k) else ret_enum s EnEmpty)
    | OReverseFind k => tx (if tx_contains s k then tx_enum s (DRFind k) else ret_enum s EnEmpty)
    | OGet k => tx (s, match tx_get s k with Some v => RVal v | None => RExn end)
    | OTryGet k => tx (s, ROpt (tx_get s k))
    | OAdd k v => tx (let (s, b) := tx_add s k v in (s, RBool b))
    | OSet k v => tx (tx_set s k v, RUnit)
    | ORemove k => tx (let (s, b) := tx_remove s k in (s, RBool b))
    | ORemoveWhere p => tx (let (s, n) := tx_remove_where s p in (s, RNat n))
    | OClear => tx (tx_clear s, RUnit)
    | OApply e => tx (tx_apply s e, RUnit)
    | ODiff => tx (let (d, s) := tx_diff s in ret_enum s d)
    (* 478-479 *)
    | OIsDirty => tx (s, RBool (match added s, removed s with [], [] => false | _, _ => true end))
    | OCommit => tx (tx_commit s)
    | ORevert => tx (tx_revert s, RUnit)
    | EDrop i => (mk_st (drop_holder (hh s) i) (it s) (ad s) (rm s) (act s), RUnit)
    end.

  Fixpoint run (s : st) (ops : list op) : st * list res :=
    match ops with
    | [] => (s, [])
    | o :: t => let (s1, r) := step s o in let (s2, rs) := run s1 t in (s2, r :: rs)
    end.
End Dict.

Arguments RNone {K V}. Arguments RUnit {K V}. Arguments RBool {K V} _. Arguments RNat {K V} _.
Arguments RVal {K V} _. Arguments RExn {K V}. Arguments ROpt {K V} _. Arguments REnum {K V} _ _.
Arguments RCommit {K V} _.
Arguments CGet {K V} _. Arguments CTryGet {K V} _. Arguments CCount {K V}. Arguments CIsEmpty {K V}.
Arguments CContains {K V} _. Arguments CEnum {K V}. Arguments CReverse {K V}. Arguments CFind {K V} _.
Arguments CReverseFind {K V} _. Arguments CPopulate {K V}. Arguments OStart {K V}. Arguments OEnd {K V}.
Arguments OGet {K V} _. Arguments OTryGet {K V} _. Arguments OCount {K V}. Arguments OIsEmpty {K V}.
Arguments OContains {K V} _. Arguments OEnum {K V}. Arguments OReverse {K V}. Arguments OFind {K V} _.
Arguments OReverseFind {K V} _. Arguments OAdd {K V} _ _. Arguments OSet {K V} _ _.
Arguments ORemove {K V} _. Arguments ORemoveWhere {K V} _. Arguments OClear {K V}.
Arguments OApply {K V} _. Arguments ODiff {K V}. Arguments OIsDirty {K V}. Arguments OCommit {K V}.
Arguments ORevert {K V}. Arguments EDrop {K V} _.
Arguments EnEmpty {K}. Arguments EnColl {K} _ _. Arguments EnDiff {K} _ _. Arguments EnPop {K} _.
Arguments DFwd {K}. Arguments DRev {K}.
