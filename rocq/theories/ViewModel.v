(* Model of the collection views: the key sets of dictionaries (stingraykit/collection/DictionaryKeysSet.h) and the
   casters (stingraykit/collection/DictionaryCaster.h, SetCaster.h, ListCaster.h).

   A view holds no state of its own.  The wrapped collection appears as the sequence of its items (what its enumerator
   shows), as the stream of its OnChanged calls (observable) or as the diffs it sends (transactional).  All run under
   the mutex of the wrapped collection (GetSyncRoot), so they do not overlap. *)
From Coq Require Import List Bool Arith.
From Verif Require Import TxEnumModel.
Import ListNotations.

(* collection/CollectionOp: Added, Removed, Updated are TxEnumModel.cop *)

(** ** DictionaryKeysSet.h *)
Section Keys.
Variables K V : Type.
Variable cmp : K -> K -> bool.     (* EqualsCmp_, 103, 126 *)

Definition entry := (cop * (K * V))%type.
Definition e_op (e : entry) : cop := fst e.
Definition e_key (e : entry) : K := fst (snd e).

(* 38-57: enumerators of the dictionary, mapped to keys *)
Definition keys_enum (items : list (K * V)) : list K := map fst items.

(* 92-96, the stream of calls of the observable dictionary seen through InvokeOnChanged *)
Definition is_updated (o : cop) : bool := match o with OpUpdated => true | _ => false end.
Definition keys_events (evs : list entry) : list (cop * K) :=
  flat_map (fun e => if is_updated (e_op e) then [] else [(e_op e, e_key e)]) evs.

(* 177-181 CheckDiffEntry *)
Definition check_entry (e : entry) : bool := match e_op e with OpAdded | OpRemoved => true | OpUpdated => false end.

Definition is_removed (o : cop) : bool := match o with OpRemoved => true | _ => false end.
Definition is_added (o : cop) : bool := match o with OpAdded => true | _ => false end.

(* 153-175 FindNext: _entry and what is left of _src; None is an exception *)
Fixpoint find_next (cur : option entry) (src : list entry) : option (option entry * list entry) :=
  match src with
  | [] => Some (cur, [])
  | x :: r =>
    match cur with
    | None => if check_entry x then find_next (Some x) r else None                     (* 157-161 *)
    | Some e =>
      if check_entry x                                                                  (* 164 *)
      then if cmp (e_key e) (e_key x)                                                   (* 166 *)
           then if is_removed (e_op e) && is_added (e_op x) then find_next None r else None   (* 169-172 *)
           else Some (cur, src)
      else None
    end
  end.

(* 136-150 Valid, Get, Next and the client's loop; the fuel is the length of the source diff *)
Fixpoint drain (fuel : nat) (s : option entry * list entry) : option (list (cop * K)) :=
  match s with
  | (None, _) => Some []
  | (Some e, src) =>
    match fuel with
    | O => None
    | S n => match find_next None src with
             | None => None
             | Some s' => match drain n s' with Some l => Some ((e_op e, e_key e) :: l) | None => None end
             end
    end
  end.
(* 131-134 the constructor *)
Definition keys_diff (d : list entry) : option (list (cop * K)) :=
  match find_next None d with None => None | Some s => drain (length d) s end.

(* 207-213 ConvertDiffAndInvoke: what the slot is called with, if it is called *)
Inductive invoked (A : Type) := Called (d : list A) | NotCalled | Thrown.
Definition keys_invoke (d : list entry) : invoked (cop * K) :=
  match keys_diff d with
  | None => Thrown _
  | Some [] => NotCalled _
  | Some l => Called _ l
  end.
End Keys.
Arguments Called {A} _. Arguments NotCalled {A}. Arguments Thrown {A}.

(** ** the casters *)
Section Cast.
Variables K A B : Type.
Variable cast : A -> B.               (* Caster *)
Variable back : B -> option A.        (* BackCaster: the result and the out parameter *)
Variable aeq : A -> A -> bool.        (* the equality of the wrapped set or list *)

(* DictionaryCaster.h 51-88 *)
Definition dc_enum (items : list (K * A)) : list (K * B) := map (fun p => (fst p, cast (snd p))) items.
Definition dc_get (found : option A) : option B := match found with Some a => Some (cast a) | None => None end.
(* DictionaryCaster.h 137-138 ChangedHandler, 187-188 ConvertDiffEntry *)
Definition dc_events (evs : list (cop * (K * A))) : list (cop * (K * B)) :=
  map (fun e => (fst e, (fst (snd e), cast (snd (snd e))))) evs.

(* SetCaster.h 46-53, 58-62, 64-70 (items from the found one on; the caller gives the wrapped collection's order) *)
Definition sc_enum (items : list A) : list B := map cast items.
Definition sc_count (items : list A) : nat := length items.
Definition sc_contains (items : list A) (b : B) : bool :=
  match back b with Some a => existsb (aeq a) items | None => false end.
(* the wrapped set's Find: the items from the one equal to a on *)
Fixpoint find_from (a : A) (items : list A) : list A :=
  match items with [] => [] | x :: r => if aeq a x then items else find_from a r end.
Definition sc_find (items : list A) (b : B) : list B :=
  match back b with Some a => map cast (find_from a items) | None => [] end.
(* SetCaster.h 125-126, 173-174 *)
Definition sc_events (evs : list (cop * A)) : list (cop * B) := map (fun e => (fst e, cast (snd e))) evs.

(* ListCaster.h 64-82 *)
Fixpoint index_of (a : A) (items : list A) : option nat :=
  match items with [] => None | x :: r => if aeq a x then Some 0 else option_map S (index_of a r) end.
Definition lc_index_of (items : list A) (b : B) : option nat :=
  match back b with Some a => index_of a items | None => None end.
Definition lc_get (items : list A) (i : nat) : option B :=
  match nth_error items i with Some a => Some (cast a) | None => None end.
(* ListCaster.h 130-131 ChangedHandler *)
Definition lc_events (evs : list (cop * (nat * A))) : list (cop * (nat * B)) :=
  map (fun e => (fst e, (fst (snd e), cast (snd (snd e))))) evs.
End Cast.

(* DefaultCast and DefaultBackCast between shared_ptr types (SetCaster.h 206-215, ListCaster.h, DictionaryCaster.h
   221-230): pointers are None (null) or an object; only the objects satisfying [is_src] have the source type *)
Definition ptr_cast (p : option nat) : option nat := p.
Definition ptr_back (is_src : nat -> bool) (p : option nat) : option (option nat) :=
  match p with Some o => if is_src o then Some (Some o) else None | None => None end.
