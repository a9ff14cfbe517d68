(* Model of the observable values that show one entry of a collection: collection/ObservableDictionaryKeyValue.h,
   TransactionalDictionaryKeyValue.h, ObservableSetEntry.h.

   As in ViewModel.v the wrapped collection appears as its content, as the stream of its OnChanged calls or as the diffs
   it sends; everything runs under the mutex of the wrapped collection. *)
From Coq Require Import List Bool Arith.
From Verif Require Import TxEnumModel.
Import ListNotations.

Section KeyValue.
Variables K V : Type.
(* ValueType (ObservableDictionaryKeyValue.h 24): optional<V>, or V itself if V can be null *)
Variable W : Type.
Variable wrap : V -> W.              (* ValueType(value) *)
Variable null : W.
Variable as_value : W -> option V.   (* [if (value)] and [*value] (104-117): None if it is null *)
Variable cmp : K -> K -> bool.       (* EqualsCmp_ *)
Variable key : K.

(* ObservableDictionaryKeyValue.h 53-57, TransactionalDictionaryKeyValue.h 54-58: what TryGet found *)
Definition kv_get (found : option V) : W := match found with Some v => wrap v | None => null end.
(* ObservableDictionaryKeyValue.h 72-73, TransactionalDictionaryKeyValue.h 82-83: the call that connecting makes *)
Definition kv_populator (found : option V) : list W := [kv_get found].

Definition shown (o : cop) (v : V) : W := match o with OpRemoved => null | _ => wrap v end.
(* ObservableDictionaryKeyValue.h 66-70, for a stream of calls of the dictionary *)
Definition kv_events (evs : list (cop * (K * V))) : list W :=
  flat_map (fun e => if cmp key (fst (snd e)) then [shown (fst e) (snd (snd e))] else []) evs.

(* TransactionalDictionaryKeyValue.h 67-80: the loop over the diff with [wasChanged] and [value] (None before the first);
   then the slot is called, or not *)
Definition kv_diff (d : list (cop * (K * V))) : option W :=
  fold_left (fun value e => if cmp key (fst (snd e)) then Some (shown (fst e) (snd (snd e))) else value) d None.

(* ObservableDictionaryKeyValue.h 102-117: what is done to the dictionary *)
Inductive dict_op := DSet (k : K) (v : V) | DRemove (k : K).
Definition kv_set (w : W) : dict_op := match as_value w with Some v => DSet key v | None => DRemove key end.
End KeyValue.
Arguments DSet {K V}. Arguments DRemove {K V}.

(* the wrapped ObservableDictionaryWrapper.h 134-152: Set and Remove, with the OnChanged calls *)
Section Dict.
Variables K V : Type.
Variable eqk : K -> K -> bool.       (* the dictionary's own key equality *)
Definition dict_put (k : K) (o : option V) (m : K -> option V) : K -> option V := fun x => if eqk k x then o else m x.
Definition dict_do (m : K -> option V) (o : dict_op K V) : (K -> option V) * list (cop * (K * V)) :=
  match o with
  | DSet k v => (dict_put k (Some v) m, [((match m k with Some _ => OpUpdated | None => OpAdded end), (k, v))])
  | DRemove k => match m k with Some v => (dict_put k None m, [(OpRemoved, (k, v))]) | None => (m, []) end
  end.
End Dict.

Section SetEntry.
Variable T : Type.
Variable cmp : T -> T -> bool.       (* EqualsCmp_() (55): a default constructed one *)
Variable key : T.
(* ObservableSetEntry.h 43-44, 59-60: what Contains said *)
Definition se_get (contains : bool) : bool := contains.
Definition se_populator (contains : bool) : list bool := [se_get contains].
(* 53-57 *)
Definition se_events (evs : list (cop * T)) : list bool :=
  flat_map (fun e => if cmp key (snd e) then [match fst e with OpAdded => true | _ => false end] else []) evs.
(* 81-87, ObservableSetWrapper.h Add and Remove: the content and the OnChanged calls; [eqt] is the set's own equality *)
Variable eqt : T -> T -> bool.
Definition se_set (value : bool) (content : T -> bool) : (T -> bool) * list (cop * T) :=
  if value then if content key then (content, []) else ((fun x => eqt key x || content x), [(OpAdded, key)])
  else if content key then ((fun x => negb (eqt key x) && content x), [(OpRemoved, key)]) else (content, []).
End SetEntry.

(* GetSetEntry(set, key, equalsCmp) (ObservableSetEntry.h 91-93, 101-103): the comparer that is given is not used, the entry
   makes its own *)
Definition entry_comparer {T : Type} (default_made given : T -> T -> bool) : T -> T -> bool := default_made.
