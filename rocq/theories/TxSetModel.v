(** Model of stingraykit/collection/TransactionalSet.h.

    std::set<ValueType> is modelled as std::map<ValueType, unit> so that the code
    that TransactionalSet.h shares line for line with TransactionalDictionary.h
    (holders, copy-on-write, enumerators, GetCount, IsEmpty, Contains, Find,
    ReverseFind, RemoveWhere, Clear, Diff, IsDirty, Commit, Revert) is the same
    Coq definition; the line numbers below are those of TransactionalSet.h.
    Add, Remove and Apply differ from the dictionary's and are defined here. *)
From Coq Require Import List Bool Arith.
From Verif Require Import Base SortedMap TxEnumModel CowModel TxDictModel.
Import ListNotations.
Set Implicit Arguments.

Section TxSet.
  Variable T : Type.
  Variable tlt : T -> T -> bool.
  Notation st := (st T unit).
  Notation has := (mhas tlt).

  Inductive sop :=
  | SCCount | SCIsEmpty | SCContains (x : T) | SCEnum | SCReverse | SCFind (x : T) | SCReverseFind (x : T)
  | SCPopulate | SStart | SEnd
  | SCount | SIsEmpty | SContains (x : T) | SEnumerate | SReverse | SFind (x : T) | SReverseFind (x : T)
  | SAdd (x : T) | SRemove (x : T) | SRemoveWhere (p : T -> bool) | SClear
  | SApply (e : cop * T) | SDiff | SIsDirty | SCommit | SRevert
  | SDrop (i : nat).

  Inductive sres :=
  | SRNone | SRUnit | SRBool (b : bool) | SRNat (n : nat) | SRExn
  | SREnum (e : enumr T) (now : option (list (cop * T)))
  | SRCommit (sent : option (list (cop * T))).

  Definition strip_list (l : list (cop * (T * unit))) : list (cop * T) :=
    map (fun p => (fst p, fst (snd p))) l.
  Definition strip (r : res T unit) : sres :=
    match r with
    | RNone => SRNone | RUnit => SRUnit | RBool b => SRBool b | RNat n => SRNat n
    | RVal _ => SRUnit | RExn => SRExn | ROpt _ => SRUnit
    | REnum e now => SREnum e (option_map strip_list now)
    | RCommit d => SRCommit (option_map strip_list d)
    end.

  (** TransactionalSet.h:283-299 Add *)
  Definition set_add (s : st) (x : T) : st * bool :=
    if has x (removed s) then (mod_removed s (merase tlt x), true)
    else if negb (has x (added s)) && negb (has x (items s)) then (mod_added s (memplace tlt x tt), true)
    else (s, false).

  (** TransactionalSet.h:301-317 Remove *)
  Definition set_remove (s : st) (x : T) : st * bool :=
    if has x (added s) then (mod_added s (merase tlt x), true)
    else if negb (has x (removed s)) && has x (items s) then (mod_removed s (memplace tlt x tt), true)
    else (s, false).

  (** TransactionalSet.h:359-368 Apply *)
  Definition set_apply (s : st) (e : cop * T) : st * sres :=
    match fst e with
    | OpAdded => (fst (set_add s (snd e)), SRUnit)
    | OpRemoved => (fst (set_remove s (snd e)), SRUnit)
    | OpUpdated => (s, SRExn)
    end.

  (** the shared calls *)
  Definition shared (o : sop) : op T unit :=
    match o with
    | SCCount => CCount | SCIsEmpty => CIsEmpty         (* 441-451 *)
    | SCContains x => CContains x                       (* 453-457 *)
    | SCEnum => CEnum | SCReverse => CReverse           (* 429-439 *)
    | SCFind x => CFind x | SCReverseFind x => CReverseFind x   (* 459-479 *)
    | SCPopulate => CPopulate                           (* 199-204 *)
    | SStart => OStart | SEnd => OEnd                   (* 220-250 *)
    | SCount => OCount | SIsEmpty => OIsEmpty           (* 258-262 *)
    | SContains x => OContains x                        (* 264-265 *)
    | SEnumerate => OEnum | SReverse => OReverse        (* 252-256 *)
    | SFind x => OFind x | SReverseFind x => OReverseFind x     (* 267-281 *)
    | SAdd x => OAdd x tt | SRemove x => ORemove x | SApply e => OApply (fst e, (snd e, tt))
      (* not used by [sstep]: these three have their own code *)
    | SRemoveWhere p => ORemoveWhere (fun x _ => p x)   (* 319-347 *)
    | SClear => OClear                                  (* 349-356 *)
    | SDiff => ODiff | SIsDirty => OIsDirty             (* 370-374 *)
    | SCommit => OCommit | SRevert => ORevert           (* 376-405 *)
    | SDrop i => EDrop i
    end.

  Definition sstep (s : st) (o : sop) : st * sres :=
    match o with
    | SAdd x => if act s then let (s, b) := set_add s x in (s, SRBool b) else (s, SRNone)
    | SRemove x => if act s then let (s, b) := set_remove s x in (s, SRBool b) else (s, SRNone)
    | SApply e => if act s then set_apply s e else (s, SRNone)
    | _ => let (s, r) := step tlt (fun _ _ => true) s (shared o) in (s, strip r)
    end.

  Fixpoint srun (s : st) (ops : list sop) : st * list sres :=
    match ops with
    | [] => (s, [])
    | o :: t => let (s1, r) := sstep s o in let (s2, rs) := srun s1 t in (s2, r :: rs)
    end.

  (** what a client walking the enumerator gets *)
  Definition syields (h : hp (list (T * unit))) (e : enumr T) : option (list (cop * T)) :=
    option_map strip_list (yields tlt h e).
End TxSet.

Arguments SRNone {T}. Arguments SRUnit {T}. Arguments SRBool {T} _. Arguments SRNat {T} _. Arguments SRExn {T}.
Arguments SREnum {T} _ _. Arguments SRCommit {T} _.
Arguments SCCount {T}. Arguments SCIsEmpty {T}. Arguments SCEnum {T}. Arguments SCReverse {T}. Arguments SCPopulate {T}.
Arguments SStart {T}. Arguments SEnd {T}. Arguments SCount {T}. Arguments SIsEmpty {T}. Arguments SEnumerate {T}.
Arguments SReverse {T}. Arguments SClear {T}. Arguments SDiff {T}. Arguments SIsDirty {T}. Arguments SCommit {T}.
Arguments SRevert {T}. Arguments SDrop {T} _.
