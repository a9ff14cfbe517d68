(** What a user of a threadsafe signal can observe, as a trace, and the vocabulary in which the
    properties are stated.  Nothing here mentions the implementation. *)
From Coq Require Import List Arith.
Import ListNotations.
Set Implicit Arguments.

Section Spec.
Variable A : Type.

(** t: thread, c: connection, e: emission (a call of the signal), a: its argument *)
Inductive obs :=
| OTau
| OLocked (t : nat) | OUnlocked (t : nat)        (* signal_locker constructed / destroyed *)
| OEmit (t e : nat) (a : A)                      (* the signal is called *)
| OAdd (t e : nat) (a : A) (nested : bool)       (* under a signal_locker: the state is changed and the signal called;
                                                    nested: from inside a slot *)
| OCall (t e c : nat) (a : A)                    (* emission e calls the slot of connection c *)
| OSkip (t e c : nat)                            (* emission e passes over connection c *)
| OEmitted (t e : nat)                           (* the call of the signal returns *)
| OConnecting (t c : nat) (populate : bool)      (* connect called *)
| OPop (t c : nat) (a : A)                       (* connect sends the current state: slot called *)
| OReturn (t c : nat)                            (* the slot of c returns (or throws a std::exception) *)
| OConnected (t c : nat)                         (* connect returns the Token *)
| ODisc (t c : nat)                              (* the Token's destructor has taken c out of the signal *)
| ODisconnected (t c : nat).                     (* the Token's destructor has returned *)

(** the connections in force, in the order in which they were made *)
Definition conn1 (l : list nat) (o : obs) : list nat :=
  match o with
  | OConnected _ c => l ++ [c]
  | ODisc _ c => remove Nat.eq_dec c l
  | _ => l
  end.
Definition connected (tr : list obs) : list nat := fold_left conn1 tr [].

(** the connections that emission e has dealt with, in order *)
Definition handled1 (e : nat) (o : obs) : list nat :=
  match o with OCall _ e' c _ | OSkip _ e' c => if e' =? e then [c] else [] | _ => [] end.
Definition handled (e : nat) (tr : list obs) : list nat := flat_map (handled1 e) tr.

(** the arguments with which the slot of c has been called, in order *)
Definition received1 (c : nat) (o : obs) : list A :=
  match o with OCall _ _ c' a | OPop _ c' a => if c' =? c then [a] else [] | _ => [] end.
Definition received (c : nat) (tr : list obs) : list A := flat_map (received1 c) tr.

(** the history of the state guarded by the signal *)
Definition added (tr : list obs) : list A :=
  flat_map (fun o => match o with OAdd _ _ a _ => [a] | _ => [] end) tr.

(** how many activations of the slot of c are running in thread t *)
Definition entered (t c : nat) (tr : list obs) : nat :=
  length (filter (fun o => match o with OCall t' _ c' _ | OPop t' c' _ => (t' =? t) && (c' =? c) | _ => false end)%bool tr).
Definition left (t c : nat) (tr : list obs) : nat :=
  length (filter (fun o => match o with OReturn t' c' => (t' =? t) && (c' =? c) | _ => false end)%bool tr).
Definition inside (t c : nat) (tr : list obs) : Prop := left t c tr < entered t c tr.

Definition disconnected (c : nat) (tr : list obs) : Prop := exists t, In (ODisconnected t c) tr.

(** thread t has a live signal_locker *)
Definition locked_n (t : nat) (tr : list obs) : nat :=
  length (filter (fun o => match o with OLocked t' => t' =? t | _ => false end) tr).
Definition unlocked_n (t : nat) (tr : list obs) : nat :=
  length (filter (fun o => match o with OUnlocked t' => t' =? t | _ => false end) tr).
Definition locking (t : nat) (tr : list obs) : Prop := unlocked_n t tr < locked_n t tr.

(** The documented discipline (signals.h:424-461): the guarded state is only changed together with an
    emission, under a signal_locker, not from inside a slot, and every connection asks for the
    current state. *)
Definition disciplined (tr : list obs) : Prop :=
  forall o, In o tr -> match o with
                       | OEmit _ _ _ => False
                       | OAdd _ _ _ nested => nested = false
                       | OConnecting _ _ populate => populate = true
                       | _ => True
                       end.

(** e is an emission of a by t *)
Definition emission (o : obs) (t e : nat) (a : A) : Prop := o = OEmit t e a \/ exists b, o = OAdd t e a b.
End Spec.
Arguments OTau {A}. Arguments OLocked {A}. Arguments OUnlocked {A}. Arguments OSkip {A}. Arguments OEmitted {A}.
Arguments OConnecting {A}. Arguments OReturn {A}. Arguments OConnected {A}. Arguments ODisc {A}. Arguments ODisconnected {A}.
