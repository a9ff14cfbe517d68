(* What the users of an observable value rely on, in terms of the events they see (newest first). *)
From Coq Require Import List Bool Arith.
From Verif Require Import ObsValueModel.
Import ListNotations.

Section S.
Variable T : Type.
Variable eqb : T -> T -> bool.

(* the value the slot of connection c was told last *)
Fixpoint last_told (c : nat) (l : list (ev T)) : option T :=
  match l with
  | [] => None
  | ERecv d v :: r => if c =? d then Some v else last_told c r
  | _ :: r => last_told c r
  end.

(* the value after a sequence of Sets: a register that ignores a value equal to the one it holds *)
Fixpoint register (v0 : T) (l : list (ev T)) : T :=
  match l with
  | [] => v0
  | ESet v :: r => let cur := register v0 r in if eqb cur v then cur else v
  | _ :: r => register v0 r
  end.

(* the connections that exist, in the order in which they were made *)
Fixpoint observers (l : list (ev T)) : list nat :=
  match l with
  | [] => []
  | EConn c _ _ :: r => observers r ++ [c]
  | EDisc c :: r => remove Nat.eq_dec c (observers r)
  | _ :: r => observers r
  end.

(* the connect call that made c: whether it asked for the current state, and the value when it returned *)
Fixpoint connect_info (c : nat) (l : list (ev T)) : option (bool * T) :=
  match l with
  | [] => None
  | EConn d send v :: r => if c =? d then Some (send, v) else connect_info c r
  | _ :: r => connect_info c r
  end.

(* does an event concern connection c *)
Definition about (c : nat) (e : ev T) : Prop :=
  match e with ERecv d _ | EConn d _ _ | EDisc d => d = c | _ => False end.

(* no Set among the calls a slot makes *)
Definition not_set (o : op T) : Prop := match o with OSet _ => False | _ => True end.

Definition any : discipline T := {| in_slot := fun _ => True; in_pop := fun _ => True |}.
(* slots may call anything, except that a slot being populated does not call Set *)
Definition no_set_in_populating : discipline T := {| in_slot := fun _ => True; in_pop := not_set |}.
(* slots never call Set *)
Definition no_set_in_slots : discipline T := {| in_slot := not_set; in_pop := not_set |}.
(* slots call nothing *)
Definition silent : discipline T := {| in_slot := fun _ => False; in_pop := fun _ => False |}.
End S.
Arguments last_told {T} _ _. Arguments register {T} _ _ _. Arguments observers {T} _. Arguments connect_info {T} _ _. Arguments about {T} _ _. Arguments not_set {T} _.
Arguments any {T}. Arguments no_set_in_populating {T}. Arguments no_set_in_slots {T}. Arguments silent {T}.
