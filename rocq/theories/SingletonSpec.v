(** * What singletons should do, told from the events only *)
From Coq Require Import List Arith Bool ZArith.
From Verif Require Import SingletonModel.
Import ListNotations.

(** ** SafeSingleton *)
(** object [o] was constructed and is not destroyed *)
Definition alive (l : list ev) (o : nat) : Prop := In (Ctor o) l /\ ~ In (Dtor o) l.
(** the pointer [h] to [o] was handed out and its destruction has not begun *)
Definition holds (l : list ev) (h o : nat) : Prop := (exists t, In (Got t h o) l) /\ ~ In (Dropped h) l.

(** which event may follow the events [l] *)
Definition ev_ok (l : list ev) (e : ev) : Prop :=
  match e with
  | Ctor o => (forall o', ~ In (Ctor o') l) /\ ~ In Failed l
  | Failed => (forall o', ~ In (Ctor o') l) /\ ~ In Failed l
  | Dtor o => alive l o /\ In Exited l /\ forall h o', ~ holds l h o'
  | Got t h o => alive l o /\ forall t' o', ~ In (Got t' h o') l
  | Null t => In Failed l \/ exists o, In (Ctor o) l
  | Thrown t => forall o', ~ In (Ctor o') l
  | Dropped h => exists o, holds l h o
  | Exited => ~ In Exited l /\ exists o, alive l o
  end.
Definition history_ok (l : list ev) : Prop := forall l1 e l2, l = l1 ++ e :: l2 -> ev_ok l1 e.

(** ** PhoenixSingleton *)
Definition palive (l : list pev) (o : nat) : Prop := In (PCtor o) l /\ ~ In (PDtor o) l.
Definition pev_ok (l : list pev) (e : pev) : Prop :=
  match e with
  | PCtor o => ~ In (PCtor o) l /\ forall o', ~ palive l o'
  | PDtor o => palive l o /\ In PExit l
  | PRet t o => In (PCtor o) l /\ (~ In PExit l -> palive l o)
  | PThrown t => True
  | PExit => True
  | PAssert => False
  end.
Definition phistory_ok (l : list pev) : Prop := forall l1 e l2, l = l1 ++ e :: l2 -> pev_ok l1 e.

(** ** Singleton *)
(** the constructors call each other's Instance() without a cycle *)
Definition acyclic (deps : nat -> list nat) (rank : nat -> nat) : Prop :=
  forall n d, In d (deps n) -> rank d < rank n.
(** [a] happened before [b], and both happened *)
Definition before {A} (a b : A) (l : list A) : Prop := exists l1 l2 l3, l = l1 ++ a :: l2 ++ b :: l3.
Definition sev_eq_dec : forall a b : sev, {a = b} + {a <> b}.
Proof. decide equality; apply Nat.eq_dec. Defined.
Definition times (e : sev) (l : list sev) : nat := count_occ sev_eq_dec l e.
