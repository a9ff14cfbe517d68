(** Vocabulary for C20. *)
From Coq Require Import List Arith Bool ZArith.
From Verif Require Import Conc TimerModel.
Import ListNotations.
Local Open Scope Z_scope.

Definition reachable (s : st) : Prop := exists ls, steps step init ls s.

(** event e is in the history and [before] is what had happened by then *)
Definition happened (h : list event) (e : event) (before : list event) : Prop :=
  exists after, h = after ++ e :: before.

(** the due time with which id was queued most recently *)
Fixpoint last_due (h : list event) (id : nat) : option Z :=
  match h with
  | [] => None
  | EQueued j d :: t => if Nat.eqb j id then Some d else last_due t id
  | _ :: t => last_due t id
  end.
(** the clock reading of its most recent dispatch *)
Fixpoint last_dispatch (h : list event) (id : nat) : option Z :=
  match h with
  | [] => None
  | EDispatch j d :: t => if Nat.eqb j id then Some d else last_dispatch t id
  | _ :: t => last_dispatch t id
  end.
Definition starts (h : list event) (id : nat) : nat :=
  length (filter (fun e => match e with EStart j _ => Nat.eqb j id | _ => false end) h).
Definition queuings (h : list event) (id : nat) : nat :=
  length (filter (fun e => match e with EQueued j _ => Nat.eqb j id | _ => false end) h).

(** the worker's next step takes e out of the queue *)
Definition takes (s : st) (e : entry) (s' : st) : Prop :=
  step s W = Some s' /\ In e (queue s) /\ log s' = EPopped (e_id e) (now s) :: log s.

(** when, with which timeout and period id was created *)
Fixpoint creation (h : list event) (id : nat) : option (Z * Z * option Z) :=
  match h with
  | [] => None
  | ECreated j a t p :: r => if Nat.eqb j id then Some (a, t, p) else creation r id
  | _ :: r => creation r id
  end.

(** the worker has it in its hands *)
Definition in_hand (s : st) (id : nat) : Prop :=
  exists z, wp s = WPopped id \/ wp s = WExec id z \/ wp s = WRun id z \/ wp s = WAfter id z.
(** the worker was told to stop and is past its main loop *)
Definition stopping (s : st) : Prop :=
  wp s = WDone \/ exists z, wp s = WDrain z \/ exists id, wp s = WDrainExec z id \/ wp s = WDrainRun z id.
(** id is in the queue *)
Definition is_queued (s : st) (id : nat) : Prop := exists e, In e (queue s) /\ e_id e = id.
