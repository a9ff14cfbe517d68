(** C43: what the log of a thread pool must look like. *)
From Coq Require Import List Arith Bool.
From Verif Require Import ThreadPoolModel.
Import ListNotations.

(** how often [t] occurs *)
Definition cnt (t : nat) (l : list nat) : nat := count_occ Nat.eq_dec l t.
Definition accepted (l : list ev) : list nat := flat_map (fun e => match e with EAccept t => [t] | _ => [] end) l.
Definition refused (l : list ev) : list nat := flat_map (fun e => match e with EReject t => [t] | ECancelled t => [t] | _ => [] end) l.
Definition started (l : list ev) : list nat := flat_map (fun e => match e with EStart t => [t] | _ => [] end) l.
Definition finished (l : list ev) : list nat := flat_map (fun e => match e with EFinish t => [t] | _ => [] end) l.

(** the last attempt to queue [t] in [l] found the pool full: maxT tasks accepted and not finished *)
Definition last_try_full (maxT : nat) (t : nat) (l : list ev) : Prop :=
  exists a b, l = a ++ ETry t true :: b /\ (forall x, ~ In (ETry t x) b) /\ length (accepted a) = length (finished a) + maxT.

(** what may be said after the history [l] *)
Definition ok_event (maxT : nat) (l : list ev) (e : ev) : Prop :=
  match e with
  | EAccept t => ~ In t (accepted l) /\ ~ In t (refused l) /\ length (accepted l) < length (finished l) + maxT
  | EStart t => In t (accepted l) /\ ~ In t (started l)
  | EFinish t => In t (started l) /\ ~ In t (finished l)
  | EReject t | EBlock t => ~ In t (accepted l) /\ last_try_full maxT t l
  | ECancelled t => ~ In t (accepted l)
  | ETry t _ => ~ In t (accepted l)
  end.
Definition ok_log (maxT : nat) (l : list ev) : Prop := forall l1 e l2, l = l1 ++ e :: l2 -> ok_event maxT l1 e.
