(** Vocabulary for C21. *)
From Coq Require Import List Arith Bool.
From Verif Require Import Conc BarrierModel.
Import ListNotations.

(** reached by a schedule without / with spurious wake-ups *)
Definition reachable (n : nat) (s : st) : Prop :=
  exists ls, steps (step n) init ls s /\ Forall (fun l => snd l <> Spurious) ls.
Definition reachable_spurious (n : nat) (s : st) : Prop := exists ls, steps (step n) init ls s.

(** the threads counted into round r, and those that returned from it *)
Definition entered (h : list event) (r : nat) : list nat :=
  flat_map (fun e => match e with EEnter t q => if q =? r then [t] else [] | _ => [] end) h.
Definition exited (h : list event) (r : nat) : list nat :=
  flat_map (fun e => match e with EExit t q _ => if q =? r then [t] else [] | _ => [] end) h.
(** how many of them got true *)
Definition trues (h : list event) (r : nat) : nat :=
  length (filter (fun e => match e with EExit _ q true => q =? r | _ => false end) h).

Definition happened (h : list event) (e : event) (before : list event) : Prop :=
  exists after, h = after ++ e :: before.
