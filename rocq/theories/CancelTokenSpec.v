(** Vocabulary for C18. *)
From Coq Require Import List Arith.
From Verif Require Import Conc CancelTokenModel.
Import ListNotations.

Definition not_reset (l : nat * choice) : Prop := snd l <> DoReset.
(** reached by any schedule without Reset *)
Definition reachable (s : st) : Prop := exists ls, steps step init ls s /\ Forall not_reset ls.
(** ... and without spurious wake-ups *)
Definition reachable_nospurious (s : st) : Prop :=
  exists ls, steps step init ls s /\ Forall (fun l => snd l <> DoReset /\ snd l <> Spurious) ls.

(** the handler of registration r is being executed by somebody *)
Definition handler_running (s : st) (r : nat) : Prop := exists t, pcs s t = InHandler r.

(** in the history [h] (newest first) event e happened and, before it, everything in [before] *)
Definition happened (h : list event) (e : event) (before : list event) : Prop :=
  exists after, h = after ++ e :: before.

(** agent t is inside UnregisterCancellationHandler (or must still call it) for r *)
Definition unregistering (s : st) (t r : nat) : Prop :=
  pcs s t = Unreg r \/ pcs s t = UnregWait r \/ pcs s t = UnregWoken r.
