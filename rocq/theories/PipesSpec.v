(** What the readers got and what the writers were told, from the history alone. *)
From Verif Require Import Base PipesModel.

(** Everything Read calls have returned, in order. *)
Definition reads (log : list bev) : list byte :=
  concat (map (fun e => match e with EvRead _ _ bs => bs | _ => [] end) log).

(** The Write calls that have ended, in order: what they were given and whether they returned normally. *)
Definition writes (log : list bev) : list (list byte * bool) :=
  concat (map (fun e => match e with EvWritten _ d => [(d, true)] | EvWriteThrow _ d => [(d, false)] | _ => [] end) log).

(** What went through of a Write: everything if it returned, a front part (possibly all) if it threw. *)
Definition part (p : list byte) (w : list byte * bool) : Prop :=
  if snd w then p = fst w else exists rest, fst w = p ++ rest.

Definition swrites (log : list sev) : list (list byte * bool) :=
  map (fun e => match e with SvWritten _ d => (d, true) | SvThrow _ d => (d, false) end) log.
