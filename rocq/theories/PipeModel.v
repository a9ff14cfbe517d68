(** Model of data pipes.
    Source: stingraykit/DataPipe.h. *)
From Coq Require Import List.
Import ListNotations.

(** A stage: what Process hands on, in order, for an input in a state, and the
    state after it; what Reset makes of a state.  D holds the data of all
    stages, S the states of all stages.  Simplified: the values returned by
    the consumer are not seen by the stage, and nothing throws. *)
Record stage (D S : Type) := Stage { step : S -> D -> list D * S; reset : S -> S }.
Arguments Stage {D S} _ _.
Arguments step {D S} _ _ _.
Arguments reset {D S} _ _.

(** DataPipeStage::Process, DataPipe.h 49-51, 70-72: the head processes the
    input with the processing by the tail as its consumer; after the last
    stage the consumer of the pipe is called.  The result: what that consumer
    is called with and the states of the stages. *)
Fixpoint process {D S} (fs : list (stage D S)) (ss : list S) (x : D) : list D * list S :=
  match fs, ss with
  | f :: fs', s :: ss' =>
      let '(ys, s') := step f s x in
      let '(zs, ss'') :=
        fold_left (fun acc y => let '(out, t) := acc in
                                let '(zs, t') := process fs' t y in (out ++ zs, t')) ys ([], ss') in
      (zs, s' :: ss'')
  | _, _ => ([x], ss)
  end.

(** A sequence of calls of DataPipe::Process, 102-104. *)
Definition process_all {D S} (fs : list (stage D S)) (ss : list S) (xs : list D) : list D * list S :=
  fold_left (fun acc x => let '(out, t) := acc in
                          let '(zs, t') := process fs t x in (out ++ zs, t')) xs ([], ss).

(** Reset, 61-62, 78-79. *)
Fixpoint reset_all {D S} (fs : list (stage D S)) (ss : list S) : list S :=
  match fs, ss with
  | f :: fs', s :: ss' => reset f s :: reset_all fs' ss'
  | _, _ => ss
  end.

(** Calls on a pipe. *)
Inductive pcall (D : Type) := Process (x : D) | Reset.
Arguments Process {D} _.
Arguments Reset {D}.
Fixpoint pipe_run {D S} (fs : list (stage D S)) (ss : list S) (cs : list (pcall D)) : list D * list S :=
  match cs with
  | [] => ([], ss)
  | Process x :: r => let '(zs, t) := process fs ss x in
                      let '(zs', t') := pipe_run fs t r in (zs ++ zs', t')
  | Reset :: r => pipe_run fs (reset_all fs ss) r
  end.
