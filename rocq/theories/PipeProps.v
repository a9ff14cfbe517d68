(** C91: data pipes. *)
From Coq Require Import List Arith Lia.
From Verif Require Import PipeModel PipeSpec PipeProofs.
Import ListNotations.

(** The consumer of a pipe gets, in order, what the last stage makes of all
    that the stage before makes and so on, though the stages work on each
    input together; the states are those after these sequences. *)
Theorem C91_pipe_is_the_chain_of_its_stages : forall D S (fs : list (stage D S)) ss xs zs ss',
  length ss = length fs ->
  (pipe_run fs ss (map Process xs) = (zs, ss') <-> Chain fs ss xs zs ss').
Proof. intros. rewrite pipe_run_process. now apply chain_spec. Qed.
Print Assumptions C91_pipe_is_the_chain_of_its_stages.

(** A pipe can be split anywhere: the second part gets what the first makes. *)
Theorem C91_pipes_compose : forall D S (fs gs : list (stage D S)) ss ts xs ys ss' zs ts',
  length ss = length fs -> length ts = length gs ->
  pipe_run fs ss (map Process xs) = (ys, ss') -> pipe_run gs ts (map Process ys) = (zs, ts') ->
  pipe_run (fs ++ gs) (ss ++ ts) (map Process xs) = (zs, ss' ++ ts').
Proof.
  intros D S fs gs ss ts xs ys ss' zs ts' L K H G.
  apply C91_pipe_is_the_chain_of_its_stages in H; [|assumption].
  apply C91_pipe_is_the_chain_of_its_stages in G; [|assumption].
  apply C91_pipe_is_the_chain_of_its_stages; [rewrite !app_length; lia|].
  clear L K. induction H; cbn [app]; [exact G|]. econstructor; eauto.
Qed.
Print Assumptions C91_pipes_compose.

(** What was handed on is never revised: what the consumer gets for some calls
    begins with what it gets for the first of them. *)
Theorem C91_output_is_incremental : forall D S (fs : list (stage D S)) ss a b,
  exists more, fst (pipe_run fs ss (a ++ b)) = fst (pipe_run fs ss a) ++ more.
Proof. intros. rewrite pipe_run_app. cbn [fst]; eexists; reflexivity. Qed.
Print Assumptions C91_output_is_incremental.

(** If the stages' Reset makes their initial states, a pipe after any history
    and Reset is as a new one. *)
Theorem C91_reset_makes_a_new_pipe : forall D S (fs : list (stage D S)) init ss h cs,
  length ss = length fs -> Forall2 (fun f s0 => forall s, reset f s = s0) fs init ->
  pipe_run fs ss (h ++ Reset :: cs) =
  (fst (pipe_run fs ss h) ++ fst (pipe_run fs init cs), snd (pipe_run fs init cs)).
Proof.
  intros D S fs init ss h cs L F. rewrite pipe_run_app. cbn [pipe_run].
  rewrite (reset_init fs (snd (pipe_run fs ss h)) init); [reflexivity| |assumption].
  now rewrite pipe_run_length.
Qed.
Print Assumptions C91_reset_makes_a_new_pipe.

(** A stage that repeats each input and one that drops every second. *)
Definition twice : stage nat nat := Stage (fun s x => ([x; x + s], S s)) (fun _ => 0).
Definition second : stage nat nat := Stage (fun s x => if Nat.even s then ([x], S s) else ([], S s)) (fun _ => 0).

Example C91_pipe_example :
  pipe_run [twice; second; twice] [0; 0; 0] [Process 7; Process 9; Reset; Process 4] = ([7; 7; 9; 10; 4; 4], [1; 2; 1])
  /\ pipe_run [second; twice] [1; 0] [Process 7; Process 9] = ([9; 9], [3; 1])
  /\ Forall2 (fun f s0 => forall s, reset f s = s0) [twice; second; twice] [0; 0; 0].
Proof. repeat split. repeat constructor. Qed.
