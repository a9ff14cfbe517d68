(** Proofs about data pipes. *)
From Coq Require Import List Arith Lia.
From Verif Require Import PipeModel PipeSpec.
Import ListNotations.

Section P.
Context {D S : Type}.
Implicit Types (fs : list (stage D S)) (ss : list S) (xs : list D).

Lemma fold_out : forall fs xs out ss,
  fold_left (fun acc x => let '(o, t) := acc in let '(zs, t') := process fs t x in (o ++ zs, t')) xs (out, ss)
  = (out ++ fst (process_all fs ss xs), snd (process_all fs ss xs)).
Proof.
  intros fs. unfold process_all. induction xs as [|x xs IH]; intros out ss; cbn [fold_left].
  - cbn. now rewrite app_nil_r.
  - destruct (process fs ss x) as [zs t]. rewrite IH. symmetry. rewrite IH. cbn [fst snd app]. now rewrite app_assoc.
Qed.

Lemma process_all_cons : forall fs ss x xs,
  process_all fs ss (x :: xs) =
  (fst (process fs ss x) ++ fst (process_all fs (snd (process fs ss x)) xs),
   snd (process_all fs (snd (process fs ss x)) xs)).
Proof.
  intros. unfold process_all at 1. cbn [fold_left]. destruct (process fs ss x) as [zs t]. apply fold_out.
Qed.

Lemma process_all_app : forall fs xs ys ss,
  process_all fs ss (xs ++ ys) =
  (fst (process_all fs ss xs) ++ fst (process_all fs (snd (process_all fs ss xs)) ys),
   snd (process_all fs (snd (process_all fs ss xs)) ys)).
Proof.
  induction xs as [|x xs IH]; intros ys ss; cbn [app].
  - cbn. now destruct (process_all fs ss ys).
  - rewrite !process_all_cons, IH. cbn [fst snd]. now rewrite app_assoc.
Qed.

Lemma process_cons : forall f fs s ss x,
  process (f :: fs) (s :: ss) x =
  (fst (process_all fs ss (fst (step f s x))),
   snd (step f s x) :: snd (process_all fs ss (fst (step f s x)))).
Proof.
  intros. cbn [process]. destruct (step f s x) as [ys s']. cbn [fst snd].
  fold (process_all fs ss ys). now destruct (process_all fs ss ys).
Qed.

(** What one stage makes. *)
Fixpoint makes (f : stage D S) (s : S) (xs : list D) : list D * S :=
  match xs with
  | [] => ([], s)
  | x :: r => (fst (step f s x) ++ fst (makes f (snd (step f s x)) r), snd (makes f (snd (step f s x)) r))
  end.

Lemma makes_spec : forall f xs s ys s', Makes f s xs ys s' <-> makes f s xs = (ys, s').
Proof.
  intros f. induction xs as [|x xs IH]; intros s ys s'; cbn [makes].
  - split; [inversion 1; reflexivity | intros [= <- <-]; constructor].
  - split.
    + inversion 1 as [|? ? ? y1 s1 zs ? E M]; subst. apply IH in M. rewrite E. cbn [fst snd]. now rewrite M.
    + destruct (step f s x) as [y1 s1] eqn:E. cbn [fst snd]. destruct (makes f s1 xs) as [zs s2] eqn:M.
      cbn [fst snd]. intros [= <- <-]. econstructor; [eassumption | now apply IH].
Qed.

Lemma process_all_stage : forall f fs xs s ss,
  process_all (f :: fs) (s :: ss) xs =
  (fst (process_all fs ss (fst (makes f s xs))),
   snd (makes f s xs) :: snd (process_all fs ss (fst (makes f s xs)))).
Proof.
  intros f fs. induction xs as [|x xs IH]; intros s ss.
  - reflexivity.
  - rewrite process_all_cons, process_cons. cbn [fst snd makes]. rewrite IH. cbn [fst snd].
    now rewrite process_all_app.
Qed.

Lemma process_all_nil : forall xs, process_all (D := D) (S := S) [] [] xs = (xs, []).
Proof.
  induction xs as [|x xs IH]; [reflexivity|]. rewrite process_all_cons. cbn [process fst snd]. now rewrite IH.
Qed.

Lemma chain_spec : forall fs ss xs zs ss', length ss = length fs ->
  (process_all fs ss xs = (zs, ss') <-> Chain fs ss xs zs ss').
Proof.
  induction fs as [|f fs IH]; intros [|s ss] xs zs ss' L; try discriminate.
  - rewrite process_all_nil. split; [intros [= <- <-]; constructor | now inversion 1].
  - injection L as L. rewrite process_all_stage. destruct (makes f s xs) as [ys s'] eqn:M. cbn [fst snd].
    split.
    + destruct (process_all fs ss ys) as [z t] eqn:P. cbn [fst snd]. intros [= <- <-].
      apply (Ch_cons f fs s ss xs ys); [now apply makes_spec | now apply IH].
    + inversion 1 as [|? ? ? ? ? ys' s1 ? t M' C]; subst. apply makes_spec in M'.
      rewrite M in M'. injection M' as <- <-. apply IH in C; [|assumption]. now rewrite C.
Qed.

Lemma process_length : forall fs ss x, length (snd (process fs ss x)) = length ss.
Proof.
  induction fs as [|f fs IH]; intros [|s ss] x; try reflexivity.
  rewrite process_cons. cbn [snd length]. f_equal.
  generalize (fst (step f s x)) as ys. intros ys. revert ss.
  induction ys as [|y ys IHy]; intros ss; [reflexivity|].
  rewrite process_all_cons. cbn [snd]. now rewrite IHy, IH.
Qed.

Lemma pipe_run_app : forall fs a b ss, pipe_run fs ss (a ++ b) =
  (fst (pipe_run fs ss a) ++ fst (pipe_run fs (snd (pipe_run fs ss a)) b), snd (pipe_run fs (snd (pipe_run fs ss a)) b)).
Proof.
  intros fs. induction a as [|[x|] a IH]; intros b ss; cbn [app pipe_run].
  - cbn. now destruct (pipe_run fs ss b).
  - destruct (process fs ss x) as [zs t]. rewrite IH. destruct (pipe_run fs t a) as [z1 t1]. cbn [fst snd].
    now rewrite app_assoc.
  - apply IH.
Qed.

Lemma pipe_run_process : forall fs xs ss, pipe_run fs ss (map Process xs) = process_all fs ss xs.
Proof.
  intros fs. induction xs as [|x xs IH]; intros ss; [reflexivity|].
  rewrite process_all_cons. cbn [map pipe_run]. destruct (process fs ss x) as [zs t]. cbn [fst snd].
  rewrite IH. now destruct (process_all fs t xs).
Qed.

Lemma reset_length : forall fs ss, length (reset_all fs ss) = length ss.
Proof. induction fs as [|f fs IH]; intros [|s ss]; cbn [reset_all length]; auto. Qed.

Lemma pipe_run_length : forall fs cs ss, length (snd (pipe_run fs ss cs)) = length ss.
Proof.
  intros fs. induction cs as [|[x|] cs IH]; intros ss; cbn [pipe_run]; [reflexivity| |].
  - pose proof (process_length fs ss x). destruct (process fs ss x) as [zs t]. specialize (IH t).
    destruct (pipe_run fs t cs). cbn [snd] in *. congruence.
  - now rewrite IH, reset_length.
Qed.

Lemma reset_init : forall fs ss init, length ss = length fs ->
  Forall2 (fun f s0 => forall s, reset f s = s0) fs init -> reset_all fs ss = init.
Proof.
  intros fs ss init L F. revert ss L. induction F as [|f s0 fs init R F IH]; intros [|s ss] L; try discriminate; [reflexivity|].
  cbn [reset_all]. rewrite R. f_equal. apply IH. now injection L.
Qed.
End P.
