(** Small common library for interleaving models: per-thread program counters as a
    function of the thread id, and runs as lists of (thread, choice) labels. *)
From Coq Require Import List Arith Bool Lia.
Import ListNotations.
Set Implicit Arguments.

Section Fupd.
  Variable A : Type.
  Definition fupd (f : nat -> A) (t : nat) (a : A) : nat -> A := fun u => if Nat.eqb u t then a else f u.
  Lemma fupd_same f t a : fupd f t a t = a.
  Proof. unfold fupd. now rewrite Nat.eqb_refl. Qed.
  Lemma fupd_other f t a u : u <> t -> fupd f t a u = f u.
  Proof. unfold fupd. intros H. apply Nat.eqb_neq in H. now rewrite H. Qed.
End Fupd.

Section Run.
  Variables S L : Type.
  Variable step : S -> L -> option S.
  (** a schedule: the labels, in order; a label that is not enabled stops the run *)
  Inductive steps : S -> list L -> S -> Prop :=
  | steps_nil s : steps s [] s
  | steps_cons s l s1 ls s2 : step s l = Some s1 -> steps s1 ls s2 -> steps s (l :: ls) s2.

  Lemma steps_app s1 l1 s2 l2 s3 : steps s1 l1 s2 -> steps s2 l2 s3 -> steps s1 (l1 ++ l2) s3.
  Proof. induction 1; cbn; auto. intros. econstructor; eauto. Qed.

  Lemma steps_inv (I : S -> Prop) : (forall s l s', I s -> step s l = Some s' -> I s') ->
    forall s ls s', I s -> steps s ls s' -> I s'.
  Proof. intros H s ls s' Hi Hs. induction Hs; eauto. Qed.

  (** executable runs, for concrete schedules *)
  Fixpoint exec (s : S) (ls : list L) : option S :=
    match ls with [] => Some s | l :: t => match step s l with Some s' => exec s' t | None => None end end.
  Lemma exec_steps ls : forall s s', exec s ls = Some s' -> steps s ls s'.
  Proof.
    induction ls as [|l ls IH]; cbn; intros s s' H; [injection H as <-; constructor|].
    destruct (step s l) eqn:E; [|discriminate]. econstructor; eauto.
  Qed.
  Lemma exec_obs (P : S -> Prop) s ls : match exec s ls with Some s' => P s' | None => False end ->
    exists s', steps s ls s' /\ P s'.
  Proof. intros H. destruct (exec s ls) as [s'|] eqn:E; [|contradiction]. exists s'. split; auto. now apply exec_steps. Qed.
End Run.
