(** Specification of language codes, profiles and bandwidth. *)
From Coq Require Import ZArith List.
From Verif Require Import LangModel.
Import ListNotations.
Open Scope Z_scope.

(** A text of three nonzero bytes. *)
Definition Code3 (s : list Z) : Prop := length s = 3%nat /\ Forall (fun c => 0 < c < 256) s.

(** Equal up to the case of Latin letters. *)
Definition same_letter (a b : Z) : Prop :=
  a = b \/ (65 <= a <= 90 /\ b = a + 32) \/ (65 <= b <= 90 /\ a = b + 32).
Definition Same_text := Forall2 same_letter.

(** The capital of a letter. *)
Definition Capital (a b : Z) : Prop := (97 <= a <= 122 /\ b = a - 32) \/ (~ 97 <= a <= 122 /\ b = a).

(** Lexicographic order. *)
Inductive Lex : list Z -> list Z -> Prop :=
| Lex_here : forall a b r s, a < b -> Lex (a :: r) (b :: s)
| Lex_next : forall a r s, Lex r s -> Lex (a :: r) (a :: s).

(** Checkpoints named cs at times ts make a profile: each with the time since
    the one before, or since t0. *)
Inductive Profile : nat -> Z -> list (list Z * Z) -> list (cname * Z) -> Prop :=
| P_nil : forall k t0, Profile k t0 [] []
| P_named : forall k t0 n t cs out, n <> [] -> Profile (S k) t cs out ->
    Profile k t0 ((n, t) :: cs) ((Named n, t - t0) :: out)
| P_numbered : forall k t0 t cs out, Profile (S k) t cs out ->
    Profile k t0 (([], t) :: cs) ((Numbered k, t - t0) :: out).

Definition sum (l : list Z) : Z := fold_right Z.add 0 l.
(** All bytes pushed in a history. *)
Definition bytes (os : list bop) : Z := sum (map (fun o => match o with BPush n => n | _ => 0 end) os).
