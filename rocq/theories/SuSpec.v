(** What replacing, splitting, stripping and the edit distance of strings mean. *)
From Verif Require Import Base SvModel SvSpec.

(** Every occurrence, from the left and without overlap, is replaced; what was put in is not looked at again. *)
Inductive replaced (from to : view) : view -> view -> Prop :=
| rep_none s : (forall i, ~ occurs s from i) -> replaced from to s s
| rep_some a b out : (forall i, (i < length a)%nat -> ~ occurs (a ++ from ++ b) from i) ->
    replaced from to b out -> replaced from to (a ++ from ++ b) (a ++ to ++ out).

(** Splitting at the leftmost delimiters, at most k times (None: as often as there are delimiters).
    [delim s a d b]: s is a ++ d ++ b and d is the leftmost delimiter of s. *)
Definition leftmost (del s a d b : view) : Prop :=
  d = del /\ s = a ++ d ++ b /\ (forall i, (i < length a)%nat -> ~ occurs s del i).
Definition leftmost_any (set s a d b : view) : Prop :=
  exists c, d = [c] /\ In c set /\ s = a ++ d ++ b /\ (forall x, In x a -> ~ In x set).
Inductive split_as (delim : view -> view -> view -> view -> Prop) : option nat -> view -> list view -> Prop :=
| split_end s : (forall a d b, ~ delim s a d b) -> forall k, split_as delim k s [s]
| split_stop s : split_as delim (Some 0%nat) s [s]
| split_more k s a d b l : delim s a d b -> split_as delim (option_map pred k) b l -> k <> Some 0%nat ->
    split_as delim k s (a :: l).

(** One edit: a character is inserted, deleted or replaced, anywhere. *)
Inductive edit1 : view -> view -> Prop :=
| e_ins a x b : edit1 (a ++ b) (a ++ x :: b)
| e_del a x b : edit1 (a ++ x :: b) (a ++ b)
| e_sub a x y b : edit1 (a ++ x :: b) (a ++ y :: b).
Inductive edits : nat -> view -> view -> Prop :=
| edits_0 a : edits 0 a a
| edits_S n a b c : edit1 a b -> edits n b c -> edits (S n) a c.

(** What is left of s when the characters of a set are stripped from its ends. *)
Definition stripped (left right : bool) (s chars m : view) : Prop :=
  exists a b, s = a ++ m ++ b /\ Forall (fun c => In c chars) a /\ Forall (fun c => In c chars) b /\
    (left = false -> a = []) /\ (right = false -> b = []) /\
    (left = true -> forall c, hd_error m = Some c -> ~ In c chars) /\
    (right = true -> forall c, hd_error (rev m) = Some c -> ~ In c chars).
