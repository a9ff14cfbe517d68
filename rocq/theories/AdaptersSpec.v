(** What consumers and sources are held to (no model code beyond the two interfaces). *)
From Verif Require Import Base AdaptersModel.

(** A consumer never claims to have taken more than it was offered, and a cancellation that it has seen
    is not undone by its own calls. *)
Record proper {S} (C : Consumer S) : Prop := {
  p_bound : forall s d s' k, c_proc C s d = Ok (s', k) -> k <= length d;
  p_sticky : forall s d s' k, c_proc C s d = Ok (s', k) -> c_tok C s' = true -> c_tok C s = true;
  p_sticky_eod : forall s, c_tok C (c_eod C s) = true -> c_tok C s = true
}.

(** A consumer that does what its return value says: [out] is everything it took, in order, [eods] how
    often it was told EndOfData. *)
Record honest {S} (C : Consumer S) (out : S -> list byte) (eods : S -> nat) : Prop := {
  h_proper : proper C;
  h_proc : forall s d s' k, c_proc C s d = Ok (s', k) -> out s' = out s ++ firstn k d /\ eods s' = eods s;
  h_eod : forall s, out (c_eod C s) = out s /\ eods (c_eod C s) = 1 + eods s
}.

(** [fed C s r s' r' e]: the consumer went from [s] to [s'] by being offered, call after call, the front of
    the bytes [r] that it had not taken yet, until [r'] was left, and was told EndOfData [e] times, each
    time with nothing left. *)
Inductive fed {S} (C : Consumer S) : S -> list byte -> S -> list byte -> nat -> Prop :=
| fed_nil s r : fed C s r s r 0
| fed_proc s r n s1 k s' r' e :
    c_proc C s (firstn n r) = Ok (s1, k) -> fed C s1 (skipn k r) s' r' e -> fed C s r s' r' e
| fed_eod s s' r' e : fed C (c_eod C s) [] s' r' e -> fed C s [] s' r' (1 + e).

(** A source that never loses, repeats or reorders anything: [rest] is what it has still to deliver. *)
Definition lossless (Sr : Source) (rest : src Sr -> list byte) : Prop :=
  forall S (C : Consumer S), proper C ->
  forall x s x' s', s_read Sr S C x s = Ok (x', s') ->
  exists e, e <= 1 /\ fed C s (rest x) s' (rest x') e.

(** The same as long as the token has not been cancelled. *)
Definition lossless_unless_cancelled (Sr : Source) (rest : src Sr -> list byte) : Prop :=
  forall S (C : Consumer S), proper C ->
  forall x s x' s', s_read Sr S C x s = Ok (x', s') -> c_tok C s' = true ->
  exists e, e <= 1 /\ fed C s (rest x) s' (rest x') e.
