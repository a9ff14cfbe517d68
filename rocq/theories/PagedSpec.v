(** What a user of io/PagedBuffer can see, read off the log of events only. *)
From Coq Require Import List Arith.
From Verif Require Import PagedModel.
Import ListNotations.

(** the committed byte stream: all that Push has made available so far *)
Definition pushed (l : list ev) : list nat := flat_map (fun e => match e with EPushed bs => bs | _ => [] end) l.
(** all that the consumers of Read were handed and took, in order *)
Definition delivered (l : list ev) : list nat := flat_map (fun e => match e with ERead _ bs _ => bs | _ => [] end) l.
Definition popped (l : list ev) : nat := list_sum (map (fun e => match e with EPop n _ _ => n | _ => 0 end) l).

(** one Push after the other: what each has committed is a prefix of its data; all of its data when it succeeds *)
Definition is_prefix (a b : list nat) : Prop := exists r, b = a ++ r.
Definition is_push_end (e : ev) := match e with EPushBegin _ | EPushOk | EPushFail => true | _ => false end.

(** nothing in the history is one of the interferences named in the refuted statements *)
Definition calm_ev (e : ev) : Prop :=
  match e with
  | ERead _ _ over => over = false            (* no consumer was given bytes that were not yet committed *)
  | EPop _ _ drops => drops = false           (* no Pop dropped a page while a Read was delivering *)
  | _ => True
  end.
Definition calm (l : list ev) : Prop := Forall calm_ev l.
(** a sequential consumer: no Seek, no Pop of unread bytes, no cancelled Read, whole chunks consumed *)
Definition plain_ev (ck : nat) (e : ev) : Prop :=
  match e with
  | ERead _ bs _ => length bs mod ck = 0
  | EPop _ skips _ => skips = false
  | ESeek _ => False
  | EReadCancelled _ _ => False
  | _ => True
  end.
Definition plain (ck : nat) (l : list ev) : Prop := Forall (plain_ev ck) l.
