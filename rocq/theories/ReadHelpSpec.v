(** What an underlying stream is held to. *)
From Verif Require Import Base ReadHelpModel.

(** [rest] is what there is still to read: Read hands over its front, at most as much as asked; when it
    throws nothing is taken, and PipeClosed comes only at the end. *)
Record source (D : Stream) (rest : st D -> list byte) : Prop := {
  so_got : forall p n p' bs, rd D p n = (p', Got bs) -> length bs <= n /\ rest p = bs ++ rest p';
  so_closed : forall p n p', rd D p n = (p', Closed) -> rest p = [] /\ rest p' = [];
  so_failed : forall p n p', rd D p n = (p', Failed) -> rest p' = rest p;
  so_sticky : forall p n p' a, rd D p n = (p', a) -> tok D p' = true -> tok D p = true
}.
(** It returns nothing only at the end or when cancelled. *)
Definition eager (D : Stream) (rest : st D -> list byte) : Prop :=
  forall p n p', rd D p n = (p', Got []) -> 0 < n -> rest p = [] \/ tok D p' = false.

(** [out] is what has been accepted: Write accepts a front part of what it is given. *)
Record sink (D : Stream) (out : st D -> list byte) : Prop := {
  si_put : forall p d p' k, wt D p d = (p', Some k) -> k <= length d /\ out p' = out p ++ firstn k d;
  si_fail : forall p d p', wt D p d = (p', None) -> exists k, out p' = out p ++ firstn k d
}.

(** Text without line ends. *)
Definition plain (l : list byte) : Prop := ~ In LF l /\ ~ In CR l.

(** Nothing goes wrong: while there is something to read, Read returns some of it, and it never fails. *)
Definition willing (D : Stream) (rest : st D -> list byte) : Prop :=
  forall p n, rest p <> [] -> 0 < n -> exists p' bs, rd D p n = (p', Got bs) /\ bs <> [].

(** A text: each line, and whether it ends with CR LF or with LF alone. *)
Definition eol (crlf : bool) : list byte := if crlf then [CR; LF] else [LF].
Definition text (ls : list (list byte * bool)) : list byte := flat_map (fun lc => fst lc ++ eol (snd lc)) ls.

(** Calling ReadLine k times, as long as it returns. *)
Fixpoint read_lines (F : nat) (D : Stream) (p : st D) (k : nat) : st D * list (list byte) :=
  match k with
  | O => (p, [])
  | S k' => match read_line F D p [] with
            | (p', Ok l) => let '(p'', ls) := read_lines F D p' k' in (p'', l :: ls)
            | (p', _) => (p', [])
            end
  end.
