(** UTF-8 by RFC 3629. *)
From Verif Require Import Base.
Local Open Scope Z_scope.

Definition scalar (c : Z) : Prop := 0 <= c < 0x110000 /\ ~ (0xd800 <= c < 0xe000).
Definition enc (c : Z) : list Z :=
  if c <? 0x80 then [c]
  else if c <? 0x800 then [0xc0 + c / 64; 0x80 + c mod 64]
  else if c <? 0x10000 then [0xe0 + c / 4096; 0x80 + (c / 64) mod 64; 0x80 + c mod 64]
  else [0xf0 + c / 262144; 0x80 + (c / 4096) mod 64; 0x80 + (c / 64) mod 64; 0x80 + c mod 64].
(** a text, as bytes *)
Definition encs (cs : list Z) : list Z := flat_map enc cs.

(** Upper to lower case: Latin, and the Cyrillic letters from U+0401 to U+042F. *)
Definition low (c : Z) : Z :=
  if (0x41 <=? c) && (c <=? 0x5a) then c + 0x20
  else if (0x410 <=? c) && (c <=? 0x42f) then c + 0x20
  else if (0x401 <=? c) && (c <=? 0x40f) then c + 0x50
  else c.

(** What is taken for a symbol: a lead byte and as many continuation bytes as it announces. *)
Definition cont (c : Z) : Prop := 0x80 <= c <= 0xbf.
Definition symbol (l : list Z) : Prop :=
  (exists a, l = [a] /\ 0 <= a <= 0x7f) \/
  (exists a b, l = [a; b] /\ 0xc2 <= a <= 0xdf /\ cont b) \/
  (exists a b c, l = [a; b; c] /\ 0xe0 <= a <= 0xef /\ cont b /\ cont c) \/
  (exists a b c d, l = [a; b; c; d] /\ 0xf0 <= a <= 0xf4 /\ cont b /\ cont c /\ cont d).
Definition bytes (s : list Z) : Prop := Forall (fun b => 0 <= b <= 255) s.

(** Lexicographic order of two lists of numbers. *)
Fixpoint lexcmp (x y : list Z) : comparison :=
  match x, y with
  | [], [] => Eq
  | [], _ => Lt
  | _, [] => Gt
  | a :: x', b :: y' => match Z.compare a b with Eq => lexcmp x' y' | r => r end
  end.
