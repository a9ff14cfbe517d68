(** Hexadecimal numerals. *)
From Verif Require Import Base.
Local Open Scope Z_scope.

(** The value of a digit: '0'..'9', 'A'..'F', 'a'..'f'. *)
Definition hexval (c : Z) : option Z :=
  if (48 <=? c) && (c <=? 57) then Some (c - 48)
  else if (65 <=? c) && (c <=? 70) then Some (c - 55)
  else if (97 <=? c) && (c <=? 102) then Some (c - 87)
  else None.
(** The digits of a numeral, None if something else is in it; and its value. *)
Fixpoint digits (s : list Z) : option (list Z) :=
  match s with
  | [] => Some []
  | c :: s' => match hexval c, digits s' with Some d, Some l => Some (d :: l) | _, _ => None end
  end.
Fixpoint value (acc : Z) (ds : list Z) : Z := match ds with [] => acc | d :: ds' => value (16 * acc + d) ds' end.

(** The numeral of exactly [n] digits of [v], lower or upper case. *)
Definition hchar (capital : bool) (d : Z) : Z := if d <? 10 then 48 + d else (if capital then 55 else 87) + d.
Fixpoint numeral (capital : bool) (n : nat) (v : Z) : list Z :=
  match n with O => [] | S n' => numeral capital n' (v / 16) ++ [hchar capital (v mod 16)] end.
Definition is_byte (b : Z) : Prop := 0 <= b <= 255.
(** Lower case of a digit. *)
Definition lower (c : Z) : Z := if (65 <=? c) && (c <=? 70) then c + 32 else c.
(** Bytes from digits, two each. *)
Fixpoint pairs (ds : list Z) : list Z :=
  match ds with a :: b :: r => (16 * a + b) :: pairs r | [a] => [a] | [] => [] end.
(** Lexicographic order. *)
Inductive lex_lt : list Z -> list Z -> Prop :=
| LL_nil b y : lex_lt [] (b :: y)
| LL_head a x b y : a < b -> lex_lt (a :: x) (b :: y)
| LL_tail a x y : lex_lt x y -> lex_lt (a :: x) (a :: y).

(** A dump: a line for each [width] bytes (the last may be shorter), with the offset, the bytes and the printable characters. *)
Definition dump_text (width off : nat) (c : list Z) : list Z :=
  numeral false 8 (Z.of_nat off) ++ [58; 32] ++ flat_map (fun b => numeral false 2 b ++ [32]) c ++ repeat 32 (3 * (width - length c))
    ++ map (fun b => if (0x20 <=? b) && (b <=? 0x7e) then b else 46) c.
Fixpoint dump_spec (width off : nat) (cs : list (list Z)) : list Z :=
  match cs with
  | [] => []
  | [c] => dump_text width off c
  | c :: cs' => dump_text width off c ++ [10] ++ dump_spec width (off + width) cs'
  end.
Fixpoint lines (width : nat) (cs : list (list Z)) : Prop :=
  match cs with
  | [] => True
  | [c] => (1 <= length c <= width)%nat
  | c :: cs' => length c = width /\ lines width cs'
  end.
