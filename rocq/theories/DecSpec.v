(** What C66 says about decimals: a decimal stands for a rational number. *)
From Coq Require Import QArith.
From Verif Require Import Base ITextModel ITextSpec DecModel.
Local Open Scope Z_scope.

Definition val (d : decimal) : Q := mant d # Z.to_pos (10 ^ ex d).
(** a decimal as the class stores it *)
Definition proper (d : decimal) : Prop := - 2 ^ 63 <= mant d <= 2 ^ 63 - 1 /\ 0 <= ex d < 2 ^ 16.
(** with e digits after the point the number has at most 2^53 units *)
Definition small_at (e : Z) (d : decimal) : Prop := 0 <= ex d <= e /\ e - ex d <= 308 /\ Z.abs (mant d) * 10 ^ (e - ex d) <= 2 ^ 53.
Definition both_small (a b : decimal) : Prop := small_at (Z.max (ex a) (ex b)) a /\ small_at (Z.max (ex a) (ex b)) b.

(** decimal notation: sign, digits before and after the point (no point without digits after it) *)
Definition notation (g : sign) (i f : list Z) : list Z := sign_text g ++ i ++ match f with [] => [] | _ => 46 :: f end.
Definition notation_value (g : sign) (i f : list Z) : Q := signed_num g (i ++ f) # Z.to_pos (10 ^ Z.of_nat (length f)).
(** the shortest one *)
Definition shortest (g : sign) (i f : list Z) : Prop :=
  i <> [] /\ Forall digit_char i /\ Forall digit_char f /\ (hd 0 i = 48 -> length i = 1%nat) /\ (f <> [] -> last f 0 <> 48) /\ g <> Plus.
