(** What a BigUnsignedInteger stands for. *)
From Coq Require Import List ZArith Bool.
From Verif Require Import BigNumModel.
Import ListNotations.
Local Open Scope Z_scope.

(** the number whose blocks of [w] bits are [u], least significant first *)
Fixpoint value (w : nat) (u : list Z) : Z :=
  match u with
  | [] => 0
  | x :: u' => x + 2 ^ Z.of_nat w * value w u'
  end.

(** every block fits its type *)
Definition blocks (w : nat) (u : list Z) : Prop := Forall (fun x => 0 <= x < 2 ^ Z.of_nat w) u.

(** no leading zero block *)
Definition canonical (w : nat) (u : list Z) : Prop := blocks w u /\ last u 1 <> 0.

(** the numbers a program can get hold of through the public interface *)
Inductive api (w : nat) : list Z -> Prop :=
| api_default : api w []
| api_primitive x u : x < 2 ^ Z.of_nat w -> of_primitive x = Some u -> api w u
| api_wide n x u : x < 2 ^ Z.of_nat (8 * n) -> of_wide w n x = Some u -> api w u
| api_data bytes u : Forall (fun b => 0 <= b < 256) bytes -> load_data w bytes = Some u -> api w u
| api_string s base u : 0 <= base < 2 ^ Z.of_nat w -> load_string w s base = Some u -> api w u
| api_auto s u : load_auto w s = Some u -> api w u
| api_add a b : api w a -> api w b -> api w (add w a b)
| api_sub a b u : api w a -> api w b -> subtract w a b = Some u -> api w u
| api_mul a b u : api w a -> api w b -> multiply w a b = Some u -> api w u
| api_div a b u : api w a -> api w b -> op_div w a b = Some u -> api w u
| api_mod a b u : api w a -> api w b -> op_mod w a b = Some u -> api w u
| api_and a b : api w a -> api w b -> api w (bit_and a b)
| api_or a b : api w a -> api w b -> api w (bit_or a b)
| api_xor a b : api w a -> api w b -> api w (bit_xor a b)
| api_shl a k : api w a -> api w (shift_left w a k)
| api_shr a k : api w a -> api w (shift_right w a k).

(** the number written by digits, most significant first *)
Definition digits_value (base : Z) (ds : list Z) : Z := fold_left (fun v d => v * base + d) ds 0.

(** the digit a character stands for: 0-9, A-Z, a-z *)
Inductive char_digit : Z -> Z -> Prop :=
| cd_dec d : 0 <= d <= 9 -> char_digit (48 + d) d
| cd_upper d : 10 <= d <= 35 -> char_digit (65 + (d - 10)) d
| cd_lower d : 10 <= d <= 35 -> char_digit (97 + (d - 10)) d.
