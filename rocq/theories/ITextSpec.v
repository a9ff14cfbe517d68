(** What decimal text means, independently of the code. *)
From Verif Require Import Base ITextModel.
Local Open Scope Z_scope.

(** A digit is the code of 0..9; the number a digit string stands for. *)
Definition digit_char (c : Z) : Prop := 48 <= c <= 57.
Definition num (s : list Z) : Z := fold_left (fun v c => 10 * v + (c - 48)) s 0.

(** A sign and digits, and the number they stand for. *)
Inductive sign := Plus | Minus | NoSign.
Definition sign_text (g : sign) : list Z := match g with Plus => [43] | Minus => [45] | NoSign => [] end.
Definition signed_num (g : sign) (s : list Z) : Z := match g with Minus => - num s | _ => num s end.

(** What a decimal text denotes. *)
Definition denotes (s : list Z) (v : Z) : Prop :=
  exists g d, s = sign_text g ++ d /\ d <> [] /\ Forall digit_char d /\ v = signed_num g d.

(** The one canonical text of a number: no plus, no leading zero, no minus zero. *)
Definition canonical (s : list Z) (v : Z) : Prop :=
  exists g d, s = sign_text g ++ d /\ d <> [] /\ Forall digit_char d /\ v = signed_num g d /\
    g <> Plus /\ (g = Minus -> v <> 0) /\ (hd 0 d = 48 -> length d = 1%nat).

(** The integer types of the library: bool, and 8 to 64 bits, signed or not. *)
Inductive std_type : ity -> Prop :=
| std_bool : std_type bool_t
| std_unsigned w : 8 <= w <= 64 -> std_type (unsigned_t w)
| std_signed w : 8 <= w <= 64 -> std_type (signed_t w).
Definition fits (t : ity) (v : Z) : Prop := t_min t <= v <= t_max t.

(** A human readable size: digits and a suffix (0 for none, 1 for k, ... 6 for E), worth digits * 1024^suffix. *)
Definition unit_text (i : nat) : list Z := match i with O => [] | S k => [nth k [107; 77; 71; 84; 80; 69] 0] end.
Definition unit_size (i : nat) : Z := 1024 ^ Z.of_nat i.
Definition human (s : list Z) (n : Z) (i : nat) : Prop :=
  exists d, s = d ++ unit_text i /\ d <> [] /\ Forall digit_char d /\ num d = n /\ (i <= 6)%nat.
(** n units of size m are the nearest to size, halves rounded up. *)
Definition nearest (size n m : Z) : Prop := 2 * size - m < 2 * (n * m) <= 2 * size + m.
