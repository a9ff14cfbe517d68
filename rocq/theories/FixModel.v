(** Model of stingraykit/fixed_point.h: fixed_point<N, value_type> for a signed value_type of w bits (int: w = 32) whose DoubleType has
    2 * w bits.  The class is its raw value.  An overflow of signed arithmetic and a division by zero are undefined behaviour: [DUndef];
    a conversion to a narrower type and a left shift keep the low bits (two's complement), a right shift rounds down, as the compilers do. *)
From Verif Require Import Base ITextModel DecModel.
Local Open Scope Z_scope.

Section Fixed.
  Variable N : Z.
  Variable w : Z.
  Definition vt : ity := signed_t w.
  Definition dt : ity := signed_t (2 * w).
  Definition in_t (t : ity) (z : Z) : bool := (t_min t <=? z) && (z <=? t_max t).
  Definition arith (t : ity) (z : Z) : dres Z := if in_t t z then DOk z else DUndef.
  (** fixed_point.h:31 *)
  Definition fp_of_int (v : Z) : Z := conv vt (Z.shiftl v N).
  (** 57-58 *)
  Definition fp_add (a b : Z) : dres Z := arith vt (a + b).
  Definition fp_sub (a b : Z) : dres Z := arith vt (a - b).
  (** 40 *)
  Definition fp_neg (a : Z) : dres Z := arith vt (- a).
  (** 59: the product is a DoubleType *)
  Definition fp_mul (a b : Z) : dres Z := p <~ arith dt (a * b); DOk (conv vt (Z.shiftr p N)).
  (** 60 *)
  Definition fp_div (a b : Z) : dres Z := if b =? 0 then DUndef else q <~ arith dt (Z.quot (conv dt (Z.shiftl a N)) b); DOk (conv vt q).
  (** 64-69: by an int *)
  Definition fp_mul_int (a v : Z) : dres Z := arith vt (a * v).
  Definition fp_div_int (a v : Z) : dres Z := if v =? 0 then DUndef else arith vt (Z.quot a v).
  (** 81 *)
  Definition fp_to_int (a : Z) : Z := Z.shiftr a N.
  (** 74-79 *)
  Definition fp_lt (a b : Z) : bool := a <? b.
  Definition fp_eq (a b : Z) : bool := a =? b.
  (** 84-93: from fixed_point<M, a type of w2 bits>; the shift is done in the wider type *)
  Definition fp_assign (M w2 : Z) (a : Z) : Z :=
    if N <=? M then conv vt (Z.shiftr a (M - N)) else conv vt (conv (signed_t (Z.max w w2)) (Z.shiftl a (N - M))).

  (** 99-108: the loop over s = 30, 28, ..., 0; [n] is s / 2 + 1 *)
  Fixpoint sqrt_loop (n : nat) (ret ret_sq : Z) : dres Z :=
    match n with
    | O => DOk ret
    | S n' =>
        r <~ arith vt (ret + ret);
        t <~ arith vt (2 * r);
        t <~ arith vt (t + 1);
        b <~ arith dt (ret_sq + conv vt (Z.shiftl t (2 * Z.of_nat n')));
        if b <? 0 then (r1 <~ arith vt (r + 1); sqrt_loop n' r1 b) else sqrt_loop n' r ret_sq
    end.
  (** 95-110 *)
  Definition fp_sqrt (v : Z) : dres Z :=
    x <~ arith dt (- conv dt (Z.shiftl v (N * 2))); x <~ arith dt (x - 1); sqrt_loop 16 0 x.

  (** 112-116; res / 1000 and res % 1000 truncate *)
  Definition fp_to_string (a : Z) : dres (list Z) :=
    m <~ fp_mul_int a 1000;
    let res := fp_to_int m in
    match to_string w (Z.quot res 1000), to_string w (Z.rem res 1000) with Some i, Some f => DOk (i ++ 46 :: f) | _, _ => DUndef end.

  Definition parse_vt (l : list Z) : dres Z := match from_string vt l with IOk v => DOk v | _ => DThrow end.
  (** 133-134 *)
  Fixpoint tenths (n : nat) (a : Z) : dres Z := match n with O => DOk a | S n' => b <~ fp_div_int a 10; tenths n' b end.
  (** 121-140: Split(str, ".", 2) cuts at the first point *)
  Definition fp_from_string (s : list Z) : dres Z :=
    match cut_point s with
    | None => v <~ parse_vt s; DOk (fp_of_int v)
    | Some (a, b) => i <~ parse_vt a; f <~ parse_vt b; g <~ tenths (length b) (fp_of_int f); fp_add (fp_of_int i) g
    end.
End Fixed.
