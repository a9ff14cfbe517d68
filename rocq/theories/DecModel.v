(** Model of stingraykit/Decimal.h and Decimal.cpp.

    A mantissa is an s64, an exponent a u16; both are kept in Z.  double is IEEE double precision, round to nearest, ties to even; all
    doubles of this file are integers or out of every range, so they are kept in Z too.  std::pow(10, k) is taken to be correctly
    rounded (and infinite from 10^309 on).  A conversion of a double that does not fit into s64 and an overflow of s64 arithmetic are
    undefined behaviour: [DUndef]. *)
From Verif Require Import Base ITextModel.
Local Open Scope Z_scope.

Inductive dres (A : Type) := DOk (a : A) | DThrow | DUndef.
Arguments DOk {A}. Arguments DThrow {A}. Arguments DUndef {A}.
Definition dbind {A B} (r : dres A) (f : A -> dres B) : dres B := match r with DOk a => f a | DThrow => DThrow | DUndef => DUndef end.
Notation "x <~ m ; f" := (dbind m (fun x => f)) (at level 60, m at level 59, right associativity).

(** Decimal.h:20-21 *)
Record decimal := Dec { mant : Z; ex : Z }.

Definition in_s64 (z : Z) : bool := (- 2 ^ 63 <=? z) && (z <=? 2 ^ 63 - 1).
Definition s64 (z : Z) : dres Z := if in_s64 z then DOk z else DUndef.
(** an integer rounded to 53 significant bits *)
Definition rnd (z : Z) : Z :=
  let a := Z.abs z in
  let k := Z.log2 a - 52 in
  if k <=? 0 then z
  else let p := 2 ^ k in
       let q := a / p in
       let r := a mod p in
       let q' := if 2 * r <? p then q else if p <? 2 * r then q + 1 else if Z.even q then q else q + 1 in
       Z.sgn z * (q' * p).
Definition pow10 (k : Z) : option Z := if (0 <=? k) && (k <=? 308) then Some (rnd (10 ^ k)) else None.
(** (s64)(m * std::pow(10, k)) *)
Definition times_pow (m k : Z) : dres Z := match pow10 k with Some p => s64 (rnd (rnd m * p)) | None => DUndef end.

(** Decimal.cpp:37-38 *)
Definition pow_to_exponent (d : decimal) (e : Z) : dres Z := times_pow (mant d) (e - ex d).
(** 94-98 *)
Definition decimal_eq (a b : decimal) : dres bool :=
  let e := Z.max (ex a) (ex b) in x <~ pow_to_exponent a e; y <~ pow_to_exponent b e; DOk (x =? y).
(** 101-105 *)
Definition decimal_lt (a b : decimal) : dres bool :=
  let e := Z.max (ex a) (ex b) in x <~ pow_to_exponent a e; y <~ pow_to_exponent b e; DOk (x <? y).
(** 108-114, Decimal.h:57-58 *)
Definition decimal_add (a b : decimal) : dres decimal :=
  let e := Z.max (ex a) (ex b) in x <~ pow_to_exponent a e; y <~ pow_to_exponent b e; m <~ s64 (x + y); DOk (Dec m e).
(** 117-123, Decimal.h:63-64; the sum of the exponents is converted to u16 *)
Definition decimal_mul (a b : decimal) : dres decimal :=
  let e := Z.max (ex a) (ex b) in x <~ pow_to_exponent a e; y <~ pow_to_exponent b e; m <~ s64 (x * y); DOk (Dec m ((e + e) mod 2 ^ 16)).
(** Decimal.h:51-52 *)
Definition decimal_neg (a : decimal) : dres decimal := m <~ s64 (- mant a); DOk (Dec m (ex a)).
(** Decimal.h:54-55, 60-61 *)
Definition decimal_sub (a b : decimal) : dres decimal := c <~ decimal_neg b; decimal_add a c.

(** Decimal.cpp:22-28 *)
Fixpoint drop_zeros (l : list Z) : list Z := match l with c :: r => if c =? 48 then drop_zeros r else l | [] => [] end.
Definition remove_zeros (l : list Z) : list Z := rev (drop_zeros (rev l)).
(** 30-35 *)
Definition add_zeros (l : list Z) (e : Z) : list Z := if zlen l <? e then repeat 48 (Z.to_nat (e - zlen l)) ++ l else l.
Definition parse_s64 (l : list Z) : dres Z := match from_string (signed_t 64) l with IOk v => DOk v | _ => DThrow end.
(** str.find('.'), 54-55: '.' is 46 *)
Fixpoint cut_point (l : list Z) : option (list Z * list Z) :=
  match l with
  | [] => None
  | c :: r => if c =? 46 then Some ([], r) else match cut_point r with Some (a, b) => Some (c :: a, b) | None => None end
  end.
(** 42-70 *)
Definition decimal_from_string (str : list Z) : dres decimal :=
  match str with [] => DThrow | _ =>
  match cut_point str with
  | None => m <~ parse_s64 str; DOk (Dec m 0)
  | Some (raw_integral, raw_fractional) =>
      if (zlen raw_integral =? 0) && (zlen raw_fractional =? 0) then DThrow else
      integral <~ (if zlen raw_integral =? 0 then DOk 0 else parse_s64 raw_integral);
      let cropped := remove_zeros raw_fractional in
      fractional <~ (if zlen cropped =? 0 then DOk 0 else parse_s64 cropped);
      let exponent := zlen cropped mod 2 ^ 16 in
      integral_mantissa <~ times_pow integral exponent;
      fractional_mantissa <~ (if 0 <=? integral then DOk fractional else s64 (- fractional));
      let sign_factor := match raw_integral with c :: _ => if (c =? 45) && (integral =? 0) then -1 else 1 | [] => 1 end in
      sum <~ s64 (integral_mantissa + fractional_mantissa);
      m <~ s64 (sum * sign_factor);
      DOk (Dec m exponent)
  end end.

(** StringUtils.h:80-81, 91-92 *)
Definition extract_prefix (l : list Z) (n : Z) : list Z := firstn (Z.to_nat n) l.
Definition remove_prefix (l p : list Z) : list Z := if list_eq_dec Z.eq_dec (firstn (length p) l) p then skipn (length p) l else l.
(** Decimal.cpp:73-91 *)
Definition decimal_to_string (d : decimal) : dres (list Z) :=
  match to_string 64 (mant d) with
  | None => DUndef
  | Some t =>
      let value := add_zeros t (ex d) in
      let integral := extract_prefix value (zlen value - ex d) in
      let cropped := remove_zeros (remove_prefix value integral) in
      let integral' := match integral with [] => [48] | [45] => [45; 48] | _ => integral end in
      DOk (integral' ++ match cropped with [] => [] | _ => 46 :: cropped end)
  end.
