(** BigUnsignedInteger: BigNum.h, BigNum.cpp.

    [w] is the number of bits of BlockType (unsigned long: 32 or 64, the theorems hold for
    every w they allow).  _units is a list of blocks, least significant first; block
    arithmetic is reduced modulo 2^w.  An index loop over one or two vectors is a recursion
    over the corresponding suffixes.  A thrown exception is [None], so is an access outside
    a vector in Multiply (the theorems show that it does not happen).  Where a function
    starts with an aliasing test (BigNum.cpp:124-130, 183-189, 238-244, 324-329, 464-470, ...)
    it computes into a temporary and assigns, which is what a functional model does anyway. *)
From Coq Require Import List ZArith Bool Arith.
Import ListNotations.
Local Open Scope Z_scope.

Section BigNum.
Variable w : nat.

Definition R : Z := 2 ^ Z.of_nat w.
Definition wrap (x : Z) : Z := x mod R.

(** IsZero: BigNum.h:186 *)
Definition is_zero (u : list Z) : bool := match u with [] => true | _ => false end.

(** ZapLeadingZeroes: BigNum.cpp:51-55 *)
Fixpoint drop_zeroes (l : list Z) : list Z :=
  match l with
  | x :: l' => if x =? 0 then drop_zeroes l' else l
  | [] => []
  end.
Definition zap (u : list Z) : list Z := rev (drop_zeroes (rev u)).

(** constructor from a primitive: BigNum.h:56-61 (the check is at 59) *)
Definition of_primitive (x : Z) : option (list Z) := if 0 <=? x then Some [x] else None.

(** GetShiftedBlock: BigNum.cpp:114-119 *)
Definition get_shifted_block (num : list Z) (index bits : nat) : Z :=
  let part1 := if (index =? 0)%nat || (bits =? 0)%nat then 0
               else Z.shiftr (nth (index - 1) num 0) (Z.of_nat (w - bits)) in
  let part2 := if (index =? length num)%nat then 0 else wrap (Z.shiftl (nth index num 0) (Z.of_nat bits)) in
  Z.lor part1 part2.
(** the blocks for j = 0 .. num._units.size() *)
Definition shifted_blocks (num : list Z) (bits : nat) : list Z :=
  map (fun j => get_shifted_block num j bits) (seq 0 (S (length num))).

(** ** Add: BigNum.cpp:122-178 *)
(** one block of the first loop, lines 153-161: (block, carryOut) *)
Definition add_block (x y : Z) (carry : bool) : Z * bool :=
  let temp := wrap (x + y) in
  let out := temp <? x in
  if carry then let temp' := wrap (temp + 1) in (temp', out || (temp' =? 0)) else (temp, out).
(** lines 164-177 *)
Fixpoint add_tail (longer : list Z) (carry : bool) : list Z :=
  match longer with
  | [] => if carry then [1] else []
  | x :: l => if carry then let temp := wrap (x + 1) in temp :: add_tail l (temp =? 0) else x :: l
  end.
(** lines 151-177 *)
Fixpoint add_loop (longer shorter : list Z) (carry : bool) : list Z :=
  match shorter, longer with
  | y :: s, x :: l => let '(t, c) := add_block x y carry in t :: add_loop l s c
  | _, _ => add_tail longer carry
  end.
Definition add (a b : list Z) : list Z :=
  if is_zero a then b
  else if is_zero b then a
  else let shorter := if (length a <? length b)%nat then a else b in
       let longer := if (length a <? length b)%nat then b else a in
       add_loop longer shorter false.

(** ** Subtract: BigNum.cpp:181-233 *)
(** one block, lines 206-214 (and 418-426): (block, borrowOut) *)
Definition sub_block (x y : Z) (borrow : bool) : Z * bool :=
  let temp := wrap (x - y) in
  let out := x <? temp in
  if borrow then (wrap (temp - 1), out || (temp =? 0)) else (temp, out).
(** lines 217-230 *)
Fixpoint sub_tail (m : list Z) (borrow : bool) : list Z * bool :=
  match m with
  | [] => ([], borrow)
  | x :: m' => if borrow then let '(r, b) := sub_tail m' (x =? 0) in (wrap (x - 1) :: r, b) else (m, false)
  end.
(** lines 204-230 *)
Fixpoint sub_loop (m s : list Z) (borrow : bool) : list Z * bool :=
  match s, m with
  | y :: s', x :: m' => let '(t, b) := sub_block x y borrow in
                        let '(r, b') := sub_loop m' s' b in (t :: r, b')
  | _, _ => sub_tail m borrow
  end.
Definition subtract (m s : list Z) : option (list Z) :=
  if is_zero s then Some m
  else if (length m <? length s)%nat then None
  else let '(r, b) := sub_loop m s false in if b then None else Some (zap r).

(** ** Multiply: BigNum.cpp:236-308 *)
(** lines 298-303; None: ++_units[k] outside the vector *)
Fixpoint carry_into (u : list Z) (carry : bool) : option (list Z) :=
  if carry then
    match u with
    | [] => None
    | x :: u' => let t := wrap (x + 1) in
                 match carry_into u' (t =? 0) with Some r => Some (t :: r) | None => None end
    end
  else Some u.
(** lines 284-303, on the suffix of _units that starts at block [index] *)
Fixpoint add_into (u blocks : list Z) (carry : bool) : option (list Z) :=
  match blocks with
  | [] => carry_into u carry
  | y :: bs => match u with
               | [] => None
               | x :: u' => let '(t, c) := add_block x y carry in
                            match add_into u' bs c with Some r => Some (t :: r) | None => None end
               end
  end.
(** lines 268-303 for one (index, i2) *)
Definition mul_step (m1 m2 : list Z) (u : list Z) (p : nat * nat) : option (list Z) :=
  let (index, i2) := p in
  if Z.land (nth index m1 0) (wrap (Z.shiftl 1 (Z.of_nat i2))) =? 0 then Some u
  else match add_into (skipn index u) (shifted_blocks m2 i2) false with
       | Some r => Some (firstn index u ++ r)
       | None => None
       end.
(** the order of the two nested loops, lines 264-266 *)
Definition positions (n : nat) : list (nat * nat) := list_prod (seq 0 n) (seq 0 w).
Fixpoint fold_opt {S A} (f : S -> A -> option S) (l : list A) (s : S) : option S :=
  match l with
  | [] => Some s
  | a :: l' => match f s a with Some s' => fold_opt f l' s' | None => None end
  end.
Definition multiply (a b : list Z) : option (list Z) :=
  if is_zero a || is_zero b then Some []
  else match fold_opt (mul_step a b) (positions (length a)) (repeat 0 (length a + length b)) with
       | Some u => Some (zap u)
       | None => None
       end.

(** ** DivideWithRemainder: BigNum.cpp:311-459; the result is (quotient, remainder) *)
(** lines 429-433: stops before the last block (k < originalLength) *)
Fixpoint borrow_tail (u : list Z) (borrow : bool) : list Z * bool :=
  match u with
  | x :: ((_ :: _) as u') => if borrow then let '(r, b) := borrow_tail u' (x =? 0) in (wrap (x - 1) :: r, b)
                             else (u, false)
  | _ => (u, borrow)
  end.
(** lines 413-433, on the suffix of *this that starts at block [index] *)
Fixpoint sub_from (u blocks : list Z) (borrow : bool) : list Z * bool :=
  match blocks, u with
  | y :: bs, x :: u' => let '(t, b) := sub_block x y borrow in
                        let '(r, b') := sub_from u' bs b in (t :: r, b')
  | _, _ => borrow_tail u borrow
  end.
(** lines 404-453 for one (index, i2): the state is (this, quotient) *)
Definition set_nth (l : list Z) (i : nat) (x : Z) : list Z := firstn i l ++ x :: skipn (S i) l.
Definition div_step (divisor : list Z) (s : list Z * list Z) (p : nat * nat) : list Z * list Z :=
  let '(u, q) := s in
  let (index, i2) := p in
  let '(r, borrow) := sub_from (skipn index u) (shifted_blocks divisor i2) false in
  if borrow then s
  else (firstn index u ++ r,
        set_nth q index (Z.lor (nth index q 0) (wrap (Z.shiftl 1 (Z.of_nat i2))))).
Definition divide (a divisor : list Z) : list Z * list Z :=
  if is_zero divisor then ([], a)
  else if (length a <? length divisor)%nat then ([], a)
  else
    let n := (length a - length divisor + 1)%nat in
    let '(u, q) := fold_left (div_step divisor) (rev (positions n)) (a ++ [0], repeat 0 n) in
    (zap q, zap u).

(** operator /, operator %: BigNum.h:103-119 *)
Definition op_div (a b : list Z) : option (list Z) := if is_zero b then None else Some (fst (divide a b)).
Definition op_mod (a b : list Z) : option (list Z) := if is_zero b then None else Some (snd (divide a b)).

(** ** BitAnd, BitOr, BitXor: BigNum.cpp:462-517 *)
Fixpoint zip_with (f : Z -> Z -> Z) (a b : list Z) : list Z :=
  match a, b with
  | x :: a', y :: b' => f x y :: zip_with f a' b'
  | _, _ => []
  end.
Definition rest (a b : list Z) : list Z :=
  let n := Nat.min (length a) (length b) in
  if (n <? length a)%nat then skipn n a else if (n <? length b)%nat then skipn n b else [].
Definition bit_and (a b : list Z) : list Z := zap (zip_with Z.land a b).
Definition bit_or (a b : list Z) : list Z := zip_with Z.lor a b ++ rest a b.
Definition bit_xor (a b : list Z) : list Z := zap (zip_with Z.lxor a b ++ rest a b).

(** ** BitShiftLeft, BitShiftRight: BigNum.cpp:520-581 (bits >= 0 part, then the sign dispatch) *)
Definition shift_left_nat (a : list Z) (bits : nat) : list Z :=
  zap (repeat 0 (bits / w) ++ shifted_blocks a (bits mod w)).
Definition ceiling_div (a b : nat) : nat := ((a + b - 1) / b)%nat.   (* lines 31-34 *)
Definition shift_right_nat (a : list Z) (bits : nat) : list Z :=
  let right_blocks := ceiling_div bits w in
  let left_bits := (w * right_blocks - bits)%nat in
  if (length a + 1 <=? right_blocks)%nat then []
  else zap (map (fun j => get_shifted_block a j left_bits) (seq right_blocks (length a + 1 - right_blocks))).
Definition shift_left (a : list Z) (bits : Z) : list Z :=
  if bits <? 0 then shift_right_nat a (Z.to_nat (- bits)) else shift_left_nat a (Z.to_nat bits).
Definition shift_right (a : list Z) (bits : Z) : list Z :=
  if bits <? 0 then shift_left_nat a (Z.to_nat (- bits)) else shift_right_nat a (Z.to_nat bits).

(** ** operator <: BigNum.cpp:584-597; the other comparisons are derived from it (BigNum.h:183) *)
Fixpoint any_less (a b : list Z) : bool :=
  match a, b with
  | x :: a', y :: b' => if x <? y then true else any_less a' b'
  | _, _ => false
  end.
Definition less (a b : list Z) : bool :=
  if (length a <? length b)%nat then true
  else if (length b <? length a)%nat then false
  else any_less a b.
Definition equal (a b : list Z) : bool := negb (less a b) && negb (less b a).

(** ** Conversions *)
(** ToPrimitive<T>: BigNum.h:63-76, T unsigned of [t] bits (t <= w) *)
Definition to_unsigned (t : nat) (u : list Z) : option Z :=
  match u with
  | [] => Some 0
  | [x] => let r := x mod 2 ^ Z.of_nat t in if r =? x then Some r else None
  | _ => None
  end.
(** T signed of [t] bits: the conversion to T is modulo 2^t into [-2^(t-1), 2^(t-1)), the
    conversion back to BlockType (line 72) is modulo 2^w *)
Definition to_signed (t : nat) (u : list Z) : option Z :=
  match u with
  | [] => Some 0
  | [x] => let m := x mod 2 ^ Z.of_nat t in
           let r := if m <? 2 ^ (Z.of_nat t - 1) then m else m - 2 ^ Z.of_nat t in
           if wrap r =? x then Some r else None
  | _ => None
  end.

(** LoadFromData: BigNum.h:190-201; Multiply never gives None *)
Definition load_step (base : Z) (u : list Z) (d : Z) : option (list Z) :=
  match multiply u [base] with Some t => Some (add t [d]) | None => None end.
Definition load_data (bytes : list Z) : option (list Z) := fold_opt (load_step 256) bytes [].

(** the constructor from a wider primitive: BigNum.h:43-54; the bytes of [source], most
    significant first; [n] is sizeof(T) *)
Fixpoint bytes_of (n : nat) (source : Z) : list Z :=
  match n with
  | O => []
  | S n' => if source =? 0 then [] else bytes_of n' (Z.shiftr source 8) ++ [Z.land source 255]
  end.
Definition of_wide (n : nat) (source : Z) : option (list Z) :=
  if 0 <=? source then load_data (bytes_of n source) else None.

(** LoadFromString(source, base): BigNum.cpp:69-91; a char is its code *)
Definition digit_of (c : Z) : option Z :=
  if (48 <=? c) && (c <=? 57) then Some (c - 48)
  else if (65 <=? c) && (c <=? 90) then Some (c - 65 + 10)
  else if (97 <=? c) && (c <=? 122) then Some (c - 97 + 10)
  else None.
Definition load_char (base : Z) (u : list Z) (c : Z) : option (list Z) :=
  match digit_of c with
  | Some d => if d <? base then load_step base u d else None
  | None => None
  end.
Definition load_string (s : list Z) (base : Z) : option (list Z) := fold_opt (load_char base) s [].
(** LoadFromString(source): BigNum.cpp:58-66 *)
Definition load_auto (s : list Z) : option (list Z) :=
  match s with
  | 48 :: 120 :: s' => load_string s' 16
  | 48 :: 98 :: s' => load_string s' 2
  | _ => load_string s 10
  end.

(** Dump: BigNum.cpp:94-111; the digits, most significant first; None: a digit does not
    fit u8 (ToPrimitive throws) or [fuel] divisions were not enough *)
Fixpoint dump_loop (fuel : nat) (base : Z) (x : list Z) : option (list Z) :=
  if is_zero x then Some []
  else match fuel with
       | O => None
       | S fuel' => let '(q, r) := divide x [base] in
                    match to_unsigned 8 r, dump_loop fuel' base q with
                    | Some d, Some ds => Some (ds ++ [d])
                    | _, _ => None
                    end
       end.
Definition dump (u : list Z) (base : Z) : option (list Z) := dump_loop (S (w * length u)) base u.

(** ToString: BigNum.cpp:39-48 *)
Definition char_of (d : Z) : Z := if d <? 10 then 48 + d else 65 + d - 10.
Definition to_string (u : list Z) (base : Z) : option (list Z) :=
  match dump u base with
  | Some [] => Some [48]
  | Some ds => Some (map char_of ds)
  | None => None
  end.
End BigNum.
