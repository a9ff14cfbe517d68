(** Model of stingraykit/collection/ByteData.h: BasicByteArray (shared ownership of a vector, with an offset
    and a size limit) and BasicByteData (a pointer and a size).

    size_t is a number modulo 2^64; a vector is a list of bytes shorter than 2^64.  A pointer of BasicByteData
    is an index into the block of memory it was made from, modulo 2^64. *)
From Verif Require Import Base.
Local Open Scope Z_scope.

Definition byte := nat.
Definition zlen {A} (l : list A) : Z := Z.of_nat (length l).
Definition W : Z := 2 ^ 64.
Definition wrap (x : Z) : Z := x mod W.
(** NoSizeLimit, ByteData.h:135 *)
Definition no_limit : Z := W - 1.

(** * BasicByteArray: the vector _data points to is shared, so it is an argument of the operations. *)
Record ba := mkBA { a_off : Z; a_lim : Z }.

(** ByteData.h:143-171 *)
Definition ba_all : ba := mkBA 0 no_limit.
(** ByteData.h:224-225 *)
Definition ba_size (v : list byte) (a : ba) : Z := if a_off a <=? zlen v then Z.min (zlen v - a_off a) (a_lim a) else 0.
(** ByteData.h:218-222: None is IndexOutOfRangeException; the second None an access outside of the vector *)
Definition ba_at (v : list byte) (a : ba) (i : Z) : option (option byte) :=
  if i <? ba_size v a then Some (nth_error v (Z.to_nat (wrap (i + a_off a)))) else None.
(** ByteData.h:183-191 *)
Definition ba_from (v : list byte) (o : ba) (offset : Z) : option ba :=
  let a := mkBA (wrap (a_off o + offset)) (if a_lim o =? no_limit then no_limit else wrap (a_lim o - offset)) in
  if a_off a <=? zlen v then Some a else None.
(** ByteData.h:193-209 *)
Definition ba_sub (v : list byte) (o : ba) (offset limit : Z) : option ba :=
  let a := mkBA (wrap (a_off o + offset)) limit in
  if a_off a <=? zlen v
  then if (a_lim a =? no_limit) || (wrap (a_lim a + offset) <=? zlen v)
       then if wrap (a_lim a + offset) <=? a_lim o then Some a else None
       else None
  else None.
(** ByteData.h:211-216 *)
Definition ba_require (v : list byte) (a : ba) (size : Z) : option (list byte) :=
  if a_lim a =? no_limit
  then Some (if zlen v <? wrap (size + a_off a) then v ++ repeat O (Z.to_nat (wrap (size + a_off a) - zlen v)) else v)
  else None.
(** ByteData.h:230-243 *)
Definition ba_append (v : list byte) (a : ba) (d : list byte) : option (list byte) :=
  if a_lim a =? no_limit then Some (v ++ d) else None.
(** ByteData.h:258-259 *)
Definition ba_clear (v : list byte) (a : ba) : list byte := [].
(** What begin() to end(), or data() and size(), range over: ByteData.h:261-283, 297-298 *)
Definition ba_bytes (v : list byte) (a : ba) : list byte := firstn (Z.to_nat (ba_size v a)) (skipn (Z.to_nat (a_off a)) v).
(** ByteData.h:300-311: Serialize writes the bytes; Deserialize reads "o" (0 if it is absent) and "d" *)
Definition ba_serialize (v : list byte) (a : ba) : option Z * list byte := (None, ba_bytes v a).
Definition ba_deserialize (s : option Z * list byte) : list byte * ba :=
  (snd s, mkBA (match fst s with Some o => o | None => 0 end) no_limit).
(** ByteData.h:320-322 with std::equal; 326-327 with std::lexicographical_compare *)
Fixpoint eq_bytes (x y : list byte) : bool :=
  match x, y with [], _ => true | a :: x', b :: y' => (Nat.eqb a b) && eq_bytes x' y' | _, [] => false end.
Fixpoint lex_less (x y : list byte) : bool :=
  match x, y with
  | _, [] => false
  | [], _ => true
  | a :: x', b :: y' => if Nat.ltb a b then true else if Nat.ltb b a then false else lex_less x' y'
  end.
Definition ba_equal (v : list byte) (a : ba) (w : list byte) (b : ba) : bool :=
  (ba_size v a =? ba_size w b) && eq_bytes (ba_bytes v a) (ba_bytes w b).
Definition ba_less (v : list byte) (a : ba) (w : list byte) (b : ba) : bool := lex_less (ba_bytes v a) (ba_bytes w b).

(** * BasicByteData: [blk] is the block of memory the pointer is into *)
Record bd := mkBD { d_ptr : Z; d_size : Z }.
(** ByteData.h:362-385, 397-404: of a whole vector, array or BasicByteArray *)
Definition bd_of (blk : list byte) : bd := mkBD 0 (zlen blk).
(** ByteData.h:382-385; the pointer of an empty array is NULL, never dereferenced: 0 here *)
Definition bd_of_array (v : list byte) (a : ba) : bd := mkBD (if ba_size v a =? 0 then 0 else a_off a) (ba_size v a).
(** ByteData.h:387-390, 406-408 *)
Definition bd_from (d : bd) (offset : Z) : option bd :=
  if offset <=? d_size d then Some (mkBD (wrap (d_ptr d + offset)) (wrap (d_size d - offset))) else None.
(** ByteData.h:392-395, 410-412 *)
Definition bd_sub (d : bd) (offset size : Z) : option bd :=
  if wrap (offset + size) <=? d_size d then Some (mkBD (wrap (d_ptr d + offset)) size) else None.
(** ByteData.h:414-418: None is the exception; the second None an access outside of the block *)
Definition bd_at (blk : list byte) (d : bd) (i : Z) : option (option byte) :=
  if i <? d_size d then Some (nth_error blk (Z.to_nat (wrap (d_ptr d + i)))) else None.
Definition bd_bytes (blk : list byte) (d : bd) : list byte := firstn (Z.to_nat (d_size d)) (skipn (Z.to_nat (d_ptr d)) blk).
