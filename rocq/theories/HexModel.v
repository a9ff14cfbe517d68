(** Model of stingraykit/string/Hex.h and stingraykit/UUID.{h,cpp}.

    A string is a list of character codes, a byte a number from 0 to 255.  string_ostream is the list of what has
    been written to it so far. *)
From Verif Require Import Base.
Local Open Scope Z_scope.

Inductive hres (A : Type) : Type := HOk (a : A) | HArgument | HFormat | HRange.
Arguments HOk {A}. Arguments HArgument {A}. Arguments HFormat {A}. Arguments HRange {A}.

(** Hex.h:34 *)
Definition is_hex (ch : Z) : bool :=
  ((48 <=? ch) && (ch <=? 57)) || ((65 <=? ch) && (ch <=? 70)) || ((97 <=? ch) && (ch <=? 102)).
(** Hex.h:41-47 *)
Definition digit (ch : Z) : Z :=
  if (48 <=? ch) && (ch <=? 57) then ch - 48 else Z.land ch (Z.lnot 0x20) - 65 + 10.
(** Hex.h:37-56: the loop; [first] is index == 0 *)
Fixpoint from_loop (max : Z) (first : bool) (result : Z) (s : list Z) : hres Z :=
  match s with
  | [] => HOk result
  | ch :: s' =>
      if first then from_loop max false (Z.lor result (digit ch)) s'
      else if result <=? Z.shiftr max 4 then from_loop max false (Z.lor (Z.shiftl result 4) (digit ch)) s'
      else HRange
  end.
(** Hex.h:21-59; [max] is std::numeric_limits<T>::max() *)
Definition from_hex (max : Z) (s : list Z) : hres Z :=
  match s with
  | [] => HArgument
  | _ => if forallb is_hex s then from_loop max true 0 s else HFormat
  end.
Definition max_u8 : Z := 0xff.

(** Hex.h:82-83, two characters at a time *)
Fixpoint from_pairs (s : list Z) : hres (list Z) :=
  match s with
  | [] => HOk []
  | [a] => match from_hex max_u8 [a] with HOk x => HOk [x] | HArgument => HArgument | HFormat => HFormat | HRange => HRange end
  | a :: b :: s' =>
      match from_hex max_u8 [a; b] with
      | HOk x => match from_pairs s' with HOk l => HOk (x :: l) | e => e end
      | HArgument => HArgument | HFormat => HFormat | HRange => HRange
      end
  end.
(** Hex.h:62-89; "0x" is 48 120 *)
Definition from_hex_bytes (s : list Z) : hres (list Z) :=
  let s := match s with a :: b :: s' => if (a =? 48) && (b =? 120) then s' else s | _ => s end in
  if Nat.odd (length s)
  then match s with
       | [] => HOk []
       | a :: s' => match from_hex max_u8 [a] with
                    | HOk x => match from_pairs s' with HOk l => HOk (x :: l) | e => e end
                    | HArgument => HArgument | HFormat => HFormat | HRange => HRange
                    end
       end
  else from_pairs s.

(** Hex.h:142 *)
Definition hex_char (capital : bool) (ch : Z) : Z := if 9 <? ch then ch + (if capital then 65 else 97) - 10 else ch + 48.
(** Hex.h:135-143; [k] is maxWidth - index; >> of a negative value keeps the sign *)
Fixpoint to_loop (k W start : nat) (v : Z) (capital seen : bool) : list Z :=
  match k with
  | O => []
  | S k' =>
      let ch := Z.land (Z.shiftr v (Z.of_nat k' * 4)) 0x0f in
      let seen := seen || negb (ch =? 0) in
      if seen || Nat.leb start (W - k)%nat || Nat.eqb (W - k)%nat (W - 1)%nat
      then hex_char capital ch :: to_loop k' W start v capital seen
      else to_loop k' W start v capital seen
  end.
(** Hex.h:121-144; [W] is maxWidth, two for a byte *)
Definition to_hex (W : nat) (v : Z) (width : nat) (capital : bool) : list Z :=
  (if Nat.ltb W width then repeat 48 (width - W) else [])
    ++ to_loop W W (if Nat.ltb W width then 0 else W - width) v capital false.
(** Hex.h:146-157 *)
Definition to_hex_bytes (l : list Z) (width : nat) (capital : bool) : list Z :=
  repeat 48 (width - length l * 2) ++ flat_map (fun b => to_hex 2 b 2 capital) l.
(** Hex.h:162-172 *)
Definition prefixed (add : bool) (s : list Z) : list Z := if add then 48 :: 120 :: s else s.

(** Hex.h:224-243; "{ " is 123 32, "... " 46 46 46 32 *)
Definition short_dump (data : list Z) (size limit : nat) : list Z :=
  [123; 32] ++ flat_map (fun b => to_hex 8 b 2 false ++ [32]) (firstn (Nat.min size limit) data)
    ++ (if Nat.ltb (Nat.min size limit) size then [46; 46; 46; 32] else []) ++ [125].
(** Hex.h:315-316 over a pointer and a size, and 318-332 over a collection *)
Definition short_dump_raw (data : list Z) (limit : nat) : list Z := short_dump data (length data) limit.
Definition short_dump_coll (data : list Z) (limit : nat) : list Z := short_dump data (Nat.min limit (length data)) limit.

(** Hex.h:266-285: one line; [src] are the bytes from src on *)
Definition dump_line (src : list Z) (offset size width : nat) : list Z :=
  let n := Nat.min (size - offset) width in
  to_hex 16 (Z.of_nat offset) 8 false ++ [58; 32]
    ++ flat_map (fun b => to_hex 8 b 2 false ++ [32]) (firstn n src)
    ++ (if Nat.ltb n width then repeat 32 ((width - n) * 3) else [])
    ++ map (fun b => if (0x20 <=? b) && (b <? 0x7f) then b else 46) (firstn n src)
    ++ (if Nat.ltb (offset + width) size then [10] else []).
(** Hex.h:264-286: None if it goes on for more than [fuel] lines *)
Fixpoint dump_loop (fuel : nat) (src : list Z) (offset size width : nat) : option (list Z) :=
  if Nat.ltb offset size
  then match fuel with
       | O => None
       | S f => option_map (app (dump_line src offset size width)) (dump_loop f (skipn width src) (offset + width) size width)
       end
  else Some [].

(** UUID.cpp:21: true for 'X' *)
Definition uuid_format : list bool :=
  repeat true 8 ++ [false] ++ repeat true 4 ++ [false] ++ repeat true 4 ++ [false] ++ repeat true 4 ++ [false] ++ repeat true 12.
(** UUID.cpp:72-81; '-' is 45 *)
Fixpoint uuid_from_loop (fmt : list bool) (s : list Z) : hres (list Z) :=
  match fmt with
  | [] => HOk []
  | true :: fmt' =>
      match fmt', s with
      | _ :: fmt'', a :: b :: s' =>
          match from_hex max_u8 [a; b] with
          | HOk x => match uuid_from_loop fmt'' s' with HOk l => HOk (x :: l) | e => e end
          | HArgument => HArgument | HFormat => HFormat | HRange => HRange
          end
      | _, _ => HFormat
      end
  | false :: fmt' => match s with ch :: s' => if ch =? 45 then uuid_from_loop fmt' s' else HFormat | [] => HFormat end
  end.
(** UUID.cpp:64-84 *)
Definition uuid_from (s : list Z) : hres (list Z) :=
  if Nat.eqb (length s) (length uuid_format) then uuid_from_loop uuid_format s else HFormat.
(** UUID.cpp:92-100 *)
Fixpoint uuid_to_loop (fmt : list bool) (d : list Z) : list Z :=
  match fmt with
  | [] => []
  | true :: fmt' =>
      match fmt', d with
      | _ :: fmt'', b :: d' => to_hex 2 b 2 false ++ uuid_to_loop fmt'' d'
      | _, _ => []
      end
  | false :: fmt' => 45 :: uuid_to_loop fmt' d
  end.
(** UUID.cpp:87-103 *)
Definition uuid_to (d : list Z) : list Z := uuid_to_loop uuid_format d.

Fixpoint upd (d : list Z) (i : nat) (f : Z -> Z) : list Z :=
  match d, i with
  | [], _ => []
  | x :: d', O => f x :: d'
  | x :: d', S i' => x :: upd d' i' f
  end.
(** UUID.cpp:33-40 *)
Definition set_version (d : list Z) : list Z :=
  upd (upd d 6 (fun x => Z.lor (Z.land x 0x0f) 0x40)) 8 (fun x => Z.lor (Z.land x 0x3f) 0x80).
(** UUID.cpp:45-52 *)
Definition uuid_make (data : list Z) (set : bool) : option (list Z) :=
  if Nat.eqb (length data) 16 then Some (if set then set_version data else data) else None.
(** UUID.h:30-31 *)
Fixpoint lex_less (x y : list Z) : bool :=
  match x, y with
  | [], [] => false
  | [], _ => true
  | _, [] => false
  | a :: x', b :: y' => if a <? b then true else if b <? a then false else lex_less x' y'
  end.
