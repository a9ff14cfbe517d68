(** Model of stingraykit/string/Utf8IteratorRange.h, string/Utf8StringUtils.h and of Utf8ToLower in
    string/Unicode.cpp (the one compiled without ICU).

    A string is a list of bytes, numbers from 0 to 255.  The position of a range over a string is how it splits
    the string: the bytes before it (reversed) and the bytes from it on. *)
From Verif Require Import Base.
Local Open Scope Z_scope.

Definition is_cont (c : Z) : bool := Z.land c 0xc0 =? 0x80.
(** Utf8IteratorRange.h:47-50, 106-109 *)
Definition lead_ok (c0 : Z) : bool :=
  negb (is_cont c0) && negb (c0 =? 0xc0) && negb (c0 =? 0xc1) && (c0 <? 0xf5).

(** Utf8IteratorRange.h:38-76: the code point; None if it throws *)
Definition get (s : list Z) : option Z :=
  match s with
  | [] => None
  | c0 :: s =>
      if c0 <=? 0x7f then Some c0
      else if negb (lead_ok c0) then None
      else match s with
      | [] => None
      | c1 :: s =>
          if negb (is_cont c1) then None
          else if (0xc2 <=? c0) && (c0 <=? 0xdf) then Some (Z.lor (Z.shiftl (Z.land c0 0x1f) 6) (Z.land c1 0x3f))
          else match s with
          | [] => None
          | c2 :: s =>
              if negb (is_cont c2) then None
              else if (0xe0 <=? c0) && (c0 <=? 0xef)
              then Some (Z.lor (Z.lor (Z.shiftl (Z.land c0 0x0f) 12) (Z.shiftl (Z.land c1 0x3f) 6)) (Z.land c2 0x3f))
              else match s with
              | [] => None
              | c3 :: s =>
                  if negb (is_cont c3) then None
                  else if (0xf0 <=? c0) && (c0 <=? 0xf4)
                  then Some (Z.lor (Z.lor (Z.lor (Z.shiftl (Z.land c0 0x07) 18) (Z.shiftl (Z.land c1 0x3f) 12)) (Z.shiftl (Z.land c2 0x3f) 6)) (Z.land c3 0x3f))
                  else None
              end
          end
      end
  end.

(** Utf8IteratorRange.h:98-135: whether it returns, and how many bytes the position has moved (also when it throws) *)
Definition next (s : list Z) : bool * nat :=
  match s with
  | [] => (false, 0%nat)
  | c0 :: s =>
      if c0 <=? 0x7f then (true, 1%nat)
      else if negb (lead_ok c0) then (false, 1%nat)
      else match s with
      | [] => (false, 1%nat)
      | c1 :: s =>
          if negb (is_cont c1) then (false, 2%nat)
          else if (0xc2 <=? c0) && (c0 <=? 0xdf) then (true, 2%nat)
          else match s with
          | [] => (false, 2%nat)
          | c2 :: s =>
              if negb (is_cont c2) then (false, 3%nat)
              else if (0xe0 <=? c0) && (c0 <=? 0xef) then (true, 3%nat)
              else match s with
              | [] => (false, 3%nat)
              | c3 :: s =>
                  if negb (is_cont c3) then (false, 4%nat)
                  else ((0xf0 <=? c0) && (c0 <=? 0xf4), 4%nat)
              end
          end
      end
  end.

(** Utf8IteratorRange.h:142-168: the loop; [r] are the bytes before the position, the nearest first, after the
    first --_it has been counted in [moved]. *)
Fixpoint prev_loop (fuel : nat) (r : list Z) (count moved : nat) : bool * nat :=
  match fuel with
  | O => (false, moved)
  | S f =>
      match r with
      | [] => (false, moved)
      | c0 :: r' =>
          if negb (is_cont c0)
          then if (c0 =? 0xc0) || (c0 =? 0xc1) || negb (c0 <? 0xf5) then (false, moved)
               else (match count with
                     | 0%nat => c0 <=? 0x7f
                     | 1%nat => (0xc2 <=? c0) && (c0 <=? 0xdf)
                     | 2%nat => (0xe0 <=? c0) && (c0 <=? 0xef)
                     | 3%nat => (0xf0 <=? c0) && (c0 <=? 0xf4)
                     | _ => false
                     end, moved)
          else match r' with
               | [] => (false, moved)
               | _ => prev_loop f r' (S count) (S moved)
               end
      end
  end.
(** Utf8IteratorRange.h:137-169 *)
Definition prev (r : list Z) : bool * nat :=
  match r with [] => (false, 0%nat) | _ => prev_loop 4 r 0 1 end.

(** Utf8StringUtils.h:17-18: Count goes with Valid and Next; None if Next throws *)
Fixpoint strlen_loop (fuel : nat) (s : list Z) (n : nat) : option nat :=
  match fuel with
  | O => None
  | S f => match s with
           | [] => Some n
           | _ => match next s with (true, k) => strlen_loop f (skipn k s) (S n) | _ => None end
           end
  end.
Definition strlen (s : list Z) : option nat := strlen_loop (S (length s)) s 0.
(** Utf8StringUtils.h:21-29 *)
Definition validate (s : list Z) : bool := match strlen s with Some _ => true | None => false end.

(** Utf8StringUtils.h:41-46: [dist] is std::distance(start, end), [s] the bytes from end on *)
Fixpoint skip_loop (fuel : nat) (sym : bool) (pos index dist : nat) (s : list Z) : option (list Z) :=
  if Nat.ltb (if sym then index else dist) pos
  then match fuel with
       | O => None
       | S f => match next s with (true, k) => skip_loop f sym pos (S index) (dist + k) (skipn k s) | _ => None end
       end
  else Some s.
(** Utf8StringUtils.h:54-63: [got] is what is between start and end *)
Fixpoint take_loop (fuel : nat) (sym : bool) (count index : nat) (got s : list Z) : option (list Z) :=
  match fuel with
  | O => None
  | S f =>
      match s with
      | [] => Some got
      | _ => match next s with
             | (true, k) =>
                 if Nat.ltb count (if sym then S index else length got + k) then Some got
                 else take_loop f sym count (S index) (got ++ firstn k s) (skipn k s)
             | _ => None
             end
      end
  end.
(** Utf8StringUtils.h:32-66; count None is npos *)
Definition substring (sym : bool) (s : list Z) (pos : nat) (count : option nat) : option (list Z) :=
  match skip_loop (S (length s)) sym pos 0 0 s with
  | None => None
  | Some e => match count with None => Some e | Some n => take_loop (S (length e)) sym n 0 [] e end
  end.

(** Unicode.cpp:85-109; None if it throws *)
Fixpoint to_lower (s : list Z) : option (list Z) :=
  match s with
  | [] => Some []
  | b :: s =>
      if (0x41 <=? b) && (b <=? 0x5a) then option_map (cons (b + 0x61 - 0x41)) (to_lower s)
      else if b =? 0xD0
      then match s with
           | [] => None
           | b1 :: s =>
               let c := Z.lor (Z.shiftl (Z.land b 0x1f) 6) (Z.land b1 0x3f) in
               let c := if (0x410 <=? c) && (c <=? 0x42f) then c + 0x20
                        else if (0x401 <=? c) && (c <=? 0x40f) then c + 0x50 else c in
               option_map (fun l => Z.lor 0xD0 (Z.shiftr c 6) :: Z.lor (Z.land c 0x3f) 0x80 :: l) (to_lower s)
           end
      else option_map (cons b) (to_lower s)
  end.
(** Unicode.cpp:81-82: the sign of std::string::compare of the bytes *)
Fixpoint cmp (x y : list Z) : comparison :=
  match x, y with
  | [], [] => Eq
  | [], _ => Lt
  | _, [] => Gt
  | a :: x', b :: y' => match Z.compare a b with Eq => cmp x' y' | r => r end
  end.
Definition collate (case_sensitive : bool) (x y : list Z) : option comparison :=
  if case_sensitive then Some (cmp x y)
  else match to_lower x, to_lower y with Some a, Some b => Some (cmp a b) | _, _ => None end.
