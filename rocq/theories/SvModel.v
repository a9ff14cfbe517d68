(** Model of stingraykit/string/string_view.h.

    A view is the list of the character codes (0 to 255) it spans, its size the length of the list; positions are
    natural numbers, npos is the absence of one.  A read outside the view is a Fault. *)
From Verif Require Import Base.
From Coq Require Import Lia.

Notation view := (list Z).
Inductive fres := Found (i : nat) | Npos | Fault.

(** Traits::compare: the order of the first difference, by character code *)
Fixpoint traits_compare (a b : view) (n : nat) {struct n} : Z :=
  match n, a, b with
  | S n', x :: a', y :: b' => if (x <? y)%Z then -1 else if (y <? x)%Z then 1 else traits_compare a' b' n'
  | _, _, _ => 0
  end.
(** Conversion of a size_t to int. *)
Definition to_int (v : Z) : Z := ((v + 2 ^ 31) mod 2 ^ 32 - 2 ^ 31)%Z.
(** string_view.h:102-106; the difference of two size_t wraps at 2^64, then becomes an int *)
Definition compare (a b : view) : Z :=
  let result := traits_compare a b (Nat.min (length a) (length b)) in
  if (result =? 0)%Z then to_int ((zlen a - zlen b) mod 2 ^ 64) else result.

(** string_view.h:63 *)
Definition at_ (d : view) (pos : nat) : option Z := if (pos <? length d)%nat then nth_error d pos else None.
(** string_view.h:96-100; None is IndexOutOfRangeException, [count] None is npos *)
Definition substr (d : view) (pos : nat) (count : option nat) : option view :=
  if (pos <? length d + 1)%nat
  then Some (firstn (match count with Some c => Nat.min c (length d - pos) | None => length d - pos end) (skipn pos d))
  else None.
(** string_view.h:74-79 and 81-85 *)
Definition remove_prefix (d : view) (n : nat) : option view := if (n <? length d + 1)%nat then Some (skipn n d) else None.
Definition remove_suffix (d : view) (n : nat) : option view :=
  if (n <? length d + 1)%nat then Some (firstn (length d - n) d) else None.
(** string_view.h:108 *)
Definition compare_at (d : view) (pos1 : nat) (count1 : option nat) (v : view) : option Z :=
  match substr d pos1 count1 with Some s => Some (compare s v) | None => None end.
(** string_view.h:114 and 118 *)
Definition starts_with (d x : view) : bool :=
  (length x <=? length d)%nat && match compare_at d 0 (Some (length x)) x with Some c => (c =? 0)%Z | None => false end.
Definition ends_with (d x : view) : bool :=
  (length x <=? length d)%nat && match compare_at d (length d - length x) None x with Some c => (c =? 0)%Z | None => false end.

(** basic_string_view(_data + pos, n).compare(v) == 0; it is a fault to look past the end *)
Definition same_at (d : view) (pos n : nat) (v : view) : option bool :=
  if (pos + n <=? length d)%nat then Some (compare (firstn n (skipn pos d)) v =? 0)%Z else None.

(** string_view.h:133-137: [n] positions are left *)
Fixpoint find_loop (d v : view) (pos n : nat) : fres :=
  match n with
  | O => Npos
  | S n' => match same_at d pos (length v) v with
            | Some true => Found pos
            | Some false => find_loop d v (S pos) n'
            | None => Fault
            end
  end.
(** string_view.h:122-138 *)
Definition find (d v : view) (pos : nat) : fres :=
  if (length d <? pos)%nat then Npos
  else if (length v =? 0)%nat then Found pos
  else if (length d - pos <? length v)%nat then Npos
  else find_loop d v pos (length d - length v + 1 - pos).

(** string_view.h:154-158: [n] is the number of turns left, from [pos] downwards *)
Fixpoint rfind_loop (d v : view) (pos n : nat) : fres :=
  match n with
  | O => Npos
  | S n' => match same_at d pos (length v) v with
            | Some true => Found pos
            | Some false => rfind_loop d v (pos - 1) n'
            | None => Fault
            end
  end.
(** string_view.h:144-159; [pos] None is npos *)
Definition rfind (d v : view) (pos : option nat) : fres :=
  if (length v =? 0)%nat
  then Found (match pos with Some p => if (length d <? p)%nat then length d else p | None => length d end)
  else if (length d <? length v)%nat then Npos
  else let p := match pos with Some p => Nat.min p (length d - length v) | None => length d - length v end in
       rfind_loop d v p (S p).

(** The inner loops: is the character among those of v *)
Fixpoint among (c : Z) (v : view) : bool := match v with [] => false | x :: v' => if (c =? x)%Z then true else among c v' end.

(** string_view.h:170-175 (want = true) and 207-222 (want = false); [n] positions are left *)
Fixpoint first_loop (want : bool) (d v : view) (pos n : nat) : fres :=
  match n with
  | O => Npos
  | S n' => match nth_error d pos with
            | Some c => if Bool.eqb (among c v) want then Found pos else first_loop want d v (S pos) n'
            | None => Fault
            end
  end.
(** string_view.h:165-176 *)
Definition find_first_of (d v : view) (pos : nat) : fres :=
  match v with [] => Npos | _ => first_loop true d v pos (length d - pos) end.
(** string_view.h:202-223 *)
Definition find_first_not_of (d v : view) (pos : nat) : fres :=
  match v with [] => Found 0 | _ => first_loop false d v pos (length d - pos) end.

(** string_view.h:190-195 (want = true) and 237-252: [n] turns left, from [pos] downwards *)
Fixpoint last_loop (want : bool) (d v : view) (pos n : nat) : fres :=
  match n with
  | O => Npos
  | S n' => match nth_error d pos with
            | Some c => if Bool.eqb (among c v) want then Found pos else last_loop want d v (pos - 1) n'
            | None => Fault
            end
  end.
(** string_view.h:187-190: size() - 1 wraps for an empty view, whose first read is then outside *)
Definition last_from (want : bool) (d v : view) (pos : option nat) : fres :=
  match pos with
  | Some p => last_loop want d v p (S p)
  | None => match d with [] => Fault | _ => last_loop want d v (length d - 1) (length d) end
  end.
(** string_view.h:182-196 *)
Definition find_last_of (d v : view) (pos : option nat) : fres :=
  match v with [] => Npos | _ => last_from true d v pos end.
(** string_view.h:229-253 *)
Definition find_last_not_of (d v : view) (pos : option nat) : fres :=
  match v with [] => Npos | _ => last_from false d v pos end.
