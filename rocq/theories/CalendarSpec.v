(** The Gregorian calendar, stated by counting days one at a time (no model code). *)
From Verif Require Import Base.
Local Open Scope Z_scope.

Definition is_leap (y : Z) : bool :=
  (y mod 4 =? 0) && (negb (y mod 100 =? 0) || (y mod 400 =? 0)).

Definition month_length (y m : Z) : Z :=
  if m =? 2 then (if is_leap y then 29 else 28)
  else if (m =? 4) || (m =? 6) || (m =? 9) || (m =? 11) then 30 else 31.

(** year, month 1..12, day of month *)
Record date := mkDate { dy : Z; dm : Z; dd : Z }.

Definition valid_date (d : date) : Prop :=
  1 <= dm d <= 12 /\ 1 <= dd d <= month_length (dy d) (dm d).

Definition next_day (d : date) : date :=
  if dd d <? month_length (dy d) (dm d) then mkDate (dy d) (dm d) (dd d + 1)
  else if dm d <? 12 then mkDate (dy d) (dm d + 1) 1
  else mkDate (dy d + 1) 1 1.

(** [day_is n d]: the [n]-th day after (before, for a negative [n]) 1970-01-01 is [d]. *)
Inductive day_is : Z -> date -> Prop :=
| day_epoch : day_is 0 (mkDate 1970 1 1)
| day_next n d : day_is n d -> day_is (n + 1) (next_day d)
| day_prev n d : valid_date d -> day_is (n + 1) (next_day d) -> day_is n d.
