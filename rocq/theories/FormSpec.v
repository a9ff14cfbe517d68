(** What C67 says about format strings: a format is a list of items. *)
From Verif Require Import Base ITextModel ITextSpec FormModel.
Local Open Scope Z_scope.

(** Text between the items; "%%"; an argument "%n%"; one with a width, "%n$w%"; and, for parsing only, "%_%".
    An argument carries the text of its number. *)
Inductive item := Text (s : list Z) | Percent | Arg (t : list Z) (n : nat) | Wide (t : list Z) (n : nat) (tw : list Z) (w : nat) | Skip.
Definition item_text (i : item) : list Z :=
  match i with
  | Text s => s
  | Percent => [37; 37]
  | Arg t _ => 37 :: t ++ [37]
  | Wide t _ tw _ => 37 :: t ++ 36 :: tw ++ [37]
  | Skip => [37; 95; 37]
  end.
Definition format_text (l : list item) : list Z := flat_map item_text l.

(** an unsigned number as FromString reads it: an optional plus and digits *)
Definition number_text (bits : Z) (t : list Z) (n : nat) : Prop :=
  exists g d, t = sign_text g ++ d /\ g <> Minus /\ d <> [] /\ Forall digit_char d /\ num d = Z.of_nat n /\ num d <= 2 ^ bits - 1.
(** FromString also takes a sign alone for zero *)
Definition number_or_sign (bits : Z) (t : list Z) (n : nat) : Prop := number_text bits t n \/ (n = O /\ (t = [43] \/ t = [45])).
Definition no_percent (s : list Z) : Prop := Forall (fun c => c <> 37) s.

Definition format_item (i : item) : Prop :=
  match i with
  | Text s => no_percent s
  | Percent => True
  | Arg t n => number_text 64 t n /\ (1 <= n)%nat
  | Wide t n tw w => number_text 64 t n /\ (1 <= n)%nat /\ number_or_sign 64 tw w
  | Skip => False
  end.
(** the item with the arguments put in: None if there is no such argument *)
Definition padded (w : nat) (s : list Z) : list Z := repeat 48 (w - length s) ++ s.
Definition show (args : list (list Z)) (i : item) : option (list Z) :=
  match i with
  | Text s => Some s
  | Percent => Some [37]
  | Arg _ n => nth_error args (n - 1)
  | Wide _ n _ w => option_map (padded w) (nth_error args (n - 1))
  | Skip => None
  end.
Fixpoint show_all (args : list (list Z)) (l : list item) : option (list Z) :=
  match l with
  | [] => Some []
  | i :: l' => match show args i, show_all args l' with Some a, Some b => Some (a ++ b) | _, _ => None end
  end.

(* ---------------------------------------------------------------- parsing *)
Definition is_text (i : item) : bool := match i with Text _ => true | _ => false end.
Definition parse_item (i : item) : Prop :=
  match i with
  | Text s => no_percent s /\ s <> []
  | Arg t n => number_text 64 t n /\ (1 <= n)%nat /\ Z.of_nat n < 2 ^ 64 - 1
  | Skip => True
  | _ => False
  end.
(** texts and arguments alternate *)
Fixpoint alternating (l : list item) : Prop :=
  match l with a :: (b :: _) as r => is_text a <> is_text b /\ alternating r | _ => True end.
Definition parse_format (l : list item) : Prop := Forall parse_item l /\ alternating l.
Definition begins_with_argument (l : list item) : Prop := match l with i :: _ => is_text i = false | [] => False end.

(** w is what is before the first place where [s] occurs in l *)
Definition first_seen (s l w : list Z) : Prop := (exists r, l = w ++ s ++ r) /\ forall w' r', l = w' ++ s ++ r' -> (length w <= length w')%nat.
(** the string is the format with nonempty texts in place of the arguments, every one ending where the next text of the format is first seen *)
Inductive filled : list item -> list Z -> list (item * list Z) -> Prop :=
| filled_end : filled [] [] []
| filled_last i w : is_text i = false -> w <> [] -> filled [i] w [(i, w)]
| filled_arg i s w l r ps : is_text i = false -> w <> [] -> first_seen s (w ++ s ++ r) w -> filled l r ps -> filled (i :: Text s :: l) (w ++ s ++ r) ((i, w) :: ps)
| filled_text s l r ps : filled l r ps -> filled (Text s :: l) (s ++ r) ps.

(** the texts are read into the arguments *)
Definition set_nth {A} (n : nat) (x : A) (l : list A) : list A := firstn n l ++ match skipn n l with [] => [] | _ :: r => x :: r end.
Fixpoint take {V} (readers : list (list Z -> option V)) (ps : list (item * list Z)) (values : list V) : option (list V) :=
  match ps with
  | [] => Some values
  | (Arg _ n, w) :: ps' =>
      match nth_error readers (n - 1) with
      | Some f => match f w with Some x => take readers ps' (set_nth (n - 1) x values) | None => None end
      | None => None
      end
  | (_, _) :: ps' => take readers ps' values
  end.
Definition argument_of (i : item) (n : nat) : Prop := match i with Arg _ m => m = n | _ => False end.
Definition arguments_exist (l : list item) (count : nat) : Prop := forall i n, In i l -> argument_of i n -> (n <= count)%nat.

(* ---------------------------------------------------------------- versions *)
Definition proper_version (v : version) : Prop := 0 <= major v < 2 ^ 32 /\ 0 <= minor v < 2 ^ 32 /\ forall b, build v = Some b -> 0 <= b < 2 ^ 32.
(** the order: by major, then by minor, then by build, none before all *)
Definition build_before (a b : option Z) : Prop := match a, b with None, Some _ => True | Some x, Some y => x < y | _, None => False end.
Definition version_before (a b : version) : Prop :=
  major a < major b \/ (major a = major b /\ (minor a < minor b \/ (minor a = minor b /\ build_before (build a) (build b)))).
