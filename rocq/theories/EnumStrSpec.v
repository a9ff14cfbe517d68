(* Enumerations in C++, and the text of their definition *)
From Coq Require Import List ZArith.
From Verif Require Import EnumStrModel.
Import ListNotations.
Open Scope Z_scope.

(* The value of an initializer, and of the enumerators: one more than the one before, 0 for the first, where there is none *)
Fixpoint value (env : list Z) (e : expr) : Z :=
  match e with Lit z => z | Name i => nth i env 0 | Plus a b => value env a + value env b | Minus a b => value env a - value env b end.
Inductive cpp : definition -> list Z -> Prop :=
| cpp_nil : cpp [] []
| cpp_init d vs e : cpp d vs -> cpp (d ++ [Some e]) (vs ++ [value vs e])
| cpp_next d vs : cpp d vs -> cpp (d ++ [None]) (vs ++ [match vs with [] => 0 | _ => last vs 0 + 1 end]).
Definition int (z : Z) : Prop := - 2 ^ 31 <= z < 2 ^ 31.
(* an initializer uses only the enumerators that have initializers themselves, and literals that are ints *)
Fixpoint explicit (d : definition) (e : expr) : Prop :=
  match e with
  | Lit z => int z
  | Name i => exists e', nth_error d i = Some (Some e')
  | Plus a b | Minus a b => explicit d a /\ explicit d b
  end.
Definition all_explicit (d : definition) : Prop := forall pre e post, d = pre ++ Some e :: post -> explicit pre e.

(* a name: a character that is not a digit, no white space and none of , = | *)
Definition plain (c : Z) : Prop := ~ In c [32; 9; 10; 13; 44; 61; 124].
Definition name (n : str) : Prop := exists c r, n = c :: r /\ ~ (48 <= c <= 57) /\ Forall plain n.
Definition blank (s : str) : Prop := Forall (fun c => In c [32; 9; 10; 13]) s.
(* the text of a definition: names, each with white space around it and perhaps an initializer without commas, separated by commas *)
Inductive item : str -> str -> Prop :=
| item_name a n b : blank a -> name n -> blank b -> item n (a ++ n ++ b)
| item_init a n b x : blank a -> name n -> blank b -> ~ In 44 x -> item n (a ++ n ++ b ++ 61 :: x).
Inductive text : list str -> str -> Prop :=
| text_one n s : item n s -> text [n] s
| text_more n s ns s' : item n s -> text ns s' -> text (n :: ns) (s ++ 44 :: s').

(* the names joined with | , white space allowed around them *)
Inductive joined : list str -> str -> Prop :=
| joined_one a n b : blank a -> name n -> blank b -> joined [n] (a ++ n ++ b)
| joined_more a n b ns s : blank a -> name n -> blank b -> joined ns s -> joined (n :: ns) (a ++ n ++ b ++ 124 :: s).
Fixpoint or_all (l : list Z) : Z := match l with [] => 0 | x :: r => Z.lor x (or_all r) end.
