(** Specification of command texts. *)
From Coq Require Import ZArith List Bool.
From Verif Require Import CmdModel.
Import ListNotations.
Open Scope Z_scope.

(** A string written as an argument: space, comma, ] and \ get a \ before. *)
Definition quote (s : list Z) : list Z :=
  flat_map (fun c => if existsb (Z.eqb c) [32; 44; 93; 92] then [92; c] else [c]) s.

Definition scalar (t : ty) : Prop :=
  match t with TStr | TBool | TFrom _ => True | _ => False end.

(** How values of each type may be written. *)
Inductive Writes : ty -> value -> list Z -> Prop :=
| W_str : forall s, s <> [] -> Writes TStr (VStr s) (quote s)
| W_on : Writes TBool (VBool true) [111; 110]
| W_true : Writes TBool (VBool true) [116; 114; 117; 101]
| W_off : Writes TBool (VBool false) [111; 102; 102]
| W_false : Writes TBool (VBool false) [102; 97; 108; 115; 101]
| W_from : forall f s z, s <> [] -> f s = Some z -> Writes (TFrom f) (VNum z) (quote s)
| W_none : forall t, Writes (TOpt t) VNone [110; 111; 110; 101]
| W_some : forall t v x, scalar t -> x <> [110; 111; 110; 101] -> Writes t v x -> Writes (TOpt t) (VSome v) x
| W_empty : forall t, Writes (TVec t) (VList []) [91; 93]
| W_vec : forall t vs k x, Items t vs x -> Writes (TVec t) (VList vs) (91 :: repeat 32 k ++ x ++ [93])
with Items : ty -> list value -> list Z -> Prop :=
| I_last : forall t v x k, Writes t v x -> Items t [v] (x ++ repeat 32 k)
| I_more : forall t v x k j vs y, Writes t v x -> Items t vs y ->
           Items t (v :: vs) (x ++ repeat 32 k ++ 44 :: repeat 32 j ++ y).

(** The words and arguments of a command with single spaces between. *)
Fixpoint join (parts : list (list Z)) : list Z :=
  match parts with
  | [] => []
  | [p] => p
  | p :: r => p ++ 32 :: join r
  end.

(** Each value of its type, written as the texts. *)
Inductive All_written : list ty -> list value -> list (list Z) -> Prop :=
| A_nil : All_written [] [] []
| A_cons : forall t ts v vs x xs, Writes t v x -> All_written ts vs xs ->
           All_written (t :: ts) (v :: vs) (x :: xs).

(** Handlers registered, and those released, in a history. *)
Definition registered (os : list rop) : list nat :=
  flat_map (fun o => match o with RRegister h => [h] | _ => [] end) os.
Definition released (os : list rop) : list nat :=
  flat_map (fun o => match o with RRelease h => [h] | _ => [] end) os.
