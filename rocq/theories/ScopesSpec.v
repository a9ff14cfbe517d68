(** Specifications for areas of operations, pools, lines. *)
From Coq Require Import ZArith List Bool.
From Verif Require Import ScopesModel.
Import ListNotations.
Open Scope Z_scope.

(** The areas of one kind open in one thread, innermost first, if areas were
    ended innermost first and by their own thread; else None. *)
Definition open_step (t : thread) (k : kind) (st : option (list (nat * Z))) (e : tevent)
  : option (list (nat * Z)) :=
  match st with
  | None => None
  | Some l =>
      match e with
      | Begin t' k' i ops => if Nat.eqb t' t then match k', k with
                                                   | Restricted, Restricted | Exclusive, Exclusive => Some ((i, ops) :: l)
                                                   | _, _ => Some l
                                                   end else Some l
      | End t' i => match l with
                    | (j, _) :: r => if Nat.eqb j i then (if Nat.eqb t' t then Some r else None)
                                     else if existsb (fun p => Nat.eqb (fst p) i) r then None else Some l
                    | [] => Some l
                    end
      | Check _ _ _ => Some l
      end
  end.
Definition open_areas (t : thread) (k : kind) (es : list tevent) : option (list (nat * Z)) :=
  fold_left (open_step t k) es (Some []).

(** The identities of the objects made. *)
Definition begun (es : list tevent) : list nat :=
  flat_map (fun e => match e with Begin _ _ i _ => [i] | _ => [] end) es.

(** Some operation of op is among those of an open area. *)
Definition covered (op : Z) (l : list (nat * Z)) : Prop :=
  exists i ops, In (i, ops) l /\ Z.land op ops <> 0.

(** Division of a text into lines ended by LF, CR LF or CR; a last line
    without an end must not be empty. *)
Definition no_newline (l : list Z) : Prop := ~ In 10 l /\ ~ In 13 l.

Inductive Lines : list Z -> list (list Z) -> Prop :=
| L_end : Lines [] []
| L_last : forall l, l <> [] -> no_newline l -> Lines l [l]
| L_lf : forall l t ls, no_newline l -> Lines t ls -> Lines (l ++ 10 :: t) (l :: ls)
| L_crlf : forall l t ls, no_newline l -> Lines t ls -> Lines (l ++ 13 :: 10 :: t) (l :: ls)
| L_cr : forall l t ls, no_newline l -> (forall t', t <> 10 :: t') -> Lines t ls -> Lines (l ++ 13 :: t) (l :: ls).
