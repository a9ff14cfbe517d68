(** What a view means. *)
From Verif Require Import Base ByteViewModel.
Local Open Scope Z_scope.

(** A size_t; a vector that fits into memory; a view whose fields are size_t. *)
Definition word (x : Z) : Prop := 0 <= x < W.
Definition fits (v : list byte) : Prop := zlen v < W - 1.
Definition okba (a : ba) : Prop := word (a_off a) /\ word (a_lim a).
(** A BasicByteData that stays inside its block. *)
Definition inside (blk : list byte) (d : bd) : Prop := 0 <= d_ptr d /\ 0 <= d_size d /\ d_ptr d + d_size d <= zlen blk.

(** The part of a byte sequence from [o], [n] bytes long. *)
Definition slice (l : list byte) (o n : Z) : list byte := firstn (Z.to_nat n) (skipn (Z.to_nat o) l).

(** Lexicographic order. *)
Definition lex (x y : list byte) : Prop :=
  exists p, (exists b y', x = p /\ y = p ++ b :: y') \/ (exists a b x' y', x = p ++ a :: x' /\ y = p ++ b :: y' /\ (a < b)%nat).

(** Narrowings applied one after the other: Some n a sub view of n bytes, None all from the offset on. *)
Fixpoint narrow (d : bd) (ops : list (Z * option Z)) : option bd :=
  match ops with
  | [] => Some d
  | (o, Some n) :: l => match bd_sub d o n with Some d' => narrow d' l | None => None end
  | (o, None) :: l => match bd_from d o with Some d' => narrow d' l | None => None end
  end.
Fixpoint nslice (l : list byte) (ops : list (Z * option Z)) : option (list byte) :=
  match ops with
  | [] => Some l
  | (o, Some n) :: ops' => if o + n <=? zlen l then nslice (slice l o n) ops' else None
  | (o, None) :: ops' => if o <=? zlen l then nslice (skipn (Z.to_nat o) l) ops' else None
  end.
