(** What C66 says about fixed_point<N>: a raw value stands for raw / 2^N. *)
From Coq Require Import QArith.
From Verif Require Import Base ITextModel ITextSpec DecModel FixModel.
Local Open Scope Z_scope.

Definition fval (N a : Z) : Q := a # Z.to_pos (2 ^ N).
(** the step between two values *)
Definition ulp (N : Z) : Q := 1 # Z.to_pos (2 ^ N).
Definition fits_w (w a : Z) : Prop := - 2 ^ (w - 1) <= a <= 2 ^ (w - 1) - 1.
Definition sizes (N w : Z) : Prop := 0 <= N < w /\ 8 <= w <= 32.
