(* Model of Rect.h, ProgressValue.h, AggregateProgressReporter.h, Average.h and Accumulators.h. Values of signed types are integers; where
   an operation could leave its type the theorems say when it does not. Values of unsigned types are taken modulo 2^64. *)
From Coq Require Import List Bool ZArith QArith Lia.
Import ListNotations.
Open Scope Z_scope.

(** * Rect.h *)
(* BasicPosition (19-46) *)
Record position := mk_position { PX : Z; PY : Z }.
(* BasicRect (51-63) *)
Record rect := mk_rect { X1 : Z; Y1 : Z; X2 : Z; Y2 : Z }.
(* 61: Size; 62 *)
Definition rect_of_size (w h : Z) : rect := mk_rect 0 0 w h.
(* 65 *)
Definition Valid (r : rect) : bool := (X1 r <? X2 r) && (Y1 r <? Y2 r).
(* 69-70 *)
Definition GetWidth (r : rect) : Z := X2 r - X1 r.
Definition GetHeight (r : rect) : Z := Y2 r - Y1 r.
(* 75-76 with CompareMembersLess: the first members that differ decide *)
Definition rect_less (a b : rect) : bool :=
  if X1 a <? X1 b then true else if X1 b <? X1 a then false else
  if Y1 a <? Y1 b then true else if Y1 b <? Y1 a then false else
  if X2 a <? X2 b then true else if X2 b <? X2 a then false else Y2 a <? Y2 b.
(* 77: STINGRAYKIT_GENERATE_COMPARISON_OPERATORS_FROM_LESS: equal if neither is less *)
Definition rect_equal (a b : rect) : bool := negb (rect_less a b) && negb (rect_less b a).
(* 79-80 *)
Definition Move (r : rect) (d : position) : rect := mk_rect (X1 r + PX d) (Y1 r + PY d) (X2 r + PX d) (Y2 r + PY d).
(* 82-83 *)
Definition Intersect (a b : rect) : rect := mk_rect (Z.max (X1 a) (X1 b)) (Z.max (Y1 a) (Y1 b)) (Z.min (X2 a) (X2 b)) (Z.min (Y2 a) (Y2 b)).
(* 85-86 *)
Definition Intersects (a b : rect) : bool := (X1 a <=? X2 b) && (X2 a >=? X1 b) && (Y1 a <=? Y2 b) && (Y2 a >=? Y1 b).

(** * ProgressValue.h *)
Record progress := mk_progress { Current : Z; Total : Z }.
(* 32-33: s64 arithmetic, / truncates. The conversion to int is the identity where the theorems use it. *)
Definition InPercents (p : progress) : Z := if negb (Total p =? 0) then Z.quot (100 * Current p) (Total p) else 0.
(* 37-38 *)
Definition progress_less (a b : progress) : bool := InPercents a <? InPercents b.
Definition progress_equal (a b : progress) : bool := (Current a =? Current b) && (Total a =? Total b).

(** * AggregateProgressReporter.h *)
Definition u64 (z : Z) : Z := z mod 2 ^ 64.
Definition s64 (z : Z) : Z := if u64 z <? 2 ^ 63 then u64 z else u64 z - 2 ^ 64.
Record aggregate := mk_aggregate { actionIndex : Z; actionSize : Z; actionCount : Z }.
(* 34-36; None: it throws. The other constructor (30-32) has size 1 and checks the index alone. *)
Definition new_aggregate (index size count : Z) : option aggregate :=
  if u64 (u64 (index + size) - 1) <? count then Some (mk_aggregate index size count) else None.
Definition new_aggregate1 (index count : Z) : option aggregate := if index <? count then Some (mk_aggregate index 1 count) else None.
(* 38-39: what is passed on. InPercents is int and is converted to size_t; the quotient is converted to s64. *)
Definition report (a : aggregate) (p : progress) : progress :=
  mk_progress (if negb (actionCount a =? 0)
               then s64 (u64 (u64 (actionIndex a * 100) + u64 (actionSize a * u64 (InPercents p))) / actionCount a) else 0) 100.

(** * Average.h, with values that can be added without leaving T *)
Record average := mk_average { accum : Z; count : Z }.
Definition average0 : average := mk_average 0 0.                                              (* 24 *)
Definition Accumulate (a : average) (v : Z) : average := mk_average (accum a + v) (count a + 1).   (* 26 *)
Definition average_get (a : average) : Z := if count a >? 0 then Z.quot (accum a) (count a) else 0. (* 27 *)

(** * Accumulators.h, for a signed integral type *)
Record mean := mk_mean { m_mean : Z; m_count : Z }.
Definition mean0 : mean := mk_mean 0 0.                                                       (* 31, 41 *)
Definition mean_process (s : mean) (v : Z) : mean :=                                          (* 37 *)
  mk_mean (m_mean s + Z.quot (v - m_mean s) (m_count s + 1)) (m_count s + 1).
Record deviation := mk_deviation { d_mean : Z; d_dev : Z; d_count : Z }.
Definition deviation0 : deviation := mk_deviation 0 0 0.                                      (* 51, 64 *)
Definition deviation_process (s : deviation) (v : Z) : deviation :=                           (* 57-59 *)
  let c := d_count s + 1 in
  let m := d_mean s + Z.quot (v - d_mean s) c in
  mk_deviation m (d_dev s + (v - d_mean s) * (v - m)) c.
Definition deviation_get (s : deviation) : Z := if negb (d_count s =? 0) then Z.quot (d_dev s) (d_count s) else 0.   (* 63 *)

(* and for a floating type without rounding: rational numbers *)
Record qdeviation := mk_qdeviation { q_mean : Q; q_dev : Q; q_count : Z }.
Definition qdeviation0 : qdeviation := mk_qdeviation 0 0 0.
Definition qdeviation_process (s : qdeviation) (v : Q) : qdeviation :=                        (* 57-59; the mean as in 37 *)
  let c := q_count s + 1 in
  let m := (q_mean s + (v - q_mean s) / inject_Z c)%Q in
  mk_qdeviation m (q_dev s + (v - q_mean s) * (v - m))%Q c.
Definition qdeviation_get (s : qdeviation) : Q := (if negb (q_count s =? 0)%Z then q_dev s / inject_Z (q_count s) else 0)%Q.
