(* Points, fractions, means *)
From Coq Require Import List ZArith QArith.
From Verif Require Import NumbersModel.
Import ListNotations.
Open Scope Z_scope.

(* the points of a rectangle: its left and top sides belong to it, its right and bottom sides do not *)
Definition contains (r : rect) (x y : Z) : Prop := X1 r <= x < X2 r /\ Y1 r <= y < Y2 r.
(* with all its sides *)
Definition touches (r : rect) (x y : Z) : Prop := X1 r <= x <= X2 r /\ Y1 r <= y <= Y2 r.

Fixpoint zsum (l : list Z) : Z := match l with [] => 0 | x :: r => x + zsum r end.
Fixpoint qsum (l : list Q) : Q := match l with [] => 0 | x :: r => x + qsum r end.
Definition qlen (l : list Q) : Q := inject_Z (Z.of_nat (length l)).
Definition qmean (l : list Q) : Q := qsum l / qlen l.
(* the mean of the squares of the distances from the mean *)
Definition qvariance (l : list Q) : Q := qsum (map (fun x => (x - qmean l) * (x - qmean l))%Q l) / qlen l.
