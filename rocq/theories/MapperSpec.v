(* Mappers as relations between values *)
From Coq Require Import List ZArith.
From Verif Require Import MapperModel.
Import ListNotations.
Open Scope Z_scope.

(* the values that a mapping stands for *)
Definition stands_for (m : mapping) (x : Z) : Prop :=
  match m with
  | Range s e _ => s <= x < e
  | BiValue p o => In x [p; o]
  | TriValue p a b => In x [p; a; b]
  | QuadValue p a b c => In x [p; a; b; c]
  | MultiValue p l => In x (p :: l)
  | Value v => x = v
  | Fail => False
  end.
(* the value that is given for it *)
Definition gives (m : mapping) (x : Z) : Prop :=
  match m with
  | Range _ _ b => x = b
  | BiValue p _ | TriValue p _ _ | QuadValue p _ _ _ | MultiValue p _ | Value p => x = p
  | Fail => False
  end.
(* a mapping that can be on the side a value is looked for *)
Definition sensible (m : mapping) : Prop :=
  match m with Range s e _ => s < e | BiValue p o => p <> o | Fail => False | _ => True end.

(* the first of the pairs whose f side stands for x, or the default d *)
Definition chosen {P} (l : list P) (f g : P -> mapping) (d : mapping) (x : Z) (m : mapping) : Prop :=
  (exists pre p post, l = pre ++ p :: post /\ (forall q, In q pre -> ~ stands_for (f q) x) /\ stands_for (f p) x /\ m = g p) \/
  ((forall q, In q l -> ~ stands_for (f q) x) /\ m = d).

(* no value is stood for by two pairs *)
Definition disjoint {P} (l : list P) (f : P -> mapping) : Prop :=
  forall pre p mid q post x, l = pre ++ p :: mid ++ q :: post -> stands_for (f p) x -> ~ stands_for (f q) x.
(* what is given is stood for *)
Definition own {P} (l : list P) (f : P -> mapping) : Prop := forall p x, In p l -> gives (f p) x -> stands_for (f p) x.
