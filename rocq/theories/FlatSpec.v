(** A map from keys to values under a strict weak order: the specification of std::map-like containers.
    Keys that are not ordered either way are "the same key". *)
From Coq Require Import List Arith Bool.
Import ListNotations.
Set Implicit Arguments.

Section Spec.
Variables K V : Type.
Variable less : K -> K -> bool.

Record strict_weak_order : Prop := {
  swo_irrefl : forall x, less x x = false;
  swo_trans : forall x y z, less x y = true -> less y z = true -> less x z = true;
  swo_incomp : forall x y z, less x y = false -> less y z = false -> less x z = false }.

Definition same (x y : K) : bool := negb (less x y) && negb (less y x).

(** what is stored under a key: the stored key and the value *)
Definition fmap := K -> option (K * V).
Definition mempty : fmap := fun _ => None.
Definition madd (m : fmap) (k : K) (v : V) : fmap := fun x => if same k x then Some (k, v) else m x.
Definition mdel (m : fmap) (k : K) : fmap := fun x => if same k x then None else m x.
(** change the value, keep the stored key *)
Definition mset (m : fmap) (k : K) (v : V) : fmap :=
  fun x => if same k x then option_map (fun e => (fst e, v)) (m x) else m x.

(** [l] is the content of [m] in key order *)
Definition strictly_sorted (l : list (K * V)) : Prop :=
  forall i j e f, i < j -> nth_error l i = Some e -> nth_error l j = Some f -> less (fst e) (fst f) = true.
Definition lists (m : fmap) (l : list (K * V)) : Prop :=
  strictly_sorted l /\ forall k e, m k = Some e <-> In e l /\ same k (fst e) = true.

(** every key of [es] removed *)
Definition mdel_all (m : fmap) (es : list (K * V)) : fmap :=
  fun x => if existsb (fun e => same (fst e) x) es then None else m x.
(** add unless there is an entry with the same key already *)
Definition madd_new (m : fmap) (e : K * V) : fmap :=
  match m (fst e) with None => madd m (fst e) (snd e) | Some _ => m end.
End Spec.
