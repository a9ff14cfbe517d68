(* What the users of key sets and casters rely on. *)
From Coq Require Import List Bool Arith Sorting.Sorted.
From Verif Require Import TxEnumModel.
Import ListNotations.

Section S.
Variables K V : Type.

(* a dictionary, as the map of its items; its key set *)
Definition dict := K -> option V.
Definition has_key (m : dict) (k : K) : Prop := m k <> None.

(* [kd] says exactly how the key set of c turns into that of m, each key once, in order *)
Record exact_key_diff (klt : K -> K -> bool) (c m : dict) (kd : list (cop * K)) : Prop := {
  xk_added : forall k, In (OpAdded, k) kd <-> has_key m k /\ ~ has_key c k;
  xk_removed : forall k, In (OpRemoved, k) kd <-> has_key c k /\ ~ has_key m k;
  xk_updated : forall k, ~ In (OpUpdated, k) kd;
  xk_order : StronglySorted (fun a b => klt (snd a) (snd b) = true) kd }.

(* the OnChanged calls of an observable dictionary that turn c into m: Added for a new key, Updated for an old one,
   Removed with the value it had *)
Definition put (eqk : K -> K -> bool) (k : K) (o : option V) (m : dict) : dict := fun x => if eqk k x then o else m x.
Inductive dict_calls (eqk : K -> K -> bool) : dict -> list (cop * (K * V)) -> dict -> Prop :=
| dc_nil c : dict_calls eqk c [] c
| dc_add c k v l m : c k = None -> dict_calls eqk (put eqk k (Some v) c) l m -> dict_calls eqk c ((OpAdded, (k, v)) :: l) m
| dc_upd c k u v l m : c k = Some u -> dict_calls eqk (put eqk k (Some v) c) l m -> dict_calls eqk c ((OpUpdated, (k, v)) :: l) m
| dc_rem c k v l m : c k = Some v -> dict_calls eqk (put eqk k None c) l m -> dict_calls eqk c ((OpRemoved, (k, v)) :: l) m.
End S.
Arguments has_key {K V} _ _. Arguments exact_key_diff {K V} _ _ _ _. Arguments dict_calls {K V} _ _ _ _. Arguments put {K V} _ _ _ _.

(* the OnChanged calls of an observable set that turn P into Q; a set never says Updated *)
Inductive set_calls {A : Type} : (A -> Prop) -> list (cop * A) -> (A -> Prop) -> Prop :=
| sc_nil (P Q : A -> Prop) : (forall x, P x <-> Q x) -> set_calls P [] Q
| sc_add (P Q : A -> Prop) a l : ~ P a -> set_calls (fun x => x = a \/ P x) l Q -> set_calls P ((OpAdded, a) :: l) Q
| sc_rem (P Q : A -> Prop) a l : P a -> set_calls (fun x => x <> a /\ P x) l Q -> set_calls P ((OpRemoved, a) :: l) Q.

(* the OnChanged calls of an observable list that turn x into y *)
Inductive list_calls {A : Type} : list A -> list (cop * (nat * A)) -> list A -> Prop :=
| lc_nil x : list_calls x [] x
| lc_add x i a l y : i <= length x -> list_calls (firstn i x ++ a :: skipn i x) l y -> list_calls x ((OpAdded, (i, a)) :: l) y
| lc_upd x i a l y : i < length x -> list_calls (firstn i x ++ a :: skipn (S i) x) l y -> list_calls x ((OpUpdated, (i, a)) :: l) y
| lc_rem x i a l y : nth_error x i = Some a -> list_calls (firstn i x ++ skipn (S i) x) l y -> list_calls x ((OpRemoved, (i, a)) :: l) y.
