(** An insertion-ordered map: the specification of ordered_map / ordered_set.
    The content is the sequence of entries in iteration order; each entry carries a handle (what an
    iterator denotes) that stays with it for life. *)
From Coq Require Import List Arith Bool.
From Verif Require Import FlatSpec.
Import ListNotations.
Set Implicit Arguments.

Section Spec.
Variables K V : Type.
Variable less : K -> K -> bool.
Record entry := { hnd : nat; key : K; val : V }.
Definition content := list entry.
Definition stored (l : content) (k : K) : option entry := List.find (fun e => same less k (key e)) l.
(** insert before the entry with handle [h], or at the end *)
Fixpoint put_before (l : content) (h : option nat) (e : entry) : content :=
  match h, l with
  | Some h', x :: l' => if hnd x =? h' then e :: l else x :: put_before l' h e
  | _, _ => l ++ [e]
  end.
Definition drop (l : content) (h : nat) : content := filter (fun e => negb (hnd e =? h)) l.
Definition write (l : content) (h : nat) (v : V) : content :=
  map (fun e => if hnd e =? h then {| hnd := h; key := key e; val := v |} else e) l.
Definition has (l : content) (h : nat) : Prop := In h (map hnd l).
(** drop the entries from the one with handle [a] up to (not including) the one with handle [b] (or the end) *)
Inductive drop_range (l : content) (a b : option nat) : content -> Prop :=
| dr_mid p q r : l = p ++ q ++ r -> a = option_map hnd (hd_error (q ++ r)) -> b = option_map hnd (hd_error r) -> drop_range l a b (p ++ r).
End Spec.
