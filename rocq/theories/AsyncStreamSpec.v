(** Specification vocabulary for AsyncByteStream: what a plain synchronous stream would hold. *)
From Verif Require Import Base Conc BithreadModel AsyncStreamModel.
Set Implicit Arguments.
Local Open Scope Z_scope.

Section Spec.
Variable A : Type.

(** The accepted part of every Write, written directly and in order. *)
Definition direct (l : list (ev A)) (f : Z -> option A) : Z -> option A :=
  fold_left (fun g e => match e with EWrite p d n => fwrite p (firstn (Z.to_nat n) d) g | _ => g end) l f.

(** The length such a stream would have. *)
Definition direct_len (l : list (ev A)) (n0 : Z) : Z :=
  fold_left (fun m e => match e with EWrite p d n => if n =? 0 then m else Z.max (p + n) m | _ => m end) l n0.

(** The operations that are not completely written yet, oldest first. *)
Definition pending (s : as_ A) : list sop :=
  match wp s with WWrite o | WWrote o _ | WDead o => o :: sq s | _ => sq s end.

(** What the underlying stream will hold when they are. *)
Definition replay (m : nat -> bcb A) (l : list sop) (f : Z -> option A) : Z -> option A :=
  fold_left (fun g o => fwrite (wstart o) (odata m o) g) l f.

Definition is_write (o : sop) : bool := match o with OWrite _ _ _ _ _ => true | _ => false end.
End Spec.

(** The bytes of the pending operations that are in buffer [id]. *)
Definition bytes_in (id : nat) (l : list sop) : Z :=
  fold_right (fun o n => match o with OWrite _ i _ _ u => if Nat.eqb i id then u + n else n | _ => n end) 0 l.

(** How much the worker has left to do: three per byte and three per operation. *)
Definition owork (o : sop) : Z := match o with OWrite _ _ _ _ u => 3 * u + 3 | _ => 3 end.
Definition todo (A : Type) (s : as_ A) : Z :=
  match wp s with
  | WWrite o => owork o - 1
  | WWrote (OWrite _ _ _ _ u) n => 3 * (u - n) + 4
  | _ => 0
  end + fold_right (fun o n => owork o + n) 0 (sq s).
(** Steps of the worker thread in which the underlying stream accepts something. *)
Definition worker (A : Type) (l : lab A) : bool :=
  match l with LWork => true | LOut n => 0 <? n | _ => false end.
