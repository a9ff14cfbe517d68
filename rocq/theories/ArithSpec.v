(** Vocabulary for C22 and C23. *)
From Coq Require Import List ZArith Bool.
From Verif Require Import ArithModel.
Import ListNotations.
Local Open Scope Z_scope.

(** arguments Encode accepts, with a scale it can resolve *)
Definition valid_sym (y : sym) : Prop := 0 <= s_low y < s_high y /\ s_high y <= s_scale y <= 2 ^ 29.

(** the first n bits as a number, most significant first, missing bits are 0 *)
Fixpoint val (n : nat) (l : list bool) : Z :=
  match n, l with
  | S n, b :: t => bit b * 2 ^ Z.of_nat n + val n t
  | _, _ => 0
  end.

(** x is a bit string by which the output of a coder in state c may be continued: first the
    pending underflow bits are resolved, and the next 31 bits denote a point of [low, high] *)
Definition completes (c : coder) (x : list bool) : Prop :=
  exists b r, x = b :: repeat (negb b) (under c) ++ r /\ low c <= val 31 (b :: r) <= high c.

(** decoding works: at each symbol the probability the decoder reports selects that symbol *)
Fixpoint decodes (d : decoder) (ys : list sym) : Prop :=
  match ys with
  | [] => True
  | y :: ys =>
      s_low y <= get_probability d (s_scale y) < s_high y /\
      exists d', symbol_decoded d y = Some d' /\ decodes d' ys
  end.

(** ** An adaptive model, as used by PpmCompressor/PpmDecompressor: after history h the
    alphabet is laid out by [interval h], and [find h p] looks a probability up. *)
Section Model.
  Variable A : Type.
  Variable interval : list A -> A -> sym.
  Variable scale : list A -> Z.
  Variable find : list A -> Z -> A.

  Definition model_ok : Prop := forall h a,
    valid_sym (interval h a) /\ s_scale (interval h a) = scale h /\
    forall p, s_low (interval h a) <= p < s_high (interval h a) -> find h p = a.

  (** what the compressor encodes for a message *)
  Fixpoint symbols (h : list A) (msg : list A) : list sym :=
    match msg with [] => [] | a :: t => interval h a :: symbols (h ++ [a]) t end.

  (** the decompressor: n symbols *)
  Fixpoint decode (n : nat) (h : list A) (d : decoder) : option (list A) :=
    match n with
    | O => Some []
    | S n =>
        let a := find h (get_probability d (scale h)) in
        match symbol_decoded d (interval h a) with
        | Some d' => match decode n (h ++ [a]) d' with Some r => Some (a :: r) | None => None end
        | None => None
        end
    end.
End Model.
