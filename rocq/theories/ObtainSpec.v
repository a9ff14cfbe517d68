(* What users of values from signals and of futures for calls and signals rely on. *)
From Coq Require Import List Bool Arith.
From Verif Require Import TxEnumModel ObtainModel.
Import ListNotations.

(* the future of an asynchronous call holds what the first call of the function that ended with a value or a std::exception
   ended with *)
Fixpoint first_outcome {V E : Type} (l : list (called V E)) : option (outcome V E) :=
  match l with
  | [] => None
  | Returned v :: _ => Some (Val v)
  | Threw e :: _ => Some (Exc e)
  | ThrewOther :: r => first_outcome r
  end.
(* how many ended with an exception that is not a std::exception *)
Definition others {V E : Type} (l : list (called V E)) : nat :=
  length (filter (fun c => match c with ThrewOther => true | _ => false end) l).

(* the values a stream of collection calls adds *)
Definition added {A : Type} (l : list (cop * A)) : list A :=
  flat_map (fun c => match fst c with OpAdded => [snd c] | _ => [] end) l.
Definition only_adds {A : Type} (l : list (cop * A)) : Prop := forall c, In c l -> fst c = OpAdded.
