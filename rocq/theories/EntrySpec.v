(* What users of a value that shows one entry rely on. *)
From Coq Require Import List Bool.
From Verif Require Import TxEnumModel.
Import ListNotations.

(* What an observer knows after the calls [l]: the value of the last one. *)
Definition knows {W : Type} (l : list W) : option W := last (map Some l) None.

(* The two ways a value that may be missing is shown. *)
Record shows {V W : Type} (wrap : V -> W) (null : W) (as_value : W -> option V) : Prop := {
  sh_back : forall w v, as_value w = Some v -> wrap v = w;
  sh_null : forall w, as_value w = None -> w = null }.
