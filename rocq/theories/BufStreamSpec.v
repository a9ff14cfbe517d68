(** Specification for BufferedStream: the same operations on a plain file with a position. *)
From Verif Require Import Base BufStreamModel.
Set Implicit Arguments.
Local Open Scope Z_scope.

Section Spec.
Variable A : Type.
Record file := mkF { ff : Z -> A; fl : Z; fp : Z }.

(** What an operation may return on a plain stream, and the stream after it.  A Read may return any
    number of the bytes at the position, up to the number asked for. *)
Inductive plain : file -> op A -> out A -> file -> Prop :=
| PRead x want ans tk d :
    zlen d <= want -> (d = [] \/ fp x + zlen d <= fl x) -> d = bytes (ff x) (fp x) (zlen d) ->
    plain x (BRead want ans tk) (ORead d) (mkF (ff x) (fl x) (fp x + zlen d))
| PWrite x d k :
    plain x (BWrite d k) (OWritten k)
      (mkF (wr (ff x) (fp x) (firstn (Z.to_nat k) d)) (if k =? 0 then fl x else Z.max (fl x) (fp x + k)) (fp x + k))
| PSeek x o m t :
    t = match m with MBegin => o | MCurrent => fp x + o | MEnd => fl x + o end -> 0 <= t ->
    plain x (BSeek o m) OUnit (mkF (ff x) (fl x) t)
| PSeekNeg x o m :
    match m with MBegin => o | MCurrent => fp x + o | MEnd => fl x + o end < 0 ->
    plain x (BSeek o m) OThrow x
| PTell x : plain x BTell (OPos (fp x)) x.

Inductive plains : file -> list (op A) -> list (out A) -> file -> Prop :=
| plains_nil x : plains x [] [] x
| plains_cons x o r y ops rs z : plain x o r y -> plains y ops rs z -> plains x (o :: ops) (r :: rs) z.

Definition no_fail (o : op A) : bool := match o with BWriteFail _ _ => false | _ => true end.
End Spec.
