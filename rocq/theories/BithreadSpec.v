(** Specification for C01/C02: a plain byte queue.  The only thing the
    specification leaves open is how large the views are (at least one byte,
    at most all of the data / free space), because that depends on where the
    data wraps. *)
From Verif Require Import Base BithreadModel.
Set Implicit Arguments.
Local Open Scope Z_scope.

Section Spec.
Variable A : Type.

(** [queue]: committed bytes, oldest first.  [wbuf]: bytes currently in the
    writer's view.  [rcnt]: how many bytes the reader's view shows. *)
Record qst := mkQ { queue : list A; wbuf : option (list A); rcnt : option Z }.

(** Documented misuse: the only situations in which nothing is promised. *)
Definition misuse (q : qst) (o : op A) : Prop :=
  match o with
  | OpFill k bs => match wbuf q with Some w => ~ (0 <= k /\ k + zlen bs <= zlen w) | None => True end
  | OpPush n => match wbuf q with Some w => ~ (0 <= n <= zlen w) | None => True end
  | OpGetData => rcnt q = None
  | OpPop n => match rcnt q with Some m => ~ (0 <= n <= m) | None => True end
  | OpClear => wbuf q <> None \/ rcnt q <> None
  | _ => False
  end.

(** [allowed total q o r q']: operation [o] may answer [r] and lead to [q'].
    There is no rule for [OutThrow]: a correct client never sees an exception. *)
Inductive allowed (total : Z) (q : qst) : op A -> out A -> qst -> Prop :=
| a_acqw w :
    zlen w <= total - zlen (queue q) ->
    (zlen (queue q) < total -> 0 < zlen w) ->
    allowed total q OpAcquireW (OutSize (zlen w)) (mkQ (queue q) (Some w) (rcnt q))
| a_fill a b c bs :
    wbuf q = Some (a ++ b ++ c) -> length bs = length b ->
    allowed total q (OpFill (zlen a) bs) OutUnit (mkQ (queue q) (Some (a ++ bs ++ c)) (rcnt q))
| a_push a b :
    wbuf q = Some (a ++ b) ->
    allowed total q (OpPush (zlen a)) OutUnit (mkQ (queue q ++ a) None (rcnt q))
| a_acqr n :
    0 <= n <= zlen (queue q) ->
    (queue q <> [] -> 0 < n) ->
    allowed total q OpAcquireR (OutSize n) (mkQ (queue q) (wbuf q) (Some n))
| a_get a b :
    queue q = a ++ b -> rcnt q = Some (zlen a) ->
    allowed total q OpGetData (OutBytes a) q
| a_pop a b n :
    queue q = a ++ b -> rcnt q = Some n -> zlen a <= n ->
    allowed total q (OpPop (zlen a)) OutUnit (mkQ b (wbuf q) None)
| a_clear :
    wbuf q = None -> rcnt q = None ->
    allowed total q OpClear OutUnit (mkQ [] None None)
| a_dsize : allowed total q OpDataSize (OutSize (zlen (queue q))) q
| a_fsize : allowed total q OpFreeSize (OutSize (total - zlen (queue q))) q
| a_misuse o : misuse q o -> allowed total q o OutMisuse q.

Inductive allowed_run (total : Z) : qst -> list (op A) -> list (out A) -> qst -> Prop :=
| ar_nil q : allowed_run total q [] [] q
| ar_cons q o r q1 os rs q2 :
    allowed total q o r q1 -> allowed_run total q1 os rs q2 ->
    allowed_run total q (o :: os) (r :: rs) q2.

End Spec.
