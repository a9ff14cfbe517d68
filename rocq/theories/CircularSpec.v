(** Specification for C03-C05: a bounded byte queue with locked prefixes. *)
From Verif Require Import Base CircularModel.
Set Implicit Arguments.
Local Open Scope Z_scope.

Section Spec.
Variable A : Type.
Variable discardOnOverflow : bool.

(** [queue]: stored bytes, oldest first.  [held]: sizes of the live reservers,
    oldest first (each shows that many bytes from the front of the queue).
    [rpos]: how many bytes have left the buffer so far, modulo the storage size. *)
Record qst := mkQ { queue : list A; held : list Z; rpos : Z }.

Definition unlocked (q : qst) : Prop := Forall (fun n => n = 0) (held q).

(** The last [n] bytes. *)
Definition last_bytes (n : Z) (l : list A) : list A := skipn (Z.to_nat (zlen l - n)) l.

Definition drop_held (i : nat) (l : list Z) : list Z := firstn i l ++ skipn (S i) l.

(** [allowed total q o r q']: operation [o] may answer [r] and lead to [q']. *)
Inductive allowed (total : Z) (q : qst) : op A -> out A -> qst -> Prop :=
| a_push bs :
    zlen (queue q) + zlen bs <= total ->
    allowed total q (OPush bs) RUnit (mkQ (queue q ++ bs) (held q) (rpos q))
| a_push_full bs :
    discardOnOverflow = false -> total < zlen (queue q) + zlen bs ->
    allowed total q (OPush bs) RFull q
| a_push_discard bs pos :
    (* the new content is the newest [total] bytes *)
    discardOnOverflow = true -> total < zlen (queue q) + zlen bs -> unlocked q ->
    pos = (rpos q + zlen (queue q) + Z.min (zlen bs) total) mod total ->
    allowed total q (OPush bs) RUnit (mkQ (last_bytes total (queue q ++ bs)) (held q) pos)
| a_push_locked bs :
    discardOnOverflow = true -> total < zlen (queue q) + zlen bs -> ~ unlocked q ->
    allowed total q (OPush bs) RNotFreed q
| a_pop n m :
    unlocked q -> 0 <= n -> 0 <= m <= n -> m <= zlen (queue q) ->
    (0 < n -> queue q <> [] -> 0 < m) ->
    allowed total q (OPop n) (RSize m) (mkQ (queue q) (held q ++ [m]) (rpos q))
| a_pop_locked n :
    ~ unlocked q -> 0 <= n -> allowed total q (OPop n) RNotFreed q
| a_get i a b :
    nth_error (held q) i = Some (zlen a) -> queue q = a ++ b ->
    allowed total q (OGetData i) (RBytes a) q
| a_release i a b pos :
    nth_error (held q) i = Some (zlen a) -> queue q = a ++ b ->
    pos = (rpos q + zlen a) mod total ->
    Forall (fun n => n = 0) (drop_held i (held q)) ->
    allowed total q (ORelease i) RUnit (mkQ b (drop_held i (held q)) pos)
| a_clear a b :
    (* only the reserved bytes stay *)
    queue q = a ++ b ->
    (unlocked q /\ a = [] \/ In (zlen a) (held q) /\ 0 < zlen a) ->
    rpos q + zlen (queue q) < total \/ rpos q + zlen a = total ->
    allowed total q OClear RUnit (mkQ a (held q) (rpos q))
| a_size : allowed total q OGetSize (RSize (zlen (queue q))) q
| a_free : allowed total q OFreeSize (RSize (total - zlen (queue q))) q
| a_can n : allowed total q (OCanPush n) (RBool (n <=? total - zlen (queue q))) q
| a_all : allowed total q OGetAll (RBytes (queue q)) q
| a_nosuch_get i : nth_error (held q) i = None -> allowed total q (OGetData i) RNoSuch q
| a_nosuch_rel i : nth_error (held q) i = None -> allowed total q (ORelease i) RNoSuch q
| a_nosuch_pop n : n < 0 -> allowed total q (OPop n) RNoSuch q.

(** The two situations in which the code breaks the queue (see the [_refuted]
    theorems); nothing is promised from there on. *)
Inductive broken (total : Z) (q : qst) : op A -> Prop :=
| b_release i :
    (* an empty reserver is destroyed while a non-empty one is held *)
    nth_error (held q) i = Some 0 -> ~ unlocked q -> broken total q (ORelease i)
| b_clear :
    (* Clear when the content reaches the end of the storage or wraps around *)
    total <= rpos q + zlen (queue q) ->
    (forall n, In n (held q) -> rpos q + n <> total) ->
    broken total q OClear.

Inductive allowed_run (total : Z) : qst -> list (op A) -> list (out A) -> Prop :=
| ar_nil q : allowed_run total q [] []
| ar_cons q o r q1 os rs :
    allowed total q o r q1 -> allowed_run total q1 os rs ->
    allowed_run total q (o :: os) (r :: rs)
| ar_broken q o os rs : broken total q o -> allowed_run total q (o :: os) rs.

End Spec.
