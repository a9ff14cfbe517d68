(** Specification for C32: a bounded FIFO of packets. *)
From Verif Require Import Base PacketModel.
Set Implicit Arguments.
Local Open Scope Z_scope.

Section Spec.
Variables A M : Type.
Definition packet := (list A * M)%type.

(** [pending]: packets accepted and not yet taken; [writer]: the packet a Process call is copying
    and whether the copy is complete; [reader]: the consumer is running; [ended]. *)
Record qst := mkQ { pending : list packet; writer : option (packet * bool); reader : bool; ended : bool }.

Definition bytes_of (l : list packet) : Z := fold_right (fun p n => zlen (fst p) + n) 0 l.

(** [allowed total disc q o r q']: operation [o] may answer [r] and lead to [q'].  There is no
    rule for an exception other than "packet is too big", nor for undefined behaviour. *)
Inductive allowed (total : Z) (disc : bool) (q : qst) : pop_ A M -> pout A M -> qst -> Prop :=
| a_toobig d m : writer q = None -> total < zlen d -> allowed total disc q (PWrite d m) RTooBig q
| a_start d m : writer q = None -> bytes_of (pending q) + zlen d <= total ->
    allowed total disc q (PWrite d m) RStarted (mkQ (pending q) (Some ((d, m), false)) (reader q) (ended q))
| a_full d m : writer q = None -> zlen d <= total ->
    (* only when something is still in the buffer, or the packet is larger than half of it *)
    pending q <> [] \/ total < 2 * zlen d ->
    allowed total disc q (PWrite d m) (if disc then RDropped else RWouldWait) q
| a_copy p b : writer q = Some (p, b) ->
    allowed total disc q PCopy RUnit (mkQ (pending q) (Some (p, true)) (reader q) (ended q))
| a_commit p : writer q = Some (p, true) ->
    allowed total disc q PCommit RUnit (mkQ (pending q ++ [p]) None (reader q) (ended q))
| a_commit_early p : writer q = Some (p, false) ->        (* Process copies before it commits *)
    allowed total disc q PCommit RBusy q
| a_read d m l : reader q = false -> pending q = (d, m) :: l ->
    allowed total disc q PRead (RPacket d m) (mkQ (pending q) (writer q) true (ended q))
| a_read_end : reader q = false -> pending q = [] -> ended q = true -> allowed total disc q PRead REndOfData q
| a_read_wait : reader q = false -> pending q = [] -> ended q = false -> allowed total disc q PRead RWouldWait q
| a_look d m l : reader q = true -> pending q = (d, m) :: l -> allowed total disc q PLook (RBytes d) q
| a_done_true p l : reader q = true -> pending q = p :: l ->
    allowed total disc q (PDone true) RUnit (mkQ l (writer q) false (ended q))
| a_done_false : reader q = true ->
    allowed total disc q (PDone false) RUnit (mkQ (pending q) (writer q) false (ended q))
| a_clear : reader q = false -> allowed total disc q PClear RUnit (mkQ [] (writer q) false false)
| a_end : allowed total disc q PEnd RUnit (mkQ (pending q) (writer q) (reader q) true)
| a_size n : bytes_of (pending q) <= n <= total -> allowed total disc q PSize (RSize n) q
| a_busy_write d m : writer q <> None -> allowed total disc q (PWrite d m) RBusy q
| a_busy_copy : writer q = None -> allowed total disc q PCopy RBusy q
| a_busy_commit : writer q = None -> allowed total disc q PCommit RBusy q
| a_busy_read : reader q = true -> allowed total disc q PRead RBusy q
| a_busy_look : reader q = false -> allowed total disc q PLook RBusy q
| a_busy_done b : reader q = false -> allowed total disc q (PDone b) RBusy q.

Inductive allowed_run (total : Z) (disc : bool) : qst -> list (pop_ A M) -> list (pout A M) -> qst -> Prop :=
| ar_nil q : allowed_run total disc q [] [] q
| ar_cons q o r q1 os rs q2 :
    allowed total disc q o r q1 -> allowed_run total disc q1 os rs q2 ->
    allowed_run total disc q (o :: os) (r :: rs) q2.
End Spec.
