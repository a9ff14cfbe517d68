(** Specification vocabulary for the shared data buffer: the visible events of a run
    must be a history of a bounded first-in-first-out byte queue. *)
From Verif Require Import Base Conc BithreadModel DataBufferModel.
Set Implicit Arguments.
Local Open Scope Z_scope.

Section Spec.
Variable A : Type.
Variables cap p q req : Z.   (* storage size, input packet, output packet, required free space *)

(** [fifo Q e Q']: with content [Q], the event [e] may happen and leaves [Q']. *)
Inductive fifo : list A -> ev A -> list A -> Prop :=
| f_accept t d n bs Q :
    (* the accepted bytes are the first n bytes of the caller's data, in whole packets, and fit *)
    0 <= n <= zlen d -> (p | n) -> bs = firstn (Z.to_nat n) d -> zlen Q + n <= cap ->
    fifo Q (EAccept t d n bs) (Q ++ bs)
| f_discard t d Q :
    (* data is thrown away only when there is no room for a packet or for the required space *)
    cap - zlen Q < p \/ cap - zlen Q < req -> fifo Q (EDiscard t d) Q
| f_bad t d Q : ~ (p | zlen d) -> fifo Q (EBad t d) Q
| f_zero t Q : fifo Q (EZero t) Q
| f_refused t Q : fifo Q (ERefused t) Q
| f_ret t r Q : fifo Q (ERet t r) Q
| f_offer t bs rest Q :
    (* a consumer is offered the oldest bytes, at least one packet, whole packets *)
    Q = bs ++ rest -> (q | zlen bs) -> 0 < zlen bs -> fifo Q (EOffer t bs) Q
| f_take t shown k popped rest Q Q' :
    (* what it was shown are the oldest bytes; the bytes it reports are removed, or the
       whole offer if it reports a broken packet *)
    Q = shown ++ rest -> 0 < k <= zlen shown -> Q = popped ++ Q' ->
    popped = (if k mod q =? 0 then firstn (Z.to_nat k) shown else shown) ->
    fifo Q (ETake t shown k popped) Q'
| f_eodout t Q : zlen Q < q -> fifo Q (EEodOut t) Q
| f_excout t Q : zlen Q < q -> fifo Q (EExcOut t) Q
| f_eodset Q : fifo Q EEodSet Q
| f_excset Q : fifo Q EExcSet Q
| f_clear Q : fifo Q EClear []
| f_invalid Q : fifo Q EInvalid Q.
(* no rule for EInternal: it must never happen *)

Inductive fifos : list A -> list (ev A) -> list A -> Prop :=
| fs_nil Q : fifos Q [] Q
| fs_cons Q e Q1 l Q2 : fifo Q e Q1 -> fifos Q1 l Q2 -> fifos Q (e :: l) Q2.
End Spec.

Section Streams.
Variable A : Type.
(** Everything accepted, and everything that left towards consumers, since the last Clear. *)
Definition io_ev (x : list A * list A) (e : ev A) : list A * list A :=
  match e with
  | EAccept _ _ _ bs => (fst x ++ bs, snd x)
  | ETake _ _ _ popped => (fst x, snd x ++ popped)
  | EClear => ([], [])
  | _ => x
  end.
Definition io (l : list (ev A)) : list A * list A := fold_left io_ev l ([], []).
Definition accepted l := fst (io l).
Definition taken l := snd (io l).

(** The result of a call of Process that an event of its thread announces. *)
Definition outcome (t : nat) (e : ev A) : option (option Z) :=
  match e with
  | EAccept u _ n _ => if Nat.eqb u t then Some (Some n) else None
  | EDiscard u d => if Nat.eqb u t then Some (Some (zlen d)) else None
  | EBad u d => if Nat.eqb u t then Some (Some (zlen d)) else None
  | EZero u => if Nat.eqb u t then Some (Some 0) else None
  | ERefused u => if Nat.eqb u t then Some None else None
  | _ => None
  end.
(** The last result announced for [t] in a history. *)
Definition announced (t : nat) (l : list (ev A)) : option (option Z) :=
  fold_left (fun acc e => match outcome t e with Some r => Some r | None => acc end) l None.

(** Runs in which EndOfData and SetException are never called while a Process is between its
    end-of-data check and its return (or waiting for room). *)
Definition qstep (p q req : Z) (discard : bool) (s : db A) (l : lab A) : option (db A) :=
  match l with
  | LEod | LExc => if Nat.eqb (aw s) 0 then step p q req discard s l else None
  | _ => step p q req discard s l
  end.

(** The thread is inside Process and owns the right to write; inside Process past the checks;
    inside Read or WaitForData. *)
Definition holds (x : pc A) : bool :=
  match x with PEnter _ | PCopy _ _ _ _ | PWait _ | PWoken _ | PRet _ => true | _ => false end.
Definition writing (x : pc A) : bool :=
  match x with PCopy _ _ _ _ | PWait _ | PWoken _ => true | _ => false end.
Definition reading (x : pc A) : bool :=
  match x with RProc _ _ | RWait | RWoken | DWait _ | DWoken _ => true | _ => false end.

(** The consumer is told that nothing more comes (or the reader gets the exception). *)
Definition is_end (e : ev A) : Prop := match e with EEodOut _ | EExcOut _ => True | _ => False end.

(** Data moves. *)
Definition moves (e : ev A) : Prop := match e with EAccept _ _ _ _ | ETake _ _ _ _ | EOffer _ _ => True | _ => False end.
End Streams.
