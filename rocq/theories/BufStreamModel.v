(** Model of stingraykit/io/BufferedStream.h: a read buffer in front of a byte stream.

    The underlying stream ([ust]) is a file with a position.  Its Read gives any number of the
    bytes that are there (the number is chosen by the environment, zero included), or, if [greedy],
    as many as possible; its Write writes any part of what it is given.

    Simplifications: bytes are values of an arbitrary type; [u64]/[size_t] are [Z], except for the
    subtraction of BufferedStream.h:55 which wraps; a Seek to a negative offset (static_cast to a
    huge u64 and back, BufferedStream.h:78-79, 108) is refused by the underlying stream. *)
From Verif Require Import Base.
Set Implicit Arguments.
Local Open Scope Z_scope.

Section BS.
Variable A : Type.

Record ust := mkU { uf : Z -> A; ulen : Z; upos : Z }.
Definition bytes (f : Z -> A) (p k : Z) : list A := map (fun i => f (p + Z.of_nat i)) (seq 0 (Z.to_nat k)).
Definition wr (f : Z -> A) (p : Z) (d : list A) : Z -> A :=
  fun i => if (p <=? i) && (i <? p + zlen d) then nth (Z.to_nat (i - p)) d (f i) else f i.

(** The underlying Read into a buffer of [cap] bytes with answer [k]; None: not a possible answer. *)
Definition uread (greedy : bool) (u : ust) (cap k : Z) : option (list A * ust) :=
  if (0 <=? k) && (k <=? cap) && ((k =? 0) || (upos u + k <=? ulen u)) &&
     (negb greedy || (k =? Z.min cap (Z.max 0 (ulen u - upos u))))
  then Some (bytes (uf u) (upos u) k, mkU (uf u) (ulen u) (upos u + k)) else None.
Definition uwrite (u : ust) (d : list A) (k : Z) : ust :=
  mkU (wr (uf u) (upos u) (firstn (Z.to_nat k) d)) (if k =? 0 then ulen u else Z.max (ulen u) (upos u + k)) (upos u + k).
Definition useek (u : ust) (p : Z) : ust := mkU (uf u) (ulen u) p.

(** BufferedStream.h:26-33; [rlog] records the positions of the underlying reads. *)
Record bst := mkB { us : ust; bb : list A; bs : Z; bo : Z; ib : Z; al : Z; rlog : list Z }.

(** math.h:29-33 AlignDown. *)
Definition align_down (x a : Z) : Z := a * (x / a).

(** BufferedStream.h:91-92 Tell. *)
Definition tell (s : bst) : Z := bo s + ib s.

(** BufferedStream.h:105-112 SeekStream (not negative). *)
Definition seek_stream (s : bst) (o : Z) : bst :=
  let a := align_down o (al s) in
  mkB (useek (us s) a) (bb s) 0 a (o - a) (al s) (rlog s).

(** BufferedStream.h:95-103 SeekInBuffer. *)
Definition seek_in (s : bst) (o : Z) : option bst :=
  if (bo s <=? o) && (o - bo s <? bs s) then Some (mkB (us s) (bb s) (bs s) (bo s) (o - bo s) (al s) (rlog s)) else None.

Definition wrap (x : Z) : Z := if x <? 0 then x + 2 ^ 64 else x.

Inductive rres := RDone (s : bst) (bytes : list A) (rest : list Z) | RUB | RBad.

(** BufferedStream.h:45-57, the loop of Read: [ans] are the answers of the underlying stream,
    [tk] the number of times the token is seen alive.  RUB: memcpy outside of the buffer. *)
Fixpoint rd (greedy : bool) (fuel : nat) (s : bst) (want : Z) (acc : list A) (ans : list Z) (tk : nat) : rres :=
  match fuel with
  | O => RDone s acc ans
  | S fuel' =>
    if zlen acc <? want then
      match tk with
      | O => RDone s acc ans
      | S tk' =>
        let copy s ans :=                                                    (* 55-56, 45 *)
          let n := Z.min (want - zlen acc) (wrap (bs s - ib s)) in
          if ib s + n <=? zlen (bb s)
          then rd greedy fuel' (mkB (us s) (bb s) (bs s) (bo s) (ib s + n) (al s) (rlog s)) want
                  (acc ++ slice (ib s) n (bb s)) ans tk'
          else RUB in
        if (bs s =? 0) || (ib s =? bs s) then                                (* 47 *)
          let s1 := if bs s =? 0 then s else seek_stream s (tell s) in       (* 49-50 *)
          match ans with
          | [] => RBad
          | k :: ans' =>
            match uread greedy (us s1) (zlen (bb s1)) k with                 (* 51 *)
            | None => RBad
            | Some (d, u') =>
              let s2 := mkB u' (splice 0 d (bb s1)) k (bo s1) (ib s1) (al s1) (rlog s1 ++ [upos (us s1)]) in
              if (k =? 0) || (ib s2 =? k) then RDone s2 acc ans'             (* 52-53 *)
              else copy s2 ans'
            end
          end
        else copy s ans
      end
    else RDone s acc ans
  end.

Inductive smode := MBegin | MCurrent | MEnd.
Inductive op :=
| BRead (want : Z) (ans : list Z) (tk : nat)
| BWrite (d : list A) (k : Z)        (* the underlying Write takes k bytes *)
| BWriteFail (d : list A) (k : Z)    (* it takes k bytes and throws *)
| BSeek (o : Z) (m : smode)
| BTell.
Inductive out := ORead (d : list A) | OWritten (k : Z) | OPos (p : Z) | OUnit | OThrow | OUB.

Definition step (greedy : bool) (s : bst) (o : op) : option (bst * out) :=
  match o with
  | BRead want ans tk =>
      if 0 <=? want then
        match rd greedy (S (Z.to_nat want)) s want [] ans tk with
        | RDone s' d [] => Some (s', ORead d)
        | RUB => Some (s, OUB)
        | _ => None
        end
      else None
  | BWrite d k =>                                                   (* 61-68 *)
      if (0 <=? k) && (k <=? zlen d) then
        let u1 := if negb (ib s =? bs s) || negb (bs s =? 0) then useek (us s) (tell s) else us s in
        let s1 := mkB (uwrite u1 d k) (bb s) (bs s) (bo s) (ib s) (al s) (rlog s) in
        Some (seek_stream s1 (tell s + k), OWritten k)
      else None
  | BWriteFail d k =>
      if (0 <=? k) && (k <=? zlen d) then
        let u1 := if negb (ib s =? bs s) || negb (bs s =? 0) then useek (us s) (tell s) else us s in
        Some (mkB (uwrite u1 d k) (bb s) (bs s) (bo s) (ib s) (al s) (rlog s), OThrow)
      else None
  | BSeek o m =>                                                    (* 70-89 *)
      match m with
      | MEnd =>
          let t := ulen (us s) + o in
          if t <? 0 then Some (s, OThrow)                           (* 82 *)
          else
            let s1 := mkB (useek (us s) t) (bb s) (bs s) (bo s) (ib s) (al s) (rlog s) in
            match seek_in s1 t with
            | Some s2 => Some (mkB (useek (us s2) (bo s2)) (bb s2) (bs s2) (bo s2) (ib s2) (al s2) (rlog s2), OUnit)
            | None => Some (seek_stream s1 t, OUnit)
            end
      | _ =>
          let t := match m with MCurrent => o + tell s | _ => o end in
          if t <? 0 then Some (s, OThrow)
          else match seek_in s t with Some s2 => Some (s2, OUnit) | None => Some (seek_stream s t, OUnit) end
      end
  | BTell => Some (s, OPos (tell s))
  end.

(** BufferedStream.h:36-38, over a stream at position [p]. *)
Definition init (f : Z -> A) (len p : Z) (buffer : list A) (alignment : Z) : bst :=
  mkB (mkU f len p) buffer 0 0 0 alignment [].

(** A history: operations with what they returned. *)
Fixpoint run (greedy : bool) (s : bst) (ops : list op) : option (bst * list out) :=
  match ops with
  | [] => Some (s, [])
  | o :: r => match step greedy s o with
              | Some (s', x) => match run greedy s' r with Some (s2, xs) => Some (s2, x :: xs) | None => None end
              | None => None
              end
  end.
End BS.
Arguments BRead {A}. Arguments BSeek {A}. Arguments BTell {A}.
Arguments OWritten {A}. Arguments OPos {A}. Arguments OUnit {A}. Arguments OThrow {A}. Arguments OUB {A}.
