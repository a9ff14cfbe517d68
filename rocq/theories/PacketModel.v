(** PacketBuffer<MetadataType>, stingraykit/io/PacketBuffer.h, over the BithreadCircularBuffer of
    BithreadModel.v.

    Every operation is one critical section of _bufferMutex; Process and Read release that mutex
    while they copy / run the consumer, so they are split there.  Process calls are serialised by
    _writeMutex (line 82); there is one reader.  A wait on a condition variable (lines 96, 140) is
    the answer "would wait": the call returns afterwards without having done anything.  Bytes
    are of an arbitrary type. *)
From Verif Require Import Base BithreadModel.
Set Implicit Arguments.
Local Open Scope Z_scope.

Section Packet.
Variables A M : Type.

(** lines 36-47; [writing]: a Process call between lines 109 and 115 with its Writer view;
    [reading]: a Read call between lines 156 and 163 with its Reader view and PacketInfo *)
Record pbuf := mkP {
  bb      : bcb A;                        (* _buffer *)
  pq      : list (Z * M);                 (* _packetQueue: PacketInfo(Size, Metadata) *)
  padding : Z;                            (* _paddingSize *)
  eod     : bool;                         (* _eod *)
  writing : option (view * list A * M * bool);   (* true once copied *)
  reading : option (view * Z * M)
}.

Definition pinit (storage : list A) : pbuf := mkP (bcb_init storage) [] 0 false None None.

(** Reader/Writer::IsBufferEnd, BithreadCircularBuffer.cpp:174-178, 230-234 *)
Definition is_buffer_end (s : bcb A) (v : view) : bool := fst v + snd v =? total_size s.

Inductive pop_ :=
| PWrite (d : list A) (m : M)   (* Process, lines 79-106 *)
| PCopy                         (* Process, lines 108-111: memcpy without the mutex *)
| PCommit                       (* Process, lines 112-118 *)
| PRead                         (* Read, lines 130-157 *)
| PLook                         (* the consumer looks at its packet during the callback *)
| PDone (processed : bool)      (* Read, lines 160-165 *)
| PClear                        (* Clear, lines 59-75 *)
| PEnd                          (* EndOfData, lines 121-126 *)
| PSize.                        (* GetDataSize, line 55 *)

Inductive pout :=
| RTooBig | RStarted | RDropped | RWouldWait | RUnit
| RPacket (d : list A) (m : M) | REndOfData | RBytes (d : list A) | RSize (n : Z)
| RBusy                         (* another Process / Read is in progress (or none is): not a legal next step *)
| RClearInCallback              (* Clear executed while the consumer runs *)
| RThrow | RUB.

(** the loop of Clear, lines 62-69 *)
Fixpoint drain (fuel : nat) (s : bcb A) : option (bcb A) :=
  match fuel with
  | O => None
  | S fuel =>
      match read_view s with
      | None => None
      | Some r => if snd r =? 0 then Some s
                  else match pop s (snd r) with Some s' => drain fuel s' | None => None end
      end
  end.

Definition step (disc : bool) (x : pbuf) (o : pop_) : pbuf * pout :=
  let s := bb x in
  match o with
  | PWrite d m =>
      match writing x with
      | Some _ => (x, RBusy)
      | None =>
        if total_size s <? zlen d then (x, RTooBig)                             (* line 80 *)
        else match write_view s with
        | None => (x, RThrow)
        | Some w =>
          let pad := if (snd w <? zlen d) && is_buffer_end s w then snd w else 0 in   (* line 86 *)
          if free_size s <? pad + zlen d                                         (* line 87 *)
          then (x, if disc then RDropped else RWouldWait)
          else if pad =? 0
          then (mkP s (pq x) (padding x) (eod x) (Some (w, d, m, false)) (reading x), RStarted)
          else match push s pad with                                            (* lines 101-106 *)
               | None => (x, RThrow)
               | Some s' =>
                   match write_view s' with
                   | None => (x, RThrow)
                   | Some w' => (mkP s' (pq x) pad (eod x) (Some (w', d, m, false)) (reading x), RStarted)
                   end
               end
        end
      end
  | PCopy =>
      match writing x with
      | None => (x, RBusy)
      | Some (w, d, m, _) =>
          (* memcpy beyond the view would overwrite other data *)
          if zlen d <=? snd w
          then (mkP (fill s w 0 d) (pq x) (padding x) (eod x) (Some (w, d, m, true)) (reading x), RUnit)
          else (x, RUB)
      end
  | PCommit =>
      match writing x with
      | None | Some (_, false) => (x, RBusy)
      | Some (w, d, m, true) =>
          match push s (zlen d) with
          | None => (x, RThrow)
          | Some s' => (mkP s' (pq x ++ [(zlen d, m)]) (padding x) (eod x) None (reading x), RUnit)
          end
      end
  | PRead =>
      match reading x with
      | Some _ => (x, RBusy)
      | None =>
        match pq x with
        | [] => (x, if eod x then REndOfData else RWouldWait)
        | (sz, m) :: _ =>
          match read_view s with
          | None => (x, RThrow)
          | Some r =>
            let found :=                                                        (* lines 145-150 *)
              if (snd r =? padding x) && is_buffer_end s r
              then match pop s (padding x) with
                   | Some s' => match read_view s' with Some r' => Some (s', r', 0) | None => None end
                   | None => None
                   end
              else Some (s, r, padding x) in
            match found with
            | None => (x, RThrow)
            | Some (s', r', pad') =>
                let x' := mkP s' (pq x) pad' (eod x) (writing x) None in
                if sz <=? snd r'                                                (* line 153 *)
                then (mkP s' (pq x) pad' (eod x) (writing x) (Some (r', sz, m)), RPacket (slice (fst r') sz (st s')) m)
                else (x', RThrow)
            end
          end
        end
      end
  | PLook =>
      match reading x with
      | None => (x, RBusy)
      | Some (r, sz, m) => (x, RBytes (slice (fst r) sz (st s)))
      end
  | PDone processed =>
      match reading x with
      | None => (x, RBusy)
      | Some (r, sz, m) =>
          if negb processed then (mkP s (pq x) (padding x) (eod x) (writing x) None, RUnit)
          else match pop s sz with
               | None => (mkP s (pq x) (padding x) (eod x) (writing x) None, RThrow)
               | Some s' =>
                   match pq x with
                   | [] => (mkP s' [] (padding x) (eod x) (writing x) None, RUB)   (* pop_front of an empty deque *)
                   | _ :: t => (mkP s' t (padding x) (eod x) (writing x) None, RUnit)
                   end
               end
      end
  | PClear =>
      match drain 3 s with
      | None => (x, RThrow)
      | Some s' => (mkP s' [] 0 false (writing x) (reading x),
                    match reading x with Some _ => RClearInCallback | None => RUnit end)
      end
  | PEnd => (mkP s (pq x) (padding x) true (writing x) (reading x), RUnit)
  | PSize => (x, RSize (data_size s))
  end.

Fixpoint run (disc : bool) (x : pbuf) (os : list pop_) : pbuf * list pout :=
  match os with
  | [] => (x, [])
  | o :: os' => let '(x1, r) := step disc x o in
                let '(x2, rs) := run disc x1 os' in (x2, r :: rs)
  end.

End Packet.
Arguments PCopy {A M}. Arguments PCommit {A M}. Arguments PRead {A M}. Arguments PLook {A M}.
Arguments PDone {A M}. Arguments PClear {A M}. Arguments PEnd {A M}. Arguments PSize {A M}.
Arguments RTooBig {A M}. Arguments RStarted {A M}. Arguments RDropped {A M}. Arguments RWouldWait {A M}.
Arguments RUnit {A M}. Arguments REndOfData {A M}. Arguments RBytes {A M}. Arguments RSize {A M}.
Arguments RBusy {A M}. Arguments RClearInCallback {A M}. Arguments RThrow {A M}. Arguments RUB {A M}.
