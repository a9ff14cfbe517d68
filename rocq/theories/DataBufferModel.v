(** Model of the shared data buffer: io/DataBuffer.h, io/SharedCircularBuffer.h,
    io/BufferedDataConsumer.{h,cpp}, io/BufferedDataSource.{h,cpp}, over the circular
    storage of BithreadModel.v (io/BithreadCircularBuffer.cpp).

    Any number of threads call [Process], [Read], [WaitForData], [EndOfData],
    [SetException] and [Clear].  A step is one region under [_bufferMutex] (or
    [_writeMutex]); the [memcpy] of Process runs outside the mutex, one byte per step,
    and so does the consumer's [Process] inside Read.

    Simplifications: bytes are values of an arbitrary type; sizes are [Z]; an exception
    object is a flag; a consumer never reports more than it was offered (the IDataConsumer
    contract); logging is not modelled; a wait on a condition variable ends by a broadcast
    or by the token ([LCancel], which also covers spurious wake-ups of the waits that do
    not re-check). *)
From Verif Require Import Base Conc BithreadModel.
Set Implicit Arguments.
Local Open Scope Z_scope.

Section DB.
Variable A : Type.
Variable p : Z.          (* BufferedDataConsumer.h:32 _inputPacketSize *)
Variable q : Z.          (* BufferedDataSource.h:24 _outputPacketSize *)
Variable req : Z.        (* BufferedDataConsumer.h:33 _requiredFreeSpace *)
Variable discard : bool. (* BufferedDataConsumer.h:29 _discardOnOverflow *)

(** Where a thread is. *)
Inductive pc :=
| Idle
| PGuard (d : list A)                      (* DataBuffer.h:60 -> SharedCircularBuffer.h:193-194, before the test *)
| PGWait (d : list A)                      (* SharedCircularBuffer.h:196, in _writeCond.Wait *)
| PEnter (d : list A)                      (* guard taken, about to run BufferedDataConsumer::Process *)
| PCopy (d : list A) (w : view) (n k : Z)  (* BufferedDataConsumer.cpp:47-50, k of n bytes copied *)
| PWait (d : list A)                       (* BufferedDataConsumer.cpp:42, in _bufferFull.Wait *)
| PWoken (d : list A)                      (* same, woken *)
| PRet (r : option Z)                      (* leaving with result r (None: exception), guard still held *)
| RProc (v : view) (n : Z)                 (* BufferedDataSource.cpp:41-44, in consumer.Process of n bytes *)
| RWait                                    (* BufferedDataSource.cpp:36, in _bufferEmpty.Wait *)
| RWoken
| DWait (thr : Z)                          (* DataBuffer.h:94, in _bufferEmpty.Wait *)
| DWoken (thr : Z).

(** What the callers and consumers see. *)
Inductive ev :=
| EAccept (t : nat) (d : list A) (n : Z) (bs : list A) (* Process(d) returns n; bs were appended *)
| EDiscard (t : nat) (d : list A)          (* OnOverflow(d.size()), Process returns d.size() *)
| EBad (t : nat) (d : list A)              (* size is not a multiple of the input packet, logged, returns d.size() *)
| EZero (t : nat)                          (* Process returns 0 *)
| ERefused (t : nat)                       (* Process throws: already got EOD or exception *)
| ERet (t : nat) (r : option Z)            (* Process has returned *)
| EOffer (t : nat) (bs : list A)           (* consumer.Process(bs) is called *)
| ETake (t : nat) (shown : list A) (k : Z) (popped : list A)
    (* it returned k; shown is what its view held then; popped left the buffer *)
| EEodOut (t : nat)                        (* consumer.EndOfData() *)
| EExcOut (t : nat)                        (* Read rethrows the exception *)
| EEodSet | EExcSet | EClear
| EInvalid                                 (* InvalidOperationException / ArgumentException *)
| EInternal.                               (* a storage bound was violated *)

Record db := mkDb {
  bb   : bcb A;          (* SharedCircularBuffer.h:27 _buffer *)
  eod  : bool;           (* :28 _eod *)
  exc  : bool;           (* :29 _exception *)
  ar   : bool;           (* :35 _activeRead *)
  aw   : nat;            (* :36 _activeWrites *)
  wall : bool;           (* :173 _writeAllow *)
  pcs  : nat -> pc;
  log  : list ev         (* oldest first *)
}.

(** Condition variable broadcasts. *)
Definition wake_full (f : nat -> pc) : nat -> pc :=
  fun u => match f u with PWait d => PWoken d | x => x end.
Definition wake_empty (f : nat -> pc) : nat -> pc :=
  fun u => match f u with RWait => RWoken | DWait n => DWoken n | x => x end.
Definition wake_guard (f : nat -> pc) : nat -> pc :=
  fun u => match f u with PGWait d => PGuard d | x => x end.

Definition go (s : db) (t : nat) (x : pc) : db :=
  mkDb (bb s) (eod s) (exc s) (ar s) (aw s) (wall s) (fupd (pcs s) t x) (log s).
Definition emit (s : db) (e : ev) : db :=
  mkDb (bb s) (eod s) (exc s) (ar s) (aw s) (wall s) (pcs s) (log s ++ [e]).
Definition set_bb (s : db) (b : bcb A) : db := mkDb b (eod s) (exc s) (ar s) (aw s) (wall s) (pcs s) (log s).
Definition set_ar (s : db) (x : bool) : db := mkDb (bb s) (eod s) (exc s) x (aw s) (wall s) (pcs s) (log s).
Definition set_aw (s : db) (x : nat) : db := mkDb (bb s) (eod s) (exc s) (ar s) x (wall s) (pcs s) (log s).
Definition set_wall (s : db) (x : bool) : db := mkDb (bb s) (eod s) (exc s) (ar s) (aw s) x (pcs s) (log s).
Definition set_eod (s : db) (x : bool) : db := mkDb (bb s) x (exc s) (ar s) (aw s) (wall s) (pcs s) (log s).
Definition set_exc (s : db) (x : bool) : db := mkDb (bb s) (eod s) x (ar s) (aw s) (wall s) (pcs s) (log s).
Definition set_pcs (s : db) (f : nat -> pc) : db := mkDb (bb s) (eod s) (exc s) (ar s) (aw s) (wall s) f (log s).

(** BufferedDataConsumer.cpp:18-44, Process from the entry to the unlock, the wait or the return. *)
Definition enter (s : db) (t : nat) (d : list A) : db :=
  if negb (zlen d mod p =? 0) then                                   (* 20-24 *)
    go (emit s (EBad t d)) t (PRet (Some (zlen d)))
  else if eod s || exc s then                                        (* 29-30 *)
    go (emit s (ERefused t)) t (PRet None)
  else match write_view (bb s) with                                  (* 32 *)
  | None => go (emit s EInternal) t (PRet None)
  | Some w =>
      let packetized := snd w / p * p in                             (* 33 *)
      if (packetized =? 0) || (free_size (bb s) <? req) then         (* 34 *)
        if discard then go (emit s (EDiscard t d)) t (PRet (Some (zlen d)))  (* 36-40 *)
        else go (set_aw s (S (aw s))) t (PWait d)                    (* 42 *)
      else go (set_aw s (S (aw s))) t (PCopy d w (Z.min (zlen d) packetized) 0)  (* 46-48 *)
  end.

(** BufferedDataConsumer.cpp:49-55: one byte of the memcpy, or the Push and return. *)
Definition copy (s : db) (t : nat) (d : list A) (w : view) (n k : Z) : db :=
  if k <? n then
    go (set_bb s (fill (bb s) w k (slice k 1 d))) t (PCopy d w n (k + 1))
  else match push (bb s) n with
  | None => go (set_aw (emit s EInternal) (pred (aw s))) t (PRet None)
  | Some b' =>
      let s1 := emit (set_bb s b') (EAccept t d n (slice (wo (bb s)) n (st (bb s)))) in
      let s2 := set_pcs s1 (wake_empty (pcs s1)) in                  (* 53 BroadcastEmpty *)
      go (set_aw s2 (pred (aw s2))) t (PRet (Some n))                (* 55, ~WriteLock *)
  end.

(** SharedCircularBuffer.h:209-217, ~WriteGuard, and the return of DataBuffer::Process. *)
Definition release (s : db) (t : nat) (r : option Z) : db :=
  let s1 := set_wall s true in
  let s2 := set_pcs s1 (wake_guard (pcs s1)) in
  go (emit s2 (ERet t r)) t Idle.

(** BufferedDataSource.cpp:16-43, Read up to the consumer call, the wait or the return. *)
Definition read (s : db) (t : nat) : db :=
  if ar s then emit s EInvalid                                       (* SharedCircularBuffer.h:125 *)
  else match read_view (bb s) with
  | None => emit s EInternal
  | Some r =>
      let packetized := snd r / q * q in                             (* 23 *)
      if packetized =? 0 then
        if exc s then emit s (EExcOut t)                             (* 26 *)
        else if eod s then emit s (EEodOut t)                        (* 27-33 *)
        else go (set_ar s true) t RWait                              (* 36 *)
      else go (set_ar (emit s (EOffer t (slice (fst r) packetized (st (bb s))))) true) t (RProc r packetized)
  end.

(** BufferedDataSource.cpp:46-56, after the consumer reported k bytes. *)
Definition processed (s : db) (t : nat) (v : view) (n k : Z) : db :=
  let s0 := set_ar s false in                                        (* ~ReadLock *)
  if k =? 0 then go s0 t Idle                                        (* 46-47 *)
  else
    let k' := if negb (k mod q =? 0) then n else k in                (* 49-53 *)
    match pop (bb s) k' with                                         (* 55 *)
    | None => go (emit s0 EInternal) t Idle
    | Some b' =>
        let s1 := emit (set_bb s0 b') (ETake t (slice (fst v) n (st (bb s))) k (slice (ro (bb s)) k' (st (bb s)))) in
        go (set_pcs s1 (wake_full (pcs s1))) t Idle                  (* 56 BroadcastFull *)
    end.

(** DataBuffer.h:93-95, one round of the WaitForData loop. *)
Definition wait_loop (s : db) (t : nat) (thr : Z) : db :=
  if (data_size (bb s) <? thr) && negb (eod s) && negb (exc s)
  then go (set_ar s true) t (DWait thr)
  else go (set_ar s false) t Idle.

Inductive lab :=
| LProcess (t : nat) (d : list A)   (* call Process(d) *)
| LStep (t : nat)                   (* let t run its next region *)
| LCancel (t : nat)                 (* the token ends t's wait *)
| LRead (t : nat)                   (* call Read(consumer) *)
| LDone (t : nat) (k : Z)           (* t's consumer returns k from Process *)
| LThrow (t : nat)                  (* t's consumer throws from Process *)
| LWaitData (t : nat) (thr : Z)     (* call WaitForData(thr) *)
| LEod | LExc | LClear.             (* EndOfData(), SetException(), Clear() *)

Definition step (s : db) (l : lab) : option db :=
  match l with
  | LProcess t d =>
      match pcs s t with Idle => Some (go s t (PGuard d)) | _ => None end
  | LStep t =>
      match pcs s t with
      | PGuard d =>                                                  (* SharedCircularBuffer.h:194-201 *)
          if wall s then Some (go (set_wall s false) t (PEnter d)) else Some (go s t (PGWait d))
      | PEnter d => Some (enter s t d)
      | PCopy d w n k => Some (copy s t d w n k)
      | PWoken d =>                                                  (* BufferedDataConsumer.cpp:43 *)
          Some (go (set_aw (emit s (EZero t)) (pred (aw s))) t (PRet (Some 0)))
      | PRet r => Some (release s t r)
      | RWoken => Some (go (set_ar s false) t Idle)                  (* BufferedDataSource.cpp:37 *)
      | DWoken thr => Some (wait_loop s t thr)
      | _ => None
      end
  | LCancel t =>
      match pcs s t with
      | PGWait d =>                                                  (* DataBuffer.h:60-61 *)
          Some (go (emit (emit s (EZero t)) (ERet t (Some 0))) t Idle)
      | PWait d => Some (go s t (PWoken d))
      | RWait => Some (go s t RWoken)
      | DWait thr => Some (go (set_ar s false) t Idle)               (* DataBuffer.h:95 *)
      | _ => None
      end
  | LRead t => match pcs s t with Idle => Some (read s t) | _ => None end
  | LDone t k =>
      match pcs s t with
      | RProc v n => if (0 <=? k) && (k <=? n) then Some (processed s t v n k) else None
      | _ => None
      end
  | LThrow t =>
      match pcs s t with RProc v n => Some (go (set_ar s false) t Idle) | _ => None end
  | LWaitData t thr =>
      match pcs s t with
      | Idle =>
          if (0 <? thr) && (thr mod q =? 0) && (thr <? total_size (bb s))  (* DataBuffer.h:88 *)
          then if ar s then Some (emit s EInvalid) else Some (wait_loop s t thr)
          else Some (emit s EInvalid)
      | _ => None
      end
  | LEod =>                                                          (* SharedCircularBuffer.h:77-83 *)
      if exc s then Some (emit s EInvalid)
      else Some (emit (set_pcs (set_eod s true) (wake_empty (pcs s))) EEodSet)
  | LExc =>                                                          (* :85-91 *)
      if eod s then Some (emit s EInvalid)
      else Some (emit (set_pcs (set_exc s true) (wake_empty (pcs s))) EExcSet)
  | LClear =>                                                        (* :93-103 *)
      if ar s || negb (Nat.eqb (aw s) 0) then Some (emit s EInvalid)
      else Some (emit (set_pcs (set_exc (set_eod (set_bb s (clear (bb s))) false) false) (wake_full (pcs s))) EClear)
  end.

(** DataBuffer.h:42-52. *)
Definition init (storage : list A) : db :=
  mkDb (bcb_init storage) false false false 0 true (fun _ => Idle) [].

(** The constructors' checks: BufferedDataConsumer.h:42-45, BufferedDataSource.h:31-32. *)
Definition ctor_ok (storage : list A) : bool :=
  negb (p =? 0) && (zlen storage mod p =? 0) && (req <=? zlen storage) &&
  negb (q =? 0) && (zlen storage mod q =? 0).

End DB.
Arguments Idle {A}. Arguments PRet {A}. Arguments RProc {A}. Arguments RWait {A}. Arguments RWoken {A}.
Arguments DWait {A}. Arguments DWoken {A}.
Arguments EZero {A}. Arguments ERefused {A}. Arguments ERet {A}. Arguments EEodOut {A}. Arguments EExcOut {A}.
Arguments EEodSet {A}. Arguments EExcSet {A}. Arguments EClear {A}. Arguments EInvalid {A}. Arguments EInternal {A}.
Arguments LStep {A}. Arguments LCancel {A}. Arguments LRead {A}. Arguments LDone {A}. Arguments LThrow {A}.
Arguments LWaitData {A}. Arguments LEod {A}. Arguments LExc {A}. Arguments LClear {A}.
