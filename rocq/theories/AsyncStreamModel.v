(** Model of stingraykit/io/AsyncByteStream.{h,cpp}: a write-behind stream.  One user thread
    calls Write, Seek, Tell, Sync, Reconfigure and the destructor; one worker thread writes the
    queued operations to the underlying stream.  The operations' bytes live in circular buffers
    (BithreadModel.v, io/BithreadCircularBuffer.cpp), and an operation that is still queued may
    be extended in place by a later Write.

    Steps are regions under [_streamOpQueueMutex]; the worker's write to the underlying stream
    runs outside of it and may write any part of what it is given, or throw.

    Simplifications: bytes are values of an arbitrary type; [u64]/[size_t] are [Z] without
    wrap-around; the underlying stream is a map from positions to bytes; statistics, logging
    and profiling are not modelled; the buffers are named by creation numbers (their storages
    are different memory). *)
From Verif Require Import Base Conc BithreadModel.
Set Implicit Arguments.
Local Open Scope Z_scope.

Section AS.
Variable A : Type.

(** AsyncByteStream.h:60-115, StreamOpData.  For a write: [_arg] is the start offset, [_buffer]
    is the area [off, off+sz) of buffer [id], [_used] the bytes in it. *)
Inductive sop :=
| OWrite (arg : Z) (id : nat) (off sz used : Z)
| OStop
| OSync (index : Z)
| OPop.

(** AsyncByteStream.h:83-96; the other operations have an empty buffer and [_used] 0. *)
Definition wstart (o : sop) : Z := match o with OWrite a _ _ _ _ => a | OSync i => i | _ => 0 end.
Definition wend (o : sop) : Z := match o with OWrite a _ _ _ u => a + u | OSync i => i | _ => 0 end.
Definition wlimit (o : sop) : Z := match o with OWrite a _ _ z _ => a + z | OSync i => i | _ => 0 end.
Definition wfree (o : sop) : Z := match o with OWrite _ _ _ z u => z - u | _ => 0 end.
(** AsyncByteStream.h:89-90 IsWriteIntersects. *)
Definition intersects (o x : sop) : bool := (wstart o <? wlimit x) && (wstart x <? wlimit o).

(** The worker: AsyncByteStream.cpp:339-433. *)
Inductive wpc :=
| WIdle                          (* at the head of the loop *)
| WWrite (o : sop)               (* 372-377, mutex released, before the write *)
| WWrote (o : sop) (n : Z)       (* 377, n bytes written, about to lock again *)
| WDone                          (* left the loop: Stop *)
| WDead (o : sop).               (* left by an exception while writing [o] *)

(** The user thread. *)
Inductive upc :=
| UIdle
| USync (index : Z)              (* 308-316, in the loop of Sync *)
| UGone.                         (* in the destructor, Stop queued *)

Inductive ev :=
| EWrite (pos : Z) (d : list A) (n : Z)  (* Write(d) at position pos returned n *)
| ESynced (index : Z)                    (* a blocking Sync returned *)
| EThrow                                 (* a call threw *)
| EInternal.                             (* one of the internal consistency checks failed *)

Record as_ := mkAs {
  mem   : nat -> bcb A;     (* the circular buffers *)
  bufs  : list nat;         (* _buffers, newest first *)
  nid   : nat;              (* creation number of the next buffer *)
  sq    : list sop;         (* _streamOpQueue *)
  pos   : Z;                (* _position *)
  len   : Z;                (* _length *)
  wexc  : bool;             (* _wasException *)
  snext : Z;                (* _syncNext *)
  sdone : Z;                (* _syncDone *)
  prea  : Z;                (* _bufferPreallocationSize *)
  nbs   : bool;             (* _config.NonBlockingSync *)
  fil   : Z -> option A;    (* the underlying stream *)
  wp    : wpc;
  up    : upc;
  log   : list ev           (* oldest first *)
}.

Definition set_q s m q := mkAs m (bufs s) (nid s) q (pos s) (len s) (wexc s) (snext s) (sdone s) (prea s) (nbs s) (fil s) (wp s) (up s) (log s).
Definition set_pos s p l := mkAs (mem s) (bufs s) (nid s) (sq s) p l (wexc s) (snext s) (sdone s) (prea s) (nbs s) (fil s) (wp s) (up s) (log s).
Definition set_wp s q w := mkAs (mem s) (bufs s) (nid s) q (pos s) (len s) (wexc s) (snext s) (sdone s) (prea s) (nbs s) (fil s) w (up s) (log s).
Definition set_up s u := mkAs (mem s) (bufs s) (nid s) (sq s) (pos s) (len s) (wexc s) (snext s) (sdone s) (prea s) (nbs s) (fil s) (wp s) u (log s).
Definition set_fil s f w := mkAs (mem s) (bufs s) (nid s) (sq s) (pos s) (len s) (wexc s) (snext s) (sdone s) (prea s) (nbs s) f w (up s) (log s).
Definition set_exc s := mkAs (mem s) (bufs s) (nid s) (sq s) (pos s) (len s) true (snext s) (sdone s) (prea s) (nbs s) (fil s) (wp s) (up s) (log s).
Definition set_done s i := mkAs (mem s) (bufs s) (nid s) (sq s) (pos s) (len s) (wexc s) (snext s) i (prea s) (nbs s) (fil s) (wp s) (up s) (log s).
Definition set_next s i := mkAs (mem s) (bufs s) (nid s) (sq s) (pos s) (len s) (wexc s) i (sdone s) (prea s) (nbs s) (fil s) (wp s) (up s) (log s).
Definition set_bufs s b := mkAs (mem s) b (nid s) (sq s) (pos s) (len s) (wexc s) (snext s) (sdone s) (prea s) (nbs s) (fil s) (wp s) (up s) (log s).
Definition emit s e := mkAs (mem s) (bufs s) (nid s) (sq s) (pos s) (len s) (wexc s) (snext s) (sdone s) (prea s) (nbs s) (fil s) (wp s) (up s) (log s ++ [e]).

(** The last queued operation that satisfies [f], with what is before and after it. *)
Fixpoint split_last (f : sop -> bool) (l : list sop) : option (list sop * sop * list sop) :=
  match l with
  | [] => None
  | o :: r => match split_last f r with
              | Some (a, x, b) => Some (o :: a, x, b)
              | None => if f o then Some ([], o, r) else None
              end
  end.

(** AsyncByteStream.cpp:180-213: the operation a Write at [p] is appended to, if any. *)
Definition target (p : Z) (l : list sop) : option (list sop * sop * list sop) :=
  match split_last (fun o => wend o =? p) l with          (* 182-197 *)
  | Some (a, x, b) =>
      if 0 <? wfree x then                                (* 187 *)
        if existsb (intersects x) b then None             (* 201-213 *)
        else Some (a, x, b)
      else None
  | None => None
  end.

(** AsyncByteStream.cpp:98-104 PushWriteData: the memory and the operation after it. *)
Definition push_data (m : nat -> bcb A) (o : sop) (d : list A) : (nat -> bcb A) * sop * Z :=
  match o with
  | OWrite a id off z u =>
      let n := Z.min (wfree o) (zlen d) in
      (fupd m id (fill (m id) (off, z) u (firstn (Z.to_nat n) d)), OWrite a id off z (u + n), n)
  | _ => (m, o, 0)
  end.

(** AsyncByteStream.cpp:163-248 Write. *)
Definition write (s : as_) (d : list A) : as_ :=
  if wexc s then emit s EThrow                                     (* 166 *)
  else if zlen d =? 0 then emit s (EWrite (pos s) d 0)             (* 167 *)
  else match bufs s with
  | [] => emit s EInternal                                         (* 172 *)
  | f :: _ =>
    if free_size (mem s f) =? 0 then emit s (EWrite (pos s) d 0)   (* 173-178 *)
    else
      let finish m a x b :=                                        (* 230-247 *)
        let '(m', x', n) := push_data m x d in
        let s1 := set_q s m' (a ++ x' :: b) in
        emit (set_pos s1 (pos s + n) (Z.max (pos s + n) (len s))) (EWrite (pos s) d n) in
      match target (pos s) (sq s) with
      | Some (a, x, b) => finish (mem s) a x b
      | None =>                                                    (* 215-226 *)
        match write_view (mem s f) with
        | None => emit s EInternal
        | Some v =>
          let wsz := Z.min (snd v) (Z.max (prea s) (zlen d)) in
          match push (mem s f) wsz with
          | None => emit s EInternal
          | Some b' => finish (fupd (mem s) f b') (sq s) (OWrite (pos s) f (fst v) wsz 0) []
          end
        end
      end
  end.

Inductive seek_mode := SBegin | SCurrent | SEnd.
(** AsyncByteStream.cpp:251-282 Seek. *)
Definition seek (s : as_) (o : Z) (m : seek_mode) : as_ :=
  if wexc s then emit s EThrow
  else
    let np := match m with SBegin => o | SCurrent => pos s + o | SEnd => len s + o end in
    if np =? pos s then s else if np <? 0 then emit s EThrow else set_pos s np (len s).

(** AsyncByteStream.cpp:292-305 Sync, up to the loop. *)
Definition sync (s : as_) : as_ :=
  if wexc s then emit s EThrow
  else
    let i := snext s in
    let s1 := set_next (set_q s (mem s) (sq s ++ [OSync i])) (i + 1) in
    if nbs s then s1 else set_up s1 (USync i).

(** AsyncByteStream.cpp:321-336 Reconfigure, with the new buffer's storage. *)
Definition reconf (s : as_) (storage : list A) (p : Z) (nb : bool) : as_ :=
  if wexc s then emit s EThrow
  else
    let q := if match bufs s with [] => true | _ => false end then sq s else sq s ++ [OPop] in
    mkAs (fupd (mem s) (nid s) (bcb_init storage)) (nid s :: bufs s) (S (nid s)) q (pos s) (len s) (wexc s)
         (snext s) (sdone s) p nb (fil s) (wp s) (up s) (log s).

(** The bytes of an operation: AsyncByteStream.h:92-93 GetWriteData. *)
Definition odata (m : nat -> bcb A) (o : sop) : list A :=
  match o with OWrite _ id off _ u => slice off u (st (m id)) | _ => [] end.

(** Writing to the underlying stream at a position. *)
Definition fwrite (p : Z) (bs : list A) (f : Z -> option A) : Z -> option A :=
  fun i => if (p <=? i) && (i <? p + zlen bs) then nth_error bs (Z.to_nat (i - p)) else f i.

(** One region of the worker under the mutex: AsyncByteStream.cpp:345-419. *)
Definition work (s : as_) : option as_ :=
  match wp s, sq s with
  | WIdle, OWrite a id off z u :: q =>                             (* 362-372 *)
      match rev (bufs s) with
      | [] => Some (emit (set_wp s q WDone) EInternal)             (* 366 *)
      | b :: _ =>
        match read_view (mem s b) with
        | None => Some (emit (set_wp s q WDone) EInternal)
        | Some v => if Nat.eqb id b && (off =? fst v)              (* 370 *)
                    then Some (set_wp s q (WWrite (OWrite a id off z u)))
                    else Some (emit (set_wp s q WDone) EInternal)
        end
      end
  | WIdle, OStop :: q => Some (set_wp s q WDone)                   (* 393-395 *)
  | WIdle, OSync i :: q => Some (set_done (set_wp s q WIdle) i)    (* 397-410 *)
  | WIdle, OPop :: q => Some (set_bufs (set_wp s q WIdle) (removelast (bufs s)))  (* 412-414 *)
  | WWrote (OWrite a id off z u) n, _ =>                           (* 379-386 *)
      if n =? u then
        match pop (mem s id) (n + (z - u)) with
        | None => Some (emit (set_wp s (sq s) WDone) EInternal)
        | Some b' => Some (set_wp (set_q s (fupd (mem s) id b') (sq s)) (sq s) WIdle)
        end
      else
        match pop (mem s id) n with
        | None => Some (emit (set_wp s (sq s) WDone) EInternal)
        | Some b' => Some (set_wp (set_q s (fupd (mem s) id b') (sq s))
                             (OWrite (a + n) id (off + n) (z - n) (u - n) :: sq s) WIdle)
        end
  | _, _ => None
  end.

Inductive lab :=
| LWrite (d : list A) | LSeek (o : Z) (m : seek_mode) | LSync
| LReconf (storage : list A) (p : Z) (nb : bool)
| LDestroy                        (* 150-157, Stop is queued *)
| LSyncRet                        (* the loop of Sync looks at _syncDone and returns *)
| LWork                           (* the worker runs its next region *)
| LOut (n : Z)                    (* the underlying stream writes the first n bytes *)
| LFail (n : Z).                  (* it writes n bytes and throws *)

Definition step (s : as_) (l : lab) : option as_ :=
  match l with
  | LWrite d => match up s with UIdle => Some (write s d) | _ => None end
  | LSeek o m => match up s with UIdle => Some (seek s o m) | _ => None end
  | LSync => match up s with UIdle => Some (sync s) | _ => None end
  | LReconf storage p nb =>
      match up s with
      | UIdle => if (0 <? p) && (0 <? zlen storage) then Some (reconf s storage p nb) else None
      | _ => None
      end
  | LDestroy => match up s with UIdle => Some (set_up (set_q s (mem s) (sq s ++ [OStop])) UGone) | _ => None end
  | LSyncRet =>
      match up s with
      | USync i => if wexc s then Some (emit (set_up s UIdle) EThrow)           (* 311 *)
                   else if 0 <=? sdone s - i then Some (emit (set_up s UIdle) (ESynced i))  (* 312 *)
                   else None
      | _ => None
      end
  | LWork => work s
  | LOut n =>
      match wp s with
      | WWrite o => if (0 <=? n) && (n <=? zlen (odata (mem s) o))
                    then Some (set_fil s (fwrite (wstart o) (firstn (Z.to_nat n) (odata (mem s) o)) (fil s)) (WWrote o n))
                    else None
      | _ => None
      end
  | LFail n =>                                                     (* 428-432 *)
      match wp s with
      | WWrite o => if (0 <=? n) && (n <=? zlen (odata (mem s) o))
                    then Some (set_exc (set_fil s (fwrite (wstart o) (firstn (Z.to_nat n) (odata (mem s) o)) (fil s)) (WDead o)))
                    else None
      | _ => None
      end
  end.

(** AsyncByteStream.cpp:129-147: over a stream with content [f], position [p] and length [l],
    configured with a buffer of the given storage. *)
Definition init (f : Z -> option A) (p l : Z) (storage : list A) (pre : Z) (nb : bool) : as_ :=
  mkAs (fun _ => bcb_init storage) [0%nat] 1 [] p l false 1 0 pre nb f WIdle UIdle [].

End AS.
Arguments LSeek {A}. Arguments LSync {A}. Arguments LDestroy {A}. Arguments LSyncRet {A}. Arguments LWork {A}.
Arguments LOut {A}. Arguments LFail {A}.
Arguments ESynced {A}. Arguments EThrow {A}. Arguments EInternal {A}.
