(** Model of stingraykit/io/CircularBufferBase.h instantiated with the storage of
    stingraykit/io/MemoryCircularBuffer.h, together with the CircularDataReserver
    objects of stingraykit/io/ICircularBuffer.h:30-49.

    Simplifications: every public operation is one atomic step (they all run under
    [_mutex], except the const size getters); logging is dropped; [size_t] is [Z]
    (a wrapped value is negative or larger than the storage); bytes are values of
    an arbitrary type. *)
From Verif Require Import Base.
Set Implicit Arguments.
Local Open Scope Z_scope.

Section Circular.
Variable A : Type.
(** The template parameter of CircularBufferBase.h:29. *)
Variable discardOnOverflow : bool.

(** CircularBufferBase.h:41-44 and MemoryCircularBuffer.h:31. *)
Record cb := mkCb {
  st     : list A;   (* _container *)
  wo     : Z;        (* _writeOffset *)
  ro     : Z;        (* _readOffset *)
  locked : Z;        (* _lockedDataSize *)
  contig : bool      (* _dataIsContiguous *)
}.

(** CircularBufferBase.h:119-120, MemoryCircularBuffer.h:45. *)
Definition cb_init (storage : list A) : cb := mkCb storage 0 0 0 true.

(** MemoryCircularBuffer.h:47. *)
Definition storage_size (s : cb) : Z := zlen (st s).

(** CircularBufferBase.h:149-150. *)
Definition get_size (s : cb) : Z :=
  if contig s then wo s - ro s else storage_size s - ro s + wo s.

(** CircularBufferBase.h:152-153. *)
Definition free_size (s : cb) : Z :=
  if contig s then storage_size s - wo s + ro s else ro s - wo s.

(** CircularBufferBase.h:225-226. *)
Definition can_push (s : cb) (n : Z) : bool := n <=? free_size s.

(** MemoryCircularBuffer.h:33-37: memcpy into the vector; [None] = out of bounds (UB). *)
Definition write_to_storage (s : cb) (off : Z) (bs : list A) : option (list A) :=
  if (0 <=? off) && (off + zlen bs <=? storage_size s) then Some (splice off bs (st s)) else None.

(** CircularBufferBase.h:67-77. *)
Definition do_push (s : cb) (bs : list A) : option cb :=
  match write_to_storage s (wo s) bs with
  | Some st' =>
      let wo' := wo s + zlen bs in
      Some (if wo' =? storage_size s
            then mkCb st' 0 (ro s) (locked s) (negb (contig s))
            else mkCb st' wo' (ro s) (locked s) (contig s))
  | None => None
  end.

(** CircularBufferBase.h:79-88. *)
Definition do_pop (s : cb) (n : Z) : cb :=
  let ro' := ro s + n in
  if ro' =? storage_size s
  then mkCb (st s) (wo s) 0 (locked s) (negb (contig s))
  else mkCb (st s) (wo s) ro' (locked s) (contig s).

(** CircularBufferBase.h:90-116. *)
Definition release_data (s : cb) (n : Z) : cb :=
  let tail := storage_size s - ro s in
  let s1 := if contig s || (n <=? tail) then do_pop s n
            else do_pop (do_pop s tail) (n - tail) in
  mkCb (st s1) (wo s1) (ro s1) 0 (contig s1).

(** CircularBufferBase.h:48-65. *)
Inductive checked :=
| CkFull                       (* BufferIsFullException *)
| CkNotFreed                   (* "Previous data was not freed" *)
| CkOk (s : cb) (bs : list A).

Definition check_data_size (s : cb) (bs : list A) : checked :=
  let total := free_size s in
  if total <? zlen bs then
    if discardOnOverflow then
      if locked s =? 0 then
        let res := Z.min (zlen bs) (storage_size s) in
        CkOk (release_data s (res - total)) (slice (zlen bs - res) res bs)
      else CkNotFreed
    else CkFull
  else CkOk s bs.

(** CircularBufferBase.h:179-202. *)
Inductive push_res := PushFull | PushNotFreed | PushUB | PushOk (s : cb).

Definition push (s : cb) (bs : list A) : push_res :=
  match check_data_size s bs with
  | CkFull => PushFull
  | CkNotFreed => PushNotFreed
  | CkOk s1 d =>
      let tail := storage_size s1 - wo s1 in
      let r := if contig s1 && (tail <? zlen d)
               then match do_push s1 (slice 0 tail d) with
                    | Some s2 => do_push s2 (slice tail (zlen d - tail) d)
                    | None => None
                    end
               else do_push s1 d in
      match r with Some s' => PushOk s' | None => PushUB end
  end.

(** CircularBufferBase.h:155-177: [None] = "Previous data was not freed";
    otherwise the new state and the (offset, size) of the reserved bytes. *)
Definition pop (s : cb) (n : Z) : option (cb * (Z * Z)) :=
  if locked s =? 0 then
    let l := if contig s then Z.min n (wo s - ro s) else Z.min n (storage_size s - ro s) in
    Some (mkCb (st s) (wo s) (ro s) l (contig s), (ro s, l))
  else None.

(** CircularBufferBase.h:204-223. *)
Definition clear (s : cb) : cb :=
  let wo' := if ro s + locked s <? storage_size s then ro s + locked s
             else ro s + locked s - storage_size s in
  mkCb (st s) wo' (ro s) (locked s) (contig s).

(** CircularBufferBase.h:125-147; MemoryCircularBuffer.h:39-42 (out of bounds = [None]). *)
Definition read_storage (s : cb) (off n : Z) : option (list A) :=
  if (0 <=? off) && (0 <=? n) && (off + n <=? storage_size s) then Some (slice off n (st s)) else None.

Definition get_all_data (s : cb) : option (list A) :=
  if contig s then read_storage s (ro s) (wo s - ro s)
  else match read_storage s (ro s) (storage_size s - ro s), read_storage s 0 (wo s) with
       | Some a, Some b => Some (a ++ b)
       | _, _ => None
       end.

(** ** Clients.  [res] are the live CircularDataReserver objects, oldest first;
    destroying one calls [ReleaseData(_data.size())] (ICircularBuffer.h:44-45). *)
Record sys := mkSys { buf : cb; res : list (Z * Z) }.

Inductive op :=
| OPush (bs : list A)
| OPop (n : Z)          (* n >= 0 *)
| OGetData (i : nat)    (* reserver->GetData() *)
| ORelease (i : nat)    (* destroy the i-th live reserver *)
| OClear
| OGetSize | OFreeSize | OCanPush (n : Z) | OGetAll.

Inductive out :=
| RUnit | RSize (n : Z) | RBool (b : bool) | RBytes (bs : list A)
| RFull                  (* BufferIsFullException *)
| RNotFreed              (* "Previous data was not freed" *)
| RUB                    (* out of bounds access *)
| RNoSuch.               (* not a call at all: there is no such reserver / negative size *)

Definition remove_nth {B} (i : nat) (l : list B) : list B := firstn i l ++ skipn (S i) l.

Definition step (x : sys) (o : op) : sys * out :=
  let s := buf x in
  match o with
  | OPush bs =>
      match push s bs with
      | PushFull => (x, RFull)
      | PushNotFreed => (x, RNotFreed)
      | PushUB => (x, RUB)
      | PushOk s' => (mkSys s' (res x), RUnit)
      end
  | OPop n =>
      if n <? 0 then (x, RNoSuch) else
      match pop s n with
      | Some (s', r) => (mkSys s' (res x ++ [r]), RSize (snd r))
      | None => (x, RNotFreed)
      end
  | OGetData i =>
      match nth_error (res x) i with
      | Some r => match read_storage s (fst r) (snd r) with Some bs => (x, RBytes bs) | None => (x, RUB) end
      | None => (x, RNoSuch)
      end
  | ORelease i =>
      match nth_error (res x) i with
      | Some r => (mkSys (release_data s (snd r)) (remove_nth i (res x)), RUnit)
      | None => (x, RNoSuch)
      end
  | OClear => (mkSys (clear s) (res x), RUnit)
  | OGetSize => (x, RSize (get_size s))
  | OFreeSize => (x, RSize (free_size s))
  | OCanPush n => (x, RBool (can_push s n))
  | OGetAll => match get_all_data s with Some bs => (x, RBytes bs) | None => (x, RUB) end
  end.

Definition sys_init (storage : list A) : sys := mkSys (cb_init storage) [].

Fixpoint run (x : sys) (os : list op) : sys * list out :=
  match os with
  | [] => (x, [])
  | o :: os' => let '(x1, r) := step x o in
                let '(x2, rs) := run x1 os' in (x2, r :: rs)
  end.

End Circular.

Arguments OPop {A}. Arguments OGetData {A}. Arguments ORelease {A}. Arguments OClear {A}.
Arguments OGetSize {A}. Arguments OFreeSize {A}. Arguments OCanPush {A}. Arguments OGetAll {A}.
Arguments RUnit {A}. Arguments RSize {A}. Arguments RBool {A}. Arguments RFull {A}.
Arguments RNotFreed {A}. Arguments RUB {A}. Arguments RNoSuch {A}.
