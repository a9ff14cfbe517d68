(** Model of stingraykit/io/BithreadCircularBuffer.{h,cpp}.

    Simplifications: bytes are values of an arbitrary type [A]; [size_t] is [Z]
    (a wrapped subtraction would be negative); the reference-counted [Impl]
    shared by the views is the state record itself. *)
From Verif Require Import Base.
Set Implicit Arguments.
Local Open Scope Z_scope.

Section Bithread.
Variable A : Type.

(** BithreadCircularBuffer.cpp:16-21, the data members of [Impl]. *)
Record bcb := mkBcb {
  st     : list A;   (* _storage: BytesOwner *)
  wo     : Z;        (* _writeOffset *)
  ro     : Z;        (* _readOffset *)
  contig : bool      (* _dataIsContiguous *)
}.

(** BithreadCircularBuffer.cpp:24-28, [Impl::Impl(storage)]. *)
Definition bcb_init (storage : list A) : bcb := mkBcb storage 0 0 true.

(** BithreadCircularBuffer.cpp:39-40 [GetStorageSize]. *)
Definition total_size (s : bcb) : Z := zlen (st s).

(** BithreadCircularBuffer.cpp:31-32 [GetDataSize]. *)
Definition data_size (s : bcb) : Z :=
  if contig s then wo s - ro s else total_size s - ro s + wo s.

(** BithreadCircularBuffer.cpp:35-36 [GetFreeSize]. *)
Definition free_size (s : bcb) : Z := total_size s - data_size s.

(** A view is what [ByteData(_storage, offset, size)] denotes: an offset into
    the storage and a size.  ByteData.h:410-412: the constructor throws
    IndexOutOfRangeException unless offset + size <= storage size ([None]);
    a negative size stands for a wrapped [size_t] and is rejected as well. *)
Definition view := (Z * Z)%type.
Definition mk_view (s : bcb) (off size : Z) : option view :=
  if (0 <=? size) && (off + size <=? total_size s) then Some (off, size) else None.

(** BithreadCircularBuffer.cpp:47-51 [Impl::Write]. *)
Definition write_view (s : bcb) : option view :=
  mk_view s (wo s) (if contig s then total_size s - wo s else ro s - wo s).

(** BithreadCircularBuffer.cpp:67-71 [Impl::Read]. *)
Definition read_view (s : bcb) : option view :=
  mk_view s (ro s) (if contig s then wo s - ro s else total_size s - ro s).

(** BithreadCircularBuffer.cpp:54-64 [Impl::Push]; [None] = exception. *)
Definition push (s : bcb) (n : Z) : option bcb :=
  if wo s + n <=? total_size s then
    let wo' := wo s + n in
    Some (if wo' =? total_size s
          then mkBcb (st s) 0 (ro s) (negb (contig s))
          else mkBcb (st s) wo' (ro s) (contig s))
  else None.

(** BithreadCircularBuffer.cpp:74-84 [Impl::Pop]; [None] = exception. *)
Definition pop (s : bcb) (n : Z) : option bcb :=
  if ro s + n <=? total_size s then
    let ro' := ro s + n in
    Some (if ro' =? total_size s
          then mkBcb (st s) (wo s) 0 (negb (contig s))
          else mkBcb (st s) (wo s) ro' (contig s))
  else None.

(** BithreadCircularBuffer.cpp:87-92 [Impl::Clear]. *)
Definition clear (s : bcb) : bcb := mkBcb (st s) 0 0 true.

(** The bytes a view shows. *)
Definition view_bytes (s : bcb) (v : view) : list A := slice (fst v) (snd v) (st s).

(** Writing [bs] through [Writer::data()] at position [k] of the view. *)
Definition fill (s : bcb) (v : view) (k : Z) (bs : list A) : bcb :=
  mkBcb (splice (fst v + k) bs (st s)) (wo s) (ro s) (contig s).

(** ** The protocol machine: one writer and one reader session, each holding
    at most one view object (BithreadCircularBuffer.cpp:146-237, the Reader and
    Writer classes), interleaved arbitrarily.  [Push]/[Pop] reset the view of
    the session to null (lines 182-186, 235-239). *)
Record sys := mkSys { buf : bcb; wv : option view; rv : option view }.

Inductive op :=
| OpAcquireW               (* buffer.Write()            *)
| OpFill (k : Z) (bs : list A)   (* memcpy into the view      *)
| OpPush (n : Z)           (* writer.Push(n)            *)
| OpAcquireR               (* buffer.Read()             *)
| OpGetData                (* reader.GetData()          *)
| OpPop (n : Z)            (* reader.Pop(n)             *)
| OpClear                  (* buffer.Clear()            *)
| OpDataSize               (* buffer.GetDataSize()      *)
| OpFreeSize.              (* buffer.GetFreeSize()      *)

Inductive out :=
| OutUnit
| OutSize (n : Z)
| OutBytes (bs : list A)
| OutThrow
| OutMisuse.  (* a call the documentation forbids: no view held, more than the
                 view holds, Clear during Read/Write; nothing is claimed *)

Definition step (x : sys) (o : op) : sys * out :=
  let s := buf x in
  match o with
  | OpAcquireW =>
      match write_view s with
      | Some v => (mkSys s (Some v) (rv x), OutSize (snd v))
      | None => (x, OutThrow)
      end
  | OpFill k bs =>
      match wv x with
      | Some v => if (0 <=? k) && (k + zlen bs <=? snd v)
                  then (mkSys (fill s v k bs) (wv x) (rv x), OutUnit)
                  else (x, OutMisuse)
      | None => (x, OutMisuse)
      end
  | OpPush n =>
      match wv x with
      | Some v => if (0 <=? n) && (n <=? snd v)
                  then match push s n with
                       | Some s' => (mkSys s' None (rv x), OutUnit)
                       | None => (x, OutThrow)
                       end
                  else (x, OutMisuse)
      | None => (x, OutMisuse)
      end
  | OpAcquireR =>
      match read_view s with
      | Some v => (mkSys s (wv x) (Some v), OutSize (snd v))
      | None => (x, OutThrow)
      end
  | OpGetData =>
      match rv x with
      | Some v => (x, OutBytes (view_bytes s v))
      | None => (x, OutMisuse)
      end
  | OpPop n =>
      match rv x with
      | Some v => if (0 <=? n) && (n <=? snd v)
                  then match pop s n with
                       | Some s' => (mkSys s' (wv x) None, OutUnit)
                       | None => (x, OutThrow)
                       end
                  else (x, OutMisuse)
      | None => (x, OutMisuse)
      end
  | OpClear =>
      match wv x, rv x with
      | None, None => (mkSys (clear s) None None, OutUnit)
      | _, _ => (x, OutMisuse)
      end
  | OpDataSize => (x, OutSize (data_size s))
  | OpFreeSize => (x, OutSize (free_size s))
  end.

Definition sys_init (storage : list A) : sys := mkSys (bcb_init storage) None None.

Fixpoint run (x : sys) (os : list op) : sys * list out :=
  match os with
  | [] => (x, [])
  | o :: os' => let '(x1, r) := step x o in
                let '(x2, rs) := run x1 os' in (x2, r :: rs)
  end.

End Bithread.

Arguments OpAcquireW {A}. Arguments OpPush {A}. Arguments OpAcquireR {A}.
Arguments OpGetData {A}. Arguments OpPop {A}. Arguments OpClear {A}.
Arguments OpDataSize {A}. Arguments OpFreeSize {A}.
Arguments OutUnit {A}. Arguments OutSize {A}. Arguments OutThrow {A}. Arguments OutMisuse {A}.
