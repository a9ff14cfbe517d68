(** Model of stingraykit/io/MemoryByteStream.h, io/ChunkedMemoryByteStream.h, io/ByteStreamWithOffset.h and
    io/ByteStreamWithOffsetAndSize.h.

    Bytes are numbers; offsets are integers that do not leave 64 bits, except for the (int) cast of
    MemoryByteStream::Seek, which is modelled. *)
From Verif Require Import Base.
Local Open Scope Z_scope.

Definition byte := nat.
Definition zlen {A} (l : list A) : Z := Z.of_nat (length l).

(** SeekMode.h *)
Inductive mode := MBegin | MCurrent | MEnd.

(** What a call gives back. *)
Inductive res := RBytes (l : list byte) | RCount (k : Z) | RUnit | RPos (p : Z) | RThrow.
(** The calls; the last argument of Read and Write is how many bytes the underlying stream, where there is
    one, passes at this call. *)
Inductive op := ORead (n k : Z) | OWrite (d : list byte) (k : Z) | OSeek (o : Z) (m : mode) | OTell.

(** * MemoryByteStream *)
Record mem := mkM { m_data : list byte; m_off : Z }.
Inductive kind := Growing (* ByteArray *) | Fixed (* ByteData *) | Const (* const bytes *).

(** std::copy to the bytes from [p] on *)
Definition put (l : list byte) (p : Z) (d : list byte) : list byte :=
  firstn (Z.to_nat p) l ++ d ++ skipn (Z.to_nat p + length d) l.
(** C's (int) of a size *)
Definition to_int (x : Z) : Z := let y := x mod 2 ^ 32 in if y <? 2 ^ 31 then y else y - 2 ^ 32.
(** ByteArray::RequireSize: enlarges with unspecified bytes (zeroes here), never shrinks *)
Definition require_size (l : list byte) (n : Z) : list byte := l ++ repeat O (Z.to_nat (n - zlen l)).

Definition mem_step (kd : kind) (s : mem) (o : op) : res * mem :=
  match o with
  | ORead n _ =>
      (* MemoryByteStream.h:75-78 *)
      let count := Z.min n (zlen (m_data s) - m_off s) in
      (RBytes (firstn (Z.to_nat count) (skipn (Z.to_nat (m_off s)) (m_data s))), mkM (m_data s) (m_off s + count))
  | OWrite d _ =>
      (* MemoryByteStream.h:41-46, 54 *)
      match kd with
      | Const => (RThrow, s)
      | _ =>
          let data := match kd with
                      | Growing => if zlen (m_data s) - m_off s <? zlen d then require_size (m_data s) (m_off s + zlen d) else m_data s
                      | _ => m_data s
                      end in
          let count := Z.min (zlen d) (zlen data - m_off s) in
          (RCount count, mkM (put data (m_off s) (firstn (Z.to_nat count) d)) (m_off s + count))
      end
  | OSeek o m =>
      (* MemoryByteStream.h:86-97 *)
      let t := match m with MBegin => o | MCurrent => m_off s + o | MEnd => zlen (m_data s) + o end in
      if t <? 0 then (RThrow, s)
      else if to_int (zlen (m_data s)) <? t then (RThrow, s)
      else (RUnit, mkM (m_data s) t)
  | OTell => (RPos (m_off s), s)
  end.

(** * ChunkedMemoryByteStream *)
(** the chunks before _chunk, the chunks from _chunk on, _chunkOffset *)
Record chunked := mkCh { c_before : list (list byte); c_after : list (list byte); c_off : nat }.

(** ChunkedMemoryByteStream.h:127-134 *)
Definition normalize (s : chunked) : chunked :=
  match c_after s with
  | c :: l => if Nat.eqb (c_off s) (length c) then mkCh (c_before s ++ [c]) l 0 else s
  | [] => s
  end.
(** ChunkedMemoryByteStream.h:42-55 *)
Fixpoint ch_read_loop (before after : list (list byte)) (off : nat) (n : nat) (acc : list byte) : list byte * chunked :=
  match after with
  | [] => (acc, mkCh before [] off)
  | c :: l =>
      if Nat.leb n 0 then (acc, mkCh before after off)
      else
        let cur := Nat.min n (length c - off) in
        let acc' := acc ++ firstn cur (skipn off c) in
        if Nat.eqb (off + cur) (length c)
        then ch_read_loop (before ++ [c]) l 0 (n - cur) acc'
        else (acc', mkCh before after (off + cur))
  end.
(** ChunkedMemoryByteStream.h:36-56 *)
Definition ch_read (s : chunked) (n : nat) : res * chunked :=
  if Nat.eqb (length (c_before s ++ c_after s)) 0 then (RThrow, s)
  else let s := normalize s in
       match c_after s with
       | [] => (RThrow, s)
       | _ => let '(bs, s') := ch_read_loop (c_before s) (c_after s) (c_off s) n [] in (RBytes bs, s')
       end.
(** ChunkedMemoryByteStream.h:63-83: an iteration that does not throw ends the loop at the end of the
    container; inside a chunk a second iteration throws at line 77. *)
Definition ch_write_loop (s : chunked) (d : list byte) : res * chunked :=
  match c_after s with
  | [] => if Nat.eqb (c_off s) 0 then (RCount (zlen d), mkCh (c_before s ++ [d]) [] 0) else (RThrow, s)
  | c :: l =>
      if Nat.ltb (c_off s) (length c)
      then let cur := Nat.min (length d) (length c - c_off s) in
           let c' := firstn (c_off s) c ++ firstn cur d ++ skipn (c_off s + cur) c in
           let s' := mkCh (c_before s) (c' :: l) (c_off s + cur) in
           if Nat.ltb cur (length d) then (RThrow, s') else (RCount (zlen d), s')
      else (RThrow, s)
  end.
(** ChunkedMemoryByteStream.h:58-84 *)
Definition ch_write (s : chunked) (d : list byte) : res * chunked :=
  match d with [] => (RThrow, s) | _ => ch_write_loop (normalize s) d end.
(** ChunkedMemoryByteStream.h:119-125 *)
Definition total (l : list (list byte)) : Z := zlen (concat l).
(** ChunkedMemoryByteStream.h:109-116 *)
Definition ch_tell (s : chunked) : Z := total (c_before s) + Z.of_nat (c_off s).
(** ChunkedMemoryByteStream.h:101-106 *)
Fixpoint ch_seek_loop (before after : list (list byte)) (o : nat) : chunked :=
  match after with
  | c :: l => if Nat.leb (length c) o then ch_seek_loop (before ++ [c]) l (o - length c) else mkCh before after o
  | [] => mkCh before [] o
  end.
(** ChunkedMemoryByteStream.h:86-107; _totalSize is what TotalSize() gave at construction and after the
    last Write that appended, which is the current total (Write changes no size otherwise). *)
Definition ch_seek (s : chunked) (o : Z) (m : mode) : res * chunked :=
  let all := c_before s ++ c_after s in
  if Nat.eqb (length all) 0 then (RThrow, s)
  else let o := match m with MBegin => o | MCurrent => o + ch_tell s | MEnd => o + total all end in
       if (0 <=? o) && (o <=? total all) then (RUnit, ch_seek_loop [] all (Z.to_nat o)) else (RThrow, s).
Definition ch_step (s : chunked) (o : op) : res * chunked :=
  match o with
  | ORead n _ => ch_read s (Z.to_nat n)
  | OWrite d _ => ch_write s d
  | OSeek o m => ch_seek s o m
  | OTell => (RPos (ch_tell s), s)
  end.

(** * A plain stream with a position, as the one under a window *)
Record file := mkF { ff : Z -> byte; fl : Z; fp : Z }.
Definition bytes (f : Z -> byte) (p n : Z) : list byte := map (fun i => f (p + Z.of_nat i)) (seq 0 (Z.to_nat n)).
Definition wr (f : Z -> byte) (p : Z) (d : list byte) : Z -> byte :=
  fun i => if (p <=? i) && (i <? p + zlen d) then nth (Z.to_nat (i - p)) d O else f i.
(** how much passes: at most what is asked and what is there *)
Definition clip (k a b : Z) : Z := Z.max 0 (Z.min k (Z.min a b)).

Definition pl_step (x : file) (o : op) : res * file :=
  match o with
  | ORead n k => let c := clip k n (fl x - fp x) in (RBytes (bytes (ff x) (fp x) c), mkF (ff x) (fl x) (fp x + c))
  | OWrite d k =>
      let c := clip k (zlen d) (zlen d) in
      (RCount c, mkF (wr (ff x) (fp x) (firstn (Z.to_nat c) d)) (if c =? 0 then fl x else Z.max (fl x) (fp x + c)) (fp x + c))
  | OSeek o m =>
      let t := match m with MBegin => o | MCurrent => fp x + o | MEnd => fl x + o end in
      if t <? 0 then (RThrow, x) else (RUnit, mkF (ff x) (fl x) t)
  | OTell => (RPos (fp x), x)
  end.
Definition seek_to (x : file) (p : Z) : file := snd (pl_step x (OSeek p MBegin)).

(** * ByteStreamWithOffset: the inner stream and _position *)
(** ByteStreamWithOffset.h:24-28 *)
Definition wo_make (x : file) (off : Z) : option (file * Z) := if 0 <=? off then Some (seek_to x (off + 0), 0) else None.
(** ByteStreamWithOffset.h:30-37 *)
Definition wo_tell (off : Z) (s : file * Z) : option Z :=
  let '(x, pos) := s in
  if off <=? fp x then if fp x - off =? pos then Some (fp x - off) else None else None.
Definition wo_step (off : Z) (s : file * Z) (o : op) : res * (file * Z) :=
  let '(x, pos) := s in
  match o with
  | OTell => match wo_tell off s with Some p => (RPos p, s) | None => (RThrow, s) end
  | OSeek o m =>
      (* ByteStreamWithOffset.h:39-70 *)
      let go (x : file) (np : Z) := if off <=? np then (RUnit, (seek_to x np, np - off)) else (RThrow, (x, pos)) in
      match m with
      | MBegin => go x (off + o)
      | MCurrent => match wo_tell off s with Some p => go x (p + off + o) | None => (RThrow, s) end
      | MEnd =>
          let old := fp x in
          let x1 := snd (pl_step x (OSeek 0 MEnd)) in
          let size := fp x1 in
          go (seek_to x1 old) (size + o)
      end
  | ORead n k =>
      (* ByteStreamWithOffset.h:72-78 *)
      let x1 := seek_to x (off + pos) in
      match pl_step x1 (ORead n k) with
      | (RBytes l, x2) => (RBytes l, (x2, pos + zlen l))
      | (r, x2) => (r, (x2, pos))
      end
  | OWrite d k =>
      (* ByteStreamWithOffset.h:80-86 *)
      let x1 := seek_to x (off + pos) in
      match pl_step x1 (OWrite d k) with
      | (RCount c, x2) => (RCount c, (x2, pos + c))
      | (r, x2) => (r, (x2, pos))
      end
  end.

(** * ByteStreamWithOffsetAndSize *)
(** ByteStreamWithOffsetAndSize.h:25-29 *)
Definition ws_make (x : file) (off size : Z) : option (file * Z) :=
  if (0 <=? off) && (off <? off + size) then Some (seek_to x (off + 0), 0) else None.
Definition ws_step (off size : Z) (s : file * Z) (o : op) : res * (file * Z) :=
  let '(x, pos) := s in
  let e := off + size in
  match o with
  | OTell => (* ByteStreamWithOffsetAndSize.h:31-36 *)
      if (0 <=? pos) && (pos <=? e - off) then (RPos pos, s) else (RThrow, s)
  | OSeek o m =>
      (* ByteStreamWithOffsetAndSize.h:38-63 *)
      let np := match m with MBegin => off + o | MCurrent => pos + off + o | MEnd => e + o end in
      if (off <=? np) && (np <=? e) then (RUnit, (seek_to x np, np - off)) else (RThrow, s)
  | ORead n k =>
      (* ByteStreamWithOffsetAndSize.h:65-73 *)
      let remaining := e - off - pos in
      if 0 <=? remaining then
        let x1 := seek_to x (off + pos) in
        match pl_step x1 (ORead (Z.min n remaining) k) with
        | (RBytes l, x2) => (RBytes l, (x2, pos + zlen l))
        | (r, x2) => (r, (x2, pos))
        end
      else (RThrow, s)
  | OWrite d k =>
      (* ByteStreamWithOffsetAndSize.h:75-84 *)
      let remaining := e - off - pos in
      if (0 <=? remaining) && negb (remaining =? 0) then
        let x1 := seek_to x (off + pos) in
        match pl_step x1 (OWrite (firstn (Z.to_nat (Z.min (zlen d) remaining)) d) k) with
        | (RCount c, x2) => (RCount c, (x2, pos + c))
        | (r, x2) => (r, (x2, pos))
        end
      else (RThrow, s)
  end.
