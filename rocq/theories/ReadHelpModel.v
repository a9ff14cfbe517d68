(** Model of the reading and writing helpers: stingraykit/io/IInputByteStream.h (ReadAll, CheckedReadAll,
    ReadToEnd), io/IOutputByteStream.h (WriteAll, CheckedWriteAll), io/BufferedPipe.cpp and
    io/PipeReader.cpp, over any underlying stream or pipe.

    Bytes are numbers; sizes do not wrap; loops have a bound [F] and a [Hang] result. *)
From Verif Require Import Base.

Definition byte := nat.

(** What Read gives: some bytes, PipeClosedException, or another exception. *)
Inductive ans := Got (bs : list byte) | Closed | Failed.

(** An underlying stream or pipe: its state, Read into a buffer of n bytes, Write (how many bytes were
    accepted, None: it throws), and what a check of the cancellation token gives. *)
Record Stream := mkStr {
  st : Type;
  rd : st -> nat -> st * ans;
  wt : st -> list byte -> st * option nat;
  tok : st -> bool
}.

Inductive res (A : Type) := Ok (a : A) | ThrClosed | ThrCancelled | ThrOther | Hang.
Arguments Ok {A}. Arguments ThrClosed {A}. Arguments ThrCancelled {A}. Arguments ThrOther {A}. Arguments Hang {A}.

(** * IInputByteStream.h *)
(** IInputByteStream.h:27-39 ReadAll; [got] is what is in the buffer so far, [last] is [readed]. *)
Fixpoint read_all (F : nat) (D : Stream) (p : st D) (n : nat) (got : list byte) (last : option nat) : st D * res (list byte) :=
  match F with
  | O => (p, Hang)
  | S f =>
      if tok D p && (length got <? n) && (match last with Some 0 => false | _ => true end)
      then match rd D p (n - length got) with
           | (p', Got bs) => read_all f D p' n (got ++ bs) (Some (length bs))
           | (p', Closed) => (p', ThrClosed)
           | (p', Failed) => (p', ThrOther)
           end
      else (p, Ok got)
  end.
(** IInputByteStream.h:42-48 CheckedReadAll *)
Definition checked_read_all (F : nat) (D : Stream) (p : st D) (n : nat) : st D * res (list byte) :=
  match read_all F D p n [] None with
  | (p', Ok got) => if negb (tok D p') then (p', ThrCancelled) else if length got =? n then (p', Ok got) else (p', ThrOther)
  | r => r
  end.
(** IInputByteStream.h:59-73 the loop of ReadToEnd; [size] is buffer.size(), [acc] the first [offset] bytes. *)
Fixpoint rte_loop (F : nat) (D : Stream) (p : st D) (size : nat) (acc : list byte) : st D * res (list byte) :=
  match F with
  | O => (p, Hang)
  | S f =>
      if tok D p then
        match read_all (S size) D p (size - length acc) [] None with
        | (p', Ok got) =>
            if length got =? size - length acc then rte_loop f D p' (size * 2) (acc ++ got)
            else if tok D p' then (p', Ok (acc ++ got)) else (p', ThrCancelled)
        | (p', r) => (p', r)
        end
      else (p, ThrCancelled)
  end.
(** IInputByteStream.h:51-76 ReadToEnd *)
Definition read_to_end (F : nat) (D : Stream) (p : st D) (initial : nat) : st D * res (list byte) :=
  if initial =? 0 then (p, ThrOther) else rte_loop F D p initial [].

(** * IOutputByteStream.h *)
(** IOutputByteStream.h:28-39 WriteAll *)
Fixpoint write_all (F : nat) (D : Stream) (p : st D) (d : list byte) (total : nat) (last : option nat) : st D * res nat :=
  match F with
  | O => (p, Hang)
  | S f =>
      if tok D p && (total <? length d) && (match last with Some 0 => false | _ => true end)
      then match wt D p (skipn total d) with
           | (p', Some k) => write_all f D p' d (total + k) (Some k)
           | (p', None) => (p', ThrOther)
           end
      else (p, Ok total)
  end.
(** IOutputByteStream.h:42-48 CheckedWriteAll *)
Definition checked_write_all (F : nat) (D : Stream) (p : st D) (d : list byte) : st D * res nat :=
  match write_all F D p d 0 None with
  | (p', Ok w) => if negb (tok D p') then (p', ThrCancelled) else if w =? length d then (p', Ok w) else (p', ThrOther)
  | r => r
  end.

(** * BufferedPipe; the state is _buffer from _bufferOffset to _bufferSize, and the pipe under it. *)
(** BufferedPipe.cpp:18-35; [cap] is the size of _buffer *)
Definition bp_read (cap : nat) (D : Stream) (s : list byte * st D) (n : nat) : (list byte * st D) * ans :=
  let '(buf, p) := s in
  match buf with
  | [] =>
      match rd D p cap with
      | (p', Got []) => (([], p'), Got [])
      | (p', Got bs) => let size := Nat.min (length bs) n in ((skipn size bs, p'), Got (firstn size bs))
      | (p', a) => (([], p'), a)
      end
  | _ => let size := Nat.min (length buf) n in ((skipn size buf, p), Got (firstn size buf))
  end.
(** BufferedPipe.cpp:38-39 *)
Definition buffered_pipe (cap : nat) (D : Stream) : Stream :=
  mkStr (list byte * st D) (bp_read cap D)
        (fun s d => let '(p', r) := wt D (snd s) d in ((fst s, p'), r))
        (fun s => tok D (snd s)).
(** BufferedPipe.cpp:42-43; [pk] is the Peek of the pipe under it *)
Definition bp_peek (D : Stream) (pk : st D -> bool) (s : list byte * st D) : bool :=
  negb (length (fst s) =? 0) || pk (snd s).

(** * PipeReader *)
(** PipeReader.cpp:18-24; a short read throws (ASSUME_CANCELLATION, ICancellationToken.h:57-61) *)
Definition read_byte (D : Stream) (p : st D) : st D * res byte :=
  match rd D p 1 with
  | (p', Got [b]) => (p', Ok b)
  | (p', Got _) => (p', if tok D p' then ThrOther else ThrCancelled)
  | (p', Closed) => (p', ThrClosed)
  | (p', Failed) => (p', ThrOther)
  end.
Definition LF : byte := 10.
Definition CR : byte := 13.
(** PipeReader.cpp:33-55 *)
Fixpoint read_line (F : nat) (D : Stream) (p : st D) (result : list byte) : st D * res (list byte) :=
  (* the catch of lines 49-53 *)
  let closed (p : st D) : st D * res (list byte) := match result with [] => (p, ThrClosed) | _ => (p, Ok result) end in
  match F with
  | O => (p, Hang)
  | S f =>
      match read_byte D p with
      | (p1, Ok b) =>
          if b =? LF then (p1, Ok result)
          else if b =? CR then
            match read_byte D p1 with
            | (p2, Ok c) => if c =? LF then (p2, Ok result) else (p2, ThrOther)
            | (p2, ThrClosed) => closed p2
            | (p2, ThrCancelled) => (p2, ThrCancelled)
            | (p2, _) => (p2, ThrOther)
            end
          else read_line f D p1 (result ++ [b])
      | (p1, ThrClosed) => closed p1
      | (p1, ThrCancelled) => (p1, ThrCancelled)
      | (p1, _) => (p1, ThrOther)
      end
  end.
