(** Model of stingraykit/io/BithreadPipe.h and io/SynchronizedPipe.h as interleavings of any number of
    threads.  The mutex is held except inside the waits (and, in SynchronizedPipe, while the inner pipe
    is written), so a step is what a thread does between two such points.

    Simplifications: bytes are numbers; sizes do not wrap; a cancelled and a timed-out wait are one
    outcome (both throw); a wait may end spuriously. *)
From Verif Require Import Base Conc.

Definition byte := nat.

(** * BithreadPipe *)
Inductive bpc :=
| BIdle
| RWait (n : nat)            (* BithreadPipe.h:36, in _full.Wait, buffer of n bytes *)
| RWoken (n : nat)           (* the same, notified or spuriously woken *)
| WWait (d : list byte)      (* BithreadPipe.h:63, in _empty.Wait *)
| WWoken (d : list byte).
Inductive bev :=
| EvRead (t n : nat) (bs : list byte)    (* Read into n bytes returned, having copied bs *)
| EvReadThrow (t : nat)
| EvWritten (t : nat) (d : list byte)    (* Write(d) returned d.size() *)
| EvWriteThrow (t : nat) (d : list byte).
Record bst := mkB { b_data : option (list byte); b_pc : nat -> bpc; b_log : list bev }.
Definition b_init : bst := mkB None (fun _ => BIdle) [].

(** _full.Broadcast(), _empty.Broadcast() *)
Definition wake_full (pc : nat -> bpc) : nat -> bpc := fun t => match pc t with RWait n => RWoken n | x => x end.
Definition wake_empty (pc : nat -> bpc) : nat -> bpc := fun t => match pc t with WWait d => WWoken d | x => x end.

(** BithreadPipe.h:35-50: the test of the loop, then the wait or the rest of Read *)
Definition b_read (s : bst) (t n : nat) : bst :=
  match b_data s with
  | None => mkB None (fupd (b_pc s) t (RWait n)) (b_log s)
  | Some d =>
      let size := Nat.min n (length d) in
      let data' := if size =? length d then None else Some (skipn size d) in
      let pc' := match data' with None => wake_empty (b_pc s) | Some _ => b_pc s end in
      mkB data' (fupd pc' t BIdle) (b_log s ++ [EvRead t n (firstn size d)])
  end.
(** BithreadPipe.h:62-72 *)
Definition b_write_loop (s : bst) (t : nat) (d : list byte) : bst :=
  match b_data s with
  | Some _ => mkB (b_data s) (fupd (b_pc s) t (WWait d)) (b_log s)
  | None => mkB None (fupd (b_pc s) t BIdle) (b_log s ++ [EvWritten t d])
  end.

Inductive blab :=
| LRead (t n : nat) | LWrite (t : nat) (d : list byte)
| LResume (t : nat)     (* a woken thread gets the mutex back, the wait returns Broadcasted *)
| LSpurious (t : nat)
| LThrow (t : nat).     (* the wait returns Cancelled or TimedOut *)

Definition b_step (s : bst) (l : blab) : option bst :=
  match l with
  | LRead t n => match b_pc s t with BIdle => Some (b_read s t n) | _ => None end
  | LWrite t d =>
      match b_pc s t with
      (* BithreadPipe.h:57-58 *)
      | BIdle => Some (b_write_loop (mkB (Some d) (wake_full (b_pc s)) (b_log s)) t d)
      | _ => None
      end
  | LResume t => match b_pc s t with
                 | RWoken n => Some (b_read s t n)
                 | WWoken d => Some (b_write_loop s t d)
                 | _ => None
                 end
  | LSpurious t => match b_pc s t with
                   | RWait n => Some (mkB (b_data s) (fupd (b_pc s) t (RWoken n)) (b_log s))
                   | WWait d => Some (mkB (b_data s) (fupd (b_pc s) t (WWoken d)) (b_log s))
                   | _ => None
                   end
  | LThrow t => match b_pc s t with
                | RWait _ | RWoken _ => Some (mkB (b_data s) (fupd (b_pc s) t BIdle) (b_log s ++ [EvReadThrow t]))
                (* BithreadPipe.h:60,66: the scope guard empties _data *)
                | WWait d | WWoken d => Some (mkB None (fupd (b_pc s) t BIdle) (b_log s ++ [EvWriteThrow t d]))
                | BIdle => None
                end
  end.

(** * SynchronizedPipe *)
Inductive spc :=
| SIdle
| SWait (d : list byte)               (* SynchronizedPipe.h:36, in _cv.Wait *)
| SWoken (d : list byte)
| SWriting (d : list byte) (k : nat) (last : option nat).
  (* SynchronizedPipe.h:50, in CheckedWriteAll (IOutputByteStream.h:28-39), k bytes accepted, the mutex released *)
Inductive sev := SvWritten (t : nat) (d : list byte) | SvThrow (t : nat) (d : list byte).
Record sst := mkSy {
  sy_free : bool;              (* _pipe is not null *)
  sy_pc : nat -> spc;
  sy_log : list sev;           (* how the calls ended, in order *)
  sy_out : list byte           (* what the inner pipe has accepted *)
}.
Definition sy_init : sst := mkSy true (fun _ => SIdle) [] [].
Definition wake_cv (pc : nat -> spc) : nat -> spc := fun t => match pc t with SWait d => SWoken d | x => x end.

(** SynchronizedPipe.h:35-44,49 *)
Definition sy_enter (s : sst) (t : nat) (d : list byte) : sst :=
  if sy_free s then mkSy false (fupd (sy_pc s) t (SWriting d 0 None)) (sy_log s) (sy_out s)
  else mkSy false (fupd (sy_pc s) t (SWait d)) (sy_log s) (sy_out s).
(** SynchronizedPipe.h:46-49 backwards: the mutex is taken again, the pipe swapped back, _cv broadcast *)
Definition sy_leave (s : sst) (t : nat) (e : sev) : sst :=
  mkSy true (fupd (wake_cv (sy_pc s)) t SIdle) (sy_log s ++ [e]) (sy_out s).

Inductive slab :=
| YWrite (t : nat) (d : list byte)
| YResume (t : nat) | YSpurious (t : nat) | YThrow (t : nat)
| YInner (t n : nat)       (* the inner Write returned n *)
| YInnerThrow (t n : nat)  (* the inner Write threw, having passed on n bytes *)
| YDone (t : nat) (cancelled : bool). (* WriteAll and the checks of CheckedWriteAll *)

Definition s_step (s : sst) (l : slab) : option sst :=
  match l with
  | YWrite t d => match sy_pc s t with SIdle => Some (sy_enter s t d) | _ => None end
  | YResume t => match sy_pc s t with SWoken d => Some (sy_enter s t d) | _ => None end
  | YSpurious t => match sy_pc s t with
                   | SWait d => Some (mkSy (sy_free s) (fupd (sy_pc s) t (SWoken d)) (sy_log s) (sy_out s))
                   | _ => None
                   end
  | YThrow t => match sy_pc s t with
                | SWait d | SWoken d => Some (mkSy (sy_free s) (fupd (sy_pc s) t SIdle) (sy_log s ++ [SvThrow t d]) (sy_out s))
                | _ => None
                end
  | YInner t n =>
      (* IOutputByteStream.h:32-36 *)
      match sy_pc s t with
      | SWriting d k last =>
          if (k <? length d) && (match last with Some 0 => false | _ => true end) && (n <=? length d - k)
          then Some (mkSy (sy_free s) (fupd (sy_pc s) t (SWriting d (k + n) (Some n))) (sy_log s)
                          (sy_out s ++ firstn n (skipn k d)))
          else None
      | _ => None
      end
  | YInnerThrow t n =>
      match sy_pc s t with
      | SWriting d k last =>
          if (k <? length d) && (match last with Some 0 => false | _ => true end) && (n <=? length d - k)
          then Some (sy_leave (mkSy (sy_free s) (sy_pc s) (sy_log s) (sy_out s ++ firstn n (skipn k d))) t (SvThrow t d))
          else None
      | _ => None
      end
  | YDone t cancelled =>
      (* IOutputByteStream.h:32,45-47 *)
      match sy_pc s t with
      | SWriting d k last =>
          if cancelled then Some (sy_leave s t (SvThrow t d))
          else if (k <? length d) && (match last with Some 0 => false | _ => true end) then None
          else if k =? length d then Some (sy_leave s t (SvWritten t d))
          else Some (sy_leave s t (SvThrow t d))
      | _ => None
      end
  end.
