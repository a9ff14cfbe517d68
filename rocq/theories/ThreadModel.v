(* Model of thread/posix/PosixThreadEngine.cpp: the life of a PosixThread and of its kernel thread, the registry of threads, requests
   for backtraces, and the processor times handed to the parent. *)
From Coq Require Import List Bool Arith.
From Verif Require Import Conc.
Import ListNotations.

(** * Life *)
Inductive phase :=          (* where the new thread is in ThreadFunc (551-620) *)
| Absent | Starting         (* 553-567 *)
| Registered                (* after 573-575 *)
| Started                   (* after 576 *)
| InFunc                    (* 586 *)
| Ended                     (* after 584's ThreadFuncExited *)
| Gone.                     (* the kernel thread and its thread-local data are no more *)
Inductive object := NoObject | Constructing | Alive | Cancelled | Released | Destroyed.

Inductive event :=
| CtorReturned (t : nat) | FuncBegan (t : nat) | FuncEnded (t : nat) | DtorBegan (t : nat) (by_ : option nat) | DtorReturned (t : nat)
| Touched (t : nat)         (* thread t used its PosixThread object *)
| Signalled (t : nat)       (* pthread_kill with the handle of t *)
| Escaped (t : nat)         (* something that is not a std::exception left the function *)
| JoinedSelf (t : nat).     (* pthread_join by the thread itself *)

Record thr := mk_thr {
  ph : phase;
  ob : object;
  tid : nat;                (* the kernel's id *)
  par : option nat;         (* the thread whose data is _parent (403, 175) *)
  joiner : option nat;      (* who runs the destructor; None: a thread that is not a PosixThread *)
  guards : nat              (* LocalExecutionGuards of its life token that are held (128) *)
}.
Definition no_thr : thr := mk_thr Absent NoObject 0 None None 0.
Record st := mk_st {
  count : nat;              (* threads made so far: they are 0, ..., count - 1 *)
  th : nat -> thr;
  reg : list (nat * nat);   (* ThreadsRegistry (143-155): a multimap from kernel ids; equal keys in the order of insertion *)
  aborted : bool;           (* std::terminate or STINGRAYKIT_FATAL *)
  hist : list event
}.
Definition init : st := mk_st 0 (fun _ => no_thr) [] false [].

Inductive how := Returned | StdException | OtherException.
Inductive label :=
| New (p : option nat) (id : nat)     (* 417-421 by thread p's function; the kernel gives the id *)
| Register (t : nat) | Notify (t : nat) | Enter (t : nat) | Exit (t : nat) (w : how) | Leave (t : nat)
| CtorReturn (t : nat)                (* 450-460 *)
| Destroy (t : nat) (by_ : option nat) | Release (t : nat) | Join (t : nat)      (* 465, 466, 471-476 *)
| Guard (t : nat) | Signal (t : nat) | Unguard (t : nat)                         (* 126-131 *)
| Adopt (id : nat)                    (* 233-241: a thread that is not a PosixThread sets its name *)
| SignalAdopted (t : nat)             (* RequestBacktrace 126-131 with the null tester of 240, TaskLifeToken.cpp 60-64 *)
| DropData (t : nat).                 (* 200-207 *)

Definition set_ph (x : thr) (p : phase) := mk_thr p (ob x) (tid x) (par x) (joiner x) (guards x).
Definition set_ob (x : thr) (o : object) := mk_thr (ph x) o (tid x) (par x) (joiner x) (guards x).
Definition set_guards (x : thr) (g : nat) := mk_thr (ph x) (ob x) (tid x) (par x) (joiner x) g.

Definition running_phase (p : phase) : bool := match p with Absent | Gone => false | _ => true end.
Definition past_start (p : phase) : bool := match p with Started | InFunc | Ended | Gone => true | _ => false end.
Definition registered (s : st) (t : nat) : bool := existsb (fun e => Nat.eqb (snd e) t) (reg s).
Definition id_free (s : st) (id : nat) : bool :=
  forallb (fun t => negb (running_phase (ph (th s t)) && Nat.eqb (tid (th s t)) id)) (seq 0 (count s)).
(* who holds the data of t: its thread's thread-local ThreadDataHolder, its PosixThread, the data and the PosixThreads of threads
   that t made *)
Definition held (s : st) (t : nat) : bool :=
  running_phase (ph (th s t)) || (match ob (th s t) with NoObject | Destroyed => false | _ => true end) ||
  existsb (fun c => match par (th s c) with Some p => Nat.eqb p t | None => false end &&
                    (registered s c || running_phase (ph (th s c)) || (match ob (th s c) with NoObject | Destroyed => false | _ => true end)))
          (seq 0 (count s)).

Definition upd (s : st) (t : nat) (x : thr) (ev : list event) : st :=
  mk_st (count s) (fupd (th s) t x) (reg s) (aborted s) (hist s ++ ev).

Definition step (s : st) (l : label) : option st :=
  if aborted s then None else
  match l with
  | New p id =>
      if id_free s id && (match p with Some q => match ph (th s q) with InFunc => true | _ => false end | None => true end) then
        Some (mk_st (S (count s)) (fupd (th s) (count s) (mk_thr Starting Constructing id p None 0)) (reg s) false (hist s))
      else None
  | Register t => match ph (th s t) with
      | Starting => Some (mk_st (count s) (fupd (th s) t (set_ph (th s t) Registered)) (reg s ++ [(tid (th s t), t)]) false (hist s ++ [Touched t]))
      | _ => None end
  | Notify t => match ph (th s t) with Registered => Some (upd s t (set_ph (th s t) Started) [Touched t]) | _ => None end
  | Enter t => match ph (th s t) with Started => Some (upd s t (set_ph (th s t) InFunc) [Touched t; FuncBegan t]) | _ => None end
  | Exit t w => match ph (th s t), ob (th s t) with
      | InFunc, NoObject => None
      | InFunc, _ =>
          let s' := upd s t (set_ph (th s t) Ended) [FuncEnded t; Touched t] in
          match w with
          | OtherException => Some (mk_st (count s') (th s') (reg s') true (hist s' ++ [Escaped t]))        (* 598-614 *)
          | _ => Some s' end
      | _, _ => None end
  | Leave t => match ph (th s t), ob (th s t) with
      | Ended, _ => Some (upd s t (set_ph (th s t) Gone) [Touched t])          (* 553: ThreadFuncStarted runs again *)
      | InFunc, NoObject => Some (upd s t (set_ph (th s t) Gone) [])           (* an adopted thread ends *)
      | _, _ => None end
  | CtorReturn t => match ob (th s t) with
      | Constructing => if past_start (ph (th s t)) then Some (upd s t (set_ob (th s t) Alive) [CtorReturned t]) else None
      | _ => None end
  | Destroy t b => match ob (th s t) with
      | Alive => if match b with Some u => match ph (th s u) with InFunc => true | _ => false end | None => true end then
                   Some (upd s t (mk_thr (ph (th s t)) Cancelled (tid (th s t)) (par (th s t)) b (guards (th s t))) [DtorBegan t b])
                 else None
      | _ => None end
  | Release t => match ob (th s t), guards (th s t) with
      | Cancelled, 0 => Some (upd s t (set_ob (th s t) Released) [])
      | _, _ => None end
  | Join t => match ob (th s t) with
      | Released =>
          if match joiner (th s t) with Some u => Nat.eqb u t | None => false end
          then Some (mk_st (count s) (th s) (reg s) true (hist s ++ [JoinedSelf t]))             (* EDEADLK, 473 *)
          else match ph (th s t) with Gone => Some (upd s t (set_ob (th s t) Destroyed) [DtorReturned t]) | _ => None end
      | _ => None end
  | Guard t => match ob (th s t) with
      | Constructing | Alive | Cancelled => if registered s t then Some (upd s t (set_guards (th s t) (S (guards (th s t)))) []) else None
      | _ => None end
  | Signal t => match guards (th s t) with 0 => None | _ => Some (upd s t (th s t) [Signalled t]) end
  | Unguard t => match guards (th s t) with 0 => None | S g => Some (upd s t (set_guards (th s t) g) []) end
  | Adopt id =>
      if id_free s id then
        Some (mk_st (S (count s)) (fupd (th s) (count s) (mk_thr InFunc NoObject id None None 0)) (reg s ++ [(id, count s)]) false (hist s))
      else None
  | SignalAdopted t => match ph (th s t), ob (th s t) with
      | Absent, _ => None
      | _, NoObject => Some (upd s t (th s t) [Signalled t])
      | _, _ => None end
  | DropData t => if registered s t && negb (held s t) then
        Some (mk_st (count s) (th s) (filter (fun e => negb (Nat.eqb (snd e) t)) (reg s)) false (hist s))
      else None
  end.

(* GetPthreadIdFromThreadId (685-693): multimap::find is the first of the entries with that key; None: KeyNotFoundException *)
Definition lookup (s : st) (id : nat) : option nat := option_map snd (find (fun e => Nat.eqb (fst e) id) (reg s)).

(** * Processor times *)
Section Stats.
Record sst := mk_sst {
  made : nat;                       (* threads made *)
  parent : nat -> option nat;
  over : nat -> option nat;         (* the processor time of a thread that has exited *)
  kids : nat -> nat                 (* _childrenStats *)
}.
Definition sinit : sst := mk_sst 0 (fun _ => None) (fun _ => None) (fun _ => 0).
Inductive slabel := SNew (p : option nat) | SExit (t : nat) (cpu : nat).
Definition sstep (s : sst) (l : slabel) : option sst :=
  match l with
  | SNew p =>                       (* 625-629: made by the function of thread p *)
      if match p with Some q => (q <? made s) && (match over s q with None => true | Some _ => false end) | None => true end
      then Some (mk_sst (S (made s)) (fupd (parent s) (made s) p) (over s) (kids s)) else None
  | SExit t cpu =>                  (* 511-528 *)
      if (t <? made s) && (match over s t with None => true | Some _ => false end) then
        Some (mk_sst (made s) (parent s) (fupd (over s) t (Some cpu))
                     (match parent s t with Some p => fupd (kids s) p (kids s p + (cpu + kids s t)) | None => kids s end))
      else None
  end.
End Stats.
