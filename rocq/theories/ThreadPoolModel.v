(** thread/ThreadPool.cpp: a pool of at most maxThreads threads: the main thread ThreadPool::_worker and the WorkerWrapper slots.

    Steps are the regions between two releases of a mutex.  The pool mutex is held by one caller through a whole
    TryQueue scan ([scan]) and by the main thread through a whole reaping scan ([MReap], [MJoin]); during those, the
    worker threads go on under their own mutexes.  The mutexes are recursive (thread/posix/PosixThreadEngine.cpp:259), so
    WaitQueue calling TryQueue is one region.  A submission (one call of TryQueue or WaitQueue) is numbered when it starts.
    Waits on condition variables may end at any time (spurious wake-up, timeout); the flag in [MSleep]/[WSleep] and the
    flag of a waiter say that it has been broadcast, i.e. that it surely will end.
    Simplified: a task whose exception is not a std::exception (it would end the thread) and failure to create a
    thread are not modelled; a task counts as finished when its thread has the mutex back (lines 107-111, 263-267). *)
From Coq Require Import List Arith Bool.
From Verif Require Import Conc.
Import ListNotations.
Set Implicit Arguments.

Inductive ev :=
| ETry (id : nat) (full : bool)     (* an attempt to queue starts; [full]: see [full] below, recorded for the specification *)
| EAccept (id : nat) | EReject (id : nat) | EBlock (id : nat)   (* TryQueue true / false (Queue: exception) / WaitQueue goes to sleep *)
| ECancelled (id : nat)             (* WaitQueue ends with an exception *)
| EStart (id : nat) | EFinish (id : nat).

(** WorkerWrapper, lines 17-130; [wpc]: where its thread is.  WStart: not yet at line 81; WH1: before the pool mutex at line 231;
    WH2: after line 232, before the worker's mutex is taken again at line 90 *)
Inductive wpc_t := WStart | WRun (id : nat) | WH1 | WH2 | WSleep (timed sig : bool) | WGone.
Record worker := { wt : option nat; comp : bool; idle : bool; wcan : bool; wpc : wpc_t }.
(** the main thread, lines 236-269 *)
Inductive mpc_t := MNone | MStart | MRun (id : nat) | MSleep (timed sig : bool) | MReap (j : nat) | MJoin (j : nat) | MGone.
Record st := {
  mt : option nat;                         (* _task *)
  mpc : mpc_t;                             (* _worker *)
  ws : list (option worker);               (* _workers *)
  scan : option (nat * bool * nat);        (* a TryQueue at line 181: its id, whether called by WaitQueue, the index *)
  waiters : list (nat * bool);             (* WaitQueue calls asleep at line 209; broadcast? *)
  can : bool;                              (* the destructor has started *)
  nid : nat; lg : list ev }.
Definition init : st := {| mt := None; mpc := MNone; ws := []; scan := None; waiters := []; can := false; nid := 0; lg := [] |}.

Definition w_wt (s : st) (x : list (option worker)) := {| mt := mt s; mpc := mpc s; ws := x; scan := scan s; waiters := waiters s; can := can s; nid := nid s; lg := lg s |}.
Definition w_mt (s : st) (x : option nat) := {| mt := x; mpc := mpc s; ws := ws s; scan := scan s; waiters := waiters s; can := can s; nid := nid s; lg := lg s |}.
Definition w_mpc (s : st) (x : mpc_t) := {| mt := mt s; mpc := x; ws := ws s; scan := scan s; waiters := waiters s; can := can s; nid := nid s; lg := lg s |}.
Definition w_scan (s : st) (x : option (nat * bool * nat)) := {| mt := mt s; mpc := mpc s; ws := ws s; scan := x; waiters := waiters s; can := can s; nid := nid s; lg := lg s |}.
Definition w_waiters (s : st) (x : list (nat * bool)) := {| mt := mt s; mpc := mpc s; ws := ws s; scan := scan s; waiters := x; can := can s; nid := nid s; lg := lg s |}.
Definition w_can (s : st) := {| mt := mt s; mpc := mpc s; ws := ws s; scan := scan s; waiters := waiters s; can := true; nid := nid s; lg := lg s |}.
Definition w_nid (s : st) := {| mt := mt s; mpc := mpc s; ws := ws s; scan := scan s; waiters := waiters s; can := can s; nid := S (nid s); lg := lg s |}.
Definition emit (s : st) (e : ev) := {| mt := mt s; mpc := mpc s; ws := ws s; scan := scan s; waiters := waiters s; can := can s; nid := nid s; lg := lg s ++ [e] |}.
Definition emits (s : st) (l : list ev) := fold_left emit l s.
Definition v_pc (w : worker) (p : wpc_t) := {| wt := wt w; comp := comp w; idle := idle w; wcan := wcan w; wpc := p |}.

Fixpoint upd {A} (l : list A) (i : nat) (x : A) : list A :=
  match l, i with [], _ => [] | _ :: r, 0 => x :: r | y :: r, S i => y :: upd r i x end.
Definition is_nil {A} (l : list A) : bool := match l with [] => true | _ => false end.
Definition is_none {A} (o : option A) : bool := match o with None => true | _ => false end.
Definition drop_nth {A} (l : list A) (k : nat) : list A := firstn k l ++ skipn (S k) l.

Section Pool.
  Variable maxT : nat.          (* _maxThreads; the constructor checks it is not 0 (line 143) *)
  Variable itmo : bool.         (* whether _idleTimeout is set *)

  (** ** the worker threads *)
  (** IsIdle, lines 50-54 *)
  Definition is_idle (w : worker) : bool := is_none (wt w) && comp w && idle w.
  (** the constructor, lines 38-48 *)
  Definition new_worker (t : nat) : worker := {| wt := Some t; comp := false; idle := false; wcan := false; wpc := WStart |}.
  (** TryAddTask with no task there, lines 68-71 *)
  Definition add_task (w : worker) (t : nat) : worker :=
    {| wt := Some t; comp := false; idle := false; wcan := wcan w; wpc := match wpc w with WSleep b _ => WSleep b true | p => p end |}.
  (** line 95-101: go to sleep *)
  Definition go_sleep (w : worker) : worker := {| wt := wt w; comp := true; idle := idle w; wcan := wcan w; wpc := WSleep (negb (idle w) && itmo) false |}.
  (** the loop from its head (line 82) to the next point where a mutex is released *)
  Definition wloop (w : worker) : worker * list ev :=
    if wcan w then (v_pc w WGone, [])
    else match wt w with
         | Some t => (v_pc w (WRun t), [EStart t])                 (* lines 104-108 *)
         | None => if negb (comp w) then (v_pc w WH1, [])           (* lines 86-89 *)
                   else (go_sleep w, [])
         end.

  (** _completedCond.Broadcast(), lines 232, 243 *)
  Definition sigall (s : st) : st := w_waiters s (map (fun p => (fst p, true)) (waiters s)).
  (** ** the main thread: from line 239 to the next release of the pool mutex *)
  Definition mloop (s : st) : st :=
    if can s then w_mpc s MGone
    else match mt s with
         | Some t => emit (w_mpc s (MRun t)) (EStart t)                          (* lines 260-264 *)
         | None => w_mpc (sigall s) (MSleep (negb (is_nil (ws s)) && itmo) false) (* lines 241-256 *)
         end.
  (** lines 252-253 *)
  Fixpoint strip (l : list (option worker)) : list (option worker) :=
    match l with
    | [] => []
    | o :: r => match strip r, o with [], None => [] | r', o => o :: r' end
    end.

  (** the pool mutex is free *)
  Definition free (s : st) : bool := is_none (scan s) && match mpc s with MReap _ => false | MJoin _ => false | _ => true end.
  (** CanQueue, lines 150-161, when no other thread moves *)
  Definition can_add (o : option worker) : bool := match o with None => true | Some w => is_none (wt w) end.
  Definition can_queue (s : st) : bool := is_none (mt s) || (length (ws s) + 1 <? maxT) || existsb can_add (ws s).
  (** For the specification: maxThreads threads exist and every one of them has a task. *)
  Definition full (s : st) : bool :=
    (maxT <=? length (ws s) + 1) && negb (is_none (mt s)) && forallb (fun o => match o with Some w => negb (is_none (wt w)) | None => false end) (ws s).

  (** TryQueue up to line 181 *)
  Definition begin_try (s : st) (t : nat) (wait : bool) : st :=
    let s := emit s (ETry t (full s)) in
    match mt s with
    | None => emit (w_mpc (w_mt s (Some t)) (match mpc s with MNone => MStart | MSleep b _ => MSleep b true | p => p end)) (EAccept t)
    | Some _ => w_scan s (Some (t, wait, 0))
    end.

  Inductive act :=
  | QBegin (wait : bool)           (* TryQueue(task) / WaitQueue(task, token) is called *)
  | QStep                          (* one iteration of lines 181-190, or lines 192-196 *)
  | QRetry (k : nat)               (* the k-th sleeping WaitQueue wakes and tries again, lines 209-206 *)
  | QCancel (k : nat)              (* its token is cancelled or times out: exception *)
  | MStep (timedout : bool)        (* the main thread gets the pool mutex *)
  | MReapS                         (* one iteration of lines 248-250 *)
  | WStep (j : nat) (timedout : bool)   (* worker thread j gets the mutex it waits for *)
  | PCancel                        (* ~ThreadPool starts: no call of TryQueue or WaitQueue is going on and none follows *)
  | PCancelW (j : nat).            (* ... and, the main thread joined, destroys the workers *)

  Definition step (s : st) (a : act) : option st :=
    match a with
    | QBegin wait => if free s && negb (can s) then Some (begin_try (w_nid s) (nid s) wait) else None
    | QStep =>
        match scan s with
        | None => None
        | Some (t, wait, j) =>
            match nth_error (ws s) j with
            | Some None => Some (emit (w_scan (w_wt s (upd (ws s) j (Some (new_worker t)))) None) (EAccept t))      (* lines 183-187 *)
            | Some (Some w) =>
                match wt w with
                | None => Some (emit (w_scan (w_wt s (upd (ws s) j (Some (add_task w t)))) None) (EAccept t))        (* lines 188-189 *)
                | Some _ => Some (w_scan s (Some (t, wait, S j)))
                end
            | None =>
                if maxT <=? length (ws s) + 1
                then if wait then Some (emit (w_waiters (w_scan s None) (waiters s ++ [(t, false)])) (EBlock t))       (* line 209 *)
                     else Some (emit (w_scan s None) (EReject t))                                                     (* line 193 *)
                else Some (emit (w_scan (w_wt s (ws s ++ [Some (new_worker t)])) None) (EAccept t))                   (* line 195 *)
            end
        end
    | QRetry k =>
        if free s then match nth_error (waiters s) k with
                       | Some (t, _) => Some (begin_try (w_waiters s (drop_nth (waiters s) k)) t true)
                       | None => None
                       end
        else None
    | QCancel k =>
        if free s then match nth_error (waiters s) k with
                       | Some (t, _) => Some (emit (w_waiters s (drop_nth (waiters s) k)) (ECancelled t))
                       | None => None
                       end
        else None
    | MStep timedout =>
        if free s then
          match mpc s with
          | MStart => Some (mloop s)
          | MRun t => Some (mloop (emit (w_mt s None) (EFinish t)))      (* line 267 *)
          | MSleep timed _ =>
              if timed then if timedout then Some (w_mpc s (MReap 0)) else Some (mloop (w_wt s (strip (ws s))))
              else Some (mloop s)
          | _ => None
          end
        else None
    | MReapS =>
        match mpc s with
        | MReap j =>
            match nth_error (ws s) j with
            | None => Some (mloop (w_wt s (strip (ws s))))
            | Some None => Some (w_mpc s (MReap (S j)))
            | Some (Some w) =>
                if is_idle w then Some (w_mpc (w_wt s (upd (ws s) j (Some {| wt := wt w; comp := comp w; idle := idle w; wcan := true; wpc := wpc w |}))) (MJoin j))
                else Some (w_mpc s (MReap (S j)))
            end
        | MJoin j =>                                             (* ~Thread joins *)
            match nth_error (ws s) j with
            | Some (Some w) => match wpc w with WGone => Some (w_mpc (w_wt s (upd (ws s) j None)) (MReap (S j))) | _ => None end
            | _ => None
            end
        | _ => None
        end
    | WStep j timedout =>
        match nth_error (ws s) j with
        | Some (Some w) =>
            let go w' := Some (emits (w_wt s (upd (ws s) j (Some (fst (wloop w'))))) (snd (wloop w'))) in
            match wpc w with
            | WStart => go w
            | WRun t =>                                          (* line 111 *)
                let w' := {| wt := None; comp := comp w; idle := idle w; wcan := wcan w; wpc := wpc w |} in
                Some (emits (emit (w_wt s (upd (ws s) j (Some (fst (wloop w'))))) (EFinish t)) (snd (wloop w')))
            | WH1 => if free s then Some (sigall (w_wt s (upd (ws s) j (Some (v_pc w WH2))))) else None
            | WH2 => match wt w with                              (* lines 92-101 *)
                     | Some _ => go w
                     | None => Some (w_wt s (upd (ws s) j (Some (go_sleep w))))
                     end
            | WSleep timed _ => go {| wt := wt w; comp := comp w; idle := if timed then timedout else idle w; wcan := wcan w; wpc := wpc w |}
            | WGone => None
            end
        | _ => None
        end
    | PCancel => if is_none (scan s) && is_nil (waiters s) then Some (w_can s) else None
    | PCancelW j =>
        if can s && match mpc s with MNone | MGone => true | _ => false end then
          match nth_error (ws s) j with
          | Some (Some w) => Some (w_wt s (upd (ws s) j (Some {| wt := wt w; comp := comp w; idle := idle w; wcan := true; wpc := wpc w |})))
          | _ => None
          end
        else None
    end.
End Pool.
