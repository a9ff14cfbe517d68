(** * Model of the singletons of stingraykit and of the atomic store they use
    stingraykit/SafeSingleton.h:20-115, stingraykit/PhoenixSingleton.h:27-65, stingraykit/Singleton.h:28-92,
    stingraykit/thread/posix/PosixCallOnce.cpp:16-22, stingraykit/thread/atomic/Spinlock.h:17-28,
    stingraykit/thread/atomic/AtomicFlag.h:17-42, stingraykit/thread/atomic/AtomicInt.h:58-77.

    Threads are numbered; a step is one access to a shared atomic, one constructor or destructor call of the
    user's class (its body is opaque: it does not call the same singleton), or one passage of pthread_once.
    Memory is sequentially consistent (all the accesses are __sync built-ins or SeqCst). *)
From Coq Require Import List Arith Bool ZArith Lia.
From Verif Require Import Conc.
Import ListNotations.

(** state of a pthread_once_t: not run, being run by a thread, run.  POSIX: callers wait while it is being run;
    glibc resets it when the function is left by an exception (PosixCallOnce.cpp:19) *)
Inductive once_st := Fresh | Busy (t : nat) | Over.

(** how the constructor of the user's class ends *)
Inductive outcome := Built | StdExc | OtherExc.

(** ** SafeSingleton *)
Section Safe.
Local Open Scope Z_scope.

(** AtomicU32::Type (SafeSingleton.h:27) counts modulo 2^32 *)
Definition u32 (x : Z) : Z := x mod 2 ^ 32.

(** what happens, as the user sees it *)
Inductive ev :=
| Ctor (o : nat)                (* new T() gave object o *)
| Failed                        (* the constructor threw a std::exception, which was logged *)
| Dtor (o : nat)                (* delete of object o *)
| Got (t h o : nat)             (* Instance() of thread t returned a pointer (named h) to o *)
| Null (t : nat)                (* Instance() of thread t returned null *)
| Thrown (t : nat)              (* Instance() of thread t threw *)
| Dropped (h : nat)             (* the last copy of the pointer h began to be destroyed *)
| Exited.                       (* the destructor of the static holder began *)

(** program counters: Instance() (88-102) and RemoveReference() (44-49) *)
Inductive pc :=
| Idle
| AtOnce                        (* SafeSingleton.h:90 *)
| AtNew                         (* :61, inside pthread_once *)
| AtPubInst (o : nat)           (* :62 *)
| AtPubRef                      (* :63 *)
| AtHolderDone                  (* :72 the static is complete: its destructor is registered *)
| AtOnceEnd                     (* return from pthread_once *)
| AtLoad                        (* :33 *)
| AtCas (r : Z)                 (* :36 *)
| AtGet                         (* :94 *)
| AtDec (inst : bool)           (* :46; [inst]: called from line 97 of Instance() *)
| AtDelLoad (inst : bool)       (* :48, :53 *)
| AtDelete (p : option nat) (inst : bool). (* :48 CheckedDelete *)

(** SafeSingleton.h:26-28, the static of :72 (None: not built, Some true: alive, Some false: destroyed), the
    pointers handed out and not destroyed *)
Record safe := Safe { once : once_st; refc : Z; inst : option nat; holder : option bool;
  hands : list (nat * nat); nexth : nat; nexto : nat; pcs : nat -> pc; log : list ev }.

(** SafeSingleton.h:106-115 *)
Definition safe0 : safe := Safe Fresh 0 None None [] 0 0 (fun _ => Idle) [].

Inductive act :=
| Call                          (* the thread calls Instance() *)
| Go (r : outcome)              (* next step of the thread; [r] matters at the constructor only *)
| Drop (h : nat)                (* the thread destroys the last copy of the pointer h *)
| Exit.                         (* the thread runs the static destructors *)

Definition at_pc (s : safe) (t : nat) (p : pc) : safe :=
  Safe (once s) (refc s) (inst s) (holder s) (hands s) (nexth s) (nexto s) (fupd (pcs s) t p) (log s).
Definition say (s : safe) (e : ev) : safe :=
  Safe (once s) (refc s) (inst s) (holder s) (hands s) (nexth s) (nexto s) (pcs s) (log s ++ [e]).
Definition set_once (s : safe) (o : once_st) : safe :=
  Safe o (refc s) (inst s) (holder s) (hands s) (nexth s) (nexto s) (pcs s) (log s).
Definition set_ref (s : safe) (r : Z) : safe :=
  Safe (once s) r (inst s) (holder s) (hands s) (nexth s) (nexto s) (pcs s) (log s).
Definition set_inst (s : safe) (i : option nat) : safe :=
  Safe (once s) (refc s) i (holder s) (hands s) (nexth s) (nexto s) (pcs s) (log s).
Definition set_holder (s : safe) (h : option bool) : safe :=
  Safe (once s) (refc s) (inst s) h (hands s) (nexth s) (nexto s) (pcs s) (log s).
Definition new_obj (s : safe) : safe :=
  Safe (once s) (refc s) (inst s) (holder s) (hands s) (nexth s) (S (nexto s)) (pcs s) (log s).
Definition new_hand (s : safe) (o : nat) : safe :=
  Safe (once s) (refc s) (inst s) (holder s) ((nexth s, o) :: hands s) (S (nexth s)) (nexto s) (pcs s) (log s).
Definition del_hand (s : safe) (h : nat) : safe :=
  Safe (once s) (refc s) (inst s) (holder s) (filter (fun x => negb (Nat.eqb (fst x) h)) (hands s)) (nexth s) (nexto s) (pcs s) (log s).

(** the value the loop of TryAddReference looks at (SafeSingleton.h:33-41): zero leaves it with false, and
    Instance() returns null (:92-93) *)
Definition looked (s : safe) (t : nat) (r : Z) : safe :=
  if r =? 0 then say (at_pc s t Idle) (Null t) else at_pc s t (AtCas r).

(** one step of Instance() (SafeSingleton.h:88-102) or RemoveReference() (44-49) *)
Definition go (s : safe) (t : nat) (r : outcome) : option safe :=
  match pcs s t with
  | Idle => None
  | AtOnce => (* :90 and PosixCallOnce.cpp:19 *)
    match once s with
    | Fresh => Some (at_pc (set_once s (Busy t)) t AtNew)
    | Busy _ => None
    | Over => Some (at_pc s t AtLoad)
    end
  | AtNew =>
    match r with
    | Built => let o := nexto s in Some (say (at_pc (new_obj s) t (AtPubInst o)) (Ctor o))
    | StdExc => Some (say (at_pc s t AtOnceEnd) Failed)                          (* :79-84 *)
    | OtherExc => Some (say (at_pc (set_once s Fresh) t Idle) (Thrown t))
    end
  | AtPubInst o => Some (at_pc (set_inst s (Some o)) t AtPubRef)
  | AtPubRef => Some (at_pc (set_ref s 1) t AtHolderDone)
  | AtHolderDone => Some (at_pc (set_holder s (Some true)) t AtOnceEnd)
  | AtOnceEnd => Some (at_pc (set_once s Over) t AtLoad)
  | AtLoad => Some (looked s t (refc s))
  | AtCas q => (* :36-39 *)
    if refc s =? q then Some (at_pc (set_ref s (u32 (q + 1))) t AtGet) else Some (looked s t (refc s))
  | AtGet => (* :94-101 *)
    match inst s with
    | None => Some (at_pc s t (AtDec true))
    | Some o => Some (say (at_pc (new_hand s o) t Idle) (Got t (nexth s) o))
    end
  | AtDec i => (* :46-47 *)
    let r := u32 (refc s - 1) in
    Some (if r =? 0 then at_pc (set_ref s r) t (AtDelLoad i)
          else if i then say (at_pc (set_ref s r) t Idle) (Null t) else at_pc (set_ref s r) t Idle)
  | AtDelLoad i => Some (at_pc s t (AtDelete (inst s) i))
  | AtDelete p i =>
    let s1 := match p with Some o => say s (Dtor o) | None => s end in
    Some (if i then say (at_pc s1 t Idle) (Null t) else at_pc s1 t Idle)
  end.

(** any thread may call Instance() (88), destroy the last copy of a pointer it got (the deleter bound at :101 runs
    RemoveReference), or run the static destructors (:66-67) once the static is built *)
Definition safe_step (s : safe) (l : nat * act) : option safe :=
  let t := fst l in
  match snd l with
  | Call => match pcs s t with Idle => Some (at_pc s t AtOnce) | _ => None end
  | Go r => go s t r
  | Drop h =>
    match pcs s t with
    | Idle => if existsb (fun x => Nat.eqb (fst x) h) (hands s)
              then Some (say (at_pc (del_hand s h) t (AtDec false)) (Dropped h)) else None
    | _ => None
    end
  | Exit =>
    match pcs s t, holder s with
    | Idle, Some true => Some (say (at_pc (set_holder s (Some false)) t (AtDec false)) Exited)
    | _, _ => None
    end
  end.
End Safe.

(** ** PhoenixSingleton *)
Inductive pev :=
| PCtor (o : nat)               (* new InstanceType() gave o *)
| PDtor (o : nat)               (* delete of o *)
| PRet (t o : nat)              (* Instance() of thread t returned a reference to o *)
| PThrown (t : nat)             (* Instance() of thread t threw *)
| PExit                         (* a registered do_atexit began *)
| PAssert.                      (* the assert of line 58 failed *)

Inductive ppc :=
| PIdle
| PLoad                         (* PhoenixSingleton.h:36 *)
| PSpin                         (* :39, Spinlock.h:24 *)
| PLoad2                        (* :40 *)
| PNew                          (* :43 *)
| PPub (o : nat)                (* :44 *)
| PReg (o : nat)                (* :45 *)
| PUnlock (o : option nat)      (* Spinlock.h:27, then return (Some) or the exception goes on (None) *)
| PHave (o : nat)               (* :42 or :47 the return *)
| XSpin                         (* :56 *)
| XLoad                         (* :57-58 *)
| XStore (o : nat)              (* :59 *)
| XDelete (o : nat)             (* :60 *)
| XUnlock.                      (* Spinlock.h:27 *)

(** PhoenixSingleton.h:51-52; [pending]: how often do_atexit is registered and not yet run *)
Record phx := Phx { plock : bool; pinst : option nat; pending : nat; pnext : nat; ppcs : nat -> ppc; plog : list pev }.
(** PhoenixSingleton.h:64-65 *)
Definition phx0 : phx := Phx false None 0 0 (fun _ => PIdle) [].

Inductive pact := PCall | PGo (ok : bool) | PRunExit.

Definition pat (s : phx) (t : nat) (p : ppc) : phx := Phx (plock s) (pinst s) (pending s) (pnext s) (fupd (ppcs s) t p) (plog s).
Definition psay (s : phx) (e : pev) : phx := Phx (plock s) (pinst s) (pending s) (pnext s) (ppcs s) (plog s ++ [e]).
Definition plk (s : phx) (b : bool) : phx := Phx b (pinst s) (pending s) (pnext s) (ppcs s) (plog s).
Definition pset (s : phx) (i : option nat) : phx := Phx (plock s) i (pending s) (pnext s) (ppcs s) (plog s).
Definition ppend (s : phx) (n : nat) : phx := Phx (plock s) (pinst s) n (pnext s) (ppcs s) (plog s).
Definition pnew (s : phx) : phx := Phx (plock s) (pinst s) (pending s) (S (pnext s)) (ppcs s) (plog s).

(** one step of Instance() (PhoenixSingleton.h:34-48) or do_atexit() (54-61); [ok]: the constructor does not throw *)
Definition pgo (s : phx) (t : nat) (ok : bool) : option phx :=
  match ppcs s t with
  | PIdle => None
  | PLoad =>
    match pinst s with Some o => Some (pat s t (PHave o)) | None => Some (pat s t PSpin) end
  | PSpin => if plock s then None else Some (pat (plk s true) t PLoad2)
  | PLoad2 => match pinst s with Some o => Some (pat s t (PUnlock (Some o))) | None => Some (pat s t PNew) end
  | PNew => if ok then let o := pnext s in Some (psay (pat (pnew s) t (PPub o)) (PCtor o))
            else Some (pat s t (PUnlock None))
  | PPub o => Some (pat (pset s (Some o)) t (PReg o))
  | PReg o => Some (pat (ppend s (S (pending s))) t (PUnlock (Some o)))
  | PUnlock (Some o) => Some (pat (plk s false) t (PHave o))
  | PHave o => Some (psay (pat s t PIdle) (PRet t o))
  | PUnlock None => Some (psay (pat (plk s false) t PIdle) (PThrown t))
  | XSpin => if plock s then None else Some (pat (plk s true) t XLoad)
  | XLoad => match pinst s with Some o => Some (pat s t (XStore o)) | None => Some (psay (pat s t XUnlock) PAssert) end
  | XStore o => Some (pat (pset s None) t (XDelete o))
  | XDelete o => Some (psay (pat s t XUnlock) (PDtor o))
  | XUnlock => Some (pat (plk s false) t PIdle)
  end.

(** any thread may call Instance(); exit() (or the end of main) takes the registered handlers one by one: here by
    any thread at any time, which covers every order *)
Definition phx_step (s : phx) (l : nat * pact) : option phx :=
  let t := fst l in
  match snd l with
  | PCall => match ppcs s t with PIdle => Some (pat s t PLoad) | _ => None end
  | PGo ok => pgo s t ok
  | PRunExit =>
    match ppcs s t, pending s with
    | PIdle, S n => Some (psay (pat (ppend s n) t XSpin) PExit)
    | _, _ => None
    end
  end.

(** ** Singleton: many singletons, whose constructors call Instance() of others; one thread *)
Section Plain.
(** the singletons the constructor of [n] calls Instance() of, in order, and how it ends after that *)
Variable deps : nat -> list nat.
Variable ends : nat -> outcome.

(** the static of Singleton.h:86: not built; or Inst (initialized?) and Created (36-37) *)
Record hold := Hold { hinst : bool; hcreated : bool }.
Inductive sev := SCtor (n : nat) | SFailed (n : nat) | SDtor (n : nat).
(** once flags (:92), statics (:86), the order in which the statics were built (last first), the events *)
Record world := World { wonce : nat -> once_st; whold : nat -> option hold; wstack : list nat; wlog : list sev }.
Definition world0 : world := World (fun _ => Fresh) (fun _ => None) [] [].

(** answers: a reference; "could not be created"; "already destroyed"; another exception; the thread waits for
    itself in pthread_once; out of fuel *)
Inductive ans := Ref | NotCreated | Destroyed | Foreign | Hang | Fuel.

(** GetInstanceHolder() (Singleton.h:84-88): builds the static at the first call *)
Definition get_holder (w : world) (n : nat) : world :=
  match whold w n with
  | Some _ => w
  | None => World (wonce w) (fupd (whold w) n (Some (Hold false false))) (n :: wstack w) (wlog w)
  end.
Definition put_once (w : world) (n : nat) (o : once_st) : world := World (fupd (wonce w) n o) (whold w) (wstack w) (wlog w).
Definition put_hold (w : world) (n : nat) (h : hold) : world := World (wonce w) (fupd (whold w) n (Some h)) (wstack w) (wlog w).
Definition wsay (w : world) (e : sev) : world := World (wonce w) (whold w) (wstack w) (wlog w ++ [e]).

(** the rest of Instance() after call_once (Singleton.h:53-56) *)
Definition answer (w : world) (n : nat) : world * ans :=
  let w := get_holder w n in
  match whold w n with
  | Some h => (w, if hinst h then Ref else if hcreated h then Destroyed else NotCreated)
  | None => (w, NotCreated)
  end.

(** the rest of InitInstance (Singleton.h:75-78) *)
Definition store_inst (w : world) (n : nat) (ok : bool) : world :=
  let w := get_holder w n in put_hold w n (Hold ok ok).

(** the constructor of the user's class calls Instance() of others one after another, and lets exceptions through *)
Fixpoint each (f : world -> nat -> world * ans) (w : world) (l : list nat) : world * ans :=
  match l with
  | [] => (w, Ref)
  | d :: l => match f w d with (w, Ref) => each f w l | r => r end
  end.

(** Instance() (Singleton.h:49-57) with InitInstance (66-79) and the constructor of the user's class, which calls
    Instance() of each of [deps n] and lets their exceptions through (they are std::exceptions, but for Foreign) *)
Fixpoint instance (fuel : nat) (w : world) (n : nat) {struct fuel} : world * ans :=
  match fuel with
  | O => (w, Fuel)
  | S fuel =>
    match wonce w n with
    | Over => answer w n
    | Busy _ => (w, Hang)
    | Fresh =>
      let w := put_once w n (Busy 0) in
      match each (instance fuel) w (deps n) with
      | (w, Ref) =>
        match ends n with
        | Built => answer (put_once (store_inst (wsay w (SCtor n)) n true) n Over) n
        | StdExc => answer (put_once (store_inst (wsay w (SFailed n)) n false) n Over) n
        | OtherExc => (put_once w n Fresh, Foreign)
        end
      | (w, NotCreated) | (w, Destroyed) => answer (put_once (store_inst (wsay w (SFailed n)) n false) n Over) n
      | (w, Foreign) => (put_once w n Fresh, Foreign)
      | (w, Hang) => (w, Hang)
      | (w, Fuel) => (w, Fuel)
      end
    end
  end.

(** IsAlive() (Singleton.h:46-47) *)
Definition is_alive (w : world) (n : nat) : world * bool :=
  let w := get_holder w n in (w, match whold w n with Some h => hinst h | None => false end).

(** AssertInstanceCreated() (Singleton.h:62-63, 81-82): true when it returns, false when the process is ended *)
Definition assert_created (w : world) (n : nat) : bool :=
  match wonce w n with Over => true | _ => false end.

(** ~InstanceHolder() of the static of [n] (Singleton.h:39, unique_ptr.h:93-97) *)
Definition destroy (w : world) (n : nat) : world :=
  match whold w n with
  | Some h => if hinst h then put_hold (wsay w (SDtor n)) n (Hold false (hcreated h)) else w
  | None => w
  end.

(** the end of the process: the statics are destroyed in the reverse order of their construction *)
Fixpoint run_exit (l : list nat) (w : world) : world :=
  match l with [] => w | n :: l => run_exit l (destroy w n) end.
Definition at_exit (w : world) : world :=
  let w := run_exit (wstack w) w in World (wonce w) (whold w) [] (wlog w).

(** a program without an exit: calls of Instance() and IsAlive() *)
Inductive call := CInstance (n : nat) | CAlive (n : nat).
Fixpoint calls (fuel : nat) (w : world) (l : list call) : world :=
  match l with
  | [] => w
  | CInstance n :: l => calls fuel (fst (instance fuel w n)) l
  | CAlive n :: l => calls fuel (fst (is_alive w n)) l
  end.
End Plain.

(** ** AtomicInt Store over __sync_val_compare_and_swap (AtomicInt.h:68-73): the cell, other threads write to it
    between the steps *)
Section Store.
Local Open Scope Z_scope.
Inductive spc := SLoop (old1 old2 : Z) | SDone.
(** one evaluation of the condition of the loop of line 71, and its body (72) *)
Definition store_iter (val cell : Z) (p : spc) : Z * spc :=
  match p with
  | SLoop old1 old2 =>
    let new1 := cell in                                     (* what the swap returns *)
    let cell' := if cell =? old1 then val else cell in
    (cell', if new1 =? old2 then SDone else SLoop new1 new1)
  | SDone => (cell, SDone)
  end.
(** a run: before every iteration the others leave [env] in the cell; the result is the history of what
    the store itself left in the cell, and the final program counter *)
Fixpoint store_run (val : Z) (env : list Z) (p : spc) : list Z * spc :=
  match env with
  | [] => ([], p)
  | c :: env => let '(c', p') := store_iter val c p in let '(h, q) := store_run val env p' in (c' :: h, q)
  end.
(** AtomicInt.h:70: both old values begin as 0 *)
Definition store (val : Z) (env : list Z) : list Z * spc := store_run val env (SLoop 0 0).
End Store.
