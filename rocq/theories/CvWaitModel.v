(** * Waiting on a condition variable with a cancellation token
      thread/posix/PosixConditionVariable.cpp, thread/CancellationRegistrator.h,
      thread/CancellationToken.cpp, thread/JoiningCancellationToken.cpp,
      thread/TimedCancellationToken.h, thread/DummyCancellationToken.h,
      thread/BasicConditionVariable.h

    One mutex, one PosixConditionVariable, any number of threads and of CancellationTokens.  A step is
    one critical section of a token's own mutex, one lock/unlock of the user's mutex, one
    pthread_cond_wait entry, one Broadcast.  [pthread_cond_wait] releases the mutex and falls asleep
    in one step, is left by a broadcast, spuriously or (timed) by timeout, and then needs the mutex
    again.

    A token passed to Wait is the list of its CancellationTokens, its leaves: a CancellationToken [t]
    is [[t]]; JoiningCancellationToken(a, b) is the leaves of a followed by those of b - its
    TryRegister (JoiningCancellationToken.cpp:48-54) registers with the first, then with the second
    and reports success if one of them did, TryUnregister (57-66) tries those still registered and
    reports whether none is left, Unregister (69-84) waits for those left, in order;
    TimedCancellationToken (TimedCancellationToken.h:40-47) forwards to its token, and [timed] is set; a
    DummyCancellationToken is a leaf that nobody ever cancels.  The flags _registered of
    CancellationRegistrator.h:37-57 (one per leaf) are the lists [got]/[todo]/[lft] below.

    Not modelled: CancellationToken::Reset (C31), a token used by two waits at once (the code throws,
    CancellationToken.cpp:89; here such a call is not started), errors of pthread functions, a mutex
    locked twice by the waiter. *)

From Coq Require Import List Arith Bool Lia.
From Verif Require Import Conc.
Import ListNotations.
Set Implicit Arguments.

(** PosixConditionVariable.h:20-30 ConditionWaitResult *)
Inductive wresult := Broadcasted | Cancelled | TimedOut.

(** the handler of one Wait call: the waiting thread and the number of the call (the object lives on
    the stack of that call) *)
Definition handler_id := (nat * nat)%type.

Inductive pc :=
| Idle                                          (* not holding the mutex *)
| Hold                                          (* holding the mutex, outside Wait *)
| PReg (ls : list nat) (tm : bool) (todo got : list nat)    (* .cpp:104 registering, mutex held *)
| PSleep (ls : list nat) (tm : bool) (got : list nat)       (* .cpp:110/111 asleep *)
| PWoken (ls : list nat) (got : list nat) (tout : bool)     (* .cpp:110/111 taking the mutex again *)
| PRel (ls : list nat) (todo lft : list nat)               (* .cpp:114 Release *)
| PDtor (ls : list nat) (r : wresult) (todo lft : list nat)   (* .cpp:53-56 ~CancellationHolder, TryUnregister *)
| PUnreg (ls : list nat) (r : wresult) (todo : list nat)    (* .cpp:59 Unregister, mutex released *)
| PRelock (ls : list nat) (r : wresult)                     (* .cpp:60 ~MutexUnlock *)
| KCall (nest : bool) (t : nat) (h : option handler_id)     (* CancellationToken.cpp:62, mutex nested or not *)
| KHave (nest : bool) (t : nat) (h : handler_id)            (* .cpp:38, inside the handler, mutex held *)
| KUnl (nest : bool) (t : nat) (h : handler_id)             (* .cpp:39 *)
| KTail (nest : bool) (t : nat).                            (* CancellationToken.cpp:65 *)

Record tk := mk_tk {
  cancelled : bool;                 (* _cancelled *)
  done : bool;                      (* _cancelDone *)
  handler : option handler_id;      (* _cancelHandler *)
  inuse : bool }.                   (* ghost: some Wait call in progress uses this token *)

Inductive event :=
| ERet (w n : nat) (ls : list nat) (tm : bool) (r : wresult)   (* call n of thread w, on token ls, returned r *)
| EHandled (w n t : nat).                                     (* its handler broadcast because of token t *)

Record st := mk_st {
  pcs : nat -> pc;
  owner : option nat;               (* of the user's mutex *)
  toks : nat -> tk;
  calls : nat -> nat;               (* ghost: number of Wait calls started by each thread *)
  tmd : nat -> bool;                (* ghost: is the current call of the thread on a timed token *)
  log : list event }.

Definition init : st :=
  mk_st (fun _ => Idle) None (fun _ => mk_tk false false None false) (fun _ => 0) (fun _ => false) [].

Inductive choice :=
| Go | Lock | Unlock | Bcast | CallWait (ls : list nat) (tm : bool) | CallCancel (t : nat)
| Spurious | Timeout | Expired.

Definition set_pc (s : st) (w : nat) (p : pc) : st :=
  mk_st (fupd (pcs s) w p) (owner s) (toks s) (calls s) (tmd s) (log s).
Definition set_owner (s : st) (o : option nat) : st :=
  mk_st (pcs s) o (toks s) (calls s) (tmd s) (log s).
Definition set_tok (s : st) (t : nat) (k : tk) : st :=
  mk_st (pcs s) (owner s) (fupd (toks s) t k) (calls s) (tmd s) (log s).
Definition logged (s : st) (e : event) : st :=
  mk_st (pcs s) (owner s) (toks s) (calls s) (tmd s) (e :: log s).

Definition with_handler (k : tk) (h : option handler_id) : tk := mk_tk (cancelled k) (done k) h (inuse k).

Definition mem (t : nat) (ls : list nat) : bool := existsb (Nat.eqb t) ls.

(** pthread_cond_broadcast, PosixConditionVariable.cpp:140-144 *)
Definition wake_all (f : nat -> pc) : nat -> pc :=
  fun u => match f u with PSleep ls tm got => PWoken ls got false | p => p end.
Definition broadcast (s : st) : st :=
  mk_st (wake_all (pcs s)) (owner s) (toks s) (calls s) (tmd s) (log s).

(** return from Wait, the mutex being held *)
Definition ret (s : st) (w : nat) (ls : list nat) (r : wresult) : st :=
  mk_st (fupd (pcs s) w Hold) (owner s)
        (fun t => if mem t ls then mk_tk (cancelled (toks s t)) (done (toks s t)) (handler (toks s t)) false else toks s t)
        (calls s) (tmd s) (ERet w (calls s w) ls (tmd s w) r :: log s).

Fixpoint nodup (ls : list nat) : bool :=
  match ls with [] => true | t :: ls' => negb (mem t ls') && nodup ls' end.

Definition step (s : st) (l : nat * choice) : option st :=
  let w := fst l in
  match pcs s w, snd l with
  (* the user's mutex *)
  | Idle, Lock => match owner s with None => Some (set_owner (set_pc s w Hold) (Some w)) | Some _ => None end
  | Hold, Unlock => Some (set_owner (set_pc s w Idle) None)
  (* Broadcast, with or without the mutex *)
  | Idle, Bcast | Hold, Bcast => Some (broadcast s)
  (* Wait(mutex, token): .cpp:102-104, entered with the mutex held *)
  | Hold, CallWait ls tm =>
      if nodup ls && negb (existsb (fun t => inuse (toks s t)) ls) && negb (match ls with [] => true | _ => false end) then
        Some (mk_st (fupd (pcs s) w (PReg ls tm ls [])) (owner s)
                    (fun t => if mem t ls then mk_tk (cancelled (toks s t)) (done (toks s t)) (handler (toks s t)) true else toks s t)
                    (fupd (calls s) w (S (calls s w))) (fupd (tmd s) w tm) (log s))
      else None
  (* TimedCancellationToken.h:41: expired, TryRegister returns false, so .cpp:105-106 *)
  | PReg ls true todo [], Expired =>
      if Nat.eqb (length todo) (length ls) then Some (ret s w ls Cancelled) else None
  (* CancellationToken.cpp:83-92 for the next leaf *)
  | PReg ls tm (t :: todo) got, Go =>
      if cancelled (toks s t) then Some (set_pc s w (PReg ls tm todo got))
      else match handler (toks s t) with
           | Some _ => None                                   (* throws; excluded *)
           | None => Some (set_tok (set_pc s w (PReg ls tm todo (got ++ [t]))) t
                             (with_handler (toks s t) (Some (w, calls s w))))
           end
  (* .cpp:105-111: IsCancelled means that no leaf got registered *)
  | PReg ls tm [] got, Go =>
      match got with
      | [] => Some (ret s w ls Cancelled)
      | _ => Some (set_owner (set_pc s w (PSleep ls tm got)) None)
      end
  | PSleep ls tm got, Spurious => Some (set_pc s w (PWoken ls got false))
  | PSleep ls true got, Timeout => Some (set_pc s w (PWoken ls got true))
  | PWoken ls got tout, Go =>
      match owner s with
      | Some _ => None
      | None => Some (set_owner (set_pc s w (if tout then PDtor ls TimedOut got [] else PRel ls got [])) (Some w))
      end
  (* .cpp:114, CancellationToken.cpp:95-101 for the next leaf *)
  | PRel ls (t :: todo) lft, Go =>
      Some (set_tok (set_pc s w (PRel ls todo (if cancelled (toks s t) then lft ++ [t] else lft))) t
              (with_handler (toks s t) None))
  | PRel ls [] lft, Go =>
      match lft with
      | [] => Some (ret s w ls Broadcasted)                    (* .cpp:117 *)
      | _ => Some (set_pc s w (PDtor ls Cancelled lft []))    (* .cpp:115 *)
      end
  (* .cpp:55-56 *)
  | PDtor ls r (t :: todo) lft, Go =>
      Some (set_tok (set_pc s w (PDtor ls r todo (if cancelled (toks s t) then lft ++ [t] else lft))) t
              (with_handler (toks s t) None))
  | PDtor ls r [] lft, Go =>
      match lft with
      | [] => Some (ret s w ls r)
      | _ => Some (set_owner (set_pc s w (PUnreg ls r lft)) None)   (* .cpp:58 *)
      end
  (* .cpp:59, CancellationToken.cpp:104-115: blocks until the Cancel is done *)
  | PUnreg ls r (t :: todo), Go =>
      if negb (cancelled (toks s t)) || done (toks s t) then
        Some (set_tok (set_pc s w (PUnreg ls r todo)) t (with_handler (toks s t) None))
      else None
  | PUnreg ls r [], Go => Some (set_pc s w (PRelock ls r))
  | PRelock ls r, Go =>
      match owner s with
      | Some _ => None
      | None => Some (ret (set_owner s (Some w)) w ls r)
      end
  (* Cancel, CancellationToken.cpp:50-60, by a thread that may hold the (recursive) mutex *)
  | Idle, CallCancel t =>
      if cancelled (toks s t) then Some s
      else Some (set_tok (set_pc s w (KCall false t (handler (toks s t)))) t
                   (mk_tk true (done (toks s t)) (handler (toks s t)) (inuse (toks s t))))
  | Hold, CallCancel t =>
      if cancelled (toks s t) then Some s
      else Some (set_tok (set_pc s w (KCall true t (handler (toks s t)))) t
                   (mk_tk true (done (toks s t)) (handler (toks s t)) (inuse (toks s t))))
  | KCall nest t None, Go => Some (set_pc s w (KTail nest t))
  (* .cpp:37 *)
  | KCall true t (Some h), Go => Some (set_pc s w (KHave true t h))
  | KCall false t (Some h), Go =>
      match owner s with
      | Some _ => None
      | None => Some (set_owner (set_pc s w (KHave false t h)) (Some w))
      end
  (* .cpp:38 *)
  | KHave nest t h, Go => Some (logged (set_pc (broadcast s) w (KUnl nest t h)) (EHandled (fst h) (snd h) t))
  (* .cpp:39 *)
  | KUnl true t h, Go => Some (set_pc s w (KTail true t))
  | KUnl false t h, Go => Some (set_owner (set_pc s w (KTail false t)) None)
  (* CancellationToken.cpp:65-69 *)
  | KTail nest t, Go =>
      Some (set_tok (set_pc s w (if nest then Hold else Idle)) t
              (mk_tk (cancelled (toks s t)) true (handler (toks s t)) (inuse (toks s t))))
  | _, _ => None
  end.

(** ** BasicConditionVariable.h (used when pthread condition variables are not): a counter of waiters
    and a semaphore.  One user mutex; waiters are identified by numbers. *)
Inductive bpc :=
| BOut                   (* not waiting *)
| BCounted               (* 46-47 done, about to release the mutex *)
| BBlocked               (* 50-51 in _waiter.Wait / TimedWait *)
| BReturned (ok : bool). (* left the semaphore; ok = false: timed out *)

Record bst := mk_bst {
  bpcs : list bpc;        (* the waiters *)
  count : nat;            (* _waitersCount *)
  permits : nat }.        (* value of the semaphore _waiter *)

Inductive bchoice := BEnter | BUnlock | BAcquire | BTimeout | BBroadcast | BSignal.

Definition bset (s : bst) (i : nat) (p : bpc) : list bpc := firstn i (bpcs s) ++ p :: skipn (S i) (bpcs s).

Definition bstep (s : bst) (l : nat * bchoice) : option bst :=
  let i := fst l in
  match snd l with
  (* 81-87 *)
  | BBroadcast => Some (mk_bst (bpcs s) 0 (permits s + count s))
  (* 70-79 *)
  | BSignal => match count s with O => Some s | S n => Some (mk_bst (bpcs s) n (S (permits s))) end
  | c =>
    match nth_error (bpcs s) i, c with
    (* 45-48 / 56-59 *)
    | Some BOut, BEnter => Some (mk_bst (bset s i BCounted) (S (count s)) (permits s))
    | Some (BReturned _), BEnter => Some (mk_bst (bset s i BCounted) (S (count s)) (permits s))
    (* 50 / 61 *)
    | Some BCounted, BUnlock => Some (mk_bst (bset s i BBlocked) (count s) (permits s))
    (* 51 / 62 *)
    | Some BBlocked, BAcquire =>
        match permits s with O => None | S n => Some (mk_bst (bset s i (BReturned true)) (count s) n) end
    | Some BBlocked, BTimeout => Some (mk_bst (bset s i (BReturned false)) (count s) (permits s))
    | _, _ => None
    end
  end.

Definition binit (n : nat) : bst := mk_bst (repeat BOut n) 0 0.
