(** shared_ptr / weak_ptr reference counting: stingraykit/shared_ptr.h, Detail::SharedPtrImpl.

    One control block.  [hs] lists every handle (shared_ptr or weak_ptr object) that refers, or
    referred, to it, and every call that is between two atomic operations.  A handle may be operated
    on by any thread; a step is one atomic operation on the block, or one destructor call, so a
    list of labels is a schedule of any number of threads.  Which handles may be used at which time
    is the C++ rule "a shared_ptr object is not destroyed while somebody else is using it": it is
    built into the enabling conditions.  Moves, swaps and assignments only rename handles or are
    copy + release (lines 342-344, 371-391, 449-453, 542-595), so they have no labels of their own.
    [lim] is the number of shared_ptr (resp. weak_ptr) objects the program may have at the same time. *)
From Coq Require Import List ZArith Lia Bool.
Import ListNotations.
Set Implicit Arguments.
Local Open Scope Z_scope.

Definition u32 (x : Z) : Z := x mod 2^32.

Inductive hst :=
| HStrong                     (* a non-null shared_ptr *)
| HWeak                       (* a non-null weak_ptr *)
| HDispose                    (* strong count went to 0 (lines 172-177, 190-196): about to call Dispose *)
| HDisposed                   (* line 222 done: about to ReleaseWeakReference, line 223 *)
| HFree                       (* weak count went to 0, lines 145-151: about to Free *)
| HLock (i : nat) (c : Z)     (* lock() on weak_ptr i after loading c, lines 205-208 *)
| HNull.                      (* gone *)

Record blk := mkB {
  strong   : Z;               (* _strongReferences, u32 *)
  weak     : Z;               (* _weakReferences, u32 *)
  disposed : nat;             (* how often the object was destroyed *)
  freed    : nat;             (* how often the control block was deleted *)
  hs       : list hst
}.

(** shared_ptr(T * ), line 289; ISharedPtrData(), line 53 *)
Definition init : blk := mkB 1 1 0 0 [HStrong].

Inductive lab :=
| LCopy (i : nat)             (* shared_ptr(const shared_ptr&), lines 338-340, 160-165 *)
| LWeak (i : nat)             (* weak_ptr(const shared_ptr&) / weak_ptr(const weak_ptr&), lines 533-540, 134-138 *)
| LReset (i : nat)            (* ~shared_ptr, lines 368, 167-183 *)
| LUnique (i : nat)           (* release_if_unique, lines 422-431, 185-198 *)
| LDispose (i : nat)          (* line 222 *)
| LDisposeWeak (i : nat)      (* line 223, 140-155 *)
| LWeakReset (i : nat)        (* ~weak_ptr, lines 556, 140-155 *)
| LFree (i : nat)             (* line 151 *)
| LLock (i : nat)             (* weak_ptr::lock, lines 597-599, 202-205 *)
| LCas (i : nat)              (* lines 206-213 *)
| LUse (i : nat)              (* operator-> and use of the object *)
| LCount (i : nat).           (* use_count of a shared_ptr or weak_ptr, lines 436, 621, 157 *)

Inductive obs := ONone | OLocked | OEmpty | OBool (b : bool) | ONum (n : Z) | OUsed | OUB.

Definition is_strong (h : hst) : bool := match h with HStrong => true | _ => false end.
Definition is_weak (h : hst) : bool := match h with HWeak => true | _ => false end.
Definition is_lock (i : nat) (h : hst) : bool := match h with HLock j _ => Nat.eqb i j | _ => false end.
Definition cnt (f : hst -> bool) (l : list hst) : Z := Z.of_nat (length (filter f l)).
Fixpoint upd (l : list hst) (i : nat) (h : hst) : list hst :=
  match l, i with
  | [], _ => []
  | _ :: t, O => h :: t
  | x :: t, S i' => x :: upd t i' h
  end.

(** None: the label is not enabled.  Touching the control block after Free, destroying the object or
    the block twice, or using a destroyed object is OUB. *)
Definition step (lim : Z) (s : blk) (l : lab) : option (blk * obs) :=
  let gone := negb (Nat.eqb (freed s) 0) in
  let dead := negb (Nat.eqb (disposed s) 0) in
  match l with
  | LCopy i =>
      match nth_error (hs s) i with
      | Some HStrong =>
          if lim <=? cnt is_strong (hs s) then None
          else if gone then Some (s, OUB)
          else Some (mkB (u32 (strong s + 1)) (weak s) (disposed s) (freed s) (hs s ++ [HStrong]), ONone)
      | _ => None
      end
  | LWeak i =>
      match nth_error (hs s) i with
      | Some HStrong | Some HWeak =>
          if lim <=? cnt is_weak (hs s) then None
          else if gone then Some (s, OUB)
          else Some (mkB (strong s) (u32 (weak s + 1)) (disposed s) (freed s) (hs s ++ [HWeak]), ONone)
      | _ => None
      end
  | LReset i =>
      match nth_error (hs s) i with
      | Some HStrong =>
          if gone then Some (s, OUB)
          else let n := u32 (strong s - 1) in
               Some (mkB n (weak s) (disposed s) (freed s) (upd (hs s) i (if n =? 0 then HDispose else HNull)), ONone)
      | _ => None
      end
  | LUnique i =>
      match nth_error (hs s) i with
      | Some HStrong =>
          if gone then Some (s, OUB)
          else if strong s =? 1
          then Some (mkB 0 (weak s) (disposed s) (freed s) (upd (hs s) i HDispose), OBool true)
          else Some (s, OBool false)
      | _ => None
      end
  | LDispose i =>
      match nth_error (hs s) i with
      | Some HDispose =>
          if gone || dead then Some (s, OUB)
          else Some (mkB (strong s) (weak s) (S (disposed s)) (freed s) (upd (hs s) i HDisposed), ONone)
      | _ => None
      end
  | LDisposeWeak i =>
      match nth_error (hs s) i with
      | Some HDisposed =>
          if gone then Some (s, OUB)
          else let n := u32 (weak s - 1) in
               Some (mkB (strong s) n (disposed s) (freed s) (upd (hs s) i (if n =? 0 then HFree else HNull)), ONone)
      | _ => None
      end
  | LWeakReset i =>
      match nth_error (hs s) i with
      | Some HWeak =>
          if existsb (is_lock i) (hs s) then None
          else if gone then Some (s, OUB)
          else let n := u32 (weak s - 1) in
               Some (mkB (strong s) n (disposed s) (freed s) (upd (hs s) i (if n =? 0 then HFree else HNull)), ONone)
      | _ => None
      end
  | LFree i =>
      match nth_error (hs s) i with
      | Some HFree =>
          if gone then Some (s, OUB)
          else Some (mkB (strong s) (weak s) (disposed s) (S (freed s)) (upd (hs s) i HNull), ONone)
      | _ => None
      end
  | LLock i =>
      match nth_error (hs s) i with
      | Some HWeak =>
          if gone then Some (s, OUB)
          else if strong s =? 0 then Some (s, OEmpty)
          else Some (mkB (strong s) (weak s) (disposed s) (freed s) (hs s ++ [HLock i (strong s)]), ONone)
      | _ => None
      end
  | LCas j =>
      match nth_error (hs s) j with
      | Some (HLock i c) =>
          if lim <=? cnt is_strong (hs s) then None
          else if gone then Some (s, OUB)
          else if strong s =? c
          then Some (mkB (u32 (c + 1)) (weak s) (disposed s) (freed s) (upd (hs s) j HStrong), OLocked)
          else if strong s =? 0
          then Some (mkB (strong s) (weak s) (disposed s) (freed s) (upd (hs s) j HNull), OEmpty)
          else Some (mkB (strong s) (weak s) (disposed s) (freed s) (upd (hs s) j (HLock i (strong s))), ONone)
      | _ => None
      end
  | LUse i =>
      match nth_error (hs s) i with
      | Some HStrong => Some (s, if dead then OUB else OUsed)
      | _ => None
      end
  | LCount i =>
      match nth_error (hs s) i with
      | Some HStrong | Some HWeak => Some (s, if gone then OUB else ONum (strong s))
      | _ => None
      end
  end.

Inductive run (lim : Z) : blk -> list (lab * obs) -> blk -> Prop :=
| run_nil s : run lim s [] s
| run_cons s l o s1 ls s2 : step lim s l = Some (s1, o) -> run lim s1 ls s2 -> run lim s ((l, o) :: ls) s2.
