(** Model of areas of thread operations, the object pool, the reader of lines
    and the generator of sequence numbers.
    Source: stingraykit/thread/ThreadOperation.{h,cpp}, stingraykit/ObjectPool.h,
    stingraykit/string/StringReader.h, stingraykit/IntegerSequenceGenerator.h. *)
From Coq Require Import ZArith List Bool.
Import ListNotations.
Open Scope Z_scope.

(** * Areas of thread operations *)

Notation thread := nat (only parsing).
(** ThreadOperationConstrainer and ThreadOperationReporter use the first
    mask, ExclusiveThreadOperation and its checker the second,
    ThreadOperation.cpp 18-22. *)
Inductive kind := Restricted | Exclusive.

Definition kind_eqb (a b : kind) : bool :=
  match a, b with Restricted, Restricted | Exclusive, Exclusive => true | _, _ => false end.

(** An object: its thread, mask and the old value, ThreadOperation.h 37-39, 69-71. *)
Record area := Area { a_thread : thread; a_kind : kind; a_old : Z }.

Inductive report := Silent | Error | Fatal.

Record tstate := TState { t_mask : thread -> kind -> Z; t_area : nat -> option area }.
Definition tstate0 : tstate := TState (fun _ _ => 0) (fun _ => None).

Definition set_mask (f : thread -> kind -> Z) (t : thread) (k : kind) (v : Z) : thread -> kind -> Z :=
  fun t' k' => if Nat.eqb t' t && kind_eqb k' k then v else f t' k'.
Definition set_area (f : nat -> option area) (i : nat) (a : option area) : nat -> option area :=
  fun j => if Nat.eqb j i then a else f j.

Inductive tevent :=
| Begin (t : thread) (k : kind) (i : nat) (ops : Z)  (* constructor of object i in thread t *)
| End (t : thread) (i : nat)                          (* its destructor, run by thread t *)
| Check (t : thread) (k : kind) (op : Z).             (* ThreadOperationReporter / ExclusiveThreadOperationChecker *)

(** Begin: ThreadOperation.cpp 30-34, 68-72.  End: 41-52, 79-90 (not a
    production build).  Check: 58-62, 96-105. *)
Definition tstep (s : tstate) (e : tevent) : tstate * report :=
  match e with
  | Begin t k i ops =>
      let old := t_mask s t k in
      (TState (set_mask (t_mask s) t k (Z.lor old ops)) (set_area (t_area s) i (Some (Area t k old))), Silent)
  | End t i =>
      match t_area s i with
      | None => (s, Silent)
      | Some a =>
          if Nat.eqb (a_thread a) t
          then (TState (set_mask (t_mask s) t (a_kind a) (a_old a)) (set_area (t_area s) i None), Silent)
          else (TState (t_mask s) (set_area (t_area s) i None), Fatal)
      end
  | Check t Restricted op => (s, if Z.eqb (Z.land op (t_mask s t Restricted)) 0 then Silent else Error)
  | Check t Exclusive op => (s, if Z.eqb (Z.land op (t_mask s t Exclusive)) 0 then Fatal else Silent)
  end.

Definition trun (es : list tevent) : tstate := fold_left (fun s e => fst (tstep s e)) es tstate0.

(** * The object pool *)

Notation object := nat (only parsing).

(** Objects outside the pool are not represented: e_refs counts the
    references to an object from elsewhere than the pool's holders and
    objects; owns lists the references that vanish with an object (its own,
    and those of objects only it keeps). *)
Record world := World { e_refs : object -> nat; owns : object -> list object }.

(** use_count of x while the holders are hs. *)
Definition use_count (w : world) (hs : list object) (x : object) : nat :=
  (count_occ Nat.eq_dec hs x + e_refs w x
   + list_sum (map (fun y => count_occ Nat.eq_dec (owns w y) x) (nodup Nat.eq_dec hs)))%nat.

(** CollectGarbage, ObjectPool.h 55-59: std::remove_if calls TryRemove
    (39; shared_ptr::release_if_unique, shared_ptr.h 422-431: the object goes
    exactly if its count is 1) once for each holder in order; the holders kept
    so far and those not yet visited still hold their objects. *)
Fixpoint collect (w : world) (kept todo : list object) : list object :=
  match todo with
  | [] => kept
  | x :: r => if Nat.eqb (use_count w (kept ++ x :: r) x) 1
              then collect w kept r
              else collect w (kept ++ [x]) r
  end.

Definition collect_garbage (w : world) (hs : list object) : list object := collect w [] hs.

Fixpoint collect_times (n : nat) (w : world) (hs : list object) : list object :=
  match n with O => hs | S m => collect_times m w (collect_garbage w hs) end.

(** * The reader of lines *)

(** StringReader.h 19-20. *)
Record reader := Reader { rd_text : list Z; rd_pos : nat }.
Definition reader0 (text : list Z) : reader := Reader text 0.

(** The loop of ReadLine, StringReader.h 33-54, on the text from newPos: the
    number of characters before the delimiter and the delimiter's size. *)
Fixpoint scan (rest : list Z) : nat * nat :=
  match rest with
  | [] => (0, 0)%nat
  | ch :: r =>
      if Z.eqb ch 10 then (0, 1)%nat
      else if Z.eqb ch 13
           then (0%nat, match r with c2 :: _ => if Z.eqb c2 10 then 2%nat else 1%nat | [] => 1%nat end)
           else let '(n, d) := scan r in (S n, d)
  end.

(** ReadLine, StringReader.h 28-60. *)
Definition read_line (r : reader) : list Z * reader :=
  let rest := skipn (rd_pos r) (rd_text r) in
  let '(n, d) := scan rest in
  (firstn n rest, Reader (rd_text r) (rd_pos r + n + d)).

(** IsEndOfString 68; Peek 62-66 (None: the exception). *)
Definition at_end (r : reader) : bool := Nat.eqb (rd_pos r) (length (rd_text r)).
Definition peek (r : reader) : option Z :=
  if at_end r then None else nth_error (rd_text r) (rd_pos r).

(** Reading n lines. *)
Fixpoint read_lines (n : nat) (r : reader) : list (list Z) * reader :=
  match n with
  | O => ([], r)
  | S m => let '(l, r1) := read_line r in let '(ls, r2) := read_lines m r1 in (l :: ls, r2)
  end.

(** * Sequence numbers *)

(** IntegerSequenceGenerator::Next, IntegerSequenceGenerator.h 29, for an
    integer type of w bits: an atomic increment (so calls of any threads are
    in one order); values as residues. *)
Definition next (w : Z) (s : Z) : Z * Z := (s, (s + 1) mod 2 ^ w).

Fixpoint next_times (n : nat) (w s : Z) : list Z :=
  match n with O => [] | S m => let '(v, s') := next w s in v :: next_times m w s' end.
