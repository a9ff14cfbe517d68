(** * Model of the enumerator adapters and of namespace Enumerable
    stingraykit/collection/EnumerableHelpers.h, EnumerableWrapper.h, EnumerableFromStlContainer.h, FuncEnumerator.h,
    StlEnumeratorAdapter.h, EnumerableBuilder.h, ForEach.h.
    An enumerator is an object with three methods. Get and Next may throw (None); Get may change the object (a mutable cache).
    A source enumerator, which an adapter holds, is modelled by the list of the items still in front of it: an enumerator over
    iterators is exactly that (see [iterators]); functors are pure, but a caster may throw. *)
From Coq Require Import List Arith Bool ZArith Lia.
Import ListNotations.

(** IEnumerator (IEnumerator.h:25-35) *)
Record machine (A : Type) := Machine {
  st : Type;
  valid : st -> bool;
  get : st -> option A * st;
  next : st -> option st }.
Arguments st {A}. Arguments valid {A}. Arguments get {A}. Arguments next {A}. Arguments Machine {A}.

(** a source enumerator *)
Definition src_valid {A} (l : list A) : bool := match l with [] => false | _ => true end.
Definition src_get {A} (l : list A) : option A := hd_error l.
Definition src_next {A} (l : list A) : option (list A) := match l with [] => None | _ :: r => Some r end.

(** IteratorsRangeEnumerator (EnumerableFromStlContainer.h:38-68): the sequence, and the position of _current in it *)
Definition iterators {A} : machine A := Machine (list A * nat)
  (fun s => negb (Nat.eqb (snd s) (length (fst s))))
  (fun s => (if negb (Nat.eqb (snd s) (length (fst s))) then nth_error (fst s) (snd s) else None, s))
  (fun s => if negb (Nat.eqb (snd s) (length (fst s))) then Some (fst s, S (snd s)) else None).

(** EmptyEnumerator (EnumerableHelpers.h:29-35) *)
Definition empty {A} : machine A := Machine unit (fun _ => false) (fun s => (None, s)) (fun _ => None).

(** OneItemEnumerator (53-79) *)
Definition one_item {A} : machine A := Machine (bool * A)
  (fun s => fst s)
  (fun s => (if fst s then Some (snd s) else None, s))
  (fun s => if fst s then Some (false, snd s) else None).

(** JoiningEnumerator (106-146): _first and _second *)
Definition join_init {A} (first second : list A) : option (list A) * option (list A) :=
  if src_valid first then (Some first, Some second) else (Some second, None).
Definition join {A} : machine A := Machine (option (list A) * option (list A))
  (fun s => match fst s with Some f => src_valid f | None => false end)
  (fun s => (match fst s with Some f => src_get f | None => None end, s))
  (fun s => match fst s with
            | None => None
            | Some f => match src_next f with
                        | None => None
                        | Some f' => if src_valid f' then Some (Some f', snd s) else Some (snd s, None)
                        end
            end).

(** EnumeratorCaster (696-729): the source and _cache; [cast] is the checked dynamic caster, which may throw *)
Definition caster {S A} (cast : S -> option A) : machine A := Machine (list S * option A)
  (fun s => src_valid (fst s))
  (fun s => if src_valid (fst s)
            then match snd s with
                 | Some c => (Some c, s)
                 | None => match src_get (fst s) with
                           | Some x => match cast x with Some c => (Some c, (fst s, Some c)) | None => (None, s) end
                           | None => (None, s)
                           end
                 end
            else (None, s))
  (fun s => match src_next (fst s) with Some r => Some (r, None) | None => None end).

(** EnumeratorOfType (745-783) and ForEachEnumeratorCaster (ForEach.h:57-95): FindNext (774-782) *)
Fixpoint oft_find {S A} (cast : S -> option A) (l : list S) : list S * option A :=
  match l with
  | [] => ([], None)
  | x :: r => match cast x with Some d => (l, Some d) | None => oft_find cast r end
  end.
Definition of_type {S A} (cast : S -> option A) : machine A := Machine (list S * option A)
  (fun s => src_valid (fst s))
  (fun s => (if src_valid (fst s) then snd s else None, s))
  (fun s => match src_next (fst s) with Some r => Some (oft_find cast r) | None => None end).

(** EnumeratorWrapper (EnumerableWrapper.h:34-82): the source and _cache; FindNext (71-81) *)
Fixpoint wrap_find {S} (filter : S -> bool) (l : list S) : list S * option S :=
  match l with
  | [] => ([], None)
  | x :: r => if filter x then (l, Some x) else wrap_find filter r
  end.
Definition wrapper {S A} (cast : S -> option A) (filter : S -> bool) : machine A := Machine (list S * option S)
  (fun s => match snd s with Some _ => true | None => false end)
  (fun s => (match snd s with Some c => cast c | None => None end, s))
  (fun s => match snd s with
            | Some _ => match src_next (fst s) with Some r => Some (wrap_find filter r) | None => None end
            | None => None
            end).

(** EnumeratorTransformer (848-867) *)
Definition transformer {S A} (f : S -> option A) : machine A := Machine (list S)
  src_valid
  (fun s => (match src_get s with Some x => f x | None => None end, s))
  src_next.

(** SkipEnumerator (918-927): moves the source itself *)
Fixpoint skip_src {A} (count : nat) (l : list A) : list A :=
  match count with
  | O => l
  | S n => match src_next l with Some r => skip_src n r | None => l end
  end.

(** EnumeratorTaker (943-975): _src, _index; [count] is _count *)
Definition taker {A} (count : nat) : machine A := Machine (list A * nat)
  (fun s => src_valid (fst s) && (snd s <? count))
  (fun s => (if src_valid (fst s) && (snd s <? count) then src_get (fst s) else None, s))
  (fun s => if src_valid (fst s) && (snd s <? count)
            then match src_next (fst s) with Some r => Some (r, S (snd s)) | None => None end
            else None).

(** EnumeratorFlattener (991-1043): _src and _current; FindNext (1031-1042) *)
Fixpoint flat_find {A} (src : list (list A)) : list (list A) * option (list A) :=
  match src with
  | [] => ([], None)
  | c :: r => if src_valid c then (src, Some c) else flat_find r
  end.
Definition flattener {A} : machine A := Machine (list (list A) * option (list A))
  (fun s => match snd s with Some c => src_valid c | None => false end)
  (fun s => (match snd s with Some c => src_get c | None => None end, s))
  (fun s => match snd s with
            | None => None
            | Some c => match src_next c with
                        | None => None
                        | Some c' => if src_valid c' then Some (fst s, Some c')
                                     else match src_next (fst s) with Some r => Some (flat_find r) | None => None end
                        end
            end).

(** EnumeratorDiff (1059-1148): _src, _dst, _entryType; FindNext (1117-1146), every round moves both sources or stops *)
Inductive entry_type := ENone | EAdded | ERemoved.
Inductive diff_entry (A : Type) := Added (a : A) | Removed (a : A).
Arguments Added {A}. Arguments Removed {A}.
Fixpoint diff_find {A} (cmp : A -> A -> Z) (src dst : list A) : list A * list A * entry_type :=
  match src with
  | a :: s => match dst with
              | b :: d => if (cmp a b <? 0)%Z then (src, dst, ERemoved)
                          else if (0 <? cmp a b)%Z then (src, dst, EAdded)
                          else diff_find cmp s d
              | [] => (src, dst, ERemoved)
              end
  | [] => match dst with _ :: _ => (src, dst, EAdded) | [] => (src, dst, ENone) end
  end.
Definition differ {A} (cmp : A -> A -> Z) : machine (diff_entry A) := Machine (list A * list A * entry_type)
  (fun s => match snd s with ENone => false | _ => true end)
  (fun '((src, dst, e) as s) =>
     (match e with
      | EAdded => option_map Added (src_get dst)
      | ERemoved => option_map Removed (src_get src)
      | ENone => None
      end, s))
  (fun '(src, dst, e) =>
     match e with
     | EAdded => match src_next dst with Some d => Some (diff_find cmp src d) | None => None end
     | ERemoved => match src_next src with Some r => Some (diff_find cmp r dst) | None => None end
     | ENone => None
     end).

(** FuncEnumerator (FuncEnumerator.h:22-46): _index *)
Definition func {A} (g : nat -> option A) (v : nat -> bool) : machine A := Machine nat
  v
  (fun i => (g i, i))
  (fun i => if v i then Some (S i) else Some i).

(** ** The functions that consume an enumerator: the result (None: an exception) and the enumerator they leave *)
Section Consumers.
  Context {A : Type}.
  (** Aggregate without initial value (419-430), for an item type that is not nullable *)
  Fixpoint aggregate_loop (f : A -> A -> A) (result : option A) (l : list A) : option A * list A :=
    match l with
    | [] => (result, [])
    | x :: r => aggregate_loop f (match result with Some y => Some (f y x) | None => Some x end) r
    end.
  Definition aggregate1 (f : A -> A -> A) (l : list A) := aggregate_loop f None l.
  (** Aggregate with initial value (433-439) *)
  Fixpoint aggregate {B} (f : B -> A -> B) (result : B) (l : list A) : B * list A :=
    match l with [] => (result, []) | x :: r => aggregate f (f result x) r end.
  (** All (442-448) *)
  Fixpoint all (p : A -> bool) (l : list A) : bool * list A :=
    match l with [] => (true, []) | x :: r => if negb (p x) then (false, l) else all p r end.
  (** Any (451-452) *)
  Definition any (l : list A) : bool * list A := (src_valid l, l).
  (** Any, Contains with a predicate (454-460, 473-479) *)
  Fixpoint any_of (p : A -> bool) (l : list A) : bool * list A :=
    match l with [] => (false, []) | x :: r => if p x then (true, l) else any_of p r end.
  (** Count (486-492, 494-501) *)
  Fixpoint count (result : nat) (p : A -> bool) (l : list A) : nat * list A :=
    match l with [] => (result, []) | x :: r => count (if p x then S result else result) p r end.
  (** ForEach (504-508): the calls, in order *)
  Fixpoint for_each (calls : list A) (l : list A) : list A * list A :=
    match l with [] => (calls, []) | x :: r => for_each (calls ++ [x]) r end.
  (** IndexOf (511-521) *)
  Fixpoint index_of (result : nat) (p : A -> bool) (l : list A) : option nat * list A :=
    match l with [] => (None, []) | x :: r => if p x then (Some result, l) else index_of (S result) p r end.
  (** ElementAt, ElementAtOrDefault (527-553): None is the exception or the default *)
  Fixpoint element_at (index current : nat) (l : list A) : option A * list A :=
    match l with [] => (None, []) | x :: r => if Nat.eqb index current then (Some x, l) else element_at index (S current) r end.
  (** First (578-582), FirstOrDefault (593-601) *)
  Definition first (l : list A) : option A * list A := (if src_valid l then src_get l else None, l).
  (** First with a predicate (584-590) *)
  Fixpoint first_of (p : A -> bool) (l : list A) : option A * list A :=
    match l with [] => (None, []) | x :: r => if negb (p x) then first_of p r else (Some x, l) end.
  (** FirstOrDefault with a predicate (603-623) *)
  Fixpoint first_or (p : A -> bool) (l : list A) : option A * list A :=
    match l with [] => (None, []) | x :: r => if p x then (Some x, l) else first_or p r end.
  (** Last, LastOrDefault (626-691); without a predicate p is always true *)
  Fixpoint last_of (result : option A) (p : A -> bool) (l : list A) : option A * list A :=
    match l with [] => (result, []) | x :: r => last_of (if p x then Some x else result) p r end.
  (** Clone (797-803), Reverse (806-826): the vector built *)
  Fixpoint to_vector (v : list A) (l : list A) : list A * list A :=
    match l with [] => (v, []) | x :: r => to_vector (v ++ [x]) r end.
  (** Single (836-843) *)
  Definition single (l : list A) : option A * list A :=
    match src_get l, src_next l with
    | Some x, Some r => (if src_valid r then None else Some x, r)
    | _, _ => (None, l)
    end.
  (** SequenceEqual (1162-1172) on two different enumerators *)
  Fixpoint sequence_equal {B} (p : A -> B -> bool) (l : list A) (m : list B) : bool * list A * list B :=
    match l, m with
    | x :: r, y :: s => if negb (p x y) then (false, l, m) else sequence_equal p r s
    | _, _ => (negb (src_valid l) && negb (src_valid m), l, m)
    end.
  (** SequenceEqual on one enumerator given twice: both Get calls see the same item, both Next calls move it *)
  Fixpoint sequence_equal_same (p : A -> A -> bool) (fuel : nat) (l : list A) : option bool :=
    match fuel with
    | O => None
    | S f => match l with
             | [] => Some true
             | x :: r => if negb (p x x) then Some false
                         else match src_next r with Some r' => sequence_equal_same p f r' | None => None end
             end
    end.
End Consumers.

(** ** Enumerables. [content t] is what GetEnumerator called at time t enumerates *)
Definition enumerable (A : Type) := nat -> list A.
(** DefaultIfEmpty on an enumerable (564-570): decided at the time of the call *)
Definition default_if_empty {A} (e : enumerable A) (now : nat) (x : A) : enumerable A :=
  if fst (any (e now)) then e else fun _ => [x].
(** Clone, Reverse of an enumerable: a vector made at the time of the call *)
Definition clone_at {A} (e : enumerable A) (now : nat) : enumerable A := fun _ => fst (to_vector [] (e now)).
Definition reverse_at {A} (e : enumerable A) (now : nat) : enumerable A := fun _ => rev (fst (to_vector [] (e now))).

(** EnumerableJoiner / EnumeratorJoiner (155-175, 269-289): %, and Get *)
Definition joiner_add {A} (r : option (enumerable A)) (e : enumerable A) : option (enumerable A) :=
  Some (match r with Some r => fun t => r t ++ e t | None => e end).
Definition joiner_get {A} (r : option (enumerable A)) : enumerable A := match r with Some r => r | None => fun _ => [] end.

(** EnumerableBuilder (EnumerableBuilder.h:18-52): the vector, and how often push_back has been called: every call may move
    the vector, so iterators taken before it must not be used (the standard's rule for push_back) *)
Record builder (A : Type) := Builder { items : list A; epoch : nat }.
Arguments Builder {A}. Arguments items {A}. Arguments epoch {A}.
Definition builder_new {A} : builder A := Builder [] 0.
Definition builder_add {A} (b : builder A) (x : A) : builder A := Builder (items b ++ [x]) (S (epoch b)).
(** Get (40-41): begin and end of the vector now; EnumerableFromStlContainer (131-137) keeps the iterators *)
Record built (A : Type) := Built { upto : nat; taken : nat }.
Definition builder_get {A} (b : builder A) : built A := Built A (length (items b)) (epoch b).
(** GetEnumerator and a walk over it: None is a use of iterators that push_back has invalidated *)
Definition built_items {A} (b : builder A) (e : built A) : option (list A) :=
  if Nat.eqb (taken A e) (epoch b) then Some (firstn (upto A e) (items b)) else None.

(** ** EnumerableToRange (1228-1293) over an enumerable of constant content l: _enumerator and _index *)
Section ToRange.
  Context {A : Type}.
  Definition rstate := (list A * nat)%type.
  (** First (1263-1268) *)
  Definition r_first (l : list A) : rstate := (l, 0).
  Definition r_valid (s : rstate) : bool := src_valid (fst s).
  Definition r_get (s : rstate) : option A := src_get (fst s).
  (** Next (1270-1275) *)
  Definition r_next (s : rstate) : option rstate := option_map (fun r => (r, S (snd s))) (src_next (fst s)).
  (** Equals (1260-1261), for ranges over one enumerable *)
  Definition r_equals (a b : rstate) : bool := Nat.eqb (snd a) (snd b).
  (** the copy constructor (1248-1253): the loop, with a bound on its rounds *)
  Fixpoint r_advance (fuel target : nat) (s : rstate) : option rstate :=
    if Nat.eqb (snd s) target then Some s
    else match fuel with
         | O => None
         | S f => match r_next s with Some s' => r_advance f target s' | None => None end
         end.
  Definition r_copy (l : list A) (s : rstate) : option rstate := r_advance (S (length l)) (snd s) (r_first l).
  (** Last (1277-1292): the loop over (this, prev) *)
  Fixpoint r_last_loop (fuel : nat) (s prev : rstate) : option rstate :=
    if r_valid s then
      match fuel with
      | O => None
      | S f => match r_next s with
               | None => None
               | Some s' => if r_valid s' then match r_next prev with Some p => r_last_loop f s' p | None => None end
                            else r_last_loop f s' prev
               end
      end
    else Some prev.
  Definition r_last (l : list A) : option rstate :=
    match r_copy l (r_first l) with Some p => r_last_loop (S (length l)) (r_first l) p | None => None end.
End ToRange.

(** ** StlEnumeratorAdapter (StlEnumeratorAdapter.h:21-58): an iterator holds a shared enumerator, or none (the end) *)
Inductive stl_iter := IterEnd | IterAt.
(** operator != (48-52) between iterators over the one enumerator l; None: LogicException *)
Definition iter_ne {A} (l : list A) (a b : stl_iter) : option bool :=
  let v i := match i with IterEnd => false | IterAt => src_valid l end in
  match a, b with
  | IterAt, IterAt => None
  | _, _ => Some (xorb (v a) (v b))
  end.
(** for (auto it = begin; it != end; ++it) body( *it ) *)
Fixpoint range_for {A S} (body : A -> S -> S) (l : list A) (s : S) : option S :=
  match iter_ne l IterAt IterEnd with
  | None => None
  | Some false => Some s
  | Some true => match l with [] => None | x :: r => range_for body r (body x s) end
  end.

(** ** FOR_EACH (ForEach.h:126-132) *)
Inductive outcome := Normal | Break.
Section ForEach.
  Context {A S : Type} (filter : A -> bool) (body : A -> S -> S * outcome).
  (** the innermost loop (132) over one item: __dummy_bool__, __broken__ and the state *)
  Fixpoint fe_inner (fuel : nat) (item : A) (dummy broken : bool) (s : S) : option (bool * bool * S) :=
    match fuel with
    | O => None
    | Datatypes.S f =>
      if dummy then                                     (* __dummy_bool__ && ((__dummy_bool__ = false) == false) *)
        if filter item then                             (* && ForEachItemFilter(..) && (__broken__ = true) *)
          let '(s', o) := body item s in
          match o with
          | Break => Some (false, true, s')             (* break: __broken__ stays true *)
          | Normal => fe_inner f item false false s'    (* __broken__ = false *)
          end
        else Some (false, broken, s)
      else Some (dummy, broken, s)
    end.
  (** the loop of :131 *)
  Fixpoint fe_middle (fuel : nat) (l : list A) (dummy broken : bool) (s : S) : option (bool * S) :=
    match fuel with
    | O => None
    | Datatypes.S f =>
      if dummy && negb broken then
        match l with
        | [] => None
        | x :: _ => match fe_inner 2 x dummy broken s with
                    | Some (dummy', broken', s') => fe_middle f l dummy' broken' s'
                    | None => None
                    end
        end
      else Some (broken, s)
    end.
  (** the loop of :128-130 *)
  Fixpoint fe_outer (fuel : nat) (l : list A) (broken : bool) (s : S) : option (list A * bool * S) :=
    match fuel with
    | O => None
    | Datatypes.S f =>
      if src_valid l && negb broken then
        match fe_middle 2 l true broken s with
        | Some (broken', s') => match src_next l with Some r => fe_outer f r broken' s' | None => None end
        | None => None
        end
      else Some (l, broken, s)
    end.
  (** the loop of :127, whose second round never runs its body *)
  Definition for_each_macro (l : list A) (s : S) : option (list A * S) :=
    match fe_outer (Datatypes.S (length l)) l false s with
    | Some (l', _, s') => Some (l', s')      (* __broken__ = true; !__broken__ is false *)
    | None => None
    end.
End ForEach.
