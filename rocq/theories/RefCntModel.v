(** * Reference counting collections and bimap
      collection/RefCountingMap.h, RefCountingSet.h, RefCountingValue.h, RefCounter.h, bimap.h

    size_t counters are numbers modulo 2^64.  std::map is its list of entries in order; two keys are
    the same if neither is less than the other.  The functors passed by the user may throw; what
    they did is recorded as a list of callbacks.  Iterators are positions.
    Not modelled: functors that call back into the collection, failing allocations, the cached pair of
    RefCountingMap::Iterator (RefCountingMap.h:63-68). *)

From Coq Require Import List Arith Bool ZArith Lia.
Import ListNotations.
Local Open Scope Z_scope.
Set Implicit Arguments.

Definition size_max : Z := 2 ^ 64.
Definition inc (n : Z) : Z := (n + 1) mod size_max.
Definition dec (n : Z) : Z := (n - 1) mod size_max.

Section RefCounting.
  Variables K V : Type.
  Variable less : K -> K -> bool.     (* Comparer_ *)

  Definition same (a b : K) : bool := negb (less a b) && negb (less b a).

  (** what the functors were called with *)
  Inductive callback :=
  | Added (k : K) (v : V)             (* doAddFunc(k) returned v *)
  | Removed (k : K) (v : V).          (* doRemoveFunc(k, v) was called (and may then have thrown) *)

  (** ValueHolder, RefCountingMap.h:25-35; Impl, 37 *)
  Definition entry := (K * Z * V)%type.
  Definition ekey (e : entry) : K := fst (fst e).
  Definition erefs (e : entry) : Z := snd (fst e).
  Definition evalue (e : entry) : V := snd e.
  Definition impl := list entry.

  (** std::map::find, std::map::emplace (of a key that is not there), std::map::erase(iterator) *)
  Fixpoint find (m : impl) (k : K) : option nat :=
    match m with
    | [] => None
    | e :: m' => if same k (ekey e) then Some 0%nat else option_map S (find m' k)
    end.
  Fixpoint emplace (m : impl) (e : entry) : impl :=
    match m with
    | [] => [e]
    | x :: m' => if less (ekey e) (ekey x) then e :: m else x :: emplace m' e
    end.
  Definition set_at (m : impl) (i : nat) (e : entry) : impl := firstn i m ++ e :: skipn (S i) m.
  Definition erase_at (m : impl) (i : nat) : impl := firstn i m ++ skipn (S i) m.

  (** RefCountingMap.h:104-108 *)
  Definition count (m : impl) (k : K) : Z :=
    match find m k with
    | Some i => match nth_error m i with Some e => erefs e | None => 0 end
    | None => 0
    end.
  (** RefCountingMap.h:101-102 *)
  Definition lookup (m : impl) (k : K) : option (K * V) :=
    match find m k with
    | Some i => match nth_error m i with Some e => Some (ekey e, evalue e) | None => None end
    | None => None
    end.

  (** outcome: the state afterwards, what was called, and whether the functor's exception came out *)
  Record out (S R : Type) := mk_out { st : S; calls : list callback; thrown : bool; res : R }.
  Arguments mk_out {S R}.

  (** RefCountingMap.h:110-121; [mk] is doAddFunc, None: it throws *)
  Definition add (m : impl) (k : K) (mk : K -> option V) : out impl (option nat) :=
    match find m k with
    | Some i =>
        match nth_error m i with
        | Some e => mk_out (set_at m i (ekey e, inc (erefs e), evalue e)) [] false (Some i)
        | None => mk_out m [] false None
        end
    | None =>
        match mk k with
        | None => mk_out m [] true None
        | Some v => let m' := emplace m (k, 1, v) in mk_out m' [Added k v] false (find m' k)
        end
    end.

  (** RefCountingMap.h:138-147; the iterator is dereferenceable *)
  Definition erase_iter (m : impl) (i : nat) (throws : bool) : out impl unit :=
    match nth_error m i with
    | None => mk_out m [] false tt
    | Some e =>
        let m1 := set_at m i (ekey e, dec (erefs e), evalue e) in
        if 0 <? dec (erefs e) then mk_out m1 [] false tt
        else if throws then mk_out m1 [Removed (ekey e) (evalue e)] true tt
        else mk_out (erase_at m1 i) [Removed (ekey e) (evalue e)] false tt
    end.

  (** RefCountingMap.h:123-136 *)
  Definition erase (m : impl) (k : K) (throws : bool) : out impl Z :=
    match find m k with
    | None => mk_out m [] false 0
    | Some i =>
        match nth_error m i with
        | None => mk_out m [] false 0
        | Some e =>
            let m1 := set_at m i (ekey e, dec (erefs e), evalue e) in
            if 0 <? dec (erefs e) then mk_out m1 [] false 1
            else if throws then mk_out m1 [Removed (ekey e) (evalue e)] true 0
            else mk_out (erase_at m1 i) [Removed (ekey e) (evalue e)] false 1
        end
    end.

  (** RefCountingMap.h:149-155; [throws]: the number of the call that throws *)
  Definition clear (m : impl) (throws : option nat) : out impl unit :=
    match throws with
    | Some n => if Nat.ltb n (length m) then mk_out m (map (fun e => Removed (ekey e) (evalue e)) (firstn (S n) m)) true tt
                else mk_out [] (map (fun e => Removed (ekey e) (evalue e)) m) false tt
    | None => mk_out [] (map (fun e => Removed (ekey e) (evalue e)) m) false tt
    end.

  (** ** RefCountingSet.h: the counts alone *)
  Definition sentry := (K * Z)%type.
  Fixpoint sfind (m : list sentry) (k : K) : option nat :=
    match m with
    | [] => None
    | e :: m' => if same k (fst e) then Some 0%nat else option_map S (sfind m' k)
    end.
  Fixpoint semplace (m : list sentry) (e : sentry) : list sentry :=
    match m with
    | [] => [e]
    | x :: m' => if less (fst e) (fst x) then e :: m else x :: semplace m' e
    end.
  (** 46-50 *)
  Definition scount (m : list sentry) (k : K) : Z :=
    match sfind m k with
    | Some i => match nth_error m i with Some e => snd e | None => 0 end
    | None => 0
    end.

  Inductive scallback := SAdded (k : K) | SRemoved (k : K).
  Record sout (S : Type) := mk_sout { sst : S; scalls : list scallback; sthrown : bool }.
  Arguments mk_sout {S}.

  (** 52-64 *)
  Definition sadd (m : list sentry) (k : K) (throws : bool) : sout (list sentry) :=
    match sfind m k with
    | Some i =>
        match nth_error m i with
        | Some e => mk_sout (firstn i m ++ (fst e, inc (snd e)) :: skipn (S i) m) [] false
        | None => mk_sout m [] false
        end
    | None => if throws then mk_sout m [] true else mk_sout (semplace m (k, 1)) [SAdded k] false
    end.
  (** 66-79 *)
  Definition serase (m : list sentry) (k : K) (throws : bool) : sout (list sentry) * Z :=
    match sfind m k with
    | None => (mk_sout m [] false, 0)
    | Some i =>
        match nth_error m i with
        | None => (mk_sout m [] false, 0)
        | Some e =>
            let m1 := firstn i m ++ (fst e, dec (snd e)) :: skipn (S i) m in
            if dec (snd e) =? 0 then
              if throws then (mk_sout m1 [SRemoved (fst e)] true, 0)
              else (mk_sout (firstn i m1 ++ skipn (S i) m1) [SRemoved (fst e)] false, 1)
            else (mk_sout m1 [] false, 1)
        end
    end.
  (** 81-90 *)
  Definition serase_iter (m : list sentry) (i : nat) (throws : bool) : sout (list sentry) :=
    match nth_error m i with
    | None => mk_sout m [] false
    | Some e =>
        let m1 := firstn i m ++ (fst e, dec (snd e)) :: skipn (S i) m in
        if 0 <? dec (snd e) then mk_sout m1 [] false
        else if throws then mk_sout m1 [SRemoved (fst e)] true
        else mk_sout (firstn i m1 ++ skipn (S i) m1) [SRemoved (fst e)] false
    end.
  (** 92-98 *)
  Definition sclear (m : list sentry) (throws : option nat) : sout (list sentry) :=
    match throws with
    | Some n => if Nat.ltb n (length m) then mk_sout m (map (fun e => SRemoved (fst e)) (firstn (S n) m)) true
                else mk_sout [] (map (fun e => SRemoved (fst e)) m) false
    | None => mk_sout [] (map (fun e => SRemoved (fst e)) m) false
    end.
End RefCounting.
Arguments mk_out {K V S R}.

(** ** RefCountingValue.h and RefCounter.h *)
Section One.
  Variable V : Type.
  Inductive vcall := VSet (v : V) | VReleased (v : V).
  (** 20-24 *)
  Record rval := mk_rval { refs : Z; value : option V }.
  Definition rval0 : rval := mk_rval 0 None.
  (** 29-37; None: doSetFunc throws *)
  Definition vset (s : rval) (mk : option V) : rval * list vcall * bool :=
    if refs s =? 0 then
      match mk with
      | None => (s, [], true)
      | Some v => (mk_rval (inc (refs s)) (Some v), [VSet v], false)
      end
    else (mk_rval (inc (refs s)) (value s), [], false).
  (** 45-58 *)
  Definition vrelease (s : rval) (throws : bool) : rval * list vcall * bool * bool :=
    if refs s =? 0 then (s, [], false, false)
    else if dec (refs s) =? 0 then
      let c := match value s with Some v => [VReleased v] | None => [] end in
      if throws then (mk_rval 0 (value s), c, true, false) else (mk_rval 0 None, c, false, true)
    else (mk_rval (dec (refs s)) (value s), [], false, true).
  (** 60-70 *)
  Definition vreset (s : rval) (throws : bool) : rval * list vcall * bool :=
    if refs s =? 0 then (s, [], false)
    else
      let c := match value s with Some v => [VReleased v] | None => [] end in
      if throws then (mk_rval 0 (value s), c, true) else (mk_rval 0 None, c, false).
End One.

Inductive ccall := CSet | CReleased.
(** RefCounter.h:27-34 *)
Definition cset (n : Z) (throws : bool) : Z * list ccall * bool :=
  if n =? 0 then (if throws then (n, [], true) else (inc n, [CSet], false)) else (inc n, [], false).
(** RefCounter.h:36-46 *)
Definition crelease (n : Z) (throws : bool) : Z * list ccall * bool * bool :=
  if n =? 0 then (n, [], false, false)
  else if dec n =? 0 then (if throws then (0, [CReleased], true, false) else (0, [CReleased], false, true))
  else (dec n, [], false, true).
(** RefCounter.h:48-55 *)
Definition creset (n : Z) (throws : bool) : Z * list ccall * bool :=
  if n =? 0 then (0, [], false)
  else if throws then (n, [CReleased], true) else (0, [CReleased], false).

(** ** bimap.h over std::map or std::multimap on either side (order left out) *)
Section Bimap.
  Variables L R : Type.
  Variable leq : L -> L -> bool.      (* the same key *)
  Variable req : R -> R -> bool.
  Variables lmulti rmulti : bool.     (* multimap? *)

  Record bimap := mk_bimap { lmap : list (L * R); rmap : list (R * L) }.

  Definition ins {A B} (eq : A -> A -> bool) (multi : bool) (m : list (A * B)) (k : A) (v : B) : list (A * B) :=
    if multi then m ++ [(k, v)] else if existsb (fun e => eq k (fst e)) m then m else m ++ [(k, v)].
  Definition del {A B} (eq : A -> A -> bool) (m : list (A * B)) (k : A) : list (A * B) :=
    filter (fun e => negb (eq k (fst e))) m.
  Fixpoint first_of {A B} (eq : A -> A -> bool) (m : list (A * B)) (k : A) : option nat :=
    match m with [] => None | e :: m' => if eq k (fst e) then Some 0%nat else option_map S (first_of eq m' k) end.

  (** 46-50 *)
  Definition left_insert (b : bimap) (l : L) (r : R) : bimap :=
    mk_bimap (ins leq lmulti (lmap b) l r) (ins req rmulti (rmap b) r l).
  Definition right_insert (b : bimap) (r : R) (l : L) : bimap :=
    mk_bimap (ins leq lmulti (lmap b) l r) (ins req rmulti (rmap b) r l).
  (** 52-60 *)
  Definition left_erase_iter (b : bimap) (i : nat) : bimap :=
    match nth_error (lmap b) i with
    | None => b
    | Some e => mk_bimap (firstn i (lmap b) ++ skipn (S i) (lmap b)) (del req (rmap b) (snd e))
    end.
  Definition right_erase_iter (b : bimap) (i : nat) : bimap :=
    match nth_error (rmap b) i with
    | None => b
    | Some e => mk_bimap (del leq (lmap b) (snd e)) (firstn i (rmap b) ++ skipn (S i) (rmap b))
    end.
  (** 62-66 *)
  Definition left_erase (b : bimap) (l : L) : bimap :=
    match first_of leq (lmap b) l with Some i => left_erase_iter b i | None => b end.
  Definition right_erase (b : bimap) (r : R) : bimap :=
    match first_of req (rmap b) r with Some i => right_erase_iter b i | None => b end.
  (** 74-76 *)
  Definition bsize (b : bimap) : nat := length (lmap b).
  Definition bempty (b : bimap) : bool := match lmap b with [] => true | _ => false end.
  Definition bclear (b : bimap) : bimap := mk_bimap [] [].
End Bimap.
