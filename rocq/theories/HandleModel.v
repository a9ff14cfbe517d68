(** * Model of the scope guards: unique_ptr, ScopedHolder, SharedHolder, ScopeExitInvoker, ActionTransaction, MultiToken
    Callbacks may throw: the n-th call of a callback throws when [thr n] says so. Functions return what they did to the
    object, the calls they made, and whether they threw. *)
From Coq Require Import List Arith Bool Lia.
Import ListNotations.

(** what a call gives back: a value or nothing, or an exception *)
Inductive outcome (V : Type) := Done (v : option V) | Threw.
Arguments Done {V} v.
Arguments Threw {V}.

(** ** ScopedHolder (Holder.h 16-64); with V = unit it is ScopedHolder<void> (67-93), which has no Get and Release *)
Section Holder.
  Context {V : Type}.
  Variable thr : nat -> bool.

  (** _handle (27), uninitialised after the first constructor; _valid (29) *)
  Record holder := Holder { handle : option V; valid : bool }.
  Definition hcalls := list (V * bool).               (* calls of _cleanupFunc in order, and whether they threw *)

  (** the constructors (32-38) *)
  Definition holder_new (v : option V) : holder := match v with Some x => Holder (Some x) true | None => Holder None false end.

  (** Cleanup (58-63): when the function throws, _valid stays *)
  Definition cleanup (h : holder) (c : hcalls) : holder * hcalls * bool :=
    match valid h, handle h with
    | true, Some x => if thr (length c) then (h, c ++ [(x, true)], true) else (Holder (Some x) false, c ++ [(x, false)], false)
    | _, _ => (Holder (handle h) false, c, false)
    end.

  Inductive hop := HSet (x : V) | HClear | HRelease | HGet.

  Definition hstep (h : holder) (c : hcalls) (o : hop) : holder * hcalls * outcome V :=
    match o with
    (* Set (49-54) *)
    | HSet x => let '(h', c', t) := cleanup h c in if t then (h', c', Threw) else (Holder (Some x) true, c', Done None)
    (* Clear (46-47) *)
    | HClear => let '(h', c', t) := cleanup h c in (h', c', if t then Threw else Done None)
    (* Release (44) *)
    | HRelease => if valid h then (Holder (handle h) false, c, Done (handle h)) else (h, c, Threw)
    (* Get (43) *)
    | HGet => if valid h then (h, c, Done (handle h)) else (h, c, Threw)
    end.

  Fixpoint hrun (h : holder) (c : hcalls) (l : list hop) : holder * hcalls * list (outcome V) :=
    match l with
    | [] => (h, c, [])
    | o :: r => let '(h', c', x) := hstep h c o in let '(h'', c'', xs) := hrun h' c' r in (h'', c'', x :: xs)
    end.

  (** a whole life: construction, calls, and ~ScopedHolder (40), which swallows exceptions *)
  Definition hlife (v : option V) (l : list hop) : hcalls * list (outcome V) :=
    let '(h, c, xs) := hrun (holder_new v) [] l in let '(_, c', _) := cleanup h c in (c', xs).

  (** SharedHolder (97-130): copies share one ScopedHolder, which is destroyed with the last copy (shared_ptr: C33) *)
  Inductive shop := SCopy | SDrop | SOp (o : hop).
  Record shared := Shared { copies : nat; impl : holder }.
  Definition shstep (s : shared) (c : hcalls) (o : shop) : shared * hcalls * outcome V :=
    match o, copies s with
    | _, 0 => (s, c, Threw)
    | SCopy, S n => (Shared (S (S n)) (impl s), c, Done None)
    | SDrop, 1 => let '(h, c', _) := cleanup (impl s) c in (Shared 0 h, c', Done None)
    | SDrop, S n => (Shared n (impl s), c, Done None)
    | SOp x, S n => let '(h, c', r) := hstep (impl s) c x in (Shared (S n) h, c', r)
    end.
  Fixpoint shrun (s : shared) (c : hcalls) (l : list shop) : shared * hcalls * list (outcome V) :=
    match l with
    | [] => (s, c, [])
    | o :: r => let '(s', c', x) := shstep s c o in let '(s'', c'', xs) := shrun s' c' r in (s'', c'', x :: xs)
    end.
End Holder.

(** ** ScopeExitInvoker (ScopeExit.h 62-90): calls, then the destructor; how often the function was called *)
Inductive sxop := SXCancel.
Definition sx_life (l : list sxop) : nat :=
  let func := fold_left (fun (f : bool) o => match o with SXCancel => false end) l true in
  if func then 1 else 0.

(** ** ActionTransaction (ActionTransaction.cpp) over a world S: actions and rollbacks change it, and may throw *)
Section Transaction.
  Context {S : Type}.
  Record func := Func { fid : nat; body : S -> S * bool }.
  (** _rollbackSequence, _active (ActionTransaction.h 32-33) *)
  Record tx := Tx { seq : list func; active : bool }.
  Definition tx_new : tx := Tx [] true.                                            (* 16-18 *)
  Definition tlog := list (nat * bool).                                            (* the rollbacks called, and whether they threw *)
  Inductive top := TExecute (a r : func) | TCommit | TRollback.

  (** the loop of Rollback (50-51) *)
  Fixpoint undo (l : list func) (s : S) : S * tlog * bool :=
    match l with
    | [] => (s, [], false)
    | f :: r => let '(s', t) := body f s in
      if t then (s', [(fid f, true)], true)
      else let '(s'', g, t') := undo r s' in (s'', (fid f, false) :: g, t')
    end.

  Definition tstep (x : tx) (s : S) (o : top) : tx * S * tlog * bool :=
    if active x then
      match o with
      (* Execute (28-35); running out of memory in push_back is not modelled *)
      | TExecute a r => let '(s', t) := body a s in if t then (x, s', [], true) else (Tx (seq x ++ [r]) true, s', [], false)
      (* Commit (38-43) *)
      | TCommit => (Tx (seq x) false, s, [], false)
      (* Rollback (46-54) *)
      | TRollback => let '(s', g, t) := undo (rev (seq x)) s in if t then (x, s', g, true) else (Tx (seq x) false, s', g, false)
      end
    else (x, s, [], true).

  Fixpoint trun (x : tx) (s : S) (l : list top) : tx * S * tlog * list bool :=
    match l with
    | [] => (x, s, [], [])
    | o :: r => let '(x', s', g, t) := tstep x s o in let '(x'', s'', g', ts) := trun x' s' r in (x'', s'', g ++ g', t :: ts)
    end.
  (** a whole life; ~ActionTransaction (21-25) rolls back when still active and swallows exceptions *)
  Definition tlife (s : S) (l : list top) : S * tlog * list bool :=
    let '(x, s', g, ts) := trun tx_new s l in
    if active x then let '(_, s'', g', _) := tstep x s' TRollback in (s'', g ++ g', ts) else (s', g, ts).
End Transaction.
Arguments func S : clear implicits.
Arguments tx S : clear implicits.
Arguments top S : clear implicits.

(** ** Tokens: a FunctionToken (FunctionToken.h 20-34) with its function, or a MultiToken (MultiToken.h 22-51) with its tokens, moved in *)
Inductive tok := Fn (id : nat) | Multi (forward : bool) (tokens : list tok).
(** the destructors: which functions are called, in order. FunctionToken swallows exceptions (33); MultiToken pops one token after the
    other (35-44), from the front or from the back *)
Fixpoint tdestroy (t : tok) : list nat :=
  match t with
  | Fn id => [id]
  | Multi true l => fold_right (fun t acc => tdestroy t ++ acc) [] l
  | Multi false l => fold_left (fun acc t => tdestroy t ++ acc) l []
  end.
(** MultiTokenBuilderBase (20-70): _token is empty once it has been turned into a Token *)
Definition builder := option (list tok).
Inductive bop := BAdd (t : tok) | BToken.
Definition bstep (forward : bool) (b : builder) (o : bop) : builder * outcome tok :=
  match b, o with
  | None, _ => (None, Threw)                                                       (* STINGRAYKIT_REQUIRE_NOT_NULL (63, 66, 69) *)
  | Some l, BAdd t => (Some (l ++ [t]), Done None)                                 (* 62-66 *)
  | Some l, BToken => (None, Done (Some (Multi forward l)))                        (* 68-69 *)
  end.
Fixpoint brun (forward : bool) (b : builder) (l : list bop) : builder * list (outcome tok) :=
  match l with
  | [] => (b, [])
  | o :: r => let '(b', x) := bstep forward b o in let '(b'', xs) := brun forward b' r in (b'', x :: xs)
  end.

(** ** unique_ptr (unique_ptr.h 26-102). Variables are unique_ptr's (members of objects too: an object's destructor resets them); raws are
    pointers taken out by release(). A destructor may use any variables: any operation may start while a delete runs. *)
Definition uptr := option nat.
Inductive umicro := UDelete (o : nat) | UStore (i : nat) (p : uptr).
Record ustate := U { uvars : list uptr; raws : list nat; made : nat; udeleted : list nat; utodo : list umicro }.

Definition uset (l : list uptr) (i : nat) (p : uptr) : list uptr := if i <? length l then firstn i l ++ p :: skipn (S i) l else l.
Definition uvar (s : ustate) (i : nat) : uptr := nth i (uvars s) None.
(** CheckedDelete of a null pointer does nothing *)
Definition delete_of (p : uptr) : list umicro := match p with Some o => [UDelete o] | None => [] end.
(** reset (93-97): the old object is deleted before the new pointer is stored *)
Definition reset_code (s : ustate) (i : nat) (p : uptr) : list umicro := delete_of (uvar s i) ++ [UStore i p].

Inductive uop :=
  | UMake (i : nat)                  (* vars[i] = make_unique_ptr<T>() (211-213, 53-57) *)
  | UMove (i j : nat)                (* vars[i] = std::move(vars[j]) (53-57), or the move constructor (43) when vars[i] is null *)
  | UReset (i : nat)                 (* vars[i].reset() (93-97), ~unique_ptr (50-51) *)
  | URelease (i : nat)               (* vars[i].release() (83-88): the raw pointer is kept *)
  | UAdopt (i : nat) (o : nat)       (* vars[i].reset(raw), a raw pointer got from release() *)
  | USwap (i j : nat)                (* 90-91 *)
  | UResetGet (i : nat).             (* vars[i].reset(vars[i].get()) *)

(** an operation starts when nothing is under way, or inside a destructor (a store is then waiting for the delete to end) *)
Definition running (s : ustate) : bool := match utodo s with UDelete _ :: _ => false | _ => true end.

Definition ustart (s : ustate) (c : uop) : option ustate :=
  if negb (running s) then None else
  let push v r m d t := Some (U v r m d (t ++ utodo s)) in
  let n := length (uvars s) in
  match c with
  | UMake i => if i <? n then push (uvars s) (raws s) (S (made s)) (udeleted s) (reset_code s i (Some (made s))) else None
  | UMove i j => if (i <? n) && (j <? n) then
      let p := uvar s j in                                   (* other.release() *)
      let s1 := U (uset (uvars s) j None) (raws s) (made s) (udeleted s) (utodo s) in
      Some (U (uvars s1) (raws s) (made s) (udeleted s) (reset_code s1 i p ++ utodo s))
    else None
  | UReset i => if i <? n then push (uvars s) (raws s) (made s) (udeleted s) (reset_code s i None) else None
  | URelease i => if i <? n then
      push (uset (uvars s) i None) (match uvar s i with Some o => o :: raws s | None => raws s end) (made s) (udeleted s) []
    else None
  | UAdopt i o => if (i <? n) && existsb (Nat.eqb o) (raws s) then
      push (uvars s) (remove Nat.eq_dec o (raws s)) (made s) (udeleted s) (reset_code s i (Some o))
    else None
  | USwap i j => if (i <? n) && (j <? n) then
      push (uset (uset (uvars s) i (uvar s j)) j (uvar s i)) (raws s) (made s) (udeleted s) []
    else None
  | UResetGet i => if i <? n then push (uvars s) (raws s) (made s) (udeleted s) (reset_code s i (uvar s i)) else None
  end.

Definition ustep (s : ustate) : option ustate :=
  match utodo s with
  | [] => None
  | UDelete o :: r => Some (U (uvars s) (raws s) (made s) (udeleted s ++ [o]) r)
  | UStore i p :: r => Some (U (uset (uvars s) i p) (raws s) (made s) (udeleted s) r)
  end.
Definition uinitial (n : nat) : ustate := U (repeat None n) [] 0 [] [].
