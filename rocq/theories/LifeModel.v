(** Model of the lifetimes in variant.h, optional.h, any.h/any.cpp and aligned_storage.h (StorageFor).

    A place is the raw storage of one container; it holds no object, or one of a given type with a value.  Using a place as an object of
    a type that is not alive there (reading, moving from, destroying) is undefined behaviour: [Bad].  Constructing over a living object,
    or giving up a container whose storage still holds one, loses that object: it is recorded in [lost].  A constructor or assignment of
    an item may throw; which exception it throws is the argument [x] of the operation.  Destructors do not throw (they are noexcept, and
    variant.h:199 terminates otherwise).  STINGRAYKIT_FATAL terminates the program: [Abort]. *)
From Verif Require Import Base.

Definition place := nat.
Definition tag := nat.
Inductive exn := StdException | OtherException.
Inductive res (S A : Type) := Ok (a : A) (s : S) | Throw (e : exn) (s : S) | Abort | Bad.
Arguments Ok {S A}. Arguments Throw {S A}. Arguments Abort {S A}. Arguments Bad {S A}.
Definition M (S A : Type) := S -> res S A.
Definition ret {S A} (a : A) : M S A := fun s => Ok a s.
Definition bind {S A B} (m : M S A) (f : A -> M S B) : M S B :=
  fun s => match m s with Ok a s' => f a s' | Throw e s' => Throw e s' | Abort => Abort | Bad => Bad end.
Notation "x <- m ;; f" := (bind m (fun x => f)) (at level 60, m at level 59, right associativity).
Notation "m ;;; f" := (bind m (fun _ => f)) (at level 60, right associativity).
Definition bad {S A} : M S A := fun _ => Bad.
Definition throw {S A} (e : exn) : M S A := fun s => Throw e s.
(** catch (const std::exception&) { handler; } *)
Definition catch_std {S A} (m : M S A) (h : M S A) : M S A := fun s => match m s with Throw StdException s' => h s' | r => r end.
Definition upd {A : Type} (f : nat -> A) (p : nat) (a : A) : nat -> A := fun q => if q =? p then a else f q.

(** The storage of all containers of a program; [kind]: the containers' own fields (which(), _initialized, any's type) *)
Record st := { mem : place -> option (tag * Z); kind : place -> nat; alive : place -> bool; heap : nat -> option (tag * Z); ptr : place -> nat;
               data : place -> Z; next : nat; lost : list (tag * Z) }.
Definition set_mem (s : st) m := {| mem := m; kind := kind s; alive := alive s; heap := heap s; ptr := ptr s; data := data s; next := next s; lost := lost s |}.
Definition set_kind (s : st) k := {| mem := mem s; kind := k; alive := alive s; heap := heap s; ptr := ptr s; data := data s; next := next s; lost := lost s |}.
Definition set_alive (s : st) a := {| mem := mem s; kind := kind s; alive := a; heap := heap s; ptr := ptr s; data := data s; next := next s; lost := lost s |}.
Definition set_heap (s : st) h n := {| mem := mem s; kind := kind s; alive := alive s; heap := h; ptr := ptr s; data := data s; next := n; lost := lost s |}.
Definition set_ptr (s : st) f := {| mem := mem s; kind := kind s; alive := alive s; heap := heap s; ptr := f; data := data s; next := next s; lost := lost s |}.
Definition set_data (s : st) f := {| mem := mem s; kind := kind s; alive := alive s; heap := heap s; ptr := ptr s; data := f; next := next s; lost := lost s |}.
Definition set_lost (s : st) l := {| mem := mem s; kind := kind s; alive := alive s; heap := heap s; ptr := ptr s; data := data s; next := next s; lost := l |}.

Definition get_kind (p : place) : M st nat := fun s => Ok (kind s p) s.
Definition put_kind (p : place) (k : nat) : M st unit := fun s => Ok tt (set_kind s (upd (kind s) p k)).

(** aligned_storage.h:150-152: the object exists once its constructor has returned *)
Definition ctor (p : place) (t : tag) (v : Z) (x : option exn) : M st unit :=
  fun s => match x with
           | Some e => Throw e s
           | None => let s' := match mem s p with Some o => set_lost s (o :: lost s) | None => s end in Ok tt (set_mem s' (upd (mem s') p (Some (t, v))))
           end.
(** 154-155 *)
Definition dtor (p : place) (t : tag) : M st unit :=
  fun s => match mem s p with Some (t', _) => if t' =? t then Ok tt (set_mem s (upd (mem s) p None)) else Bad | None => Bad end.
(** 157-158, and the object is read *)
Definition ref (p : place) (t : tag) : M st Z :=
  fun s => match mem s p with Some (t', v) => if t' =? t then Ok v s else Bad | None => Bad end.
(** ... or written *)
Definition set_ref (p : place) (t : tag) (v : Z) : M st unit :=
  fun s => match mem s p with Some (t', _) => if t' =? t then Ok tt (set_mem s (upd (mem s) p (Some (t, v)))) else Bad | None => Bad end.
(** the storage of a container goes away *)
Definition give_up (p : place) : M st unit :=
  fun s => let s' := match mem s p with Some o => set_lost s (o :: lost s) | None => s end in
           Ok tt (set_alive (set_mem s' (upd (mem s') p None)) (upd (alive s') p false)).
Definition take_up (p : place) : M st unit := fun s => Ok tt (set_alive s (upd (alive s) p true)).

(** what an item's argument is: a value, an item in another container, or such an item as an rvalue *)
Inductive src := SVal (v : Z) | SRef (q : place) (t : tag) | SMove (q : place) (t : tag).
Section Items.
  (** the value of a moved-from object *)
  Variable moved : tag -> Z -> Z.
  Definition read_src (a : src) : M st Z :=
    match a with
    | SVal v => ret v
    | SRef q t => ref q t
    | SMove q t => v <- ref q t ;; set_ref q t (moved t v) ;;; ret v
    end.
  (** constructing an item from its argument: a throwing constructor may already have moved from it *)
  Definition make (p : place) (t : tag) (a : src) (x : option exn) : M st unit := v <- read_src a ;; ctor p t v x.

  (* ---------------------------------------------------------------- variant *)
  Section Variant.
    (** number of types; the position of EmptyType, if it is among them *)
    Variable types : nat.
    Variable empty : option tag.
    (** variant.h:66-81: the functor is called for the index that is held *)
    Definition with_type (p : place) (f : tag -> M st unit) : M st unit :=
      fun s => if kind s p <? types then f (kind s p) s else Abort.
    (** 196-200, 214 *)
    Definition destruct_item (p : place) : M st unit := with_type p (dtor p).
    (** 532-536 *)
    Definition assign_default (e : tag) (p : place) : M st unit := ctor p e 0%Z None ;;; put_kind p e.
    (** 379-384 and 519-530: a never-empty variant terminates, another becomes empty, if a std::exception is thrown *)
    Definition assign_val (p : place) (t : tag) (a : src) (x : option exn) : M st unit :=
      match empty with
      | None => catch_std (make p t a x) (fun _ => Abort) ;;; put_kind p t
      | Some e => catch_std (make p t a x ;;; put_kind p t) (assign_default e p ;;; throw StdException)
      end.
    (** 386-399, 401-418, 538-570 *)
    Definition assign_from (p q : place) (x : option exn) : M st unit := with_type q (fun t => assign_val p t (SRef q t) x).
    Definition assign_move (p q : place) (x : option exn) : M st unit := with_type q (fun t => assign_val p t (SMove q t) x).
    (** 370-376, 506-517 *)
    Definition emplace (p : place) (t : tag) (a : src) (x : option exn) : M st unit := destruct_item p ;;; assign_val p t a x.

    Inductive vop :=
    | VNew (p : place) (x : option exn) | VNewVal (p : place) (t : tag) (a : src) (x : option exn) | VNewCopy (p q : place) (x : option exn) | VNewMove (p q : place) (x : option exn)
    | VDelete (p : place)
    | VCopy (p q : place) (x : option exn) | VMove (p q : place) (x : option exn) | VAssign (p : place) (t : tag) (a : src) (x : option exn)
    | VEmplace (p : place) (t : tag) (a : src) (x : option exn).
    (** 294-295, 430-431: the default is the first type, or EmptyType *)
    Definition default_tag : tag := match empty with Some e => e | None => 0 end.
    (** a constructor that throws leaves no container: its storage is given up without a destructor call (the language) *)
    Definition constructing (p : place) (m : M st unit) : M st unit :=
      fun s => match m s with Ok _ s' => take_up p s' | Throw e s' => match give_up p s' with Ok _ s'' => Throw e s'' | r => r end | r => r end.
    Definition vstep (o : vop) : M st unit :=
      match o with
      | VNew p x => constructing p (match empty with Some e => assign_default e p | None => assign_val p 0 (SVal 0%Z) x end)
      | VNewVal p t a x => constructing p (assign_val p t a x)
      | VNewCopy p q x => constructing p (assign_from p q x)
      | VNewMove p q x => constructing p (assign_move p q x)
      | VDelete p => destruct_item p ;;; give_up p                       (* 307-308, 443-444 *)
      | VCopy p q x => destruct_item p ;;; assign_from p q x             (* 310-314, 446-450 *)
      | VMove p q x => destruct_item p ;;; assign_move p q x             (* 316-320, 452-456 *)
      | VAssign p t a x => destruct_item p ;;; assign_val p t a x        (* 322-327, 458-463 *)
      | VEmplace p t a x => emplace p t a x
      end.
  End Variant.

  (* ---------------------------------------------------------------- optional *)
  (** _initialized is kind = 1; the only type is 0 *)
  Definition o_reset (p : place) : M st unit :=                          (* 344-351 *)
    k <- get_kind p ;; if k =? 1 then put_kind p 0 ;;; dtor p 0 else ret tt.
  (** 353-365: T's assignment operator may throw too *)
  Definition o_assign (p : place) (a : src) (x : option exn) : M st unit :=
    k <- get_kind p ;;
    if k =? 1 then v <- read_src a ;; match x with Some e => throw e | None => set_ref p 0 v end
    else make p 0 a x ;;; put_kind p 1.
  Definition o_assign_from (p q : place) (mv : bool) (x : option exn) : M st unit :=      (* 64-80 *)
    k <- get_kind q ;; if k =? 1 then o_assign p (if mv then SMove q 0 else SRef q 0) x else o_reset p.
  Definition o_emplace (p : place) (a : src) (x : option exn) : M st unit := o_reset p ;;; make p 0 a x ;;; put_kind p 1.   (* 387-394 *)
  (** 323-342; std::swap of the items: one move construction of a temporary and two move assignments, taken as one step *)
  Definition o_swap (p q : place) : M st unit :=
    kp <- get_kind p ;; kq <- get_kind q ;;
    if kp =? 1 then
      if kq =? 1 then a <- ref p 0 ;; b <- ref q 0 ;; set_ref p 0 b ;;; set_ref q 0 a
      else o_assign q (SMove p 0) None ;;; o_reset p
    else if kq =? 1 then o_assign p (SMove q 0) None ;;; o_reset q
    else ret tt.
  Inductive oop :=
  | ONew (p : place) | ONewVal (p : place) (a : src) (x : option exn) | ONewFrom (p q : place) (mv : bool) (x : option exn) | ODelete (p : place)
  | OFrom (p q : place) (mv : bool) (x : option exn) | OAssign (p : place) (a : src) (x : option exn) | OReset (p : place)
  | OEmplace (p : place) (a : src) (x : option exn) | OSwap (p q : place).
  Definition ostep (o : oop) : M st unit :=
    match o with
    | ONew p => constructing p (put_kind p 0)                                                                 (* 109-113 *)
    | ONewVal p a x => constructing p (put_kind p 1 ;;; make p 0 a x)                                         (* 115-135 *)
    | ONewFrom p q mv x => constructing p (k <- get_kind q ;; put_kind p (if k =? 1 then 1 else 0) ;;;        (* 50-62 *)
        if k =? 1 then make p 0 (if mv then SMove q 0 else SRef q 0) x else ret tt)
    | ODelete p => o_reset p ;;; give_up p                                                                   (* 160 *)
    | OFrom p q mv x => o_assign_from p q mv x
    | OAssign p a x => o_assign p a x
    | OReset p => o_reset p
    | OEmplace p a x => o_emplace p a x
    | OSwap p q => o_swap p q
    end.

  (* ---------------------------------------------------------------- any *)
  (** kind: 0 Empty, 1 a scalar (kept in [data]), 2 String (in place, tag 0), 3 an object on the heap through [ptr] *)
  Definition new_object (t : tag) (v : Z) (x : option exn) : M st nat :=
    fun s => match x with Some e => Throw e s | None => Ok (next s) (set_heap s (upd (heap s) (next s) (Some (t, v))) (S (next s))) end.
  Definition delete_object (n : nat) : M st unit :=
    fun s => match heap s n with Some _ => Ok tt (set_heap s (upd (heap s) n None) (next s)) | None => Bad end.
  Definition get_ptr (p : place) : M st nat := fun s => Ok (ptr s p) s.
  Definition put_ptr (p : place) (n : nat) : M st unit := fun s => Ok tt (set_ptr s (upd (ptr s) p n)).
  Definition get_data (p : place) : M st Z := fun s => Ok (data s p) s.
  Definition put_data (p : place) (v : Z) : M st unit := fun s => Ok tt (set_data s (upd (data s) p v)).
  Definition heap_ref (n : nat) : M st (tag * Z) := fun s => match heap s n with Some o => Ok o s | None => Bad end.

  (** any.cpp:101-117 *)
  Definition a_destroy (p : place) : M st unit :=
    k <- get_kind p ;;
    (if k =? 2 then dtor p 0 else if k =? 3 then n <- get_ptr p ;; delete_object n else ret tt) ;;;
    put_kind p 0.
  (** what is put into an any: a scalar, a string, another object; from a value, or from what this any holds (any_cast<T&>(a)) *)
  Inductive item := IScalar (v : Z) | IString (v : Z) | IObject (t : tag) (v : Z) | IOwn (p : place).
  (** any.h:320-327 with 216-243: the type is stored first *)
  Definition a_init (p : place) (i : item) (x : option exn) : M st unit :=
    match i with
    | IScalar v => put_kind p 1 ;;; put_data p v
    | IString v => put_kind p 2 ;;; ctor p 0 v x
    | IObject t v => put_kind p 3 ;;; n <- new_object t v x ;; put_ptr p n
    | IOwn _ => ret tt
    end.
  (** any.cpp:27-61: the type is stored last; STINGRAYKIT_ASSERT(_type == Empty) terminates *)
  Definition a_copy (p q : place) (x : option exn) : M st unit :=
    k0 <- get_kind p ;; if negb (k0 =? 0) then fun _ => Abort else
    k <- get_kind q ;;
    (if k =? 2 then v <- ref q 0 ;; ctor p 0 v x
     else if k =? 3 then n <- get_ptr q ;; o <- heap_ref n ;; m <- new_object (fst o) (snd o) x ;; put_ptr p m
     else v <- get_data q ;; put_data p v) ;;;
    k' <- get_kind q ;; put_kind p k'.
  (** 64-98: an object's pointer is taken over, a string is move-constructed, and then the types are swapped *)
  Definition a_move (p q : place) : M st unit :=
    k0 <- get_kind p ;; if negb (k0 =? 0) then fun _ => Abort else
    k <- get_kind q ;;
    (if k =? 2 then v <- ref q 0 ;; set_ref q 0 (moved 0 v) ;;; ctor p 0 v None
     else if k =? 3 then n <- get_ptr q ;; put_ptr p n
     else v <- get_data q ;; put_data p v) ;;;
    a <- get_kind p ;; b <- get_kind q ;; put_kind p b ;;; put_kind q a.
  Inductive aop :=
  | ANew (p : place) | ANewVal (p : place) (i : item) (x : option exn) | ANewCopy (p q : place) (x : option exn) | ANewMove (p q : place) | ADelete (p : place)
  | ACopy (p q : place) (x : option exn) | AMove (p q : place) | AAssign (p : place) (i : item) (x : option exn).
  (** the argument of operator = (T&&) is a reference: it is bound before Destroy and read after it *)
  Inductive bound := BVal (i : item) | BScalar (q : place) | BString (q : place) | BObject (n : nat) | BNone.
  Definition a_bind (i : item) : M st bound :=
    match i with
    | IOwn q => k <- get_kind q ;;
        if k =? 1 then ret (BScalar q) else if k =? 2 then ret (BString q) else if k =? 3 then n <- get_ptr q ;; ret (BObject n) else ret BNone
    | _ => ret (BVal i)
    end.
  (** any_cast of an empty any throws before the assignment begins *)
  Definition a_arg (b : bound) : M st item :=
    match b with
    | BVal i => ret i
    | BScalar q => v <- get_data q ;; ret (IScalar v)
    | BString q => v <- ref q 0 ;; ret (IString v)
    | BObject n => o <- heap_ref n ;; ret (IObject (fst o) (snd o))
    | BNone => throw StdException
    end.
  Definition astep (o : aop) : M st unit :=
    match o with
    | ANew p => constructing p (put_kind p 0)                                               (* any.h:272 *)
    | ANewVal p i x => constructing p (b <- a_bind i ;; put_kind p 0 ;;; j <- a_arg b ;; a_init p j x)       (* 281-283 *)
    | ANewCopy p q x => constructing p (put_kind p 0 ;;; a_copy p q x)                      (* 275-276 *)
    | ANewMove p q => constructing p (put_kind p 0 ;;; a_move p q)                          (* 278-279 *)
    | ADelete p => a_destroy p ;;; give_up p                                                (* 285 *)
    | ACopy p q x => a_destroy p ;;; a_copy p q x                                           (* 288-293 *)
    | AMove p q => a_destroy p ;;; a_move p q                                               (* 295-300 *)
    | AAssign p i x => b <- a_bind i ;; match b with BNone => throw StdException | _ => a_destroy p ;;; j <- a_arg b ;; a_init p j x end    (* 302-308 *)
    end.
End Items.
