(** * Comparers: compare/comparers.h, CollectionComparer.h, MemberListComparer.h, Comparable.h,
      string/Comparers.h, optional.h, variant.h and the operator macros of toolkit.h

    Simplifications.  A C++ reference is an address into a heap [h : nat -> A], so that the
    shortcut [&lhs == &rhs] of the code is an address test and two references with equal addresses
    necessarily read equal values.  [int] is [Z]; the one place where its range can matter (the
    unary minus of OptionalCmp) has its own definition over 32-bit ints.  Overload resolution
    (which of [DoCompareImpl] is chosen) is by the two constructors of [cls]. *)

From Coq Require Import ZArith List Bool Arith Lia Eqdep_dec.
Import ListNotations.
Local Open Scope Z_scope.

(** ** The basic comparers on a reference *)

(** comparers.h:204-218 / 239-247 / 268-276 / 297-305: the overloads of DoCompareImpl are chosen by
    what the class offers: a member [Compare] (preferred, the [int] overload), else [operator <]
    and [operator ==]. *)
Inductive cls (A : Type) : Type :=
| HasCompare : (A -> A -> Z) -> cls A
| HasLess : (A -> A -> bool) -> (A -> A -> bool) -> cls A.   (* operator <, operator == *)
Arguments HasCompare {A} _.
Arguments HasLess {A} _ _.

(** comparers.h:204-218 Cmp::DoCompareImpl *)
Definition cmp_impl {A} (k : cls A) (l r : A) : Z :=
  match k with
  | HasCompare c => c l r
  | HasLess lt _ => if lt l r then -1 else if lt r l then 1 else 0
  end.

(** comparers.h:239-247 Less::DoCompareImpl *)
Definition less_impl {A} (k : cls A) (l r : A) : bool :=
  match k with
  | HasCompare c => c l r <? 0
  | HasLess lt _ => lt l r
  end.

(** comparers.h:268-276 Equals::DoCompareImpl *)
Definition equals_impl {A} (k : cls A) (l r : A) : bool :=
  match k with
  | HasCompare c => c l r =? 0
  | HasLess _ eq => eq l r
  end.

(** comparers.h:297-305 Greater::DoCompareImpl *)
Definition greater_impl {A} (k : cls A) (l r : A) : bool :=
  match k with
  | HasCompare c => c l r >? 0
  | HasLess lt _ => lt r l
  end.

(** comparers.h:225-232 Cmp::DoCompare, 254-261 Less::DoCompare, 283-290 Equals::DoCompare,
    312-319 Greater::DoCompare: the address shortcut, then the implementation on the values. *)
Definition cmp_do {A} (h : nat -> A) (k : cls A) (l r : nat) : Z :=
  if Nat.eqb l r then 0 else cmp_impl k (h l) (h r).
Definition less_do {A} (h : nat -> A) (k : cls A) (l r : nat) : bool :=
  if Nat.eqb l r then false else less_impl k (h l) (h r).
Definition equals_do {A} (h : nat -> A) (k : cls A) (l r : nat) : bool :=
  if Nat.eqb l r then true else equals_impl k (h l) (h r).
Definition greater_do {A} (h : nat -> A) (k : cls A) (l r : nat) : bool :=
  if Nat.eqb l r then false else greater_impl k (h l) (h r).

(** ** shared_ptr operands, at any depth.

    A [shared_ptr] to an object of the class is null or an address; a [shared_ptr] to a
    [shared_ptr] again null or an address, of a pointer this time.  [ptrs d] is what a variable of
    type [shared_ptr<...<shared_ptr<A>>>] ([d] stars) refers to; depth 0 is a plain reference. *)
Inductive pval : Type :=
| Obj : nat -> pval          (* the object at this address *)
| PNull : pval               (* a null shared_ptr *)
| PTo : pval -> pval.        (* a shared_ptr to ... *)

(** The static type: number of shared_ptr layers. *)
Fixpoint depth_ok (d : nat) (p : pval) : Prop :=
  match d, p with
  | O, Obj _ => True
  | S _, PNull => True
  | S d', PTo q => depth_ok d' q
  | _, _ => False
  end.

(** comparers.h:136-142 CmpComparerBase::Compare.  The C++ overloads are per static type; operands
    of different static depth are the DoCompare case of two unrelated types, not modelled (0). *)
Fixpoint cmp_base (doc : nat -> nat -> Z) (l r : pval) : Z :=
  match l, r with
  | Obj a, Obj b => doc a b
  | PTo l', PTo r' => cmp_base doc l' r'
  | PTo _, PNull => 1
  | PNull, PTo _ => -1
  | PNull, PNull => 0
  | _, _ => 0
  end.

(** comparers.h:153-159 LessComparerBase::Compare *)
Fixpoint less_base (doc : nat -> nat -> bool) (l r : pval) : bool :=
  match l, r with
  | Obj a, Obj b => doc a b
  | PTo l', PTo r' => less_base doc l' r'
  | PNull, PTo _ => true
  | _, _ => false
  end.

(** comparers.h:170-176 EqualsComparerBase::Compare *)
Fixpoint equals_base (doc : nat -> nat -> bool) (l r : pval) : bool :=
  match l, r with
  | Obj a, Obj b => doc a b
  | PTo l', PTo r' => equals_base doc l' r'
  | PNull, PNull => true
  | _, _ => false
  end.

(** comparers.h:187-193 GreaterComparerBase::Compare *)
Fixpoint greater_base (doc : nat -> nat -> bool) (l r : pval) : bool :=
  match l, r with
  | Obj a, Obj b => doc a b
  | PTo l', PTo r' => greater_base doc l' r'
  | PTo _, PNull => true
  | _, _ => false
  end.

(** comparers.h:144-146, 161-163, 178-180, 195-197: operator () of Cmp, Less, Equals, Greater *)
Definition Cmp {A} (h : nat -> A) (k : cls A) : pval -> pval -> Z := cmp_base (cmp_do h k).
Definition Less {A} (h : nat -> A) (k : cls A) : pval -> pval -> bool := less_base (less_do h k).
Definition Equals {A} (h : nat -> A) (k : cls A) : pval -> pval -> bool := equals_base (equals_do h k).
Definition Greater {A} (h : nat -> A) (k : cls A) : pval -> pval -> bool := greater_base (greater_do h k).

(** ** Adapters *)

(** comparers.h:338-340 CmpToLess *)
Definition CmpToLess {A} (c : A -> A -> Z) (l r : A) : bool := c l r <? 0.
(** comparers.h:359-361 CmpToGreater *)
Definition CmpToGreater {A} (c : A -> A -> Z) (l r : A) : bool := c l r >? 0.
(** comparers.h:380-382 CmpToEquals *)
Definition CmpToEquals {A} (c : A -> A -> Z) (l r : A) : bool := c l r =? 0.
(** comparers.h:401-403 LessToEquals *)
Definition LessToEquals {A} (lt : A -> A -> bool) (l r : A) : bool := negb (lt l r) && negb (lt r l).
(** comparers.h:422-424 LessToCmp; 444-449 OwnerCmp is this with [owner_before], and 453-458
    PointerCmp is Cmp over the addresses, that is this with [<] of addresses. *)
Definition LessToCmp {A} (lt : A -> A -> bool) (l r : A) : Z :=
  if lt l r then -1 else if lt r l then 1 else 0.

(** ** Tuples: comparers.h:462-502.  The element types are codes, [el] their carriers. *)
Section Tuples.
  Context {code : Type} (el : code -> Type).
  (** Tuple.h: GetHead / GetTail *)
  Fixpoint tuple (ts : list code) : Type :=
    match ts with [] => unit | t :: ts' => (el t * tuple ts')%type end.

  (** comparers.h:473-482 TupleCmp::operator () *)
  Fixpoint TupleCmp (cf : forall t, el t -> el t -> Z) (ts : list code) : tuple ts -> tuple ts -> Z :=
    match ts return tuple ts -> tuple ts -> Z with
    | [] => fun _ _ => 0
    | t :: ts' => fun l r =>
        let result := cf t (fst l) (fst r) in
        if negb (result =? 0) then result else TupleCmp cf ts' (snd l) (snd r)
    end.

  (** comparers.h:492-501 TupleEquals::operator (); [ne] is operator != of the elements. *)
  Fixpoint TupleEquals (ne : forall t, el t -> el t -> bool) (ts : list code) : tuple ts -> tuple ts -> bool :=
    match ts return tuple ts -> tuple ts -> bool with
    | [] => fun _ _ => true
    | t :: ts' => fun l r =>
        if ne t (fst l) (fst r) then false else TupleEquals ne ts' (snd l) (snd r)
    end.
End Tuples.

(** ** Collections: CollectionComparer.h:36-49 DoCompareRanges.  A range is the list of what it
    still has to yield. *)
Fixpoint DoCompareRanges {A} (item : A -> A -> Z) (lhs rhs : list A) : Z :=
  match lhs with
  | [] => match rhs with [] => 0 | _ => -1 end
  | x :: lhs' =>
      match rhs with
      | [] => 1
      | y :: rhs' =>
          let itemResult := item x y in
          if negb (itemResult =? 0) then itemResult else DoCompareRanges item lhs' rhs'
      end
  end.

(** CollectionComparer.h:26-33 DoCompare with the address shortcut *)
Definition CollectionCmp {A} (h : nat -> list A) (item : A -> A -> Z) (l r : nat) : Z :=
  if Nat.eqb l r then 0 else DoCompareRanges item (h l) (h r).

(** ** Member lists: MemberListComparer.h.  A member pointer is a getter with the comparer used for
    it: comparers::Cmp of the member (24-28) or the custom comparer (31-35, which is
    MemberToValueComparer.h:75-77: the comparer on the two extracted values). *)
Inductive member (C : Type) : Type :=
| Member : forall T : Type, (C -> T) -> (T -> T -> Z) -> member C.
Arguments Member {C} T _ _.

(** MemberListComparer.h:24-35 CompareMember *)
Definition CompareMember {C} (m : member C) (l r : C) : Z :=
  match m with Member T get c => c (get l) (get r) end.

(** MemberListComparer.h:38-45 Do, 53-54 the end node *)
Fixpoint MemberListCmp {C} (ms : list (member C)) (l r : C) : Z :=
  match ms with
  | [] => 0
  | m :: ms' =>
      let result := CompareMember m l r in
      if negb (result =? 0) then result else MemberListCmp ms' l r
  end.

(** ** Comparable: Comparable.h:29-61.  An object: dynamic type (an index) and contents; [before]
    is std::type_info::before, [do_cmp t] the DoCompare of the class [t] (the pointer adjustment by
    [delta] of 40-47 finds the same object again when the dynamic types are equal). *)
Section Comparable.
  Context {el : nat -> Type} (before : nat -> nat -> bool) (do_cmp : forall t, el t -> el t -> Z).
  Definition object := {t : nat & el t}.

  (** reading the other object at the type already known to be its own *)
  Definition cast {P : nat -> Type} {a b : nat} (e : a = b) (x : P a) : P b :=
    match e in _ = c return P c with eq_refl => x end.

  (** Comparable.h:29-48 Compare *)
  Definition ComparableCompare (h : nat -> object) (this other : nat) : Z :=
    if Nat.eqb this other then 0
    else
      match Nat.eq_dec (projT1 (h other)) (projT1 (h this)) with
      | right _ => if before (projT1 (h this)) (projT1 (h other)) then -1 else 1
      | left e => do_cmp (projT1 (h this)) (projT2 (h this)) (cast e (projT2 (h other)))
      end.
End Comparable.

(** Comparable.h:55-61 IndifferentlyComparable::DoCompare *)
Definition IndifferentCompare {A} (l r : A) : Z := 0.

(** ** optional *)

(** optional.h:314-321 Compare (with null, with a value, with an optional); [c] is comparers::Cmp. *)
Definition opt_Compare_null {A} (o : option A) : Z := match o with Some _ => 1 | None => 0 end.
Definition opt_Compare_value {A} (c : A -> A -> Z) (o : option A) (v : A) : Z :=
  match o with Some x => c x v | None => -1 end.
Definition opt_Compare {A} (c : A -> A -> Z) (o other : option A) : Z :=
  match other with Some v => opt_Compare_value c o v | None => opt_Compare_null o end.

(** optional.h:448-457: operator ==, < between optionals; [eq] and [lt] those of the contents. *)
Definition opt_eq {A} (eq : A -> A -> bool) (l r : option A) : bool :=
  match l with
  | Some x => match r with Some y => eq x y | None => false end
  | None => match r with Some _ => false | None => true end
  end.
Definition opt_lt {A} (lt : A -> A -> bool) (l r : option A) : bool :=
  match r with
  | Some y => match l with None => true | Some x => lt x y end
  | None => false
  end.

(** optional.h:416-431: against null *)
Definition opt_eq_null {A} (l : option A) : bool := match l with Some _ => false | None => true end.
Definition opt_lt_null {A} (l : option A) : bool := false.
Definition null_lt_opt {A} (r : option A) : bool := match r with Some _ => true | None => false end.

(** optional.h:433-445: against a plain value *)
Definition opt_eq_value {A} (eq : A -> A -> bool) (l : option A) (r : A) : bool :=
  match l with Some x => eq x r | None => false end.
Definition opt_lt_value {A} (lt : A -> A -> bool) (l : option A) (r : A) : bool :=
  match l with None => true | Some x => lt x r end.
Definition value_lt_opt {A} (lt : A -> A -> bool) (l : A) (r : option A) : bool :=
  match r with Some y => lt l y | None => false end.

(** toolkit.h:209-230 the non-member macros: >, <=, >= from the two <, and the mirrored ==, !=.
    [lt_lr] is operator < (Left, Right) and [lt_rl] operator < (Right, Left). *)
Definition nm_gt {L R} (lt_rl : R -> L -> bool) (l : L) (r : R) : bool := lt_rl r l.
Definition nm_le {L R} (lt_rl : R -> L -> bool) (l : L) (r : R) : bool := negb (lt_rl r l).
Definition nm_ge {L R} (lt_lr : L -> R -> bool) (l : L) (r : R) : bool := negb (lt_lr l r).

(** optional.h:480-511 OptionalCmp over 32-bit ints.  [None]: the negation overflows (undefined
    behaviour in C++). *)
Definition int_neg (z : Z) : option Z := if z =? - 2 ^ 31 then None else Some (- z).
Definition OptionalCmp_null {A} (l : option A) : Z := match l with Some _ => 1 | None => 0 end.
Definition null_OptionalCmp {A} (r : option A) : option Z := int_neg (OptionalCmp_null r).
Definition OptionalCmp_value {A} (c : A -> A -> Z) (l : option A) (r : A) : Z :=
  match l with Some x => c x r | None => -1 end.
Definition value_OptionalCmp {A} (c : A -> A -> Z) (l : A) (r : option A) : option Z :=
  int_neg (OptionalCmp_value c r l).
Definition OptionalCmp {A} (c : A -> A -> Z) (l r : option A) : Z :=
  match r with Some y => OptionalCmp_value c l y | None => OptionalCmp_null l end.

(** ** variant: variant.h:350-368 and 486-504, ComparerVisitor 250-262.  The alternative held
    ([which]) with its contents; the visitor reads the other variant at the same alternative. *)
Section Variant.
  Context {el : nat -> Type} (lt eq : forall t, el t -> el t -> bool).
  Definition variant := {t : nat & el t}.
  Definition which (v : variant) : nat := projT1 v.

  Definition var_eq (l r : variant) : bool :=
    match Nat.eq_dec (which r) (which l) with
    | right _ => false
    | left e => eq (which l) (projT2 l) (cast e (projT2 r))
    end.
  Definition var_lt (l r : variant) : bool :=
    match Nat.eq_dec (which r) (which l) with
    | right _ => Nat.ltb (which l) (which r)
    | left e => lt (which l) (projT2 l) (cast e (projT2 r))
    end.
End Variant.

(** ** The operator macros of toolkit.h *)

(** toolkit.h:150-160 DETAIL_GENERATE_COMPARISON_OPERATORS_FROM_LESS, and 195-201
    DETAIL_GENERATE_RELATIONAL_OPERATORS_FROM_LESS (the first three of them) *)
Definition fl_gt {A} (lt : A -> A -> bool) (this other : A) : bool := lt other this.
Definition fl_le {A} (lt : A -> A -> bool) (this other : A) : bool := negb (lt other this).
Definition fl_ge {A} (lt : A -> A -> bool) (this other : A) : bool := negb (lt this other).
Definition fl_ne {A} (lt : A -> A -> bool) (this other : A) : bool := lt other this || lt this other.
Definition fl_eq {A} (lt : A -> A -> bool) (this other : A) : bool := negb (fl_ne lt other this).

(** toolkit.h:169-175 DETAIL_GENERATE_COMPARISON_OPERATORS_FROM_COMPARE *)
Definition fc_lt {A} (c : A -> A -> Z) (this other : A) : bool := c this other <? 0.
Definition fc_gt {A} (c : A -> A -> Z) (this other : A) : bool := c this other >? 0.
Definition fc_le {A} (c : A -> A -> Z) (this other : A) : bool := c this other <=? 0.
Definition fc_ge {A} (c : A -> A -> Z) (this other : A) : bool := c this other >=? 0.
Definition fc_eq {A} (c : A -> A -> Z) (this other : A) : bool := c this other =? 0.
Definition fc_ne {A} (c : A -> A -> Z) (this other : A) : bool := negb (c this other =? 0).

(** ** string/Comparers.h *)

(** std::tolower of the C locale (Comparers.h:31): the value of a [char] as an [int]. *)
Definition tolower (c : Z) : Z := if (65 <=? c) && (c <=? 90) then c + 32 else c.

(** std::lexicographical_compare with a comparer (the library algorithm used by Comparers.h:40,43) *)
Fixpoint lexicographical_compare {A} (lt : A -> A -> bool) (l r : list A) : bool :=
  match l, r with
  | _, [] => false
  | [], _ :: _ => true
  | x :: l', y :: r' => if lt x y then true else if lt y x then false else lexicographical_compare lt l' r'
  end.
(** std::equal over the length of the first (Comparers.h:50,53) *)
Fixpoint equal3 {A} (eq : A -> A -> bool) (l r : list A) : bool :=
  match l, r with
  | [], _ => true
  | x :: l', y :: r' => if eq x y then equal3 eq l' r' else false
  | _ :: _, [] => false   (* reads outside; excluded by the length test *)
  end.

(** Comparers.h:30-31 CaseInsensitiveCompare with comparers::Less / comparers::Equals of ints *)
Definition ci_less (a b : Z) : bool := tolower a <? tolower b.
Definition ci_equal (a b : Z) : bool := tolower a =? tolower b.
(** Comparers.h:39-43 CaseInsensitiveLess *)
Definition CaseInsensitiveLess (l r : list Z) : bool := lexicographical_compare ci_less l r.
(** Comparers.h:49-53 CaseInsensitiveEquals *)
Definition CaseInsensitiveEquals (l r : list Z) : bool :=
  Nat.eqb (length l) (length r) && equal3 ci_equal l r.
