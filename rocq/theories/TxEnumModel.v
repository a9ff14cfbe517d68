(** Model of stingraykit/collection/TransactionHelpers.h: the enumerators over
    the overlay items/added/removed of a sorted transactional collection. *)
From Coq Require Import List Bool Arith.
From Verif Require Import Base.
Import ListNotations.
Set Implicit Arguments.

Section Enum.
  Variable A : Type.
  Variable lt : A -> A -> bool.  (* EnumerationDirection::LessComparer *)

  (** TransactionHelpers.h:33-37 EntryType; [EBroken] is the LogicException of
      line 121. *)
  Inductive ety := ENone | EItems | EAdded | ERemoved | EBroken.

  (** TransactionHelpers.h:40-48: the three iterators are the suffixes of the
      three containers still to be visited; reaching End() is []. *)
  Record en := mk_en { e_ty : ety; e_i : list A; e_a : list A; e_r : list A }.

  (** TransactionHelpers.h:99-127 UpdateEntryType *)
  Definition entry_type (i a r : list A) : ety :=
    match i with
    | [] => match a with [] => ENone | _ :: _ => EAdded end
    | x :: _ =>
        if match a with y :: _ => lt y x | [] => false end then EAdded
        else match r with
             | z :: _ => if lt x z then EItems else if lt z x then EBroken else ERemoved
             | [] => EItems
             end
    end.
  Definition update_entry (i a r : list A) : en := mk_en (entry_type i a r) i a r.

  (** TransactionHelpers.h:85-94: one pass of the do-while body; None when the
      enumerator is not valid (throws). *)
  Definition next_once (e : en) : option en :=
    match e_ty e with
    | EItems => Some (update_entry (tl (e_i e)) (e_a e) (e_r e))
    | EAdded => Some (update_entry (e_i e) (tl (e_a e)) (e_r e))
    | ERemoved => Some (update_entry (tl (e_i e)) (e_a e) (tl (e_r e)))
    | _ => None
    end.

  (** TransactionHelpers.h:82-96 Next: do { .. } while (_entryType == Removed).
      The fuel bounds the loop; the theorems show that any fuel above the number
      of removed elements left is never exhausted.  None = an exception. *)
  Fixpoint next_loop (fuel : nat) (e : en) : option en :=
    match fuel with
    | O => None
    | S n =>
        match next_once e with
        | None => None
        | Some e' =>
            match e_ty e' with
            | ERemoved => next_loop n e'
            | EBroken => None
            | _ => Some e'
            end
        end
    end.
  Definition next (e : en) : option en := next_loop (S (S (length (e_r e)))) e.

  (** TransactionHelpers.h:52-64 constructor *)
  Definition enum_begin (i a r : list A) : option en :=
    let e := update_entry i a r in
    match e_ty e with
    | ERemoved => next e
    | EBroken => None
    | _ => Some e
    end.

  (** TransactionHelpers.h:66-80 Valid, Get *)
  Definition enum_get (e : en) : option A :=
    match e_ty e with
    | EItems => hd_error (e_i e)
    | EAdded => hd_error (e_a e)
    | _ => None
    end.

  (** Client loop  for (; e.Valid(); e.Next()) out.push_back(e.Get());
      None = an exception was thrown (or the fuel ran out). *)
  Fixpoint drain (fuel : nat) (e : en) : option (list A) :=
    match fuel with
    | O => None
    | S n =>
        match enum_get e with
        | None => Some []
        | Some x =>
            match next e with
            | None => None
            | Some e' => match drain n e' with None => None | Some l => Some (x :: l) end
            end
        end
    end.

  Definition enum_list (i a r : list A) : option (list A) :=
    match enum_begin i a r with
    | None => None
    | Some e => drain (S (length i + length a)) e
    end.

  (** ** TransactionHelpers.h:131-216 SortedCollectionTransactionDiffEnumerator *)
  Inductive cop := OpAdded | OpRemoved | OpUpdated.  (* CollectionOp *)

  (** TransactionHelpers.h:202-215 UpdateEntryType *)
  Definition dentry_type (a r : list A) : ety :=
    match a, r with
    | y :: _, z :: _ => if lt y z then EAdded else ERemoved
    | _ :: _, [] => EAdded
    | [], _ :: _ => ERemoved
    | [], [] => ENone
    end.

  (** TransactionHelpers.h:164-199 constructor, Get, Next, and the client loop.
      The fuel is the number of entries still to come. *)
  Fixpoint ddrain (fuel : nat) (a r : list A) : list (cop * A) :=
    match fuel with
    | O => []
    | S n =>
        match dentry_type a r, a, r with
        | EAdded, y :: a', _ => (OpAdded, y) :: ddrain n a' r
        | ERemoved, _, z :: r' => (OpRemoved, z) :: ddrain n a r'
        | _, _, _ => []
        end
    end.
  Definition diff_list (a r : list A) : list (cop * A) := ddrain (length a + length r) a r.
End Enum.
