(** * What a user expects of the scope guards *)
From Coq Require Import List Arith Bool.
From Verif Require Import HandleModel.
Import ListNotations.

(** [merge l a b]: l is a and b merged, keeping the order within each *)
Inductive merge {A} : list A -> list A -> list A -> Prop :=
  | merge_nil : merge [] [] []
  | merge_left x l a b : merge l a b -> merge (x :: l) (x :: a) b
  | merge_right x l a b : merge l a b -> merge (x :: l) a (x :: b).

Section Holder.
  Context {V : Type}.
  (** the handles the holder took over: the constructor's, and those of the Set calls that returned *)
  Fixpoint taken (l : list (@hop V)) (xs : list (outcome V)) : list V :=
    match l, xs with
    | HSet v :: l, Done _ :: xs => v :: taken l xs
    | _ :: l, _ :: xs => taken l xs
    | _, _ => []
    end.
  Definition initially (v : option V) : list V := match v with Some x => [x] | None => [] end.
  (** the handles the user took back *)
  Fixpoint released (l : list (@hop V)) (xs : list (outcome V)) : list V :=
    match l, xs with
    | HRelease :: l, Done (Some v) :: xs => v :: released l xs
    | _ :: l, _ :: xs => released l xs
    | _, _ => []
    end.
  Definition succeeded (c : list (V * bool)) : list V := map fst (filter (fun x => negb (snd x)) c).
  (** the handle a holder should have now, by what the calls reported *)
  Fixpoint current (v : option V) (l : list (@hop V)) (xs : list (outcome V)) : option V :=
    match l, xs with
    | HSet x :: l, Done _ :: xs => current (Some x) l xs
    | HClear :: l, Done _ :: xs => current None l xs
    | HRelease :: l, Done _ :: xs => current None l xs
    | _ :: l, _ :: xs => current v l xs
    | _, _ => v
    end.
  (** the same for shared holders *)
  Fixpoint sh_taken (l : list (@shop V)) (xs : list (outcome V)) : list V :=
    match l, xs with
    | SOp (HSet v) :: l, Done _ :: xs => v :: sh_taken l xs
    | _ :: l, _ :: xs => sh_taken l xs
    | _, _ => []
    end.
  Fixpoint sh_released (l : list (@shop V)) (xs : list (outcome V)) : list V :=
    match l, xs with
    | SOp HRelease :: l, Done (Some v) :: xs => v :: sh_released l xs
    | _ :: l, _ :: xs => sh_released l xs
    | _, _ => []
    end.
End Holder.

Section Transaction.
  Context {S : Type}.
  (** did a Commit return? *)
  Fixpoint committed (l : list (top S)) (ts : list bool) : bool :=
    match l, ts with
    | TCommit :: l, t :: ts => negb t || committed l ts
    | _ :: l, _ :: ts => committed l ts
    | _, _ => false
    end.
  (** the Execute calls that returned *)
  Fixpoint executed (l : list (top S)) (ts : list bool) : list (func S * func S) :=
    match l, ts with
    | TExecute a r :: l, t :: ts => if t then executed l ts else (a, r) :: executed l ts
    | _ :: l, _ :: ts => executed l ts
    | _, _ => []
    end.
  (** an action that leaves the world alone when it throws, and whose rollback takes it back *)
  Definition undoable (a r : func S) : Prop :=
    (forall s s', body a s = (s', true) -> s' = s) /\ (forall s s', body a s = (s', false) -> body r s' = (s, false)).
  Definition never_throws (f : func S) : Prop := forall s, snd (body f s) = false.
  Definition all_pairs (P : func S -> func S -> Prop) (l : list (top S)) : Prop := forall a r, In (TExecute a r) l -> P a r.
End Transaction.

(** the functions in a token, in the order they were added *)
Fixpoint functions (t : tok) : list nat :=
  match t with Fn id => [id] | Multi _ l => fold_right (fun t acc => functions t ++ acc) [] l end.

(** ** unique_ptr *)
(** variables whose reset is under way: it deletes the old object and has not stored the new pointer *)
Definition pending (s : ustate) : list nat := flat_map (fun m => match m with UStore i _ => [i] | _ => [] end) (utodo s).
Definition variables_of (c : uop) : list nat :=
  match c with UMake i | UReset i | URelease i | UAdopt i _ | UResetGet i => [i] | UMove i j | USwap i j => [i; j] end.
(** a legal operation adopts only raw pointers got from release(), and no destructor uses the variable whose reset runs it *)
Definition ulegal (s : ustate) (c : uop) : Prop :=
  (forall i, In i (variables_of c) -> ~ In i (pending s)) /\ match c with UResetGet _ => False | _ => True end.
Inductive ureach (n : nat) : ustate -> Prop :=
  | ureach_init : ureach n (uinitial n)
  | ureach_start s c s' : ureach n s -> ulegal s c -> ustart s c = Some s' -> ureach n s'
  | ureach_step s s' : ureach n s -> ustep s = Some s' -> ureach n s'.
(** variable i owns o *)
Definition owns (s : ustate) (i o : nat) : Prop := uvar s i = Some o /\ ~ In i (pending s).
