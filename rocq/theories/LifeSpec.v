(** What C65 says about variants, optionals and anys: what every container of a program contains, after any history of operations. *)
From Verif Require Import Base LifeModel.

Inductive outcome (C : Type) := Done (c : C) | Threw (c : C) | Terminated.
Arguments Done {C}. Arguments Threw {C}. Arguments Terminated {C}.

(** a program: what throws is caught, and it goes on *)
Fixpoint run {O} (step : O -> M st unit) (ops : list O) (s : st) : res st unit :=
  match ops with [] => Ok tt s | o :: r => match step o s with Ok _ s' | Throw _ s' => run step r s' | Abort => Abort | Bad => Bad end end.
Fixpoint contents {O C} (spec : C -> O -> outcome C) (ops : list O) (c : C) : option C :=
  match ops with [] => Some c | o :: r => match spec c o with Done c' | Threw c' => contents spec r c' | Terminated => None end end.
Fixpoint history {O C} (spec : C -> O -> outcome C) (allowed : C -> O -> Prop) (ops : list O) (c : C) : Prop :=
  match ops with [] => True | o :: r => allowed c o /\ match spec c o with Done c' | Threw c' => history spec allowed r c' | Terminated => True end end.

(** no containers, no objects *)
Definition clean_slate (s : st) : Prop :=
  (forall p, mem s p = None) /\ (forall p, alive s p = false) /\ (forall n, heap s n = None) /\ lost s = [].

Section Spec.
  Variable moved : tag -> Z -> Z.

  (* ---------------------------------------------------------------- variant: a type and a value *)
  Definition vcontents := place -> option (tag * Z).
  Section Variant.
    Variable types : nat.
    Variable empty : option tag.
    (** the argument of an item's constructor *)
    Definition value_of (c : vcontents) (a : src) : Z :=
      match a with SVal v => v | SRef q _ | SMove q _ => match c q with Some (_, v) => v | None => 0%Z end end.
    Definition valid_src (c : vcontents) (a : src) : Prop :=
      match a with SVal _ => True | SRef q t | SMove q t => exists v, c q = Some (t, v) end.
    Definition source_is_not (p : place) (a : src) : Prop := match a with SVal _ => True | SRef q _ | SMove q _ => q <> p end.
    Definition taken (c : vcontents) (a : src) : vcontents := match a with SMove q t => upd c q (Some (t, moved t (value_of c a))) | _ => c end.
    (** a new value; if its constructor throws: the variant is empty, or the program is terminated if it cannot be *)
    Definition receives (c : vcontents) (p : place) (t : tag) (a : src) (x : option exn) : outcome vcontents :=
      match x, empty with
      | None, _ => Done (upd (taken c a) p (Some (t, value_of c a)))
      | Some _, Some e => Threw (upd (taken c a) p (Some (e, 0%Z)))
      | Some _, None => Terminated
      end.
    Definition not_built (p : place) (r : outcome vcontents) : outcome vcontents := match r with Threw c => Threw (upd c p None) | _ => r end.
    Definition type_at (c : vcontents) (q : place) : tag := match c q with Some (t, _) => t | None => 0 end.
    Definition vspec (c : vcontents) (o : vop) : outcome vcontents :=
      match o with
      | VNew p x => match empty with Some e => Done (upd c p (Some (e, 0%Z))) | None => receives c p 0 (SVal 0) x end
      | VNewVal p t a x => not_built p (receives c p t a x)
      | VNewCopy p q x => not_built p (receives c p (type_at c q) (SRef q (type_at c q)) x)
      | VNewMove p q x => not_built p (receives c p (type_at c q) (SMove q (type_at c q)) x)
      | VDelete p => Done (upd c p None)
      | VCopy p q x => receives c p (type_at c q) (SRef q (type_at c q)) x
      | VMove p q x => receives c p (type_at c q) (SMove q (type_at c q)) x
      | VAssign p t a x => receives c p t a x
      | VEmplace p t a x => receives c p t a x
      end.
    Definition std_only (x : option exn) : Prop := x <> Some OtherException.
    (** the proper use: containers are built once, arguments exist and are not in the variant that is assigned, exceptions are std::exceptions *)
    Definition vallowed (c : vcontents) (o : vop) : Prop :=
      match o with
      | VNew p x => c p = None /\ std_only x /\ 0 < types
      | VNewVal p t a x => c p = None /\ t < types /\ valid_src c a /\ std_only x
      | VNewCopy p q x | VNewMove p q x => c p = None /\ c q <> None /\ std_only x
      | VDelete p => c p <> None
      | VCopy p q x | VMove p q x => c p <> None /\ c q <> None /\ q <> p /\ std_only x
      | VAssign p t a x | VEmplace p t a x => c p <> None /\ t < types /\ valid_src c a /\ source_is_not p a /\ std_only x
      end.
    (** storage and contents agree: what is alive is exactly what the variants contain; nothing but EmptyType values was lost *)
    Definition vholds (s : st) (c : vcontents) : Prop :=
      (forall p, mem s p = c p) /\ (forall p, alive s p = match c p with Some _ => true | None => false end) /\
      (forall p t v, c p = Some (t, v) -> kind s p = t /\ t < types) /\
      (forall o, In o (lost s) -> Some (fst o) = empty).
  End Variant.

  (* ---------------------------------------------------------------- optional: a value or none *)
  Definition ocontents := place -> option (option Z).
  Definition ovalue (c : ocontents) (a : src) : Z := match a with SVal v => v | SRef q _ | SMove q _ => match c q with Some (Some v) => v | _ => 0%Z end end.
  Definition ovalid (c : ocontents) (a : src) : Prop := match a with SVal _ => True | SRef q t | SMove q t => t = 0 /\ exists v, c q = Some (Some v) end.
  Definition otaken (c : ocontents) (a : src) : ocontents := match a with SMove q _ => upd c q (Some (Some (moved 0 (ovalue c a)))) | _ => c end.
  Definition from (q : place) (mv : bool) : src := if mv then SMove q 0 else SRef q 0.
  (** assignment: if it throws, the target keeps what it had *)
  Definition ogives (c : ocontents) (p : place) (a : src) (x : option exn) : outcome ocontents :=
    match x with None => Done (upd (otaken c a) p (Some (Some (ovalue c a)))) | Some _ => Threw (otaken c a) end.
  Definition ospec (c : ocontents) (o : oop) : outcome ocontents :=
    match o with
    | ONew p => Done (upd c p (Some None))
    | ONewVal p a x => ogives c p a x
    | ONewFrom p q mv x => match c q with Some (Some _) => ogives c p (from q mv) x | _ => Done (upd c p (Some None)) end
    | ODelete p => Done (upd c p None)
    | OFrom p q mv x => match c q with Some (Some _) => ogives c p (from q mv) x | _ => Done (upd c p (Some None)) end
    | OAssign p a x => ogives c p a x
    | OReset p => Done (upd c p (Some None))
    | OEmplace p a x => match x with None => Done (upd (otaken c a) p (Some (Some (ovalue c a)))) | Some _ => Threw (upd (otaken c a) p (Some None)) end
    | OSwap p q => Done (upd (upd c p (c q)) q (c p))
    end.
  Definition no_self_move (p : place) (a : src) : Prop := match a with SMove q _ => q <> p | _ => True end.
  Definition oallowed (c : ocontents) (o : oop) : Prop :=
    match o with
    | ONew p => c p = None
    | ONewVal p a x => c p = None /\ ovalid c a
    | ONewFrom p q mv x => c p = None /\ c q <> None
    | ODelete p | OReset p => c p <> None
    | OFrom p q mv x => c p <> None /\ c q <> None /\ no_self_move p (from q mv)
    | OAssign p a x => c p <> None /\ ovalid c a /\ no_self_move p a
    | OEmplace p a x => c p <> None /\ ovalid c a /\ source_is_not p a
    | OSwap p q => c p <> None /\ c q <> None
    end.
  Definition oholds (s : st) (c : ocontents) : Prop :=
    (forall p, mem s p = match c p with Some (Some v) => Some (0, v) | _ => None end) /\
    (forall p, alive s p = match c p with Some _ => true | None => false end) /\
    (forall p, match c p with Some (Some _) => kind s p = 1 | Some None => kind s p = 0 | None => True end) /\ lost s = [].

  (* ---------------------------------------------------------------- any *)
  Inductive aval := AEmpty | AScalar (v : Z) | AString (v : Z) | AObject (t : tag) (v : Z).
  Definition acontents := place -> option aval.
  Definition aitem (c : acontents) (i : item) : option aval :=
    match i with IScalar v => Some (AScalar v) | IString v => Some (AString v) | IObject t v => Some (AObject t v)
    | IOwn q => match c q with Some AEmpty | None => None | Some a => Some a end end.
  Definition can_throw (a : aval) : bool := match a with AString _ | AObject _ _ => true | _ => false end.
  Definition throws (a : aval) (x : option exn) : bool := match x with Some _ => can_throw a | None => false end.
  (** after a move the source is empty *)
  Definition aspec (c : acontents) (o : aop) : outcome acontents :=
    match o with
    | ANew p => Done (upd c p (Some AEmpty))
    | ANewVal p i x => match aitem c i with Some a => if throws a x then Threw c else Done (upd c p (Some a)) | None => Threw c end
    | ANewCopy p q x => match c q with Some a => if throws a x then Threw c else Done (upd c p (Some a)) | None => Done c end
    | ANewMove p q => Done (upd (upd c p (c q)) q (Some AEmpty))
    | ADelete p => Done (upd c p None)
    | ACopy p q x => match c q with Some a => if throws a x then Threw (upd c p (Some AEmpty)) else Done (upd c p (Some a)) | None => Done c end
    | AMove p q => Done (upd (upd c p (c q)) q (Some AEmpty))
    | AAssign p i x => match aitem c i with Some a => Done (upd c p (Some a)) | None => Threw c end
    end.
  Definition not_a_string (c : acontents) (q : place) : Prop := match c q with Some (AString _) => False | _ => True end.
  Definition own_is_not (p : place) (i : item) : Prop := match i with IOwn q => q <> p | _ => True end.
  Definition exists_own (c : acontents) (i : item) : Prop := match i with IOwn q => c q <> None | _ => True end.
  (** [tight]: strings are not moved.  A value that is assigned must not throw *)
  Definition aallowed (tight : bool) (c : acontents) (o : aop) : Prop :=
    match o with
    | ANew p => c p = None
    | ANewVal p i x => c p = None /\ exists_own c i
    | ANewCopy p q x => c p = None /\ c q <> None
    | ANewMove p q => c p = None /\ c q <> None /\ (tight = true -> not_a_string c q)
    | ADelete p => c p <> None
    | ACopy p q x => c p <> None /\ c q <> None /\ q <> p
    | AMove p q => c p <> None /\ c q <> None /\ q <> p /\ (tight = true -> not_a_string c q)
    | AAssign p i x => c p <> None /\ exists_own c i /\ own_is_not p i /\ x = None
    end.
  (** the objects on the heap are exactly those the anys contain, each in one any; the storage of an any holds a string exactly if it
      contains one - or, unless [tight], what a move left *)
  Definition aholds (tight : bool) (s : st) (c : acontents) : Prop :=
    (forall p, alive s p = match c p with Some _ => true | None => false end) /\
    (forall p a, c p = Some a ->
       match a with
       | AEmpty => kind s p = 0
       | AScalar v => kind s p = 1 /\ data s p = v
       | AString v => kind s p = 2 /\ mem s p = Some (0, v)
       | AObject t v => kind s p = 3 /\ heap s (ptr s p) = Some (t, v)
       end) /\
    (forall p q t v t' v', c p = Some (AObject t v) -> c q = Some (AObject t' v') -> ptr s p = ptr s q -> p = q) /\
    (forall n, heap s n <> None -> n < next s /\ exists p t v, c p = Some (AObject t v) /\ ptr s p = n) /\
    (forall p o, mem s p = Some o -> match c p with Some (AString _) => True | Some _ => tight = false /\ exists v, o = (0, moved 0 v) | None => False end) /\
    (forall o, In o (lost s) -> tight = false /\ exists v, o = (0, moved 0 v)).
End Spec.
