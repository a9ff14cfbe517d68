(** What C64 says, without the code: the document a sink builds from the calls it receives, which values a type has, and which types
    can be read back. *)
From Verif Require Import Base SerModel.
Local Open Scope Z_scope.

(** A sink: a stack of open lists and objects, over the place of the result.  Contents are in reverse order; an object may be waiting
    for the value of a property. *)
Inductive frame := FRoot (r : option tree) | FList (l : list tree) | FObj (l : list (name * tree)) (n : option name).

Definition put (x : tree) (st : list frame) : option (list frame) :=
  match st with
  | FRoot None :: s => Some (FRoot (Some x) :: s)
  | FList l :: s => Some (FList (x :: l) :: s)
  | FObj l (Some n) :: s => Some (FObj ((n, x) :: l) None :: s)
  | _ => None
  end.

Definition step (e : ev) (st : list frame) : option (list frame) :=
  match e with
  | ENull => put TrNull st
  | EBool b => put (TrBool b) st
  | EInt z => put (TrInt z) st
  | EStr s => put (TrStr s) st
  | EBytes s => put (TrBytes s) st
  | EName n => match st with FObj l None :: s => Some (FObj l (Some n) :: s) | _ => None end
  | EBeginList => Some (FList [] :: st)
  | EEndList => match st with FList l :: s => put (TrList (rev l)) s | _ => None end
  | EBeginObject => Some (FObj [] None :: st)
  | EEndObject => match st with FObj l None :: s => put (TrObj (rev l)) s | _ => None end
  end.

Fixpoint run (evs : list ev) (st : list frame) : option (list frame) :=
  match evs with [] => Some st | e :: r => match step e st with Some st' => run r st' | None => None end end.

(** The document written by a sequence of calls, if they are well nested, give every property one value, and write one value in all *)
Definition document (evs : list ev) : option tree :=
  match run evs [FRoot None] with Some [FRoot (Some x)] => Some x | _ => None end.

Section Types.
  Variable less : value -> value -> bool.
  Definition increasing (l : list value) : Prop := ForallOrdPairs (fun a b => less a b = true) l.

  (** The values of a type *)
  Inductive typed : ty -> value -> Prop :=
  | ty_bool : forall b, typed TBool (VBool b)
  | ty_signed : forall n z, - 2 ^ (n - 1) <= z < 2 ^ (n - 1) -> typed (TInt true n) (VInt z)
  | ty_unsigned : forall n z, 0 <= z < 2 ^ n -> typed (TInt false n) (VInt z)
  | ty_str : forall s, typed TStr (VStr s)
  | ty_bytes : forall s, typed TBytes (VBytes s)
  | ty_none : forall t, typed (TOpt t) VNone
  | ty_some : forall t v, typed t v -> typed (TOpt t) (VSome v)
  | ty_vec : forall t vs, Forall (typed t) vs -> typed (TVec t) (VList vs)
  | ty_set : forall t vs, Forall (typed t) vs -> increasing vs -> typed (TSet t) (VList vs)
  | ty_map : forall k t ks vs, Forall (typed k) ks -> Forall (typed t) vs -> length ks = length vs -> increasing ks ->
      typed (TMap k t) (VList (map (fun p => VPair (fst p) (snd p)) (combine ks vs)))
  | ty_pair : forall a b x y, typed a x -> typed b y -> typed (TPair a b) (VPair x y)
  | ty_empty : typed TEmpty VEmpty
  | ty_variant : forall ts i t v, nth_error ts i = Some t -> typed t v -> typed (TVariant ts) (VVariant i v)
  | ty_struct : forall fs vs, Forall2 (fun f v => typed (snd f) v) fs vs -> typed (TStruct fs) (VStruct vs)
  | ty_composite : forall fs vs, Forall2 (fun f v => typed (snd f) v) fs vs -> typed (TComposite fs) (VStruct vs)
  | ty_null : forall fs, typed (TPtr fs) VNull
  | ty_ptr : forall fs vs, Forall2 (fun f v => typed (snd f) v) fs vs -> typed (TPtr fs) (VPtr vs).
End Types.

(** The types that can be read back: an optional holds no optional or pointer, EmptyType is only an alternative of a variant,
    properties have different names *)
Definition nullable (t : ty) : bool := match t with TOpt _ | TPtr _ => true | _ => false end.
Inductive readable : ty -> Prop :=
| rd_bool : readable TBool
| rd_int : forall sg n, 1 <= n <= 64 -> readable (TInt sg n)
| rd_str : readable TStr
| rd_bytes : readable TBytes
| rd_opt : forall t, readable t -> nullable t = false -> readable (TOpt t)
| rd_vec : forall t, readable t -> readable (TVec t)
| rd_set : forall t, readable t -> readable (TSet t)
| rd_map : forall k t, readable k -> readable t -> readable (TMap k t)
| rd_pair : forall a b, readable a -> readable b -> readable (TPair a b)
| rd_variant : forall ts, Forall (fun t => t = TEmpty \/ readable t) ts -> Z.of_nat (length ts) < 2 ^ 64 -> readable (TVariant ts)
| rd_struct : forall fs, Forall (fun f => readable (snd f)) fs -> NoDup (map fst fs) -> readable (TStruct fs)
| rd_composite : forall fs, Forall (fun f => readable (snd f)) fs -> NoDup (map fst fs) -> readable (TComposite fs)
| rd_ptr : forall fs, Forall (fun f => readable (snd f)) fs -> NoDup (map fst fs) -> readable (TPtr fs).

(** The object that is read into: optional members of Composites, its own and those of its members, are not set *)
Fixpoint clean (t : ty) (old : value) {struct t} : Prop :=
  match t with
  | TPair a b => clean a (part false old) /\ clean b (part true old)
  | TStruct fs =>
      (fix go (l : list (name * ty)) (olds : list value) {struct l} : Prop :=
         match l with [] => True | (_, t') :: r => clean t' (hd VEmpty olds) /\ go r (tl olds) end) fs (items old)
  | TComposite fs =>
      (fix go (l : list (name * ty)) (olds : list value) {struct l} : Prop :=
         match l with [] => True | (_, t') :: r => match t' with TOpt _ => hd VEmpty olds = VNone | _ => clean t' (hd VEmpty olds) end /\ go r (tl olds) end)
        fs (items old)
  | _ => True
  end.

(** Default constructors leave them unset, and EmptyType has one value *)
Definition constructs (fresh : ty -> value) : Prop :=
  fresh TEmpty = VEmpty /\ (forall t, clean t (fresh t)) /\ (forall fs, clean (TStruct fs) (VStruct (items (fresh (TPtr fs))))).

(** One such default *)
Fixpoint default (t : ty) : value :=
  match t with
  | TBool => VBool false | TInt _ _ => VInt 0 | TStr => VStr [] | TBytes => VBytes [] | TOpt _ => VNone
  | TVec _ | TSet _ | TMap _ _ => VList [] | TPair a b => VPair (default a) (default b) | TEmpty => VEmpty
  | TVariant ts => match ts with [] => VEmpty | t' :: _ => VVariant 0 (default t') end
  | TStruct fs | TComposite fs => VStruct (map (fun f => default (snd f)) fs)
  | TPtr fs => VPtr (map (fun f => default (snd f)) fs)
  end.

(** two lower-case hexadecimal digits per byte *)
Definition hex_char (d : Z) : Z := if d <? 10 then 48 + d else 97 + (d - 10).
Definition hex_text (l : list Z) : list Z := flat_map (fun b => [hex_char (b / 16); hex_char (b mod 16)]) l.
