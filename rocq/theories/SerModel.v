(** Model of serialization/Serialization.h, Serialization.cpp, Serializer.h, Composite.h, IntegerDeserializer.h, FloatString.cpp and
    InjectionSerializer.h: what an ObjectOStream is told to write, and what an ObjectIStream makes of a SettingsValue.

    The C++ types are a universe [ty]; values are untyped here and typed by the specification.  The concrete format (JSON or other) is
    not in the repository: an ObjectOStream is the sequence of calls it receives.  An exception is None; what a failed Deserialize
    leaves behind is not modelled.  shared_ptr to polymorphic classes (".class", ".pk") and string-represented classes are left out. *)
From Verif Require Import Base.
Local Open Scope Z_scope.

Definition name := list Z.
Definition name_eqb (a b : name) : bool := if list_eq_dec Z.eq_dec a b then true else false.
Definition s_index : name := [105; 110; 100; 101; 120].
Definition s_obj : name := [111; 98; 106].

Inductive ty :=
| TBool | TInt (signed : bool) (bits : Z) | TStr | TBytes | TOpt (t : ty) | TVec (t : ty) | TSet (t : ty) | TMap (k v : ty) | TPair (a b : ty)
| TEmpty | TVariant (ts : list ty) | TStruct (fs : list (name * ty)) | TComposite (fs : list (name * ty)) | TPtr (fs : list (name * ty)).
Inductive value :=
| VBool (b : bool) | VInt (z : Z) | VStr (s : list Z) | VBytes (s : list Z) | VNone | VSome (v : value) | VList (vs : list value) | VPair (a b : value)
| VEmpty | VVariant (i : nat) (v : value) | VStruct (vs : list value) | VNull | VPtr (vs : list value).

(** SettingsValue.h:25 *)
Inductive tree := TrNull | TrBool (b : bool) | TrInt (z : Z) | TrStr (s : list Z) | TrBytes (s : list Z) | TrList (l : list tree) | TrObj (l : list (name * tree)).
(** Serialization.h:164-185: the calls of IObjectOStreamPrivate *)
Inductive ev := ENull | EBool (b : bool) | EInt (z : Z) | EStr (s : list Z) | EBytes (s : list Z) | EName (n : name) | EBeginList | EEndList | EBeginObject | EEndObject.

Definition to_s64 (z : Z) : Z := let m := z mod 2 ^ 64 in if m <? 2 ^ 63 then m else m - 2 ^ 64.
(** conversion of an s64 to an integer type *)
Definition to_int (signed : bool) (bits z : Z) : Z :=
  let m := z mod 2 ^ bits in if signed then if m <? 2 ^ (bits - 1) then m else m - 2 ^ bits else m.

(** 224-228: WritePropertyName, if the value is a property *)
Definition pre (nm : option name) : list ev := match nm with Some n => [EName n] | None => [] end.
(** 205-239 with TypeWriterImpl (69-101), CollectionSerializer (267-297) and serialize (299-488).  [nm]: the property name, if any.
    An optional property that is not set is not written (231-236), elsewhere it is a null (213-218); EmptyType is never written *)
Fixpoint ser (nm : option name) (t : ty) (v : value) {struct t} : list ev :=
  match t, v with
  | TBool, VBool b => pre nm ++ [EBool b]
  | TInt _ _, VInt z => pre nm ++ [EInt (to_s64 z)]
  | TStr, VStr s => pre nm ++ [EStr s]
  | TBytes, VBytes s => pre nm ++ [EBytes s]
  | TOpt t', VSome w => ser nm t' w
  | TOpt _, _ => match nm with Some _ => [] | None => [ENull] end
  | TVec t', VList vs => pre nm ++ [EBeginList] ++ flat_map (ser None t') vs ++ [EEndList]
  | TSet t', VList vs => pre nm ++ [EBeginList] ++ flat_map (ser None t') vs ++ [EEndList]
  | TMap k w, VList ps => pre nm ++ [EBeginList] ++
      flat_map (fun p => match p with VPair a b => [EBeginList] ++ ser None k a ++ ser None w b ++ [EEndList] | _ => [] end) ps ++ [EEndList]
  | TPair a b, VPair x y => pre nm ++ [EBeginList] ++ ser None a x ++ ser None b y ++ [EEndList]
  | TVariant ts, VVariant i w => pre nm ++ [EBeginObject; EName s_index; EInt (to_s64 (Z.of_nat i))] ++
      (fix alt (l : list ty) (n : nat) {struct l} : list ev :=
         match l with [] => [] | t' :: r => match n with O => ser (Some s_obj) t' w | S n' => alt r n' end end) ts i ++ [EEndObject]
  | TStruct fs, VStruct vs | TComposite fs, VStruct vs | TPtr fs, VPtr vs => pre nm ++ [EBeginObject] ++
      (fix fields (l : list (name * ty)) (ws : list value) {struct l} : list ev :=
         match l, ws with (n, t') :: r, w :: ws' => ser (Some n) t' w ++ fields r ws' | _, _ => [] end) fs vs ++ [EEndObject]
  | TPtr _, _ => pre nm ++ [ENull]
  | _, _ => []
  end.

(** Serialization.cpp:14-19: None: not a map; Some None: no such property *)
Definition get (tr : tree) (n : name) : option (option tree) :=
  match tr with TrObj l => Some (match find (fun e => name_eqb (fst e) n) l with Some (_, x) => Some x | None => None end) | _ => None end.
(** Serialization.cpp:39 *)
Definition get_int (tr : tree) : option Z := match tr with TrInt z => Some z | _ => None end.

(** Serialization.cpp:73-80 *)
Definition xdigit (c : Z) : option Z :=
  if (48 <=? c) && (c <=? 57) then Some (c - 48)
  else let d := Z.lor c 32 in if (97 <=? d) && (d <=? 102) then Some (d - 97 + 10) else None.
(** Serialization.cpp:82-96 *)
Fixpoint unpack_pairs (s : list Z) : option (list Z) :=
  match s with
  | [] => Some []
  | [_] => None
  | a :: b :: r => match xdigit a, xdigit b, unpack_pairs r with
                   | Some h, Some l, Some t => Some (Z.lor l ((h * 16) mod 256) :: t)
                   | _, _, _ => None
                   end
  end.
Definition unpack (s : list Z) : option (list Z) :=
  match s with 104 :: 101 :: 120 :: 61 :: r => unpack_pairs r | _ => None end.

Section Reader.
  (** std::set and std::map order their keys by operator <; what "T value;" holds before it is read *)
  Variable less : value -> value -> bool.
  Variable fresh : ty -> value.

  (** std::set::insert: nothing happens if an equivalent element is there *)
  Fixpoint set_insert (v : value) (l : list value) : list value :=
    match l with [] => [v] | x :: t => if less x v then x :: set_insert v t else if less v x then v :: l else l end.
  Definition key (p : value) : value := match p with VPair a _ => a | _ => p end.
  Fixpoint map_insert (p : value) (l : list value) : list value :=
    match l with [] => [p] | x :: t => if less (key x) (key p) then x :: map_insert p t else if less (key p) (key x) then p :: l else l end.

  Definition part (second : bool) (v : value) : value := match v with VPair a b => if second then b else a | _ => VEmpty end.
  Definition items (v : value) : list value := match v with VStruct l => l | VPtr l => l | _ => [] end.
  (** for_each with a collection that grows: Serialization.cpp:21-28 *)
  Fixpoint read_all (read : tree -> option value) (put : value -> list value -> list value) (l : list tree) (acc : list value) : option (list value) :=
    match l with [] => Some acc | x :: t => match read x with Some v => read_all read put t (put v acc) | None => None end end.
  (** 742-772: the first element of the list is the first part, the second the second, more are refused *)
  Definition read_pair (ra rb : value -> tree -> option value) (old : value) (l : list tree) : option value :=
    match l with
    | [] => Some (VPair (part false old) (part true old))
    | [x] => match ra (part false old) x with Some a => Some (VPair a (part true old)) | None => None end
    | [x; y] => match ra (part false old) x, rb (part true old) y with Some a, Some b => Some (VPair a b) | _, _ => None end
    | _ => None
    end.

  (** how the properties of an object are read (Deserialize(name, ...) 560-602): by hand, or by a Composite through a Deserializer
      (Serializer.h:108-131, 196-208: without a value the helper is reset, not the member) *)
  Definition prop (composite : bool) (t : ty) (read : value -> tree -> option value) (old : value) (tr : tree) (n : name) : option value :=
    match t with
    | TEmpty => Some old
    | TOpt _ => match get tr n with
                | None => None
                | Some None => Some (if composite then old else VNone)
                | Some (Some x) => match x with TrNull => Some (if composite then old else VNone) | _ => read old x end
                end
    | _ => match get tr n with Some (Some x) => read old x | _ => None end
    end.

  (** 536-602, 622-684, 699-740, 742-818, 921-932 *)
  Fixpoint deser (t : ty) (old : value) (tr : tree) {struct t} : option value :=
    match t with
    | TBool => match tr with TrBool b => Some (VBool b) | _ => None end
    | TInt sg n => match get_int tr with Some z => Some (VInt (to_int sg n z)) | None => None end
    | TStr => match tr with TrStr s => Some (VStr s) | _ => None end
    | TBytes => match tr with TrBytes s => Some (VBytes s) | TrStr s => option_map VBytes (unpack s) | _ => None end
    | TOpt t' => match tr with TrNull => Some VNone | _ => option_map VSome (deser t' (fresh t') tr) end
    | TVec t' => match tr with TrList l => option_map VList (read_all (deser t' (fresh t')) (fun v acc => acc ++ [v]) l []) | _ => None end
    | TSet t' => match tr with TrList l => option_map VList (read_all (deser t' (fresh t')) set_insert l []) | _ => None end
    | TMap k w =>
        match tr with
        | TrList l => option_map VList (read_all (fun x => match x with TrList p => read_pair (deser k) (deser w) (VPair (fresh k) (fresh w)) p | _ => None end) map_insert l [])
        | TrObj l => match k with
                     | TStr => option_map VList (read_all (fun x => match x with
                                 | TrList [TrStr s; y] => option_map (VPair (VStr s)) (deser w (fresh w) y) | _ => None end) map_insert (map (fun e => TrList [TrStr (fst e); snd e]) l) [])
                     | _ => None
                     end
        | _ => None
        end
    | TPair a b => match tr with TrList l => read_pair (deser a) (deser b) old l | _ => None end
    | TEmpty => Some old
    | TVariant ts =>
        match get tr s_index with
        | Some (Some (TrInt z)) =>
            let i := z mod 2 ^ 64 in
            let alt := fix alt (l : list ty) (n : nat) (o : option value) {struct l} : option value :=
              match l with [] => None | t' :: r => match n with O => prop false t' (deser t') (match o with Some w => w | None => fresh t' end) tr s_obj | S n' => alt r n' o end end in
            if i <? Z.of_nat (length ts) then option_map (VVariant (Z.to_nat i)) (alt ts (Z.to_nat i) None)
            else match old with VVariant j w => option_map (VVariant j) (alt ts j (Some w)) | _ => None end
        | _ => None
        end
    | TStruct fs => option_map VStruct
        ((fix fields (l : list (name * ty)) (olds : list value) {struct l} : option (list value) :=
          match l with [] => Some [] | (n, t') :: r =>
            match prop false t' (deser t') (hd VEmpty olds) tr n, fields r (tl olds) with Some w, Some ws => Some (w :: ws) | _, _ => None end end) fs (items old))
    | TComposite fs => option_map VStruct
        ((fix fields (l : list (name * ty)) (olds : list value) {struct l} : option (list value) :=
          match l with [] => Some [] | (n, t') :: r =>
            match prop true t' (deser t') (hd VEmpty olds) tr n, fields r (tl olds) with Some w, Some ws => Some (w :: ws) | _, _ => None end end) fs (items old))
    | TPtr fs => match tr with
        | TrNull => Some VNull
        | _ => option_map VPtr
          ((fix fields (l : list (name * ty)) (olds : list value) {struct l} : option (list value) :=
            match l with [] => Some [] | (n, t') :: r =>
              match prop false t' (deser t') (hd VEmpty olds) tr n, fields r (tl olds) with Some w, Some ws => Some (w :: ws) | _, _ => None end end) fs (items (fresh (TPtr fs))))
        end
    end.
End Reader.

(** IntegerDeserializer.h:26-37: CheckedIntegerCaster on an s64 *)
Definition int_min (signed : bool) (bits : Z) : Z := if signed then - 2 ^ (bits - 1) else 0.
Definition int_max (signed : bool) (bits : Z) : Z := if signed then 2 ^ (bits - 1) - 1 else 2 ^ bits - 1.
Definition checked_cast (signed : bool) (bits z : Z) : option Z :=
  if (to_s64 (int_min signed bits) <=? z) && (z <? to_s64 (to_s64 (int_max signed bits) + 1)) then Some (to_int signed bits z) else None.

(** FloatString.cpp:17-32 for doubles that are integers: "%lg" keeps six significant digits, rounded to the nearest, halves to even *)
Fixpoint digits (fuel : nat) (n : Z) : Z := match fuel with O => 0 | S f => if n <? 10 then 1 else 1 + digits f (n / 10) end.
Definition round_div (n d : Z) : Z :=
  let q := n / d in let r := n mod d in if (2 * r <? d) || ((2 * r =? d) && Z.even q) then q else q + 1.
Definition six_digits (n : Z) : Z :=
  let a := Z.abs n in let k := digits 20 a in
  Z.sgn n * (if k <=? 6 then a else let d := 10 ^ (k - 6) in round_div a d * d).

(** InjectionSerializer.h:19-58 *)
Fixpoint inject (tr : tree) : list ev :=
  match tr with
  | TrNull => [ENull] | TrBool b => [EBool b] | TrInt z => [EInt z] | TrStr s => [EStr s] | TrBytes s => [EBytes s]
  | TrList l => [EBeginList] ++ flat_map inject l ++ [EEndList]
  | TrObj l => [EBeginObject] ++ flat_map (fun e => EName (fst e) :: inject (snd e)) l ++ [EEndObject]
  end.
