(* Model of Mapper.h: mappers between two enumerations (or integral types) given by a list of pairs of mappings. Values are integers. *)
From Coq Require Import List Bool ZArith.
Import ListNotations.
Open Scope Z_scope.

(* Mappings<Src, Dst> (47-101) *)
Inductive mapping :=
| Range (start_ end_ back : Z)            (* 50-59 *)
| BiValue (preferred other : Z)           (* 61-70 *)
| TriValue (preferred o1 o2 : Z)          (* 72-77 *)
| QuadValue (preferred o1 o2 o3 : Z)      (* 79-84 *)
| MultiValue (preferred : Z) (next : list Z)   (* 86-91: next is the nesting of MultiValues; NoValue (41-45) is the empty list *)
| Value (v : Z)                           (* 93-98 *)
| Fail.                                   (* 25-39 *)

(* Next::Fits of 89: NoValue 44 *)
Fixpoint multi_fits (l : list Z) (x : Z) : bool := match l with [] => false | v :: r => (x =? v) || multi_fits r x end.

(* Fits (44, 53-57, 64-68, 75, 81, 89, 96). None: it does not compile, by a static_assert (55, 66) or because there is none (25-39) *)
Definition fits (m : mapping) (x : Z) : option bool :=
  match m with
  | Range s e _ => if s <? e then Some ((s <=? x) && (x <? e)) else None
  | BiValue p o => if negb (p =? o) then Some ((x =? p) || (x =? o)) else None
  | TriValue p a b => Some ((x =? p) || (x =? a) || (x =? b))
  | QuadValue p a b c => Some ((x =? p) || (x =? a) || (x =? b) || (x =? c))
  | MultiValue p l => Some ((x =? p) || multi_fits l x)
  | Value v => Some (x =? v)
  | Fail => None
  end.
(* GetValue (28-29, 36-37, 58, 69, 76, 82, 90, 97). None: it throws *)
Definition get_value (m : mapping) : option Z :=
  match m with
  | Range _ _ b => Some b
  | BiValue p _ => Some p
  | TriValue p _ _ => Some p
  | QuadValue p _ _ _ => Some p
  | MultiValue p _ => Some p
  | Value v => Some v
  | Fail => None
  end.
(* HasValue (22, 30, 38) *)
Definition has_value (m : mapping) : bool := match m with Fail => false | _ => true end.

Record mapper := mk_mapper { table : list (mapping * mapping); default_src : mapping; default_dst : mapping }.

Inductive result := DoesNotCompile | Throws | Is (v : Z).
Definition value_or_throw (o : option Z) : result := match o with Some v => Is v | None => Throws end.

(* Every functor of ForIf (metaprogramming/ForIf.h) is instantiated, whatever the value *)
Definition all_fits (l : list mapping) : bool := forallb (fun m => match fits m 0 with Some _ => true | None => false end) l.

(* MapFunctor / UnmapFunctor, DetailDoMap (106-115) under ForIf: the first pair that fits; then the default (150-152, 161-163) *)
Fixpoint do_map (pairs : list (mapping * mapping)) (dflt : mapping) (x : Z) : result :=
  match pairs with
  | [] => value_or_throw (get_value dflt)
  | (from, to) :: r => match fits from x with
      | Some true => value_or_throw (get_value to)
      | Some false => do_map r dflt x
      | None => DoesNotCompile
      end
  end.
(* DetailDoHasMapping (117-126), HasMapping (166-175), HasBackMapping (177-186) *)
Fixpoint do_has (pairs : list (mapping * mapping)) (dflt : mapping) (x : Z) : option bool :=
  match pairs with
  | [] => Some (has_value dflt)
  | (from, to) :: r => match fits from x with
      | Some true => Some (has_value to)
      | Some false => do_has r dflt x
      | None => None
      end
  end.
Definition swap (p : mapping * mapping) : mapping * mapping := (snd p, fst p).

Definition Map (m : mapper) (x : Z) : result :=
  if all_fits (map fst (table m)) then do_map (table m) (default_dst m) x else DoesNotCompile.
Definition Unmap (m : mapper) (y : Z) : result :=
  if all_fits (map snd (table m)) then do_map (map swap (table m)) (default_src m) y else DoesNotCompile.
Definition HasMapping (m : mapper) (x : Z) : option bool :=
  if all_fits (map fst (table m)) then do_has (table m) (default_dst m) x else None.
Definition HasBackMapping (m : mapper) (y : Z) : option bool :=
  if all_fits (map snd (table m)) then do_has (map swap (table m)) (default_src m) y else None.
