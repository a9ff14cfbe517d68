(* Model of EnumToString.h, EnumToString.cpp and STINGRAYKIT_ENUM_VALUES (toolkit.h 70-78): the names of enumerations. A string is a list
   of character codes; an int is an integer between -2^31 and 2^31 - 1. *)
From Coq Require Import List Bool ZArith Lia.
Import ListNotations.
Open Scope Z_scope.

Definition str := list Z.
Definition str_eqb (a b : str) : bool := if list_eq_dec Z.eq_dec a b then true else false.

(** * The values (toolkit.h 70-78) *)
(* An initializer, as it may be written with EnumValueHolder: only + and - are defined for it (EnumToString.h 32-33). Name i is the
   enumerator number i of this enumeration. *)
Inductive expr := Lit (z : Z) | Name (i : nat) | Plus (a b : expr) | Minus (a b : expr).
Definition definition := list (option expr).          (* in the order of the enumerators; None: without an initializer *)

Definition s32 (z : Z) : Z := (z + 2 ^ 31) mod 2 ^ 32 - 2 ^ 31.
Definition Uninitialized : Z := (2 ^ 31 - 1) * 2 ^ 32.             (* EnumToString.h 26 *)
(* EnumValueHolder (24-33): a sum goes through EnumValueHolder(s32) *)
Fixpoint holder (env : list Z) (e : expr) : Z :=
  match e with
  | Lit z => s32 z
  | Name i => nth i env Uninitialized
  | Plus a b => s32 (holder env a + holder env b)
  | Minus a b => s32 (holder env a - holder env b)
  end.
(* 74-75: the holders are declared, and then assigned the same *)
Fixpoint holders (env : list Z) (d : definition) : list Z :=
  match d with
  | [] => env
  | i :: r => holders (env ++ [match i with Some e => holder env e | None => Uninitialized end]) r
  end.
(* Init 137-144 *)
Fixpoint init_values (cur : Z) (hs : list Z) : list Z :=
  match hs with
  | [] => []
  | h :: r => let c := if h =? Uninitialized then cur else s32 h in c :: init_values (c + 1) r
  end.

(** * The names *)
Definition ws (c : Z) : bool := (c =? 32) || (c =? 9) || (c =? 10) || (c =? 13).         (* 34-35 *)
Definition comma : Z := 44.
Definition equals : Z := 61.
Definition bar : Z := 124.
Fixpoint skip (p : Z -> bool) (s : str) : str := match s with [] => [] | c :: r => if p c then skip p r else s end.
Fixpoint span (p : Z -> bool) (s : str) : str * str :=
  match s with [] => ([], []) | c :: r => if p c then (c :: fst (span p r), snd (span p r)) else ([], s) end.
(* 147-169. None: it throws *)
Fixpoint init_names (values : list Z) (s : str) : option (list (Z * str)) :=
  match values with
  | [] => Some []
  | v :: r =>
      match s with
      | [] => None
      | _ =>
          let (name, s2) := span (fun c => negb (ws c) && negb (c =? comma) && negb (c =? equals)) (skip ws s) in
          let s3 := match skip (fun c => negb (c =? comma)) s2 with [] => [] | _ :: t => t end in
          match init_names r s3 with Some l => Some ((v, name) :: l) | None => None end
      end
  end.
(* The two maps (162-163): insert does nothing if the key is there. *)
Fixpoint insert_val (v : Z) (n : str) (m : list (Z * str)) : list (Z * str) :=      (* std::map<int, std::string>, in its order *)
  match m with
  | [] => [(v, n)]
  | (w, k) :: r => if v <? w then (v, n) :: m else if v =? w then m else (w, k) :: insert_val v n r
  end.
Record enum := mk_enum { values : list Z; enumToStr : list (Z * str); strToEnum : list (str * Z) }.
Definition Init (vals : list Z) (s : str) : option enum :=
  match init_names vals s with
  | Some l => Some (mk_enum vals (fold_left (fun m p => insert_val (fst p) (snd p) m) l [])
                            (map (fun p => (snd p, fst p)) l))        (* looked up from the front: the first insertion wins *)
  | None => None
  end.
Definition find_val (v : Z) (m : list (Z * str)) : option str := option_map snd (find (fun p => fst p =? v) m).
Definition find_str (n : str) (m : list (str * Z)) : option Z := option_map snd (find (fun p => str_eqb (fst p) n) m).

(** * EnumToString (39-71) *)
(* s << (unsigned)val (66) *)
Fixpoint digits (fuel : nat) (n : Z) (acc : str) : str :=
  match fuel with O => acc | S f => let acc' := (48 + n mod 10) :: acc in if n <? 10 then acc' else digits f (n / 10) acc' end.
Definition print_unsigned (n : Z) : str := digits 10 n [].
(* 47-61 *)
Fixpoint flags (val flagged : Z) (result : str) (m : list (Z * str)) : Z * str :=
  match m with
  | [] => (flagged, result)
  | (k, n) :: r =>
      let take := negb (Z.land k val =? 0) && (Z.land k (Z.lnot val) =? 0) && negb (Z.land k (Z.lnot flagged) =? 0) in
      let flagged' := if take then Z.lor flagged k else flagged in
      let result' := if take then (match result with [] => [] | _ => result ++ [bar] end) ++ n else result in
      if flagged' =? val then (flagged', result') else flags val flagged' result' r
  end.
Definition EnumToString (e : enum) (val : Z) : str :=
  match find_val val (enumToStr e) with
  | Some n => n
  | None => let (flagged, result) := flags val 0 [] (enumToStr e) in
            if negb (flagged =? val) then print_unsigned (val mod 2 ^ 32) else result
  end.

(** * EnumFromString (74-133). None: it throws *)
Definition digit (c : Z) : bool := (48 <=? c) && (c <=? 57).
Definition isspace (c : Z) : bool := (c =? 32) || ((9 <=? c) && (c <=? 13)).           (* what operator>> skips *)
Fixpoint number (acc : Z) (s : str) : Z := match s with [] => acc | c :: r => number (10 * acc + (c - 48)) r end.
(* 83-95: operator>> fails if the number is not an unsigned; then only white space may follow *)
Definition parse_number (s : str) : option Z :=
  let (ds, rest) := span digit (skip isspace s) in
  let n := number 0 ds in
  if n <? 2 ^ 32 then match skip isspace rest with [] => Some (s32 n) | _ => None end else None.
(* 106-127, 129: fuel is the number of characters *)
Fixpoint parse_flags (fuel : nat) (tbl : list (str * Z)) (s : str) (seen : bool) (result : Z) : option (bool * Z) :=
  match fuel, s with
  | O, _ => Some (seen, result)
  | _, [] => Some (seen, result)
  | S f, _ =>
      let s1 := skip ws s in
      let seen' := match s1 with [] => seen | _ => true end in
      let (w, s2) := span (fun c => negb (ws c) && negb (c =? bar)) s1 in
      let s3 := skip ws s2 in
      match (match w with [] => Some result | _ => option_map (Z.lor result) (find_str w tbl) end) with
      | None => None
      | Some result' => match s3 with [] => Some (seen', result') | _ :: t => parse_flags f tbl t seen' result' end
      end
  end.
Definition EnumFromString (e : enum) (s : str) : option Z :=
  match skip ws s with
  | c :: _ => if digit c then parse_number s else
      match find_str s (strToEnum e) with
      | Some v => Some v
      | None => match parse_flags (length s) (strToEnum e) s false 0 with Some (true, r) => Some r | _ => None end
      end
  | [] =>
      match find_str s (strToEnum e) with
      | Some v => Some v
      | None => match parse_flags (length s) (strToEnum e) s false 0 with Some (true, r) => Some r | _ => None end
      end
  end.
