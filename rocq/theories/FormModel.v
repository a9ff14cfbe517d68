(** Model of stingraykit/string/StringFormat.h, stingraykit/string/StringParse.h and stingraykit/Version.{h,cpp}.

    Strings are lists of character codes.  A position in a string that only grows is modelled as the rest of the string from there. *)
From Verif Require Import Base ITextModel.
Local Open Scope Z_scope.

Definition size_max : Z := 2 ^ 64 - 1.
(** string::find(char) and find_first_of(char): what is before the character and what is after it; '%' is 37, '$' is 36 *)
Fixpoint cut_at (c : Z) (l : list Z) : option (list Z * list Z) :=
  match l with
  | [] => None
  | x :: r => if x =? c then Some ([], r) else match cut_at c r with Some (a, b) => Some (x :: a, b) | None => None end
  end.
Definition same (a b : list Z) : bool := if list_eq_dec Z.eq_dec a b then true else false.
(** FromString<size_t>; every exception is None *)
Definition read_size (t : list Z) : option Z := match from_string (unsigned_t 64) t with IOk v => Some v | _ => None end.

(* ---------------------------------------------------------------- StringFormat *)
Inductive fmt_result := FmtOk (s : list Z) | FmtThrow.
(** StringFormat.h:19-38; [args] are the texts that ToString gives for the arguments.  That a wide item does not fit in memory is left out. *)
Fixpoint argument_to_string (index width : Z) (args : list (list Z)) : option (list Z) :=
  match args with
  | [] => None
  | p0 :: rest =>
      if negb (index =? 0) then argument_to_string (index - 1) width rest
      else if width =? 0 then Some p0
      else if zlen p0 <? width then Some (repeat 48 (Z.to_nat (width - zlen p0)) ++ p0) else Some p0
  end.
(** 59-84: what stands between two '%' *)
Definition one_argument (arg : list Z) (args : list (list Z)) : option (list Z) :=
  let index_str := match cut_at 36 arg with Some (i, _) => i | None => arg end in
  match index_str with
  | [] => None
  | _ =>
      match read_size index_str with
      | None => None
      | Some index =>
          if index >? 0 then
            match cut_at 36 arg with
            | None => argument_to_string (index - 1) 0 args
            | Some (_, []) => None
            | Some (_, w) => match read_size w with Some width => argument_to_string (index - 1) width args | None => None end
            end
          else None
      end
  end.
(** 48-93; one step of the loop per unit of fuel, [string_format] gives enough of it *)
Fixpoint format_loop (fuel : nat) (rest : list Z) (args : list (list Z)) (result : list Z) : fmt_result :=
  match fuel with
  | O => FmtThrow
  | S n =>
      match rest with
      | [] => FmtOk result
      | c :: r =>
          if c =? 37
          then match cut_at 37 r with
               | None => FmtThrow
               | Some ([], r') => format_loop n r' args (result ++ [37])
               | Some (arg, r') => match one_argument arg args with Some t => format_loop n r' args (result ++ t) | None => FmtThrow end
               end
          else format_loop n r args (result ++ [c])
      end
  end.
Definition string_format (format : list Z) (args : list (list Z)) : fmt_result := format_loop (S (length format)) format args [].

(* ---------------------------------------------------------------- StringParse *)
Inductive token := TText (s : list Z) | TIndex (n : Z).
(** StringParse.h:113-139; [lit] is format[start_pos .. current_pos), [rest] is format from current_pos; None is "return false" *)
Fixpoint token_loop (fuel : nat) (lit rest : list Z) : option (list token) :=
  match fuel with
  | O => None
  | S n =>
      match cut_at 37 rest with
      | None => Some (match lit ++ rest with [] => [] | s => [TText s] end)           (* 116-117, 141-142 *)
      | Some (a, b) =>
          match cut_at 37 b with
          | None => None                                                              (* 119-120 *)
          | Some (name, r) =>
              let index := match name with [] => None | _ => if same name [95] then Some size_max else read_size name end in    (* 124-130, '_' is 95 *)
              match index with
              | None => token_loop n (lit ++ a ++ 37 :: name ++ [37]) r               (* 124, 135 *)
              | Some i => match token_loop n [] r with
                          | Some ts => Some (match lit ++ a with [] => TIndex i :: ts | s => TText s :: TIndex i :: ts end)     (* 131-136 *)
                          | None => None
                          end
              end
          end
      end
  end.
Definition tokens_of (format : list Z) : option (list token) := token_loop (S (length format)) [] format.

(** string::find: what is before the first occurrence of s and what is after it *)
Fixpoint starts_with (s l : list Z) : option (list Z) :=
  match s, l with [], _ => Some l | x :: s', y :: l' => if x =? y then starts_with s' l' else None | _ :: _, [] => None end.
Fixpoint cut_text (s l : list Z) : option (list Z * list Z) :=
  match starts_with s l with
  | Some r => Some ([], r)
  | None => match l with [] => None | c :: l' => match cut_text s l' with Some (a, b) => Some (c :: a, b) | None => None end end
  end.

Section Parse.
  Variable V : Type.
  (** the outcome with the values that the arguments have after it *)
  Inductive parse_result := Parsed (r : bool) (values : list V) | ParseThrow.
  (** 85-103; a reader is FromStringReader::Do for the type of the argument (40-83): None is false and leaves the value *)
  Fixpoint try_read (text : list Z) (index : Z) (readers : list (list Z -> option V)) (values : list V) : parse_result :=
    if index =? size_max - 1 then Parsed true values else
    match readers, values with
    | f :: readers', v :: values' =>
        if negb (index =? 0)
        then match try_read text (index - 1) readers' values' with Parsed b vs => Parsed b (v :: vs) | ParseThrow => ParseThrow end
        else match f text with Some x => Parsed true (x :: values') | None => Parsed false values end
    | _, _ => ParseThrow
    end.
  (** 144-170 *)
  Fixpoint match_loop (tokens : list token) (index : Z) (rest : list Z) (readers : list (list Z -> option V)) (values : list V) : parse_result :=
    match tokens with
    | [] => if negb (index =? 0) then try_read rest (index - 1) readers values else Parsed (match rest with [] => true | _ => false end) values
    | t :: tokens' =>
        match rest with
        | [] => Parsed false values
        | _ =>
            match t with
            | TIndex n => match_loop tokens' n rest readers values
            | TText s =>
                match cut_text s rest with
                | None => Parsed false values
                | Some (before, after) =>
                    if negb (index =? 0)
                    then match before with
                         | [] => Parsed false values
                         | _ => match try_read before (index - 1) readers values with
                                | Parsed true vs => match_loop tokens' 0 after readers vs
                                | r => r
                                end
                         end
                    else match_loop tokens' 0 after readers values
                end
            end
        end
    end.
  (** 109-171 *)
  Definition string_parse (string format : list Z) (readers : list (list Z -> option V)) (values : list V) : parse_result :=
    match tokens_of format with None => Parsed false values | Some ts => match_loop ts 0 string readers values end.
End Parse.
Arguments Parsed {V}. Arguments ParseThrow {V}. Arguments try_read {V}. Arguments match_loop {V}. Arguments string_parse {V}.

(* ---------------------------------------------------------------- Version *)
Record version := Ver { major : Z; minor : Z; build : option Z }.
(** comparers.h:209-218 on unsigned; optional.h:314-321 *)
Definition cmp_unsigned (a b : Z) : Z := if a <? b then -1 else if b <? a then 1 else 0.
Definition cmp_build (a b : option Z) : Z :=
  match b with
  | Some y => match a with Some x => cmp_unsigned x y | None => -1 end
  | None => match a with Some _ => 1 | None => 0 end
  end.
(** Version.cpp:16-17: the first member that differs decides (MemberListComparer) *)
Definition version_cmp (a b : version) : Z :=
  if negb (cmp_unsigned (major a) (major b) =? 0) then cmp_unsigned (major a) (major b)
  else if negb (cmp_unsigned (minor a) (minor b) =? 0) then cmp_unsigned (minor a) (minor b)
  else cmp_build (build a) (build b).
Definition version_lt (a b : version) : bool := version_cmp a b <? 0.
(** Version.h:34, toolkit.h:150-160 *)
Definition version_gt (a b : version) : bool := version_lt b a.
Definition version_le (a b : version) : bool := negb (version_lt b a).
Definition version_ge (a b : version) : bool := negb (version_lt a b).
Definition version_ne (a b : version) : bool := version_lt b a || version_lt a b.
Definition version_eq (a b : version) : bool := negb (version_ne b a).
(** Version.cpp:20-27; '.' is 46 *)
Definition version_to_string (v : version) : option (list Z) :=
  match to_string 32 (major v), to_string 32 (minor v) with
  | Some a, Some b =>
      match build v with
      | None => Some (a ++ 46 :: b)
      | Some n => match to_string 32 n with Some c => Some (a ++ 46 :: b ++ 46 :: c) | None => None end
      end
  | _, _ => None
  end.
(** 30-37: "%1%.%2%.%3%" and "%1%.%2%"; a variable that was not assigned to is None *)
Definition read_unsigned (t : list Z) : option (option Z) := match from_string (unsigned_t 32) t with IOk v => Some (Some v) | _ => None end.
Definition format3 : list Z := [37; 49; 37; 46; 37; 50; 37; 46; 37; 51; 37].
Definition format2 : list Z := [37; 49; 37; 46; 37; 50; 37].
Definition version_from_string (str : list Z) : option version :=
  let make vs := match vs with [Some a; Some b; c] => Some (Ver a b c) | _ => None end in
  match string_parse str format3 [read_unsigned; read_unsigned; read_unsigned] [None; None; None] with
  | Parsed true vs => make vs
  | Parsed false vs =>
      match string_parse str format2 [read_unsigned; read_unsigned] (firstn 2 vs) with
      | Parsed true vs2 => make (vs2 ++ skipn 2 vs)
      | _ => None
      end
  | ParseThrow => None
  end.
