(** Model of the command line: reading of arguments, execution, completion and
    registration of handlers.
    Source: stingraykit/CmdLine.h, stingraykit/CmdLine.cpp. *)
From Coq Require Import ZArith List Bool.
Import ListNotations.
Open Scope Z_scope.

(** Strings are lists of character codes. *)
Notation str := (list Z) (only parsing).

Definition space := 32.  Definition comma := 44.  Definition bracket := 91.
Definition endbracket := 93.  Definition backslash := 92.  Definition hash := 35.

Definition str_eqb (a b : str) : bool := if list_eq_dec Z.eq_dec a b then true else false.

(** Parameter types: std::string, bool, a type with FromString (the function
    gives None where FromString throws), optional, std::vector. *)
Inductive ty := TStr | TBool | TFrom (f : str -> option Z) | TOpt (t : ty) | TVec (t : ty).
Inductive value := VStr (s : str) | VBool (b : bool) | VNum (z : Z) | VNone | VSome (v : value)
                 | VList (vs : list value).

Definition delimiter (c : Z) : bool := (c =? space) || (c =? comma) || (c =? endbracket).

(** CmdArgReader::Read for std::string, CmdLine.h 44-64: the value and the
    number of characters read. *)
Fixpoint read_loop (escaping : bool) (s : str) : str * nat :=
  match s with
  | [] => ([], 0%nat)
  | c :: r =>
      if delimiter c && negb escaping then ([], 0%nat)
      else if (c =? backslash) && negb escaping
           then let '(v, n) := read_loop true r in (v, S n)
           else let '(v, n) := read_loop false r in (c :: v, S n)
  end.
Definition read_string (s : str) : str * nat := read_loop false s.

Definition s_on : str := [111; 110].
Definition s_true : str := [116; 114; 117; 101].
Definition s_off : str := [111; 102; 102].
Definition s_false : str := [102; 97; 108; 115; 101].
Definition s_none : str := [110; 111; 110; 101].

(** The loops over spaces, CmdLine.h 112-113, 119-120, 126-127. *)
Fixpoint skip_spaces (s : str) : str :=
  match s with c :: r => if c =? space then skip_spaces r else s | [] => [] end.

(** The loop of Read for std::vector, CmdLine.h 109-128, on the text from
    result on; fuel is the number of iterations allowed (each reads at least
    one character).  None: return 0. *)
Fixpoint vec_loop (fuel : nat) (rd : str -> value * nat) (s : str) (acc : list value)
  : option (list value * str) :=
  match fuel with
  | O => None
  | S fuel' =>
      match s with
      | [] => Some (acc, [])
      | c :: _ =>
          if c =? endbracket then Some (acc, s) else
          let s1 := skip_spaces s in
          let '(v, n) := rd s1 in
          if Nat.eqb n 0 then None else
          let s2 := skip_spaces (skipn n s1) in
          match s2 with
          | [] => Some (acc ++ [v], s2)
          | c2 :: r2 =>
              if c2 =? endbracket then Some (acc ++ [v], s2)
              else if negb (c2 =? comma) then None
              else vec_loop fuel' rd (skip_spaces r2) (acc ++ [v])
          end
      end
  end.

(** CmdArgReader::Read; 0 characters mean failure.  TFrom: CmdLine.h 31-42;
    bool 66-81; optional 83-99 (the inner Read sees only the characters of the
    string just read); vector 101-133. *)
Fixpoint read (t : ty) (s : str) : value * nat :=
  match t with
  | TStr => let '(v, n) := read_string s in (VStr v, n)
  | TBool =>
      let '(v, n) := read_string s in
      if str_eqb v s_on || str_eqb v s_true then (VBool true, n)
      else if str_eqb v s_off || str_eqb v s_false then (VBool false, n)
      else (VNone, 0%nat)
  | TFrom f =>
      let '(v, n) := read_string s in
      match f v with Some z => (VNum z, n) | None => (VNone, 0%nat) end
  | TOpt t' =>
      let '(v, n) := read_string s in
      if str_eqb v s_none then (VNone, n)
      else let '(v', n') := read t' (firstn n s) in
           if Nat.eqb n' n then (VSome v', n) else (VNone, 0%nat)
  | TVec t' =>
      match s with
      | c :: r =>
          if c =? bracket
          then match vec_loop (S (length r)) (read t') r [] with
               | Some (vs, _ :: rest) => (VList vs, length s - length rest)%nat
               | _ => (VNone, 0%nat)
               end
          else (VNone, 0%nat)
      | [] => (VNone, 0%nat)
      end
  end.

(** After a word or an argument: the end of the text, or a space, which is
    skipped, CmdLine.h 301-307, 353-359. *)
Definition next_part (s : str) : option str :=
  match s with
  | [] => Some []
  | c :: r => if c =? space then Some r else None
  end.

(** StringsParser, CmdLine.h 286-310, for all words. *)
Fixpoint parse_words (ws : list str) (s : str) : option str :=
  match ws with
  | [] => Some s
  | w :: ws' =>
      if (length s <? length w)%nat then None
      else if str_eqb w (firstn (length w) s)
           then match next_part (skipn (length w) s) with Some r => parse_words ws' r | None => None end
           else None
  end.

(** ArgsParser, CmdLine.h 339-364, for all parameters. *)
Fixpoint parse_args (ts : list ty) (s : str) : option (list value * str) :=
  match ts with
  | [] => Some ([], s)
  | t :: ts' =>
      let '(v, n) := read t s in
      if Nat.eqb n 0 then None
      else match next_part (skipn n s) with
           | Some r => match parse_args ts' r with Some (vs, r') => Some (v :: vs, r') | None => None end
           | None => None
           end
  end.

(** CmdHandler::Execute, CmdLine.h 398-418: the arguments given to the function. *)
Definition execute (ws : list str) (ts : list ty) (s : str) : option (list value) :=
  match parse_words ws s with
  | None => None
  | Some r => match parse_args ts r with
              | Some (vs, []) => Some vs
              | _ => None
              end
  end.

(** StringsCompleter, CmdLine.h 312-336, for all words: the string inserted
    into the results, if any. *)
Fixpoint complete_words (ws : list str) (input : str) : option str :=
  match ws with
  | [] => None
  | w :: ws' =>
      let s := Nat.min (length w) (length input) in
      if negb (str_eqb (firstn s w) (firstn s input)) then None
      else if (length input <=? length w)%nat then Some (skipn s w ++ [space])
      else match skipn (length w) input with
           | c :: r => if c =? space then complete_words ws' r else None
           | [] => None
           end
  end.

(** ReplaceAll(res, "c", "\\c") for one character. *)
Definition replace_char (c : Z) (s : str) : str := flat_map (fun x => if x =? c then [backslash; c] else [x]) s.

(** Custom completion of one argument, CmdLine.h 156-178: the strings
    inserted for the candidates. *)
Definition complete_custom (candidates : list str) (input : str) : list str :=
  let v := fst (read_string input) in
  flat_map (fun c => if str_eqb (firstn (length v) c) v && (length v <=? length c)%nat
                     then [replace_char comma (replace_char endbracket (replace_char space (skipn (length v) c))) ++ [space]]
                     else []) candidates.

(** * Handlers *)

Record handler := Handler { h_words : list str; h_types : list ty }.

(** The dictionary of commands, ordered by key, with the keys bound in the
    tokens; handlers are named by numbers. *)
Record cmdline := CmdLine { cl_commands : list (nat * nat); cl_tokens : nat -> option nat }.
Definition cmdline0 : cmdline := CmdLine [] (fun _ => None).

(** Insertion into a dictionary ordered by key; None: the key is taken. *)
Fixpoint dict_add (k h : nat) (d : list (nat * nat)) : option (list (nat * nat)) :=
  match d with
  | [] => Some [(k, h)]
  | (k', h') :: r =>
      if Nat.ltb k k' then Some ((k, h) :: d)
      else if Nat.eqb k k' then None
      else option_map (cons (k', h')) (dict_add k h r)
  end.

Inductive rop := RRegister (h : nat) | RRelease (h : nat).

(** Register, CmdLine.cpp 43-51: the key after the first of the reversed
    dictionary; CHECK(Add) throws (None).  Unregister, 54-65. *)
Definition rstep (c : cmdline) (o : rop) : option cmdline :=
  match o with
  | RRegister h =>
      let key := match rev (cl_commands c) with (k, _) :: _ => (k + 1)%nat | [] => 0%nat end in
      match dict_add key h (cl_commands c) with
      | Some d => Some (CmdLine d (fun h' => if Nat.eqb h' h then Some key else cl_tokens c h'))
      | None => None
      end
  | RRelease h =>
      match cl_tokens c h with
      | Some key => Some (CmdLine (filter (fun p => negb (Nat.eqb (fst p) key)) (cl_commands c))
                                  (fun h' => if Nat.eqb h' h then None else cl_tokens c h'))
      | None => Some c
      end
  end.

Fixpoint rrun (c : cmdline) (os : list rop) : option cmdline :=
  match os with
  | [] => Some c
  | o :: r => match rstep c o with Some c' => rrun c' r | None => None end
  end.

(** CmdLine::Execute, CmdLine.cpp 23-33: the result and the handler called
    with its arguments. *)
Fixpoint try_handlers (hs : nat -> handler) (d : list (nat * nat)) (cmd : str) : option (nat * list value) :=
  match d with
  | [] => None
  | (_, h) :: r => match execute (h_words (hs h)) (h_types (hs h)) cmd with
                   | Some vs => Some (h, vs)
                   | None => try_handlers hs r cmd
                   end
  end.
Definition cmd_execute (hs : nat -> handler) (c : cmdline) (cmd : str) : bool * option (nat * list value) :=
  match cmd with
  | ch :: _ => if ch =? hash then (true, None)
               else match try_handlers hs (cl_commands c) cmd with Some x => (true, Some x) | None => (false, None) end
  | [] => match try_handlers hs (cl_commands c) cmd with Some x => (true, Some x) | None => (false, None) end
  end.
