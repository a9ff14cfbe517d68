(** Model of stingraykit/string/StringUtils.h and .cpp and of StringJoiner (string/ToString.h).

    A string is a list of character codes.  std::string and std algorithms are taken by their meaning. *)
From Verif Require Import Base SvModel.

(** std::search / std::string::find by their meaning *)
Fixpoint is_prefix (v d : view) : bool :=
  match v, d with
  | [], _ => true
  | x :: v', y :: d' => (x =? y)%Z && is_prefix v' d'
  | _, [] => false
  end.
Fixpoint search (d v : view) : option nat :=
  if is_prefix v d then Some 0%nat
  else match d with [] => None | _ :: d' => match search d' v with Some i => Some (S i) | None => None end end.
Definition std_find (d v : view) (pos : nat) : option nat :=
  if (pos <=? length d)%nat then match search (skipn pos d) v with Some i => Some (pos + i)%nat | None => None end else None.
(** std::string::find_first_of(list, pos) *)
Fixpoint first_among (d v : view) : option nat :=
  match d with
  | [] => None
  | c :: d' => if among c v then Some 0%nat else match first_among d' v with Some i => Some (S i) | None => None end
  end.
Definition std_find_first_of (d v : view) (pos : nat) : option nat :=
  match first_among (skipn pos d) v with Some i => Some (pos + i)%nat | None => None end.

(** StringUtils.h:37: result.replace(index, index + n, to) *)
Definition replace_at (r : view) (index n : nat) (to : view) : view := firstn index r ++ to ++ skipn (index + n) r.
(** StringUtils.h:35-42, at most [fuel] turns; None is a loop that has not ended *)
Fixpoint replace_loop (fuel : nat) (from to r : view) (index : nat) : option view :=
  match fuel with
  | O => None
  | S f =>
      let r' := replace_at r index (length from) to in
      let index' := match search (skipn (index + length to) r') from with
                    | Some k => (index + length to + k)%nat
                    | None => length r'
                    end in
      if (index' <? length r')%nat then replace_loop f from to r' index' else Some r'
  end.
(** StringUtils.h:20-43 *)
Definition replace_all (fuel : nat) (str from to : view) : option view :=
  match find str from 0 with
  | Npos => Some str
  | Found i => replace_loop fuel from to str i
  | Fault => None
  end.
(** StringUtils.h:50-59; std::replace from the first occurrence on *)
Definition replace_char (str : view) (from to : Z) : view :=
  match find str [from] 0 with
  | Found i => firstn i str ++ map (fun c => if (c =? from)%Z then to else c) (skipn i str)
  | _ => str
  end.
(** StringUtils.h:62-69 *)
Fixpoint filter_out (str characters : view) : view :=
  match str with
  | [] => []
  | c :: s => match find characters [c] 0 with Npos => c :: filter_out s characters | _ => filter_out s characters end
  end.
(** StringUtils.h:72-77 *)
Definition remove_char (str : view) (ch : Z) : view := filter (fun c => negb (c =? ch)%Z) str.

(** StringUtils.h:80-88 *)
Definition extract_prefix (s : view) (n : nat) : view := firstn n s.
Definition extract_suffix (s : view) (n : nat) : view :=
  let len := Nat.min (length s) n in firstn len (skipn (length s - len) s).
(** std::string equality of a part: str.compare(pos, n, other) == 0 *)
Definition eqs (a b : view) : bool := if list_eq_dec Z.eq_dec a b then true else false.
(** StringUtils.h:91-100 *)
Definition remove_prefix_str (s p : view) : view := if eqs (firstn (length p) s) p then skipn (length p) s else s.
Definition remove_suffix_str (s p : view) : view :=
  if (length s <? length p)%nat then s
  else if eqs (skipn (length s - length p) s) p then firstn (length s - length p) s else s.
(** StringUtils.h:103-112 *)
Definition starts_with_str (s p : view) : bool :=
  (length p <=? length s)%nat && match compare_at s 0 (Some (length p)) p with Some c => (c =? 0)%Z | None => false end.
Definition ends_with_str (s p : view) : bool :=
  (length p <=? length s)%nat && match compare_at s (length s - length p) (Some (length p)) p with Some c => (c =? 0)%Z | None => false end.
Definition contains_str (s p : view) : bool := match find s p 0 with Npos => false | _ => true end.

(** StringUtils.h:115-162: StringRef: owner, begin, end *)
Record sref := mkRef { r_owner : view; r_begin : nat; r_end : nat }.
Definition make_ref (owner : view) (b : nat) (e : option nat) : sref :=
  mkRef owner b (match e with Some e => e | None => length owner end).
Definition ref_size (r : sref) : nat := r_end r - r_begin r.
(** StringUtils.h:151 and 160-161 *)
Definition ref_str (r : sref) : view :=
  if (0 <? ref_size r)%nat then firstn (ref_size r) (skipn (r_begin r) (r_owner r)) else [].
(** StringUtils.h:139-143 *)
Definition ref_find (r : sref) (s : view) (pos : nat) : option nat :=
  match std_find (r_owner r) s (pos + r_begin r) with
  | Some p => if (r_end r <=? p)%nat then None else Some (p - r_begin r)%nat
  | None => None
  end.
(** StringUtils.h:145-146 *)
Definition ref_substr (r : sref) (pos : nat) (n : option nat) : sref :=
  mkRef (r_owner r) (r_begin r + pos) (match n with None => r_end r | Some n => r_begin r + pos + n end)%nat.

(** StringUtils.h:168-175, 189-190 and 206-207: what a delimiter search returns: position and size, None for npos *)
Definition static_search (delimiter s : view) (start : nat) : option (nat * nat) :=
  match std_find s delimiter start with Some p => Some (p, length delimiter) | None => None end.
Definition any_search (list s : view) (start : nat) : option (nat * nat) :=
  match std_find_first_of s list start with Some p => Some (p, 1%nat) | None => None end.

Section Split.
  Variable find_delim : view -> nat -> option (nat * nat).
  Variable s : view.
  Variable limit : nat.        (* 0 is NoLimit *)

  Record srange := mkR { s_start : option nat; s_next : option (nat * nat); s_results : nat }.
  (** StringUtils.h:233-235 *)
  Definition split_init : srange := mkR (Some 0%nat) (find_delim s 0) 0.
  (** StringUtils.h:240-244; None is the exception of an invalid range *)
  Definition split_get (r : srange) : option view :=
    match s_start r with
    | None => None
    | Some b => Some (ref_str (make_ref s b (match s_next r with Some (p, _) => Some p | None => None end)))
    end.
  (** StringUtils.h:256-266 *)
  Definition split_next (r : srange) : srange :=
    match s_next r with
    | None => mkR None None (s_results r)
    | Some (p, n) =>
        let start := (p + n)%nat in
        if (limit =? 0)%nat then mkR (Some start) (find_delim s start) (s_results r)
        else let results := S (s_results r) in
             mkR (Some start) (if (results <? limit)%nat then find_delim s start else None) results
    end.
  (** StringUtils.h:249-254: _next is left as it is *)
  Definition split_first (r : srange) : srange := mkR (Some 0%nat) (s_next r) 0.
  (** A loop over the range: for (; r.Valid(); r.Next()) r.Get() *)
  Fixpoint split_all (fuel : nat) (r : srange) : option (list view) :=
    match fuel with
    | O => None
    | S f => match split_get r with
             | None => Some []
             | Some piece => match split_all f (split_next r) with Some l => Some (piece :: l) | None => None end
             end
    end.
End Split.
Definition split_static (fuel : nat) (s delimiter : view) (limit : nat) : option (list view) :=
  split_all (static_search delimiter) s limit fuel (split_init (static_search delimiter) s).
Definition split_any (fuel : nat) (s list : view) (limit : nat) : option (Datatypes.list view) :=
  split_all (any_search list) s limit fuel (split_init (any_search list) s).

(** StringUtils.h:284-299 *)
Fixpoint join_rest (separator : view) (l : list view) : view :=
  match l with [] => [] | x :: l' => separator ++ x ++ join_rest separator l' end.
Definition join (separator : view) (l : list view) : view :=
  match l with [] => [] | x :: l' => x ++ join_rest separator l' end.

(** StringUtils.h:317-332; find_last_not_of and find_first_not_of of std::string *)
Fixpoint first_not_among (d v : view) : option nat :=
  match d with
  | [] => None
  | c :: d' => if among c v then match first_not_among d' v with Some i => Some (S i) | None => None end else Some 0%nat
  end.
Fixpoint last_not_among (d v : view) : option nat :=
  match d with
  | [] => None
  | c :: d' => match last_not_among d' v with Some i => Some (S i) | None => if among c v then None else Some 0%nat end
  end.
Definition right_strip (s chars : view) : view := match last_not_among s chars with None => [] | Some pos => firstn (pos + 1) s end.
Definition left_strip (s chars : view) : view := match first_not_among s chars with None => [] | Some pos => skipn pos s end.
Definition strip (s chars : view) : view := left_strip (right_strip s chars) chars.

(** StringUtils.h:372-377 *)
Definition justify (left : bool) (s : view) (width : nat) (filler : Z) : view :=
  let pad := repeat filler (if (length s <? width)%nat then width - length s else 0) in
  if left then s ++ pad else pad ++ s.

(** ToString.h:656-664 and 651-652: StringJoiner; an item carries whether the separator is enabled for it *)
Definition joiner_append (sep prefix : view) (b : view) (item : bool * view) : view :=
  (match b with [] => prefix | _ => if fst item then b ++ sep else b end) ++ snd item.
Definition joiner (sep prefix suffix : view) (items : list (bool * view)) : view :=
  (match fold_left (joiner_append sep prefix) items [] with [] => prefix | b => b end) ++ suffix.

(** StringUtils.cpp:34-35: one row; [left] is v1[j], [diag] is v0[j], the list is v0[j+1].. *)
Fixpoint ed_row (c : Z) (s2 : view) (left diag : nat) (v0 : list nat) : list nat :=
  match s2, v0 with
  | y :: s2', up :: v0' =>
      let v := Nat.min (Nat.min (left + 1) (up + 1)) (diag + (if (c =? y)%Z then 0 else 1)) in
      v :: ed_row c s2' v up v0'
  | _, _ => []
  end.
(** StringUtils.cpp:30-38: [i] rows done *)
Fixpoint ed_rows (s1 s2 : view) (i : nat) (v0 : list nat) : list nat :=
  match s1 with
  | [] => v0
  | c :: s1' => ed_rows s1' s2 (S i) ((i + 1)%nat :: ed_row c s2 (i + 1) (nth 0 v0 0%nat) (tl v0))
  end.
(** StringUtils.cpp:13-41; after the loop v0 and v1 are equal (s1 is not empty) *)
Definition edit_distance (s1 s2 : view) : nat :=
  if (compare s1 s2 =? 0)%Z then 0
  else match s1, s2 with
       | [], _ => length s2
       | _, [] => length s1
       | _, _ => nth (length s2) (ed_rows s1 s2 0 (seq 0 (length s2 + 1))) 0%nat
       end.
