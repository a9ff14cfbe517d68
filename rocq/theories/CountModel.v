(** * Model of self_count_ptr and self_counter
    stingraykit/self_counter.h. Objects derive from self_counter and may hold self_count_ptr members; threads hold self_count_ptr
    variables. Every operation is cut into its atomic steps (one Inc, one Dec, one pointer assignment, one delete), which the
    threads interleave. The counter is an unbounded integer (the code's s32 is exact below 2^31 pointers to one object). *)
From Coq Require Import List Arith Bool ZArith Lia.
Import ListNotations.

Definition obj := nat.
Definition ptr := option obj.                       (* _rawPtr (45) *)

(** an object: _value (188), its self_count_ptr members, and whether its destructor has not begun *)
Record object := Object { cnt : Z; members : list ptr; alive : bool }.

(** where a pointer lives: a variable of the running thread, or a member of an object *)
Inductive place := PVar (i : nat) | PMember (o : obj) (f : nat).

(** what a thread still has to do *)
Inductive micro :=
  | MCopy (to : place) (o : obj)     (* the copy constructor has read other._rawPtr (57) and is about to add_ref (60) *)
  | MSet (to : place) (p : ptr)      (* tmp holds p and is about to be swapped with the target (102, 109, 138) *)
  | MDec (o : obj)                   (* a destructor is about to call release_ref (96) *)
  | MDelete (o : obj).               (* release_ref saw 0 and is about to delete (228) *)

Record thread := Thread { vars : list ptr; todo : list micro }.
(** [bad]: somebody touched an object whose destructor has begun *)
Record state := State { heap : list object; threads : list thread; deleted : list obj; bad : bool }.

Definition upd {A} (l : list A) (i : nat) (x : A) : list A :=
  if i <? length l then firstn i l ++ x :: skipn (S i) l else l.
Definition dead_object : object := Object 0 [] false.
Definition the (s : state) (o : obj) : object := nth o (heap s) dead_object.

(** every access to an object checks that it is alive *)
Definition touch (s : state) (o : obj) : state :=
  State (heap s) (threads s) (deleted s) (bad s || negb (alive (the s o))).
Definition set_object (s : state) (o : obj) (x : object) : state := State (upd (heap s) o x) (threads s) (deleted s) (bad s).
Definition set_thread (s : state) (t : nat) (x : thread) : state := State (heap s) (upd (threads s) t x) (deleted s) (bad s).
Definition set_todo (s : state) (t : nat) (m : list micro) : state :=
  match nth_error (threads s) t with Some th => set_thread s t (Thread (vars th) m) | None => s end.

(** ~self_count_ptr (93-97) of a temporary that holds p *)
Definition drop (p : ptr) : list micro := match p with Some o => [MDec o] | None => [] end.

(** add_ref (215-219) *)
Definition add_ref (s : state) (o : obj) : state :=
  let s := touch s o in
  set_object s o (Object (cnt (the s o) + 1) (members (the s o)) (alive (the s o))).
(** release_ref (221-233): the new state, and whether the object must be deleted *)
Definition release_ref (s : state) (o : obj) : state * bool :=
  let s := touch s o in
  let count := (cnt (the s o) - 1)%Z in
  (set_object s o (Object count (members (the s o)) (alive (the s o))), Z.eqb count 0).

(** one atomic step of what thread t has to do *)
Definition micro_step (s : state) (t : nat) : option state :=
  match nth_error (threads s) t with
  | None => None
  | Some th =>
    match todo th with
    | [] => None
    | MCopy to o :: r => Some (set_todo (add_ref s o) t (MSet to (Some o) :: r))
    | MSet (PVar i) p :: r => Some (set_thread s t (Thread (upd (vars th) i p) (drop (nth i (vars th) None) ++ r)))
    | MSet (PMember o f) p :: r =>
      let s := touch s o in
      Some (set_todo (set_object s o (Object (cnt (the s o)) (upd (members (the s o)) f p) (alive (the s o)))) t
                     (drop (nth f (members (the s o)) None) ++ r))
    | MDec o :: r => let '(s', last) := release_ref s o in Some (set_todo s' t ((if last then [MDelete o] else []) ++ r))
    (* CheckedDelete: the destructor of the object destroys its members, last first *)
    | MDelete o :: r =>
      let s := touch s o in
      Some (set_todo (State (upd (heap s) o (Object (cnt (the s o)) [] false)) (threads s) (deleted s ++ [o]) (bad s)) t
                     (flat_map drop (rev (members (the s o))) ++ r))
    end
  end.

(** what a program can do with self_count_ptr variables i, j of a thread *)
Inductive op :=
  | New (i n : nat)                  (* vars[i] = make_self_count_ptr<T>(), T with n members (251-253) *)
  | Copy (i j : nat)                 (* vars[i] = vars[j] (99-104), a copy constructor (56-61), or from_this (191-201) *)
  | Move (i j : nat)                 (* vars[i] = std::move(vars[j]) (106-111, 63-65) *)
  | Reset (i : nat)                  (* vars[i].reset() (135-139), ~self_count_ptr *)
  | Swap (i j : nat)                 (* vars[i].swap(vars[j]) (141) *)
  | Load (i k f : nat)               (* vars[i] = vars[k]->member f; the program's own lock makes reading and add_ref one step *)
  | Store (k f j : nat)              (* vars[k]->member f = vars[j] *)
  | Send (i t' j : nat)              (* hands vars[i] over to the empty variable j of another thread *)
  | ResetRaw (i : nat).              (* vars[i].reset(vars[i].get()): adopts an owned raw pointer again *)

Definition var (th : thread) (i : nat) : ptr := nth i (vars th) None.

Definition start (s : state) (t : nat) (c : op) : option state :=
  match nth_error (threads s) t with
  | None => None
  | Some th =>
    match todo th with
    | _ :: _ => None
    | [] =>
      match c with
      | New i n => if i <? length (vars th) then
          (* the counter starts with 1 (207-209) and the raw constructor adopts it (48-50) *)
          let s' := State (heap s ++ [Object 1 (repeat None n) true]) (threads s) (deleted s) (bad s) in
          Some (set_todo s' t [MSet (PVar i) (Some (length (heap s)))])
        else None
      | Copy i j => if i <? length (vars th) then
          Some (set_todo s t (match var th j with Some o => [MCopy (PVar i) o] | None => [MSet (PVar i) None] end))
        else None
      | Move i j => if (i <? length (vars th)) && (j <? length (vars th)) then
          Some (set_thread s t (Thread (upd (vars th) j None) [MSet (PVar i) (var th j)]))
        else None
      | Reset i => if i <? length (vars th) then Some (set_todo s t [MSet (PVar i) None]) else None
      | Swap i j => if (i <? length (vars th)) && (j <? length (vars th)) then
          Some (set_thread s t (Thread (upd (upd (vars th) i (var th j)) j (var th i)) []))
        else None
      | Load i k f => if i <? length (vars th) then
          match var th k with
          | None => None                                  (* NullPointerException (162-163) *)
          | Some o =>
            match nth f (members (the s o)) None with
            | None => Some (set_todo (touch s o) t [MSet (PVar i) None])
            | Some q => Some (set_todo (add_ref (touch s o) q) t [MSet (PVar i) (Some q)])
            end
          end
        else None
      | Store k f j =>
          match var th k with
          | None => None
          | Some o => if f <? length (members (the s o)) then
              Some (set_todo (touch s o) t (match var th j with Some q => [MCopy (PMember o f) q] | None => [MSet (PMember o f) None] end))
            else None
          end
      | Send i t' j => if (i <? length (vars th)) && negb (Nat.eqb t t') then
          match nth_error (threads s) t' with
          | None => None
          | Some th' => if j <? length (vars th') then
              match var th' j with
              | Some _ => None
              | None => Some (set_thread (set_thread s t (Thread (upd (vars th) i None) [])) t'
                                         (Thread (upd (vars th') j (var th i)) (todo th')))
              end
            else None
          end
        else None
      | ResetRaw i => if i <? length (vars th) then Some (set_todo s t [MSet (PVar i) (var th i)]) else None
      end
    end
  end.

(** use_count (133, 203-204) and unique (132) through variable i *)
Definition use_count (s : state) (t i : nat) : Z :=
  match nth_error (threads s) t with
  | Some th => match var th i with Some o => cnt (the s o) | None => 0%Z end
  | None => 0%Z
  end.

(** threads with n variables each, all null *)
Definition initial (ns : list nat) : state := State [] (map (fun n => Thread (repeat None n) []) ns) [] false.
