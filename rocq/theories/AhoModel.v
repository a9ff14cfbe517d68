(** string/AhoCorasick.h.  Strings are lists of bytes (the casts to u8, lines 51 and 120, make every
    character one of 256).  A trie node is an index into the deque; [None] stands for the index None.
    Not modelled: the element type of the text other than bytes, memory exhaustion. *)
From Coq Require Import List Arith Bool.
Import ListNotations.
Set Implicit Arguments.

Definition A : nat := 256.                                  (* array<size_t, 256>, line 29 *)
Notation bytes := (list nat).
Definition is_bytes (s : bytes) : Prop := Forall (fun c => c < A) s.

Record st := { next : nat -> nat -> option nat;             (* _trie[i].Next[ch] *)
               fail : nat -> option nat;                    (* _trie[i].Fail; None: never set (using it is undefined) *)
               pat : nat -> option nat;                     (* _trie[i].PatternIndex *)
               size : nat;                                  (* _trie.size() *)
               patterns : list bytes;
               built : bool }.
Definition upd (X : Type) (f : nat -> X) (n : nat) (x : X) : nat -> X := fun m => if m =? n then x else f m.
(** lines 42-43 *)
Definition init : st := {| next := fun _ _ => None; fail := fun _ => None; pat := fun _ => None; size := 1; patterns := []; built := false |}.

(** lines 48-60: walk the pattern, adding nodes *)
Fixpoint add_path (nx : nat -> nat -> option nat) (sz n : nat) (p : bytes) : (nat -> nat -> option nat) * nat * nat :=
  match p with
  | [] => (nx, sz, n)
  | c :: p => match nx n c with
              | Some m => add_path nx sz m p
              | None => add_path (upd nx n (upd (nx n) c (Some sz))) (S sz) sz p
              end
  end.
(** lines 45-66; None: the exception of line 47 *)
Definition add (s : st) (p : bytes) : option (st * nat) :=
  if built s then None
  else let '(nx, sz, n) := add_path (next s) (size s) 0 p in
       let i := length (patterns s) in
       Some ({| next := nx; fail := fail s; pat := upd (pat s) n (Some i); size := sz; patterns := patterns s ++ [p]; built := false |}, i).

(** the loops "while (Next[ch] == None) failIndex = Fail" and the step after them, lines 100-104 and 122-125;
    None: the loop does not end within [fuel] rounds or uses an unset link *)
Fixpoint go (fuel : nat) (nx : nat -> nat -> option nat) (fl : nat -> option nat) (n c : nat) : option nat :=
  match nx n c with
  | Some m => Some m
  | None => match fuel, fl n with S fuel, Some f => go fuel nx fl f c | _, _ => None end
  end.
(** lines 73-86 *)
Definition root_next (nx : nat -> nat -> option nat) : nat -> nat -> option nat :=
  upd nx 0 (fun c => if c <? A then match nx 0 c with Some m => Some m | None => Some 0 end else None).
Definition root_queue (nx : nat -> nat -> option nat) : list nat :=
  flat_map (fun c => match nx 0 c with Some m => if m =? 0 then [] else [m] | None => [] end) (seq 0 A).
Definition root_fail (nx : nat -> nat -> option nat) (fl : nat -> option nat) : nat -> option nat :=
  fold_left (fun fl m => upd fl m (Some 0)) (root_queue nx) (upd fl 0 (Some 0)).
(** lines 93-107: the children of one node *)
Fixpoint visit (nx : nat -> nat -> option nat) (sz n : nat) (cs : list nat) (fl : nat -> option nat) (q : list nat) : option ((nat -> option nat) * list nat) :=
  match cs with
  | [] => Some (fl, q)
  | c :: cs => match nx n c with
               | None => visit nx sz n cs fl q
               | Some m => match fl n with
                           | None => None
                           | Some f0 => match go sz nx fl f0 c with
                                        | Some f => visit nx sz n cs (upd fl m (Some f)) (q ++ [m])
                                        | None => None
                                        end
                           end
               end
  end.
(** lines 88-108 *)
Fixpoint bfs (fuel : nat) (nx : nat -> nat -> option nat) (sz : nat) (fl : nat -> option nat) (q : list nat) : option (nat -> option nat) :=
  match q with
  | [] => Some fl
  | n :: q => match fuel with
              | 0 => None
              | S fuel => match visit nx sz n (seq 0 A) fl q with Some (fl', q') => bfs fuel nx sz fl' q' | None => None end
              end
  end.
(** lines 68-110; None: the exception of line 70 (or a loop that does not end) *)
Definition build (s : st) : option st :=
  if built s then None
  else let nx := root_next (next s) in
       match bfs (size s) nx (size s) (root_fail (next s) (fail s)) (root_queue (next s)) with
       | Some fl => Some {| next := nx; fail := fl; pat := pat s; size := size s; patterns := patterns s; built := true |}
       | None => None
       end.

(** lines 129-139; [off] is the offset of the current character *)
Fixpoint report (fuel : nat) (s : st) (off n : nat) : option (list (bytes * nat * nat)) :=
  if n =? 0 then Some []
  else match fuel with
       | 0 => None
       | S fuel =>
           match match fail s n with Some f => report fuel s off f | None => None end with
           | None => None
           | Some r => Some (match pat s n with
                             | Some i => match nth_error (patterns s) i with Some p => [(p, i, 1 + off - length p)] | None => [] end ++ r
                             | None => r
                             end)
           end
       end.
(** lines 117-140: everything the callback receives, in order *)
Fixpoint search_from (s : st) (n off : nat) (text : bytes) : option (list (bytes * nat * nat)) :=
  match text with
  | [] => Some []
  | c :: text =>
      match go (size s) (next s) (fail s) n c with
      | None => None
      | Some m => match report (size s) s off m, search_from s m (S off) text with
                  | Some a, Some b => Some (a ++ b)
                  | _, _ => None
                  end
      end
  end.
Definition search (s : st) (text : bytes) : option (list (bytes * nat * nat)) := if built s then search_from s 0 0 text else None.

(** Add every pattern, then Build *)
Fixpoint adds (s : st) (ps : list bytes) : option st :=
  match ps with [] => Some s | p :: ps => match add s p with Some (s', _) => adds s' ps | None => None end end.
Definition compile (ps : list bytes) : option st := match adds init ps with Some s => build s | None => None end.
