(** * Model of TokenPool, TokenMap and TokenHolder
    stingraykit/Token.h. Any number of pools, maps and holders, used by any number of threads, each step of a thread atomic. A token is a
    FunctionToken (FunctionToken.h 20-34), whose function may itself use the pools; tokens are moved in, so the pool is the only owner. *)
From Coq Require Import List Arith Bool Permutation.
Import ListNotations.

(** what a program does with the object p (a pool, a map or a holder) *)
Inductive op :=
  | Add (p k : nat) (body : list op)        (* map[k] += token (312-324); pool += token (214-218), with one key; body: the token's function *)
  | Release (p k : nat)                     (* TokenMap::release (344-352) *)
  | ReleaseAll (p : nat)                    (* TokenMap::release_all (354-360), TokenPool::Release (220-226) *)
  | Replace (p k : nat) (body : option (list op)) (* TokenHolder::Set, Reset (145-162) *)
  | Contains (p k : nat).                   (* TokenMap::contains (335-336), TokenPool::Empty (212) *)
Record token := Token { tid : nat; tbody : list op }.

Definition object (o : op) : nat := match o with Add p _ _ | Release p _ | ReleaseAll p | Replace p _ _ | Contains p _ => p end.

(** what a thread still has to do *)
Inductive micro :=
  | MOp (o : op)                            (* call o: construct the MutexLock *)
  | MCrit (o : op)                          (* inside, the mutex locked *)
  | MUnlock (p : nat)                       (* the MutexLock goes, before the locals declared in front of it *)
  | MClean (t : token).                     (* a Token goes: its function is called *)

(** the tokens held, with the object that holds them and their key; the owners of the mutexes; the threads; the number of tokens made;
    the tokens whose functions were called *)
Record state := State { store : list (nat * nat * token); owner : nat -> option nat; threads : list (list micro); next : nat; cleaned : list nat }.

Definition in_object (p : nat) (e : nat * nat * token) : bool := Nat.eqb p (fst (fst e)).
Definition in_key (p k : nat) (e : nat * nat * token) : bool := Nat.eqb p (fst (fst e)) && Nat.eqb k (snd (fst e)).
Definition set_owner (f : nat -> option nat) (p : nat) (v : option nat) : nat -> option nat := fun q => if Nat.eqb p q then v else f q.
Definition upd {A} (l : list A) (i : nat) (x : A) : list A := firstn i l ++ x :: skipn (S i) l.
Definition set_todo (s : state) (t : nat) (m : list micro) : list (list micro) := upd (threads s) t m.

(** the critical sections: what is held afterwards, the number of tokens made, and the tokens to destroy after unlocking (the locals
    that were swapped or copied out: 222-225, 346-351, 356-359, 147-150) *)
Inductive critical (s : state) : op -> list (nat * nat * token) -> nat -> list token -> Prop :=
  | crit_add p k b : critical s (Add p k b) (store s ++ [(p, k, Token (next s) b)]) (S (next s)) []
  | crit_release p k : critical s (Release p k) (filter (fun e => negb (in_key p k e)) (store s)) (next s) (map snd (filter (in_key p k) (store s)))
  (* a map or vector destroys its elements in an order we do not fix *)
  | crit_release_all p l : Permutation l (map snd (filter (in_object p) (store s))) ->
      critical s (ReleaseAll p) (filter (fun e => negb (in_object p e)) (store s)) (next s) l
  | crit_replace_some p k b : critical s (Replace p k (Some b)) (filter (fun e => negb (in_object p e)) (store s) ++ [(p, k, Token (next s) b)]) (S (next s))
      (map snd (filter (in_object p) (store s)))
  | crit_replace_none p k : critical s (Replace p k None) (filter (fun e => negb (in_object p e)) (store s)) (next s) (map snd (filter (in_object p) (store s)))
  | crit_contains p k : critical s (Contains p k) (store s) (next s) [].

(** one step of thread t *)
Inductive step (s : state) (t : nat) : state -> Prop :=
  (* the mutex is not recursive: even the owner would wait *)
  | step_lock o r : nth_error (threads s) t = Some (MOp o :: r) -> owner s (object o) = None ->
      step s t (State (store s) (set_owner (owner s) (object o) (Some t)) (set_todo s t (MCrit o :: r)) (next s) (cleaned s))
  | step_crit o r st n l : nth_error (threads s) t = Some (MCrit o :: r) -> critical s o st n l ->
      step s t (State st (owner s) (set_todo s t (MUnlock (object o) :: map MClean l ++ r)) n (cleaned s))
  | step_unlock p r : nth_error (threads s) t = Some (MUnlock p :: r) ->
      step s t (State (store s) (set_owner (owner s) p None) (set_todo s t r) (next s) (cleaned s))
  | step_clean k r : nth_error (threads s) t = Some (MClean k :: r) ->
      step s t (State (store s) (owner s) (set_todo s t (map MOp (tbody k) ++ r)) (next s) (cleaned s ++ [tid k])).

(** threads with programs to run, no tokens *)
Definition initial (programs : list (list op)) : state := State [] (fun _ => None) (map (map MOp) programs) 0 [].
