(** What an observer of a collection relies on.  The observer keeps a copy of its own, changed by the events only. *)
From Verif Require Import Base ObsModel.

(** Every event makes sense for the observer's copy ([honest]), and after every event the copy is the content the
    collection has at that moment ([agrees]); at the end it is the final content. *)
Section faithful.
  Variables Ev O C : Type.
  Variable honest : O -> Ev -> Prop.
  Variable replay : O -> Ev -> O.
  Variable agrees : O -> C -> Prop.
  Fixpoint faithful (o : O) (t : list (Ev * C)) : Prop :=
    match t with [] => True | (e, c) :: t' => honest o e /\ agrees (replay o e) c /\ faithful (replay o e) t' end.
  Fixpoint all_honest (o : O) (l : list Ev) : Prop := match l with [] => True | e :: l' => honest o e /\ all_honest (replay o e) l' end.
  Definition replay_all (o : O) (l : list Ev) : O := fold_left replay l o.
  (** an observer with the copy [o] of the content, then the calls with the events [t] and the content [c'] at the end *)
  Definition follows (o : O) (t : list (Ev * C)) (c' : C) : Prop := faithful o t /\ agrees (replay_all o (map fst t)) c'.
  (** an observer that connects when the content is [c], is given the events [p] first, and follows from then on *)
  Definition observes (empty : O) (p : list Ev) (c : C) (t : list (Ev * C)) (c' : C) : Prop :=
    all_honest empty p /\ agrees (replay_all empty p) c /\ follows (replay_all empty p) t c'.
End faithful.

(** Dictionaries: up to equivalence of keys. *)
Section dict.
  Variables K V : Type.
  Variable eqk : K -> K -> bool.
  Definition assoc (l : list (K * V)) (k : K) : option V := option_map snd (find (fun e => eqk (fst e) k) l).
  Definition dcopy := K -> option V.
  Definition d_honest (o : dcopy) (e : op * K * V) : Prop :=
    let '(a, k, v) := e in match a with Added => o k = None | Updated => exists v', o k = Some v' | Removed => o k = Some v end.
  Definition d_replay (o : dcopy) (e : op * K * V) : dcopy :=
    let '(a, k, v) := e in fun k' => if eqk k k' then match a with Removed => None | _ => Some v end else o k'.
  Definition d_agrees (o : dcopy) (l : list (K * V)) : Prop := forall k, o k = assoc l k.
End dict.
Definition d_empty {K V} : dcopy K V := fun _ => None.

(** Sets: up to equivalence. *)
Section set.
  Variable K : Type.
  Variable eqk : K -> K -> bool.
  Definition has (l : list K) (k : K) : bool := existsb (fun e => eqk e k) l.
  Definition scopy := K -> bool.
  Definition s_honest (o : scopy) (e : op * K) : Prop := match fst e with Added => o (snd e) = false | Updated => False | Removed => o (snd e) = true end.
  Definition s_replay (o : scopy) (e : op * K) : scopy :=
    fun k' => if eqk (snd e) k' then match fst e with Removed => false | _ => true end else o k'.
  Definition s_agrees (o : scopy) (l : list K) : Prop := forall k, o k = has l k.
End set.
Definition s_empty {K} : scopy K := fun _ => false.

(** Lists: exactly. *)
Section list_.
  Variable A : Type.
  Definition l_honest (o : list A) (e : op * nat * A) : Prop :=
    let '(a, i, x) := e in match a with Added => i <= length o | Updated => i < length o | Removed => nth_error o i = Some x end.
  Definition l_replay (o : list A) (e : op * nat * A) : list A :=
    let '(a, i, x) := e in
    match a with Added => firstn i o ++ x :: skipn i o | Updated => firstn i o ++ x :: skipn (S i) o | Removed => firstn i o ++ skipn (S i) o end.
End list_.

(** Multimaps: the values of every key, in order. *)
Section multi.
  Variables K V : Type.
  Variable eqk : K -> K -> bool.
  Variable veq : V -> V -> bool.
  Definition values (l : list (K * V)) (k : K) : list V := map snd (filter (fun e => eqk (fst e) k) l).
  Fixpoint without (v : V) (l : list V) : list V := match l with [] => [] | x :: l' => if veq v x then l' else x :: without v l' end.
  Definition mcopy := K -> list V.
  Definition m_honest (o : mcopy) (e : op * K * V) : Prop := let '(a, k, v) := e in match a with Added => True | Updated => False | Removed => In v (o k) end.
  Definition m_replay (o : mcopy) (e : op * K * V) : mcopy :=
    let '(a, k, v) := e in fun k' => if eqk k k' then match a with Removed => without v (o k') | _ => o k' ++ [v] end else o k'.
  Definition m_agrees (o : mcopy) (l : list (K * V)) : Prop := forall k, o k = values l k.
End multi.
Definition m_empty {K V} : mcopy K V := fun _ => [].

(** Multisets: how many of every value, up to equivalence. *)
Section multiset.
  Variable K : Type.
  Variable eqk : K -> K -> bool.
  Definition count (l : list K) (k : K) : nat := length (filter (fun e => eqk e k) l).
  Definition ms_honest (o : K -> nat) (e : op * K) : Prop := match fst e with Added => True | Updated => False | Removed => o (snd e) > 0 end.
  Definition ms_replay (o : K -> nat) (e : op * K) : K -> nat :=
    fun k' => if eqk (snd e) k' then match fst e with Removed => o k' - 1 | _ => S (o k') end else o k'.
  Definition ms_agrees (o : K -> nat) (l : list K) : Prop := forall k, o k = count l k.
End multiset.
