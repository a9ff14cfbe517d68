(** Specifications for C06-C10. *)
From Verif Require Import Base QueueCacheModel.
Set Implicit Arguments.
Local Open Scope Z_scope.

Section Spec.
Variables K V : Type.
Variable keq : K -> K -> bool.
Variable size_mapper : V -> Z.

(** *** What any cache must do (C07, C09, C10): it is a map from which pairs
    disappear only by Remove, Clear or a signalled eviction. *)
Definition kmap := K -> option V.
Definition m_empty : kmap := fun _ => None.
Definition m_put (m : kmap) (k : K) (v : V) : kmap := fun k' => if keq k k' then Some v else m k'.
Definition m_del (m : kmap) (k : K) : kmap := fun k' => if keq k k' then None else m k'.

(** Signalled evictions: each pair is in the map, with that value, when signalled. *)
Inductive evictions : kmap -> list (K * V) -> kmap -> Prop :=
| ev_nil m : evictions m [] m
| ev_cons m k v evs m' : m k = Some v -> evictions (m_del m k) evs m' -> evictions m ((k, v) :: evs) m'.

(** [sizes_sum m n]: the sizes of the values in [m] add up to [n]. *)
Fixpoint lfind (k : K) (l : list (K * V)) : option V :=
  match l with [] => None | (k', v) :: l' => if keq k' k then Some v else lfind k l' end.
Definition sum_sizes (l : list (K * V)) : Z := fold_right (fun p n => size_mapper (snd p) + n) 0 l.
Definition sizes_sum (m : kmap) (n : Z) : Prop :=
  exists l, NoDup (map fst l) /\ (forall k, m k = lfind k l) /\ n = sum_sizes l.

Inductive cache_allowed (m : kmap) : op K V -> out V * list (K * V) -> kmap -> Prop :=
| ca_get k evs m' : evictions m evs m' -> cache_allowed m (OGet k) (RVal (m k), evs) m'
| ca_set k v evs m' : evictions (m_put m k v) evs m' -> cache_allowed m (OSet k v) (RUnit, evs) m'
| ca_remove k : cache_allowed m (ORemove k) (RBool (if m k then true else false), []) (m_del m k)
| ca_clear : cache_allowed m OClear (RUnit, []) m_empty
| ca_size n : sizes_sum m n -> cache_allowed m OSize (RSize n, []) m.

Inductive cache_run : kmap -> list (op K V) -> list (out V * list (K * V)) -> kmap -> Prop :=
| cr_nil m : cache_run m [] [] m
| cr_cons m o r m1 os rs m2 : cache_allowed m o r m1 -> cache_run m1 os rs m2 ->
    cache_run m (o :: os) (r :: rs) m2.

(** *** Recency lists (C06, C08): the pairs of a QueueCache, oldest first.  Setting
    a key makes it the newest; a successful TryGet does so under Lru only. *)
Definition l_del (k : K) (l : list (K * V)) : list (K * V) := filter (fun p => negb (keq (fst p) k)) l.
Definition l_touch (k : K) (v : V) (l : list (K * V)) : list (K * V) := l_del k l ++ [(k, v)].

(** [evs] is the shortest prefix of [l] whose removal brings the size to [cap]. *)
Definition shortest_eviction (cap : Z) (l evs l' : list (K * V)) : Prop :=
  l = evs ++ l' /\ sum_sizes l' <= cap /\
  forall p s, l = p ++ s -> (length p < length evs)%nat -> cap < sum_sizes s.

Inductive queue_allowed (p : policy) (cap : Z) (l : list (K * V)) :
  op K V -> out V * list (K * V) -> list (K * V) -> Prop :=
| qa_miss k : lfind k l = None -> queue_allowed p cap l (OGet k) (RVal None, []) l
| qa_hit_fifo k v : p = Fifo -> lfind k l = Some v -> queue_allowed p cap l (OGet k) (RVal (Some v), []) l
| qa_hit_lru k v : p = Lru -> lfind k l = Some v ->
    queue_allowed p cap l (OGet k) (RVal (Some v), []) (l_touch k v l)
| qa_set k v evs l' : shortest_eviction cap (l_touch k v l) evs l' ->
    queue_allowed p cap l (OSet k v) (RUnit, evs) l'
| qa_remove k : queue_allowed p cap l (ORemove k) (RBool (if lfind k l then true else false), []) (l_del k l)
| qa_clear : queue_allowed p cap l OClear (RUnit, []) []
| qa_size : sum_sizes l <= cap -> queue_allowed p cap l OSize (RSize (sum_sizes l), []) l.

Inductive queue_run (p : policy) (cap : Z) : list (K * V) -> list (op K V) ->
  list (out V * list (K * V)) -> list (K * V) -> Prop :=
| qr_nil l : queue_run p cap l [] [] l
| qr_cons l o r l1 os rs l2 : queue_allowed p cap l o r l1 -> queue_run p cap l1 os rs l2 ->
    queue_run p cap l (o :: os) (r :: rs) l2.

End Spec.
