(** C06-C10: collection/QueueCache.h, collection/TwoQueueCache.h. *)
From Verif Require Import Base QueueCacheModel QueueCacheSpec QueueCacheProofs.
Set Implicit Arguments.
Local Open Scope Z_scope.

(** [keq] decides equality of keys; sizes are non-negative (size_t). *)

(** C06. After any history GetSize is between 0 and the capacity.  (That it is the
    sum of the sizes of the stored values is rule [qa_size] in C08.) *)
Theorem C06_size_bounded :
  forall (K V : Type) (keq : K -> K -> bool), (forall a b, keq a b = true <-> a = b) ->
  forall (size_mapper : V -> Z), (forall v, 0 <= size_mapper v) ->
  forall (p : policy) (cap : Z) (os : list (op K V)), 0 <= cap ->
  0 <= csize (fst (crun (qstep keq size_mapper p) (qc_init K V cap) os)) <= cap.
Proof. exact queue_bounded. Qed.
Print Assumptions C06_size_bounded.

(** C07. A QueueCache is a map from which pairs disappear only by Remove, Clear or
    a signalled eviction; no internal check ever fails. *)
Theorem C07_queue_cache_is_map :
  forall (K V : Type) (keq : K -> K -> bool), (forall a b, keq a b = true <-> a = b) ->
  forall (size_mapper : V -> Z), (forall v, 0 <= size_mapper v) ->
  forall (p : policy) (cap : Z) (os : list (op K V)), 0 <= cap ->
  exists m', cache_run keq size_mapper (@m_empty K V) os
               (snd (crun (qstep keq size_mapper p) (qc_init K V cap) os)) m'.
Proof. exact queue_is_map. Qed.
Print Assumptions C07_queue_cache_is_map.

(** C08. Evictions follow recency order and are as few as possible; also the exact
    content and size after every operation (C06). *)
Theorem C08_eviction_order :
  forall (K V : Type) (keq : K -> K -> bool), (forall a b, keq a b = true <-> a = b) ->
  forall (size_mapper : V -> Z), (forall v, 0 <= size_mapper v) ->
  forall (p : policy) (cap : Z) (os : list (op K V)), 0 <= cap ->
  exists l', queue_run keq size_mapper p cap [] os
               (snd (crun (qstep keq size_mapper p) (qc_init K V cap) os)) l'.
Proof. exact queue_refines. Qed.
Print Assumptions C08_eviction_order.

(** C09, C10. A TwoQueueCache is a map from which pairs disappear only by Remove,
    Clear or a signalled eviction of the value held; GetSize counts each pair once. *)
Theorem C09_two_queue_cache_is_map :
  forall (K V : Type) (keq : K -> K -> bool), (forall a b, keq a b = true <-> a = b) ->
  forall (size_mapper : V -> Z), (forall v, 0 <= size_mapper v) ->
  forall (ci co ch : Z) (os : list (op K V)), 0 <= ci -> 0 <= co -> 0 <= ch ->
  exists m', cache_run keq size_mapper (@m_empty K V) os
               (snd (crun (tstep keq size_mapper) (tq_init K V ci co ch) os)) m'.
Proof. exact two_queue_is_map. Qed.
Print Assumptions C09_two_queue_cache_is_map.

Theorem C09_two_queue_cache_bounded :
  forall (K V : Type) (keq : K -> K -> bool), (forall a b, keq a b = true <-> a = b) ->
  forall (size_mapper : V -> Z), (forall v, 0 <= size_mapper v) ->
  forall (ci co ch : Z) (os : list (op K V)) (x : tq K V), 0 <= ci -> 0 <= co -> 0 <= ch ->
  x = fst (crun (tstep keq size_mapper) (tq_init K V ci co ch) os) ->
  csize (inq x) <= ci /\ csize (outq x) <= co /\ csize (hot x) <= ch /\ 0 <= tsize x <= ci + co + ch.
Proof. exact two_queue_bounded. Qed.
Print Assumptions C09_two_queue_cache_bounded.

(** Non-vacuity. *)
Example queue_cache_hyps : (forall a b, Z.eqb a b = true <-> a = b) /\ (forall v : Z, 0 <= Z.abs v).
Proof. split; [exact Z.eqb_eq | exact Z.abs_nonneg]. Qed.

Example lru_run :
  snd (crun (qstep Z.eqb Z.abs Lru) (qc_init Z Z 10)
    [OSet 1 4; OSet 2 4; OGet 1; OSet 3 5; OGet 2; OSet 1 11; OSize; OGet 1]) =
  [(RUnit, []); (RUnit, []); (RVal (Some 4), []); (RUnit, [(2, 4)]); (RVal None, []);
   (RUnit, [(3, 5); (1, 11)]); (RSize 0, []); (RVal None, [])].
Proof. reflexivity. Qed.

Example fifo_run :
  snd (crun (qstep Z.eqb Z.abs Fifo) (qc_init Z Z 10)
    [OSet 1 4; OSet 2 4; OGet 1; OSet 3 5; OGet 2; ORemove 2; OSize]) =
  [(RUnit, []); (RUnit, []); (RVal (Some 4), []); (RUnit, [(1, 4)]); (RVal (Some 4), []);
   (RBool true, []); (RSize 5, [])].
Proof. reflexivity. Qed.

Example two_queue_run :
  snd (crun (tstep Z.eqb Z.abs) (tq_init Z Z 2 2 2)
    [OSet 1 1; OSet 2 1; OSet 3 1; OGet 1; OSet 4 1; OSet 5 1; OSet 6 1; OSize; OGet 3; OGet 4; OSet 1 2; OGet 1]) =
  [(RUnit, []); (RUnit, []); (RUnit, []); (RVal (Some 1), []); (RUnit, []); (RUnit, []); (RUnit, [(2, 1)]);
   (RSize 5, []); (RVal (Some 1), []); (RVal (Some 1), [(1, 1)]); (RUnit, []); (RVal (Some 2), [])].
Proof. reflexivity. Qed.
