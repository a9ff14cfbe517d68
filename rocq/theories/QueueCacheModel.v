(** Model of stingraykit/collection/QueueCache.h and stingraykit/collection/TwoQueueCache.h.

    Simplifications: keys are values of a type [K] compared with [keq] (the
    equivalence induced by [Less_]: the dictionary is never iterated, only searched);
    an iterator into the dictionary is the key of its entry; stamps (u64) and sizes
    (size_t) are unbounded [Z]; [OnEvicted] handlers are the ones connected in the
    code, every emission is recorded in the output in order; user handlers that
    re-enter the cache are not modelled. *)
From Verif Require Import Base.
Set Implicit Arguments.
Local Open Scope Z_scope.

Section Caches.
Variables K V : Type.
Variable keq : K -> K -> bool.
Variable size_mapper : V -> Z.         (* SizeMapper_ *)

(** QueueCache.h:22-26. *)
Inductive policy := Fifo | Lru.

(** QueueCache.h:55, std::map<Key_, StampedValue>. *)
Definition dict := list (K * (V * Z)).
Fixpoint dfind (k : K) (d : dict) : option (V * Z) :=
  match d with
  | [] => None
  | (k', x) :: d' => if keq k' k then Some x else dfind k d'
  end.
Definition derase (k : K) (d : dict) : dict := filter (fun e => negb (keq (fst e) k)) d.
Definition dput (k : K) (x : V * Z) (d : dict) : dict := (k, x) :: derase k d.

(** QueueCache.h:56, std::map<StampType, Dictionary::iterator>, ordered by stamp.
    [emplace] does not overwrite an existing entry. *)
Definition queue := list (Z * K).
Fixpoint qemplace (t : Z) (k : K) (q : queue) : queue :=
  match q with
  | [] => [(t, k)]
  | (t', k') :: q' => if t <? t' then (t, k) :: q
                      else if t =? t' then q
                      else (t', k') :: qemplace t k q'
  end.
Definition qerase (t : Z) (q : queue) : queue := filter (fun e => negb (fst e =? t)) q.
Fixpoint qfind (t : Z) (q : queue) : option K :=
  match q with
  | [] => None
  | (t', k) :: q' => if t' =? t then Some k else qfind t q'
  end.

(** QueueCache.h:59-66. *)
Record qc := mkQc { capacity : Z; csize : Z; mono : Z; dic : dict; que : queue }.

(** QueueCache.h:71-75. *)
Definition qc_init (cap : Z) : qc := mkQc cap 0 0 [] [].

(** Result of an operation: the new cache, the value and the OnEvicted emissions,
    or a failure (an internal STINGRAYKIT_CHECK, or a dangling iterator). *)
Inductive result (S R : Type) := Ok (s : S) (r : R) (evicted : list (K * V)) | Fail.
Arguments Ok {S R}. Arguments Fail {S R}.

(** QueueCache.h:181-186 DoRemove, for the entry of key [k] with stamp [t]. *)
Definition do_remove (c : qc) (k : K) (v : V) (t : Z) : qc :=
  mkQc (capacity c) (csize c - size_mapper v) (mono c) (derase k (dic c)) (qerase t (que c)).

(** QueueCache.h:163-179 EvictExpired: every round removes the first queue entry,
    so the loop is a recursion on the entries that are in the queue. *)
Fixpoint evict_loop (q : queue) (c : qc) : result qc unit :=
  if capacity c <? csize c then
    match q with
    | [] => Fail                                     (* line 167 *)
    | (t, k) :: q' =>
        match dfind k (dic c) with
        | None => Fail                               (* dangling iterator *)
        | Some (v, _) =>
            match evict_loop q' (do_remove c k v t) with
            | Ok c' _ evs => Ok c' tt ((k, v) :: evs)
            | Fail => Fail
            end
        end
    end
  else Ok c tt [].
Definition evict_expired (c : qc) : result qc unit := evict_loop (que c) c.

(** QueueCache.h:80-100. *)
Definition qset (c : qc) (k : K) (v : V) : result qc unit :=
  let newStamp := mono c in
  let c1 :=
    match dfind k (dic c) with
    | Some (v0, t0) =>
        mkQc (capacity c) (csize c - size_mapper v0) (mono c + 1)
             (dput k (v, newStamp) (dic c)) (qerase t0 (que c))
    | None =>
        mkQc (capacity c) (csize c) (mono c + 1) (dput k (v, newStamp) (dic c)) (que c)
    end in
  evict_expired (mkQc (capacity c1) (csize c1 + size_mapper v) (mono c1) (dic c1)
                      (qemplace newStamp k (que c1))).

(** QueueCache.h:130-158. *)
Definition qtryget (p : policy) (c : qc) (k : K) : result qc (option V) :=
  match dfind k (dic c) with
  | None => Ok c None []
  | Some (v, t) =>
      match p with
      | Fifo => Ok c (Some v) []
      | Lru => let newStamp := mono c in
               Ok (mkQc (capacity c) (csize c) (mono c + 1) (dput k (v, newStamp) (dic c))
                        (qemplace newStamp k (qerase t (que c)))) (Some v) []
      end
  end.

(** QueueCache.h:102-113. *)
Definition qremove (c : qc) (k : K) : result qc bool :=
  match dfind k (dic c) with
  | None => Ok c false []
  | Some (v, t) =>
      match qfind t (que c) with
      | None => Fail
      | Some _ => Ok (do_remove c k v t) true []
      end
  end.

(** QueueCache.h:115-121. *)
Definition qclear (c : qc) : qc := mkQc (capacity c) 0 0 [] [].

(** ** TwoQueueCache.h *)

(** TwoQueueCache.h:30-32. *)
Record tq := mkTq { inq : qc; outq : qc; hot : qc }.

(** TwoQueueCache.h:39-47. *)
Definition tq_init (ci co ch : Z) : tq := mkTq (qc_init ci) (qc_init co) (qc_init ch).

(** TwoQueueCache.h:44-45: every pair evicted by [_inQueue] is Set into [_outQueue],
    whose own evictions are re-emitted. *)
Fixpoint route (evs : list (K * V)) (o : qc) : result qc unit :=
  match evs with
  | [] => Ok o tt []
  | (k, v) :: evs' =>
      match qset o k v with
      | Ok o1 _ e1 => match route evs' o1 with
                      | Ok o2 _ e2 => Ok o2 tt (e1 ++ e2)
                      | Fail => Fail
                      end
      | Fail => Fail
      end
  end.

(** TwoQueueCache.h:49-61. *)
Definition ttryget (x : tq) (k : K) : result tq (option V) :=
  match qtryget Lru (hot x) k with
  | Fail => Fail
  | Ok h (Some v) _ => Ok (mkTq (inq x) (outq x) h) (Some v) []
  | Ok h None _ =>
      match qtryget Fifo (inq x) k with
      | Fail => Fail
      | Ok i (Some v) _ => Ok (mkTq i (outq x) h) (Some v) []
      | Ok i None _ =>
          match qtryget Fifo (outq x) k with
          | Fail => Fail
          | Ok o None _ => Ok (mkTq i o h) None []
          | Ok o (Some v) _ =>
              match qremove o k with
              | Fail => Fail
              | Ok o' _ _ =>
                  match qset h k v with
                  | Fail => Fail
                  | Ok h' _ evs => Ok (mkTq i o' h') (Some v) evs
                  end
              end
          end
      end
  end.

(** TwoQueueCache.h:63-69. *)
Definition tset (x : tq) (k : K) (v : V) : result tq unit :=
  match qremove (hot x) k with
  | Fail => Fail
  | Ok h found _ =>
      let ro := if found then Ok (outq x) false [] else qremove (outq x) k in
      match ro with
      | Fail => Fail
      | Ok o _ _ =>
          match qset (inq x) k v with
          | Fail => Fail
          | Ok i _ ievs =>
              match route ievs o with
              | Fail => Fail
              | Ok o' _ evs => Ok (mkTq i o' h) tt evs
              end
          end
      end
  end.

(** TwoQueueCache.h:71-72. *)
Definition tremove (x : tq) (k : K) : result tq bool :=
  match qremove (hot x) k with
  | Fail => Fail
  | Ok h true _ => Ok (mkTq (inq x) (outq x) h) true []
  | Ok h false _ =>
      match qremove (outq x) k with
      | Fail => Fail
      | Ok o true _ => Ok (mkTq (inq x) o h) true []
      | Ok o false _ =>
          match qremove (inq x) k with
          | Fail => Fail
          | Ok i b _ => Ok (mkTq i o h) b []
          end
      end
  end.

(** TwoQueueCache.h:74-79. *)
Definition tclear (x : tq) : tq := mkTq (qclear (inq x)) (qclear (outq x)) (qclear (hot x)).

(** TwoQueueCache.h:81-82. *)
Definition tsize (x : tq) : Z := csize (hot x) + csize (inq x) + csize (outq x).

(** ** The ICache interface (collection/ICache.h) as a machine. *)
Inductive op := OGet (k : K) | OSet (k : K) (v : V) | ORemove (k : K) | OClear | OSize.
Inductive out := RVal (v : option V) | RBool (b : bool) | RUnit | RSize (n : Z) | RFail.

Definition qstep (p : policy) (c : qc) (o : op) : qc * (out * list (K * V)) :=
  match o with
  | OGet k => match qtryget p c k with Ok c' r e => (c', (RVal r, e)) | Fail => (c, (RFail, [])) end
  | OSet k v => match qset c k v with Ok c' _ e => (c', (RUnit, e)) | Fail => (c, (RFail, [])) end
  | ORemove k => match qremove c k with Ok c' r e => (c', (RBool r, e)) | Fail => (c, (RFail, [])) end
  | OClear => (qclear c, (RUnit, []))
  | OSize => (c, (RSize (csize c), []))
  end.

Definition tstep (x : tq) (o : op) : tq * (out * list (K * V)) :=
  match o with
  | OGet k => match ttryget x k with Ok c' r e => (c', (RVal r, e)) | Fail => (x, (RFail, [])) end
  | OSet k v => match tset x k v with Ok c' _ e => (c', (RUnit, e)) | Fail => (x, (RFail, [])) end
  | ORemove k => match tremove x k with Ok c' r e => (c', (RBool r, e)) | Fail => (x, (RFail, [])) end
  | OClear => (tclear x, (RUnit, []))
  | OSize => (x, (RSize (tsize x), []))
  end.

Section Run.
Variable S : Type.
Variable stp : S -> op -> S * (out * list (K * V)).
Fixpoint crun (s : S) (os : list op) : S * list (out * list (K * V)) :=
  match os with
  | [] => (s, [])
  | o :: os' => let '(s1, r) := stp s o in
                let '(s2, rs) := crun s1 os' in (s2, r :: rs)
  end.
End Run.

End Caches.

Arguments Ok {K V S R}. Arguments Fail {K V S R}.
Arguments OGet {K V}. Arguments ORemove {K V}. Arguments OClear {K V}. Arguments OSize {K V}.
Arguments RVal {V}. Arguments RBool {V}. Arguments RUnit {V}. Arguments RSize {V}. Arguments RFail {V}.
