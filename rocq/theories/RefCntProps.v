(** * C70: reference counting collections; bimap *)
From Coq Require Import List Arith Bool ZArith Lia Sorting.Sorted.
From Verif Require Import RefCntModel RefCntSpec RefCntProofs.
Import ListNotations.

(** ** RefCountingMap: after any history, every key has as many references as were added and not erased,
    is held (with the key and value of the add that began) exactly while it has one, the functors were
    called exactly as they should, and iteration goes through the held keys in increasing order *)
Theorem C70_map_refines {K V} (less : K -> K -> bool) (h : list (op K V)) : order less ->
  (Z.of_nat (length h) < 2 ^ 64)%Z ->
  let m := fst (run less h) in let l := snd (run less h) in
  (forall k, count less m k = Z.of_nat (refs_to less h k)) /\
  (forall k, lookup less m k = held less h k) /\
  (forall k, filter (about less k) l = told less h k) /\
  StronglySorted (fun a b => less (ekey a) (ekey b) = true) m /\
  (forall k v, In (k, v) (map (fun e => (ekey e, evalue e)) m) <-> held less h k = Some (k, v)).
Proof.
  intros O B. destruct (run_ok _ _ _ O h B) as (S & G & T). cbn zeta. split; [|split; [|split; [|split]]].
  - intros k. rewrite count_get by assumption. specialize (G k). destruct (get _ _ _ _ k); [now destruct G as (_ & -> & _)|now destruct G as [-> _]].
  - intros k. rewrite lookup_get by assumption. specialize (G k). destruct (get _ _ _ _ k); [now destruct G as (_ & _ & ->)|now destruct G as [_ ->]].
  - exact T.
  - exact S.
  - intros k v. split.
    + intros H. apply in_map_iff in H. destruct H as (e & E & He). injection E as <- <-.
      apply In_nth_error in He. destruct He as [i N]. pose proof (find_nth _ _ _ O _ _ _ S N) as F.
      pose proof (find_get _ _ less (fst (run less h)) (ekey e)) as Q. rewrite F in Q. destruct Q as (e' & N' & Ge & _).
      rewrite N in N'. injection N' as <-. specialize (G (ekey e)). rewrite Ge in G. tauto.
    + intros H. specialize (G k). rewrite H in G.
      pose proof (find_get _ _ less (fst (run less h)) k) as Q.
      destruct (find less (fst (run less h)) k) as [i|].
      * destruct Q as (e & N & Ge & _). rewrite Ge in G. destruct G as (_ & _ & E). injection E as E1 E2. subst k v. apply in_map_iff. exists e. split; [reflexivity|].
        eapply nth_error_In; eauto.
      * rewrite Q in G. destruct G as [_ G]. discriminate.
Qed.

(** so, for every key: doAdd, doRemove of what it returned, doAdd, ... and a last doAdd exactly if references
    are left *)
Theorem C70_functors_alternate {K V} (less : K -> K -> bool) (h : list (op K V)) k : order less ->
  (Z.of_nat (length h) < 2 ^ 64)%Z ->
  let l := filter (about less k) (snd (run less h)) in
  alternate None l /\
  (refs_to less h k = 0 <-> l = [] \/ exists l' q v, l = l' ++ [Removed q v]).
Proof.
  intros O B. destruct (run_ok _ _ _ O h B) as (_ & _ & T). cbn zeta. rewrite T.
  destruct (told_alternate _ _ less h k) as [A E]. split; [exact A|].
  rewrite <- (held_refs _ _ less), <- E.
  destruct (told less h k) as [|c l] using rev_ind; [cbn; tauto|]. clear IHl.
  rewrite (ends_app K V). destruct c as [q v|q v]; cbn.
  - split; [discriminate|]. intros [H|(l' & q' & v' & H)]; [now destruct l|].
    apply app_inj_tail in H. destruct H as [_ H]. discriminate.
  - split; [|reflexivity]. intros _. right. eauto.
Qed.

(** erase through an iterator is erase of the key it stands at *)
Theorem C70_erase_iterator {K V} (less : K -> K -> bool) (h : list (op K V)) i e thr : order less ->
  (Z.of_nat (length h) < 2 ^ 64)%Z ->
  let m := fst (run less h) in nth_error m i = Some e ->
  st (erase_iter m i thr) = st (erase less m (ekey e) thr) /\
  calls (erase_iter m i thr) = calls (erase less m (ekey e) thr) /\
  thrown (erase_iter m i thr) = thrown (erase less m (ekey e) thr).
Proof.
  intros O B. cbn zeta. intros N. destruct (run_ok _ _ _ O h B) as (S & _ & _).
  unfold erase_iter, erase. rewrite (find_nth _ _ _ O _ _ _ S N), N.
  destruct (0 <? dec (erefs e))%Z; [auto|]. destruct thr; auto.
Qed.

(** ** RefCountingSet does to its counts what RefCountingMap does *)
Definition with_unit {K} (m : list (sentry K)) : impl K unit := map (fun e => (fst e, snd e, tt)) m.
Definition scall {K} (c : callback K unit) : scallback K := match c with Added k _ => SAdded k | Removed k _ => SRemoved k end.

Lemma sfind_eq {K} less (m : list (sentry K)) k : sfind less m k = find less (with_unit m) k.
Proof. induction m as [|e m IH]; cbn; [reflexivity|]. unfold ekey. cbn. now rewrite IH. Qed.
Lemma nth_unit {K} (m : list (sentry K)) i : nth_error (with_unit m) i = option_map (fun e => (fst e, snd e, tt)) (nth_error m i).
Proof. unfold with_unit. now rewrite nth_error_map. Qed.
Lemma unit_app {K} (a b : list (sentry K)) : with_unit (a ++ b) = with_unit a ++ with_unit b.
Proof. apply map_app. Qed.
Lemma unit_firstn {K} n (a : list (sentry K)) : with_unit (firstn n a) = firstn n (with_unit a).
Proof. unfold with_unit. symmetry. apply firstn_map. Qed.
Lemma unit_skipn {K} n (a : list (sentry K)) : with_unit (skipn n a) = skipn n (with_unit a).
Proof. unfold with_unit. symmetry. apply skipn_map. Qed.
Lemma unit_emplace {K} less (m : list (sentry K)) e : with_unit (semplace less m e) = emplace less (with_unit m) (fst e, snd e, tt).
Proof. induction m as [|x m IH]; cbn; [reflexivity|]. unfold ekey in *. cbn in *. destruct (less (fst e) (fst x)); cbn; [reflexivity|]. f_equal. exact IH. Qed.

Lemma unit_set {K} (m : list (sentry K)) i k n : with_unit (firstn i m ++ (k, n) :: skipn (S i) m) = set_at (with_unit m) i (k, n, tt).
Proof. unfold set_at. rewrite unit_app, unit_firstn. f_equal. cbn [with_unit map fst snd]. f_equal. apply unit_skipn. Qed.
Local Arguments with_unit : simpl never.
Local Arguments firstn : simpl never.
Local Arguments skipn : simpl never.

Theorem C70_set_as_map {K} (less : K -> K -> bool) (m : list (sentry K)) :
  (forall k, scount less m k = count less (with_unit m) k) /\
  (forall k thr, let a := sadd less m k thr in let b := add less (with_unit m) k (fun _ => if thr then None else Some tt) in
     with_unit (sst a) = st b /\ scalls a = map scall (calls b) /\ sthrown a = thrown b) /\
  (forall k thr, let a := serase less m k thr in let b := erase less (with_unit m) k thr in
     with_unit (sst (fst a)) = st b /\ scalls (fst a) = map scall (calls b) /\ sthrown (fst a) = thrown b /\ snd a = res b) /\
  (forall i thr, let a := serase_iter m i thr in let b := erase_iter (with_unit m) i thr in
     with_unit (sst a) = st b /\ scalls a = map scall (calls b) /\ sthrown a = thrown b) /\
  (forall thr, let a := sclear m thr in let b := clear (with_unit m) thr in
     with_unit (sst a) = st b /\ scalls a = map scall (calls b) /\ sthrown a = thrown b).
Proof.
  split; [|split; [|split; [|split]]].
  - intros k. unfold scount, count. rewrite sfind_eq. destruct (find less (with_unit m) k) as [i|]; [|reflexivity].
    rewrite nth_unit. now destruct (nth_error m i).
  - intros k thr. unfold sadd, add. rewrite sfind_eq. destruct (find less (with_unit m) k) as [i|].
    + rewrite nth_unit. destruct (nth_error m i) as [e|]; cbn; [|auto]. split; [|auto].
      apply unit_set.
    + destruct thr; cbn; [auto|]. split; [|auto]. now rewrite unit_emplace.
  - intros k thr. unfold serase, erase. rewrite sfind_eq. destruct (find less (with_unit m) k) as [i|]; [|cbn; auto].
    rewrite nth_unit. destruct (nth_error m i) as [e|] eqn:N; cbn; [|auto]. unfold erefs, ekey, evalue. cbn.
    assert (D : (0 <? dec (snd e))%Z = negb (dec (snd e) =? 0)%Z).
    { unfold dec, size_max. pose proof (Z.mod_pos_bound (snd e - 1) (2 ^ 64) ltac:(lia)).
      destruct (Z.eqb_spec ((snd e - 1) mod 2 ^ 64) 0) as [->|]; [reflexivity|]. cbn [negb]. apply Z.ltb_lt. lia. }
    rewrite D. destruct (dec (snd e) =? 0)%Z; cbn; [destruct thr; cbn|].
    + repeat split; auto; apply unit_set.
    + repeat split; auto. unfold erase_at. rewrite unit_app, unit_firstn, unit_skipn, unit_set. reflexivity.
    + repeat split; auto; apply unit_set.
  - intros i thr. unfold serase_iter, erase_iter. rewrite nth_unit. destruct (nth_error m i) as [e|] eqn:N; cbn; [|auto]. unfold erefs, ekey, evalue. cbn.
    destruct (0 <? dec (snd e))%Z; cbn; [|destruct thr; cbn].
    + repeat split; auto; apply unit_set.
    + repeat split; auto; apply unit_set.
    + repeat split; auto. unfold erase_at. rewrite unit_app, unit_firstn, unit_skipn, unit_set. reflexivity.
  - assert (C : forall l : list (sentry K), map (fun e => SRemoved (fst e)) l = map scall (map (fun e => Removed (ekey e) (evalue e)) (with_unit l))).
    { intros l. unfold with_unit. rewrite !map_map. reflexivity. }
    intros [n|]; cbn zeta; unfold sclear, clear; [|cbn [sst scalls sthrown st calls thrown]; split; [reflexivity|split; [apply C|reflexivity]]].
    assert (Ln : length (with_unit m) = length m) by (unfold with_unit; apply map_length). rewrite Ln.
    destruct (n <? length m); cbn [sst scalls sthrown st calls thrown]; (split; [reflexivity|split; [|reflexivity]]); [|apply C].
    rewrite (C (firstn (S n) m)), unit_firstn. reflexivity.
Qed.

Local Arguments firstn : simpl nomatch.
Local Arguments skipn : simpl nomatch.

(** ** functors that throw *)
(** add: nothing happened *)
Theorem C70_add_throw {K V} less (m : impl K V) k mk : thrown (add less m k mk) = true ->
  st (add less m k mk) = m /\ calls (add less m k mk) = [].
Proof.
  unfold add. destruct (find less m k) as [i|]; [destruct (nth_error m i); discriminate|]. destruct (mk k); cbn; [discriminate|auto].
Qed.

(** refuted: "erase whose functor throws can be repeated".  The entry stays with no references: the next
    erase makes the count 2^64-1 and calls nothing, and a new add finds the key present and calls nothing *)
Theorem C70_erase_throw_refuted : exists (m : impl nat nat),
  m = st (erase Nat.ltb (st (add Nat.ltb [] 5 (fun _ => Some 7))) 5 true) /\
  count Nat.ltb m 5 = 0%Z /\ lookup Nat.ltb m 5 = Some (5, 7) /\
  calls (erase Nat.ltb m 5 false) = [] /\ count Nat.ltb (st (erase Nat.ltb m 5 false)) 5 = (2 ^ 64 - 1)%Z /\
  (forall mk, calls (add Nat.ltb m 5 mk) = []).
Proof. eexists. split; [reflexivity|]. repeat split. Qed.

(** refuted: "clear whose functor throws can be repeated": the entries already told removed are told again *)
Theorem C70_clear_throw_refuted : exists (m : impl nat nat),
  let r := clear m (Some 1) in thrown r = true /\ calls r = [Removed 1 10; Removed 2 20] /\
  calls (clear (st r) None) = [Removed 1 10; Removed 2 20; Removed 3 30].
Proof. exists [(1, 1%Z, 10); (2, 1%Z, 20); (3, 1%Z, 30)]. repeat split. Qed.

(** ** RefCountingValue: whatever throws, set and release functors are called in turn, the count is right, and
    the value is there while it is not zero *)
Inductive vop := VOSet (x : option nat) | VORelease (thr : bool) | VOReset (thr : bool).
Definition vdo (s : rval nat) (o : vop) : rval nat * list (vcall nat) :=
  match o with
  | VOSet x => fst (vset s x)
  | VORelease thr => fst (fst (vrelease s thr))
  | VOReset thr => fst (vreset s thr)
  end.
Fixpoint vrun (s : rval nat) (ops : list vop) : rval nat * list (vcall nat) :=
  match ops with [] => (s, []) | o :: ops => let '(s1, l1) := vdo s o in let '(s2, l2) := vrun s1 ops in (s2, l1 ++ l2) end.
Definition is_vset (c : vcall nat) : bool := match c with VSet _ => true | VReleased _ => false end.
Fixpoint vcount (n : nat) (ops : list vop) : nat :=
  match ops with
  | [] => n
  | VOSet (Some _) :: ops => vcount (S n) ops
  | VOSet None :: ops => vcount (if n =? 0 then 0 else S n) ops
  | VORelease _ :: ops => vcount (pred n) ops
  | VOReset _ :: ops => vcount 0 ops
  end.
Lemma vrun_ok ops : forall n v, (Z.of_nat (n + length ops) < 2 ^ 64)%Z -> (n <> 0 -> v <> None) ->
  let r := vrun (mk_rval (Z.of_nat n) v) ops in
  in_turn is_vset (negb (n =? 0)) (snd r) /\ refs (fst r) = Z.of_nat (vcount n ops) /\
  (vcount n ops <> 0 -> value (fst r) <> None).
Proof.
  induction ops as [|o ops IH]; intros n v B Hv; [cbn; auto|]. cbn [length] in B.
  assert (I : inc (Z.of_nat n) = Z.of_nat (S n)) by (apply inc_small; unfold size_max; lia).
  assert (D : n <> 0 -> dec (Z.of_nat n) = Z.of_nat (pred n)) by (intros; apply dec_small; unfold size_max; lia).
  assert (E0 : (Z.of_nat n =? 0)%Z = (n =? 0)) by (destruct (Nat.eqb_spec n 0); [now subst|apply Z.eqb_neq; lia]).
  assert (Rl : forall thr, vdo (mk_rval (Z.of_nat n) v) (VORelease thr) =
     if n =? 0 then (mk_rval (Z.of_nat n) v, []) else if pred n =? 0 then (mk_rval 0 (if thr then v else None), match v with Some x => [VReleased x] | None => [] end)
     else (mk_rval (Z.of_nat (pred n)) v, [])).
  { intros thr. cbn. unfold vrelease. cbn. rewrite E0. destruct (Nat.eqb_spec n 0); [reflexivity|]. rewrite D by assumption.
    assert (E1 : (Z.of_nat (pred n) =? 0)%Z = (pred n =? 0)) by (destruct (Nat.eqb_spec (pred n) 0) as [->|]; [reflexivity|apply Z.eqb_neq; lia]).
    rewrite E1. destruct (pred n =? 0); [destruct thr; reflexivity|reflexivity]. }
  cbn [vrun]. destruct o as [x|thr|thr].
  - cbn. unfold vset. cbn. rewrite E0. destruct (Nat.eqb_spec n 0) as [->|N].
    + destruct x as [x|].
      * cbn [fst snd]. specialize (IH 1 (Some x) ltac:(cbn in *; lia) ltac:(discriminate)). cbn in IH. rewrite I.
        change (Z.of_nat 1) with 1%Z. destruct (vrun (mk_rval 1 (Some x)) ops) as [s2 l2]. cbn in *. tauto.
      * cbn [fst snd]. specialize (IH 0 v ltac:(lia) Hv). cbn in IH. change (Z.of_nat 0) with 0%Z. destruct (vrun (mk_rval 0 v) ops) as [s2 l2]. cbn in *. tauto.
    + cbn [fst snd]. rewrite I. specialize (IH (S n) v ltac:(lia) ltac:(auto)). destruct (vrun (mk_rval (Z.of_nat (S n)) v) ops) as [s2 l2]. cbn in *.
      destruct x; cbn; exact IH.
  - rewrite Rl. destruct (Nat.eqb_spec n 0) as [->|N].
    + specialize (IH 0 v ltac:(lia) Hv). cbn in IH. change (Z.of_nat 0) with 0%Z. destruct (vrun (mk_rval 0 v) ops) as [s2 l2]. cbn in *. tauto.
    + destruct (Nat.eqb_spec (pred n) 0) as [P|P].
      * destruct v as [x|]; [|destruct (Hv N eq_refl)]. cbn. rewrite P.
        specialize (IH 0 (if thr then Some x else None) ltac:(lia) ltac:(congruence)). cbn in IH.
        destruct (vrun (mk_rval 0 (if thr then Some x else None)) ops) as [s2 l2]. cbn in *. tauto.
      * specialize (IH (pred n) v ltac:(lia) ltac:(auto)). destruct (vrun (mk_rval (Z.of_nat (pred n)) v) ops) as [s2 l2]. cbn in *.
        destruct n as [|[|n]]; [congruence|cbn in P; lia|exact IH].
  - cbn. unfold vreset. cbn. rewrite E0. destruct (Nat.eqb_spec n 0) as [->|N].
    + cbn [fst snd]. specialize (IH 0 v ltac:(lia) Hv). cbn in IH. change (Z.of_nat 0) with 0%Z. destruct (vrun (mk_rval 0 v) ops) as [s2 l2]. cbn in *. tauto.
    + destruct v as [x|]; [|destruct (Hv N eq_refl)].
      specialize (IH 0 (if thr then Some x else None) ltac:(lia) ltac:(congruence)). cbn in IH.
      destruct thr; cbn in *.
      * destruct (vrun (mk_rval 0 (Some x)) ops) as [s2 l2]. cbn in *. tauto.
      * destruct (vrun (mk_rval 0 None) ops) as [s2 l2]. cbn in *. tauto.
Qed.
Theorem C70_value ops : (Z.of_nat (length ops) < 2 ^ 64)%Z ->
  let r := vrun (rval0 nat) ops in
  in_turn is_vset false (snd r) /\ refs (fst r) = Z.of_nat (vcount 0 ops) /\ (vcount 0 ops <> 0 -> value (fst r) <> None).
Proof. intros B. apply (vrun_ok ops 0 None B). congruence. Qed.

(** refuted: "get() is empty when count() is zero": not after a release functor has thrown *)
Theorem C70_value_stale_refuted : exists ops,
  let r := vrun (rval0 nat) ops in refs (fst r) = 0%Z /\ value (fst r) = Some 7.
Proof. exists [VOSet (Some 7); VORelease true]. vm_compute. auto. Qed.

(** ** RefCounter: the same if reset's functor does not throw *)
Inductive cop := COSet (thr : bool) | CORelease (thr : bool) | COReset (thr : bool).
Definition cdo (n : Z) (o : cop) : Z * list ccall :=
  match o with COSet thr => fst (cset n thr) | CORelease thr => fst (fst (crelease n thr)) | COReset thr => fst (creset n thr) end.
Fixpoint crun (n : Z) (ops : list cop) : Z * list ccall :=
  match ops with [] => (n, []) | o :: ops => let '(s1, l1) := cdo n o in let '(s2, l2) := crun s1 ops in (s2, l1 ++ l2) end.
Definition is_cset (c : ccall) : bool := match c with CSet => true | CReleased => false end.
Fixpoint ccount (n : nat) (ops : list cop) : nat :=
  match ops with
  | [] => n
  | COSet thr :: ops => ccount (if thr && (n =? 0) then 0 else S n) ops
  | CORelease _ :: ops => ccount (pred n) ops
  | COReset _ :: ops => ccount 0 ops
  end.
Lemma crun_ok ops : forall n, (Z.of_nat (n + length ops) < 2 ^ 64)%Z -> Forall (fun o => o <> COReset true) ops ->
  let r := crun (Z.of_nat n) ops in
  in_turn is_cset (negb (n =? 0)) (snd r) /\ fst r = Z.of_nat (ccount n ops).
Proof.
  induction ops as [|o ops IH]; intros n B F; [cbn; auto|]. cbn [length] in B. inversion F as [|? ? F1 F2]; subst.
  assert (I : inc (Z.of_nat n) = Z.of_nat (S n)) by (apply inc_small; unfold size_max; lia).
  assert (D : n <> 0 -> dec (Z.of_nat n) = Z.of_nat (pred n)) by (intros; apply dec_small; unfold size_max; lia).
  assert (E0 : (Z.of_nat n =? 0)%Z = (n =? 0)) by (destruct (Nat.eqb_spec n 0); [now subst|apply Z.eqb_neq; lia]).
  destruct o as [thr|thr|thr]; cbn [crun cdo ccount].
  - unfold cset. rewrite E0. destruct (Nat.eqb_spec n 0) as [->|N].
    + destruct thr; cbn [fst snd andb].
      * specialize (IH 0 ltac:(lia) F2). cbn in IH. change (Z.of_nat 0) with 0%Z. destruct (crun 0 ops). cbn in *. tauto.
      * rewrite I. specialize (IH 1 ltac:(lia) F2). destruct (crun (Z.of_nat 1) ops). cbn in *. tauto.
    + cbn [fst snd]. rewrite I, andb_false_r. specialize (IH (S n) ltac:(lia) F2). destruct (crun (Z.of_nat (S n)) ops). cbn in *. tauto.
  - unfold crelease. rewrite E0. destruct (Nat.eqb_spec n 0) as [->|N].
    + cbn [fst snd pred]. specialize (IH 0 ltac:(lia) F2). destruct (crun (Z.of_nat 0) ops). cbn in *. tauto.
    + rewrite D by assumption. destruct (Z.eqb_spec (Z.of_nat (pred n)) 0) as [P|P].
      * assert (pred n = 0) by lia. specialize (IH 0 ltac:(lia) F2). cbn in IH. rewrite H.
        destruct thr; cbn [fst snd]; destruct (crun 0 ops); cbn in *; tauto.
      * cbn [fst snd]. specialize (IH (pred n) ltac:(lia) F2). destruct (crun (Z.of_nat (pred n)) ops). cbn in *.
        destruct n as [|[|n]]; [congruence|cbn in P; lia|exact IH].
  - destruct thr; [congruence|]. unfold creset. rewrite E0. specialize (IH 0 ltac:(lia) F2). cbn in IH.
    destruct (Nat.eqb_spec n 0) as [->|N]; cbn [fst snd]; destruct (crun 0 ops); cbn in *; tauto.
Qed.
Theorem C70_counter ops : (Z.of_nat (length ops) < 2 ^ 64)%Z -> Forall (fun o => o <> COReset true) ops ->
  in_turn is_cset false (snd (crun 0 ops)) /\ fst (crun 0 ops) = Z.of_nat (ccount 0 ops).
Proof. intros B F. apply (crun_ok ops 0 B F). Qed.

(** refuted for a reset whose functor throws: the count stays, and the functor is called again *)
Theorem C70_counter_reset_throw_refuted : crun 0 [COSet false; COReset true; CORelease false] = (0%Z, [CSet; CReleased; CReleased]).
Proof. reflexivity. Qed.

(** ** bimap over std::map on both sides *)
Section Bi.
  Context {L R : Type} (leq : L -> L -> bool) (req : R -> R -> bool).
  Hypothesis Leq : forall a b, leq a b = true <-> a = b.
  Hypothesis Req : forall a b, req a b = true <-> a = b.

  Lemma NoDup_fst_inj {A B} (m : list (A * B)) a b c : NoDup (map fst m) -> In (a, b) m -> In (a, c) m -> b = c.
  Proof.
    induction m as [|x m IH]; cbn; [tauto|]. intros N H1 H2. inversion N as [|? ? N1 N2]; subst.
    destruct H1 as [->|H1], H2 as [H2|H2]; try congruence.
    - destruct N1. cbn. apply in_map_iff. exists (a, c). auto.
    - subst x. destruct N1. cbn. apply in_map_iff. exists (a, b). auto.
    - now apply IH.
  Qed.
  Lemma del_in {A B} (eq : A -> A -> bool) (E : forall a b, eq a b = true <-> a = b) (m : list (A * B)) k a b :
    In (a, b) (del eq m k) <-> In (a, b) m /\ a <> k.
  Proof.
    unfold del. rewrite filter_In. cbn. destruct (eq k a) eqn:Q; cbn.
    - apply E in Q. subst. intuition discriminate.
    - assert (a <> k) by (intros ->; rewrite (proj2 (E k k) eq_refl) in Q; discriminate). intuition.
  Qed.
  Lemma del_nodup {A B} (eq : A -> A -> bool) (m : list (A * B)) k : NoDup (map fst m) -> NoDup (map fst (del eq m k)).
  Proof.
    induction m as [|[a b] m IH]; cbn; intros N; [constructor|]. inversion N as [|? ? N1 N2]; subst.
    destruct (eq k a); cbn; [auto|]. constructor; [|auto]. intros H. apply N1. apply in_map_iff in H. destruct H as (x & <- & H).
    apply in_map. unfold del in H. apply filter_In in H. tauto.
  Qed.
  Lemma ins_in {A B} (eq : A -> A -> bool) (E : forall a b, eq a b = true <-> a = b) (m : list (A * B)) k v a b :
    ~ In k (map fst m) -> In (a, b) (ins eq false m k v) <-> In (a, b) m \/ (a = k /\ b = v).
  Proof.
    intros N. unfold ins. destruct (existsb (fun e => eq k (fst e)) m) eqn:Q.
    - apply existsb_exists in Q. destruct Q as (e & He & Q). apply E in Q. subst. destruct N. now apply in_map.
    - rewrite in_app_iff. cbn. intuition congruence.
  Qed.
  Lemma nodup_snoc {A} (l : list A) x : NoDup l -> ~ In x l -> NoDup (l ++ [x]).
  Proof. intros N H. apply NoDup_rev in N. rewrite <- (rev_involutive (l ++ [x])), rev_app_distr. apply NoDup_rev. cbn. constructor; [now rewrite <- in_rev|exact N]. Qed.
  Lemma ins_nodup {A B} (eq : A -> A -> bool) (E : forall a b, eq a b = true <-> a = b) (m : list (A * B)) k v :
    NoDup (map fst m) -> NoDup (map fst (ins eq false m k v)).
  Proof.
    intros N. unfold ins. destruct (existsb (fun e => eq k (fst e)) m) eqn:Q; [exact N|].
    rewrite map_app. apply nodup_snoc; [exact N|]. intros H. apply in_map_iff in H. destruct H as (e & Ek & He). cbn in Ek.
    rewrite <- not_true_iff_false in Q. apply Q. apply existsb_exists. exists e. split; [exact He|apply E; congruence].
  Qed.
  Lemma first_of_spec {A B} (eq : A -> A -> bool) (E : forall a b, eq a b = true <-> a = b) (m : list (A * B)) k :
    match first_of eq m k with
    | Some i => exists v, nth_error m i = Some (k, v)
    | None => ~ In k (map fst m) end.
  Proof.
    induction m as [|[a b] m IH]; cbn; [auto|]. destruct (eq k a) eqn:Q.
    - apply E in Q. subst. now exists b.
    - destruct (first_of eq m k) as [i|]; cbn; [exact IH|]. intros [->|H]; [|auto].
      rewrite (proj2 (E k k) eq_refl) in Q. discriminate.
  Qed.
  Lemma cut_in {A B} (m : list (A * B)) i k v a b : NoDup (map fst m) -> nth_error m i = Some (k, v) ->
    In (a, b) (firstn i m ++ skipn (S i) m) <-> In (a, b) m /\ a <> k.
  Proof.
    revert i. induction m as [|x m IH]; intros [|i] N H; cbn in H; try discriminate.
    - injection H as ->. cbn. inversion N as [|? ? N1 N2]; subst. split.
      + intros Q. split; [now right|]. intros ->. apply N1. apply in_map_iff. exists (k, b). auto.
      + intros [[Q|Q] D]; [congruence|exact Q].
    - inversion N as [|? ? N1 N2]; subst. cbn. specialize (IH i N2 H). cbn in IH. rewrite IH. split.
      + intros [->|Q]; [|tauto]. split; [now left|]. intros ->. apply N1. cbn. apply nth_error_In in H. apply in_map_iff. exists (k, v). auto.
      + tauto.
  Qed.
  Lemma cut_nodup {A B} (m : list (A * B)) i : NoDup (map fst m) -> NoDup (map fst (firstn i m ++ skipn (S i) m)).
  Proof.
    revert i. induction m as [|x m IH]; intros [|i] N; cbn; try constructor; inversion N as [|? ? N1 N2]; subst; auto.
    - intros H. apply N1. apply in_map_iff in H. destruct H as (y & <- & H). apply in_map.
      change (In y (firstn i m ++ skipn (S i) m)) in H. apply in_app_or in H. destruct H as [H|H].
      + rewrite <- (firstn_skipn i m). apply in_or_app. now left.
      + rewrite <- (firstn_skipn (S i) m). apply in_or_app. now right.
  Qed.

  (** inserting a pair both of whose halves are new *)
  Theorem C70_bimap_insert b l r : consistent b -> ~ In l (map fst (lmap b)) -> ~ In r (map fst (rmap b)) ->
    let b' := left_insert leq req false false b l r in
    consistent b' /\ b' = right_insert leq req false false b r l /\
    forall x y, In (x, y) (lmap b') <-> In (x, y) (lmap b) \/ (x = l /\ y = r).
  Proof.
    intros (C & NL & NR) Hl Hr. cbn zeta. unfold left_insert. split; [|split; [reflexivity|]].
    - split; [|split; cbn [lmap rmap]; [now apply ins_nodup|now apply ins_nodup]].
      intros x y. cbn [lmap rmap]. rewrite (ins_in leq Leq _ _ _ _ _ Hl), (ins_in req Req _ _ _ _ _ Hr), C. tauto.
    - intros x y. apply (ins_in leq Leq _ _ _ _ _ Hl).
  Qed.
  (** inserting a pair again changes nothing *)
  Theorem C70_bimap_insert_again b l r : consistent b -> In (l, r) (lmap b) -> left_insert leq req false false b l r = b.
  Proof.
    intros (C & _ & _) H. unfold left_insert, ins.
    assert (E1 : existsb (fun e => leq l (fst e)) (lmap b) = true) by (apply existsb_exists; exists (l, r); split; [exact H|now apply Leq]).
    assert (E2 : existsb (fun e => req r (fst e)) (rmap b) = true) by (apply existsb_exists; exists (r, l); split; [now apply C|now apply Req]).
    rewrite E1, E2. now destruct b.
  Qed.
  (** erasing from either side takes exactly the pairs with that half *)
  Theorem C70_bimap_erase b l r : consistent b ->
    (let b' := left_erase leq req b l in
     consistent b' /\ forall x y, In (x, y) (lmap b') <-> In (x, y) (lmap b) /\ x <> l) /\
    (let b' := right_erase leq req b r in
     consistent b' /\ forall x y, In (x, y) (lmap b') <-> In (x, y) (lmap b) /\ y <> r).
  Proof.
    intros (C & NL & NR). split.
    - cbn zeta. unfold left_erase. pose proof (first_of_spec leq Leq (lmap b) l) as F. destruct (first_of leq (lmap b) l) as [i|].
      + destruct F as [v N]. unfold left_erase_iter. rewrite N. cbn [snd].
        assert (Inv : In (l, v) (lmap b)) by (eapply nth_error_In; eauto).
        assert (U : forall x y, In (x, y) (lmap b) -> (x <> l <-> y <> v)).
        { intros x y H. assert (Q : forall a b' c, In (a, b') (lmap b) -> In (a, c) (lmap b) -> b' = c).
          { clear -NL. intros a b' c H1 H2. eapply (NoDup_fst_inj (lmap b)); eauto. }
          assert (Q' : forall a b' c, In (a, b') (rmap b) -> In (a, c) (rmap b) -> b' = c).
          { clear -NR. intros a b' c H1 H2. eapply (NoDup_fst_inj (rmap b)); eauto. }
          split; intros D ->; apply D; [apply C in H; apply C in Inv; eapply Q'; eauto|eapply Q; eauto]. }
        split.
        * split; [|split; cbn [lmap rmap]; [now apply cut_nodup|now apply del_nodup]].
          intros x y. cbn [lmap rmap]. rewrite (cut_in _ _ _ _ _ _ NL N), (del_in req Req), <- C. specialize (U x y). tauto.
        * intros x y. cbn [lmap rmap]. apply (cut_in _ _ _ _ _ _ NL N).
      + split; [split; auto|]. intros x y. split; [|tauto]. intros H. split; [exact H|]. intros ->. apply F. apply in_map_iff. exists (l, y). auto.
    - cbn zeta. unfold right_erase. pose proof (first_of_spec req Req (rmap b) r) as F. destruct (first_of req (rmap b) r) as [i|].
      + destruct F as [v N]. unfold right_erase_iter. rewrite N. cbn [snd].
        assert (Inv : In (r, v) (rmap b)) by (eapply nth_error_In; eauto).
        assert (U : forall x y, In (x, y) (lmap b) -> (x <> v <-> y <> r)).
        { intros x y H. 
          split; intros D ->; apply D.
          - apply C in H. eapply (NoDup_fst_inj (rmap b)); eauto.
          - apply C in Inv. eapply (NoDup_fst_inj (lmap b)); eauto. }
        split.
        * split; [|split; cbn [lmap rmap]; [now apply del_nodup|now apply cut_nodup]].
          intros x y. cbn [lmap rmap]. rewrite (cut_in _ _ _ _ _ _ NR N), (del_in leq Leq), <- C. specialize (U x y). tauto.
        * intros x y. cbn [lmap rmap]. rewrite (del_in leq Leq). specialize (U x y). tauto.
      + split; [split; auto|]. intros x y. split; [|tauto]. intros H. split; [exact H|]. intros ->. apply F. apply in_map_iff. exists (r, x). split; [reflexivity|now apply C].
  Qed.
End Bi.

(** refuted: "the two sides always say the same": inserting a pair one half of which is there puts the other
    half in on its own side only *)
Theorem C70_bimap_half_insert_refuted : exists b : bimap nat nat,
  consistent b /\
  let b' := left_insert Nat.eqb Nat.eqb false false b 1 20 in
  lmap b' = [(1, 10)] /\ rmap b' = [(10, 1); (20, 1)] /\
  lmap (left_erase Nat.eqb Nat.eqb b' 1) = [] /\ bempty (left_erase Nat.eqb Nat.eqb b' 1) = true /\
  rmap (left_erase Nat.eqb Nat.eqb b' 1) = [(20, 1)].
Proof.
  exists (mk_bimap [(1, 10)] [(10, 1)]). split; [|repeat split].
  split; [|split; cbn; repeat constructor; auto].
  intros l r. cbn. intuition congruence.
Qed.
(** refuted for std::multimap: erasing one pair takes all pairs with that key away from the other side *)
Theorem C70_bimap_multimap_erase_refuted : exists b : bimap nat nat,
  b = left_insert Nat.eqb Nat.eqb true false (left_insert Nat.eqb Nat.eqb true false (mk_bimap [] []) 1 10) 1 20 /\
  lmap b = [(1, 10); (1, 20)] /\ rmap b = [(10, 1); (20, 1)] /\
  lmap (right_erase Nat.eqb Nat.eqb b 10) = [] /\ rmap (right_erase Nat.eqb Nat.eqb b 10) = [(20, 1)].
Proof. eexists. split; [reflexivity|]. repeat split. Qed.

(** ** the hypotheses are met *)
Example nat_order : order Nat.ltb.
Proof.
  split; [apply Nat.ltb_irrefl|intros a b c; rewrite !Nat.ltb_lt; lia|].
  unfold same. intros a b c. rewrite !andb_true_iff, !negb_true_iff, !Nat.ltb_ge. lia.
Qed.
Example a_history : let h := [OErase nat 3; OAdd 1 12; OErase nat 3; OErase nat 3; OAdd 1 11; OAdd 3 31; OAdd 3 30] in
  run Nat.ltb h = ([(1, 2%Z, 11)], [Added 3 30; Added 1 11; Removed 3 30]) /\
  refs_to Nat.ltb h 1 = 2 /\ refs_to Nat.ltb h 3 = 0 /\ told Nat.ltb h 3 = [Added 3 30; Removed 3 30].
Proof. vm_compute. auto. Qed.
Example a_consistent_bimap : consistent (mk_bimap [(1, 10); (2, 20)] [(20, 2); (10, 1)]).
Proof.
  split; [intros l r; cbn; intuition congruence|].
  split; cbn; repeat constructor; cbn; intuition congruence.
Qed.

Print Assumptions C70_map_refines.
Print Assumptions C70_functors_alternate.
Print Assumptions C70_erase_iterator.
Print Assumptions C70_set_as_map.
Print Assumptions C70_add_throw.
Print Assumptions C70_erase_throw_refuted.
Print Assumptions C70_clear_throw_refuted.
Print Assumptions C70_value.
Print Assumptions C70_value_stale_refuted.
Print Assumptions C70_counter.
Print Assumptions C70_counter_reset_throw_refuted.
Print Assumptions C70_bimap_insert.
Print Assumptions C70_bimap_insert_again.
Print Assumptions C70_bimap_erase.
Print Assumptions C70_bimap_half_insert_refuted.
Print Assumptions C70_bimap_multimap_erase_refuted.

(** What the operations of a counter answer: an exception leaves exactly if the functor is called and throws, and release
    says whether there was something to release. *)
Theorem C70_counter_answers (n : Z) thr : (0 <= n < 2 ^ 64 - 1)%Z ->
  (snd (cset n thr) = true <-> n = 0%Z /\ thr = true) /\
  (snd (creset n thr) = true <-> n <> 0%Z /\ thr = true) /\
  (snd (fst (crelease n thr)) = true <-> n = 1%Z /\ thr = true) /\
  (snd (crelease n thr) = true <-> n <> 0%Z /\ snd (fst (crelease n thr)) = false).
Proof.
  intros B. assert (D : n <> 0%Z -> dec n = (n - 1)%Z).
  { intros H. replace n with (Z.of_nat (Z.to_nat n)) by lia. rewrite dec_small by (unfold size_max; lia). lia. }
  unfold cset, creset, crelease. destruct (Z.eqb_spec n 0) as [->|N].
  - destruct thr; cbn; repeat split; try lia; intuition congruence.
  - rewrite (D N). destruct (Z.eqb_spec (n - 1) 0) as [E|E]; destruct thr; cbn; repeat split; try lia; intuition (try congruence; try lia).
Qed.
Theorem C70_value_answers (V : Type) (n : Z) (v : option V) mk thr : (0 <= n < 2 ^ 64 - 1)%Z ->
  (snd (vset (mk_rval n v) mk) = true <-> n = 0%Z /\ mk = None) /\
  (snd (vreset (mk_rval n v) thr) = true <-> n <> 0%Z /\ thr = true) /\
  (snd (fst (vrelease (mk_rval n v) thr)) = true <-> n = 1%Z /\ thr = true) /\
  (snd (vrelease (mk_rval n v) thr) = true <-> n <> 0%Z /\ snd (fst (vrelease (mk_rval n v) thr)) = false).
Proof.
  intros B. assert (D : n <> 0%Z -> dec n = (n - 1)%Z).
  { intros H. replace n with (Z.of_nat (Z.to_nat n)) by lia. rewrite dec_small by (unfold size_max; lia). lia. }
  unfold vset, vreset, vrelease. cbn [refs value]. destruct (Z.eqb_spec n 0) as [->|N].
  - destruct thr, mk; cbn; repeat split; try lia; intuition congruence.
  - rewrite (D N). destruct (Z.eqb_spec (n - 1) 0) as [E|E]; destruct thr, mk; cbn; repeat split; try lia; intuition (try congruence; try lia).
Qed.
Theorem C70_bimap_empty (L R : Type) (b : bimap L R) : bempty b = true <-> lmap b = [].
Proof. unfold bempty. destruct (lmap b); split; congruence. Qed.
Print Assumptions C70_counter_answers.
Print Assumptions C70_value_answers.
Print Assumptions C70_bimap_empty.
