From Coq Require Import List Arith Bool Lia Permutation.
From Verif Require Import PoolModel PoolSpec.
Import ListNotations.

Lemma upd_split {A} (l1 l2 : list A) a x : upd (l1 ++ a :: l2) (length l1) x = l1 ++ x :: l2.
Proof.
  unfold upd. rewrite firstn_app, Nat.sub_diag, firstn_all, firstn_O, app_nil_r. f_equal. f_equal.
  rewrite skipn_app. replace (S (length l1) - length l1) with 1 by lia. rewrite skipn_all2 by lia. reflexivity.
Qed.
Lemma nth_error_upd {A} (l : list A) i k a x : nth_error l i = Some a -> nth_error (upd l i x) k = if Nat.eqb i k then Some x else nth_error l k.
Proof.
  intros H. destruct (nth_error_split l i H) as (l1 & l2 & -> & <-). rewrite upd_split. destruct (Nat.eqb_spec (length l1) k) as [<-|N].
  - rewrite nth_error_app2, Nat.sub_diag by lia. reflexivity.
  - destruct (Nat.lt_ge_cases k (length l1)).
    + rewrite !nth_error_app1 by lia. reflexivity.
    + rewrite !nth_error_app2 by lia. destruct (k - length l1) eqn:E; [lia|reflexivity].
Qed.
Definition cnt (x : nat) (l : list nat) : nat := count_occ Nat.eq_dec l x.
Lemma cnt_app x a b : cnt x (a ++ b) = cnt x a + cnt x b. Proof. apply count_occ_app. Qed.
Lemma cnt_nil x : cnt x [] = 0. Proof. reflexivity. Qed.
Lemma cnt_perm x a b : Permutation a b -> cnt x a = cnt x b. Proof. intros P. now apply (Permutation_count_occ Nat.eq_dec). Qed.
Lemma cnt_flat_upd {A} (f : A -> list nat) l i a x y : nth_error l i = Some a -> cnt y (flat_map f (upd l i x)) + cnt y (f a) = cnt y (flat_map f l) + cnt y (f x).
Proof.
  intros H. destruct (nth_error_split l i H) as (l1 & l2 & -> & <-). rewrite upd_split, !flat_map_app. cbn [flat_map]. rewrite !cnt_app. lia.
Qed.
Lemma sum_upd {A} (f : A -> nat) l i a x : nth_error l i = Some a -> list_sum (map f (upd l i x)) + f a = list_sum (map f l) + f x.
Proof.
  intros H. destruct (nth_error_split l i H) as (l1 & l2 & -> & <-). rewrite upd_split, !map_app, !list_sum_app. cbn. lia.
Qed.
Lemma cnt_cons x a l : cnt x (a :: l) = cnt x [a] + cnt x l. Proof. exact (cnt_app x [a] l). Qed.
Lemma cnt_filter {A} (f : A -> nat) (q : A -> bool) l x : cnt x (map f (filter (fun e => negb (q e)) l)) + cnt x (map f (filter q l)) = cnt x (map f l).
Proof.
  induction l as [|a l IH]; cbn [filter map]; [reflexivity|]. rewrite (cnt_cons x (f a) (map f l)).
  destruct (q a); cbn [negb map]; rewrite (cnt_cons x (f a) (map f (filter _ l))); lia.
Qed.
Lemma sum_filter {A} (f : A -> nat) (q : A -> bool) l : list_sum (map f (filter (fun e => negb (q e)) l)) + list_sum (map f (filter q l)) = list_sum (map f l).
Proof. induction l as [|a l IH]; cbn [filter map]; [reflexivity|]. destruct (q a); cbn [negb map]; unfold list_sum in *; cbn [fold_right]; lia. Qed.

Lemma dropping_app a b : dropping (a ++ b) = dropping a ++ dropping b. Proof. apply flat_map_app. Qed.
Lemma dropping_ops l : dropping (map MOp l) = []. Proof. induction l; cbn; auto. Qed.
Lemma dropping_cleans l : dropping (map MClean l) = map tid l. Proof. induction l; cbn; [reflexivity|]. now f_equal. Qed.

(** what the critical sections do with the tokens *)
Lemma crit_count s o st n l x : critical s o st n l ->
  cnt x (map (fun e => tid (snd e)) st) + cnt x (map tid l) + cnt x (seq 0 (next s)) = cnt x (held s) + cnt x (seq 0 n).
Proof.
  unfold held. assert (Sq : cnt x (seq 0 (S (next s))) = cnt x (seq 0 (next s)) + cnt x [next s]) by (rewrite seq_S, cnt_app; reflexivity).
  intros C. destruct C as [p k b|p k|p l P|p k b|p k|p k]; cbn [map].
  - rewrite map_app, cnt_app, Sq. cbn [map snd tid]. rewrite cnt_nil. lia.
  - pose proof (cnt_filter (fun e => tid (snd e)) (in_key p k) (store s) x) as F. rewrite map_map. lia.
  - pose proof (cnt_filter (fun e => tid (snd e)) (in_object p) (store s) x) as F. rewrite (cnt_perm x _ _ (Permutation_map tid P)), map_map. lia.
  - pose proof (cnt_filter (fun e => tid (snd e)) (in_object p) (store s) x) as F. rewrite map_app, cnt_app, map_map, Sq. cbn [map snd tid]. lia.
  - pose proof (cnt_filter (fun e => tid (snd e)) (in_object p) (store s) x) as F. rewrite map_map. lia.
  - cbn. lia.
Qed.

Definition account (s : state) : Prop := forall x, cnt x (held s) + cnt x (being_dropped s) + cnt x (cleaned s) = cnt x (seq 0 (next s)).
Definition lock_of (m : micro) : option nat := match m with MCrit o => Some (object o) | MUnlock p => Some p | _ => None end.
Definition plain (l : list micro) : Prop := forall m, In m l -> lock_of m = None.
Definition holds (s : state) (t p : nat) : Prop := exists m r, nth_error (threads s) t = Some (m :: r) /\ lock_of m = Some p.
Record Inv (s : state) : Prop := {
  i_account : account s;
  i_plain : forall t m r, nth_error (threads s) t = Some (m :: r) -> plain r;
  i_lock : forall p t, owner s p = Some t <-> holds s t p }.

Lemma inv_init ps : Inv (initial ps).
Proof.
  assert (P : forall t l, nth_error (threads (initial ps)) t = Some l -> exists b, l = map MOp b).
  { intros t l H. cbn in H. apply nth_error_In in H. apply in_map_iff in H. destruct H as (b & <- & _). eauto. }
  split.
  - intros x. unfold held, being_dropped. cbn [initial store threads cleaned next map seq]. replace (flat_map dropping (map (map MOp) ps)) with (@nil nat); [reflexivity|].
    induction ps as [|b ps IH]; cbn; [reflexivity|]. rewrite dropping_ops. apply IH. intros t l H. apply (P (S t) l H).
  - intros t m r H. destruct (P _ _ H) as [[|o b] E]; [discriminate|]. injection E as -> ->. intros m Hm. apply in_map_iff in Hm. destruct Hm as (o' & <- & _). reflexivity.
  - intros p t. split; [discriminate|]. intros (m & r & H & L). destruct (P _ _ H) as [[|o b] E]; [discriminate|]. injection E as -> ->. discriminate.
Qed.

Lemma plain_app a b : plain a -> plain b -> plain (a ++ b).
Proof. intros A B m H. apply in_app_or in H. destruct H; auto. Qed.
Lemma plain_ops l : plain (map MOp l). Proof. intros m H. apply in_map_iff in H. destruct H as (o & <- & _). reflexivity. Qed.
Lemma plain_cleans l : plain (map MClean l). Proof. intros m H. apply in_map_iff in H. destruct H as (o & <- & _). reflexivity. Qed.
Lemma plain_tail m l : plain (m :: l) -> plain l. Proof. intros P x H. apply P. now right. Qed.

(** replacing the stack of thread t: the lock clauses, by what the new head and the old head lock *)
Lemma lock_clauses s t old new f st n cl : Inv s -> nth_error (threads s) t = Some old ->
  (match new with [] => True | _ :: r => plain r end) ->
  (forall p u, f p = Some u <-> (u <> t /\ owner s p = Some u) \/ (u = t /\ match new with m :: _ => lock_of m = Some p | [] => False end)) ->
  let s' := State st f (set_todo s t new) n cl in
  (forall u m r, nth_error (threads s') u = Some (m :: r) -> plain r) /\ (forall p u, owner s' p = Some u <-> holds s' u p).
Proof.
  intros I E Pn F s'. split.
  - intros u m r H. unfold s', set_todo in H. cbn in H. rewrite (nth_error_upd _ t u old new E) in H. destruct (Nat.eqb_spec t u) as [<-|Ne].
    + injection H as ->. exact Pn.
    + exact (i_plain s I u m r H).
  - intros p u. unfold s', holds, set_todo. cbn [owner threads]. rewrite F, (nth_error_upd _ t u old new E). destruct (Nat.eqb_spec t u) as [Eq|Ne].
    + subst u. split.
      * intros [[N _]|[_ H]]; [congruence|]. destruct new as [|m r]; [contradiction|]. exists m, r. auto.
      * intros (m & r & H & L). injection H as ->. right. auto.
    + split.
      * intros [[_ H]|[H _]]; [|congruence]. apply (i_lock s I) in H. exact H.
      * intros H. left. split; [congruence|]. apply (i_lock s I). exact H.
Qed.

Lemma inv_step s t s' : Inv s -> step s t s' -> Inv s'.
Proof.
  intros I H. destruct H as [o r E O|o r st n l E C|p r E|k r E].
  - assert (P : plain r) by exact (i_plain s I _ _ _ E).
    assert (F : forall p u, set_owner (owner s) (object o) (Some t) p = Some u <-> (u <> t /\ owner s p = Some u) \/ (u = t /\ lock_of (MCrit o) = Some p)).
    { intros p u. unfold set_owner. cbn [lock_of]. destruct (Nat.eqb_spec (object o) p) as [<-|Ne].
      - rewrite O. split; [intros X; injection X as <-; auto|]. intros [[_ X]|[-> _]]; [discriminate|reflexivity].
      - split.
        + intros X. left. split; [|exact X]. intros ->. apply (i_lock s I) in X. destruct X as (m & r' & X & L). rewrite E in X. injection X as <- <-. discriminate.
        + intros [[_ X]|[_ X]]; [exact X|]. injection X as X. contradiction. }
    destruct (lock_clauses s t _ (MCrit o :: r) _ (store s) (next s) (cleaned s) I E P F) as [A B]. split; [|exact A|exact B].
    intros x. pose proof (i_account s I x) as Ax. unfold held, being_dropped, set_todo in *. cbn [store threads cleaned next].
    pose proof (cnt_flat_upd dropping (threads s) t _ (MCrit o :: r) x E) as U. cbn [dropping flat_map app] in U. fold (dropping r) in U. lia.
  - assert (P : plain r) by exact (i_plain s I _ _ _ E).
    assert (F : forall p u, owner s p = Some u <-> (u <> t /\ owner s p = Some u) \/ (u = t /\ lock_of (MUnlock (object o)) = Some p)).
    { intros p u. split.
      - intros X. destruct (Nat.eq_dec u t) as [->|N]; [|auto]. right. split; [reflexivity|]. apply (i_lock s I) in X. destruct X as (m & r' & X & L). rewrite E in X. injection X as <- <-. exact L.
      - intros [[_ X]|[-> X]]; [exact X|]. apply (i_lock s I). exists (MCrit o), r. auto. }
    destruct (lock_clauses s t _ (MUnlock (object o) :: map MClean l ++ r) _ st n (cleaned s) I E (plain_app _ _ (plain_cleans l) P) F) as [A B]. split; [|exact A|exact B].
    intros x. pose proof (i_account s I x) as Ax. pose proof (crit_count s o st n l x C) as Cx. unfold account, held, being_dropped, set_todo in *. cbn [store threads cleaned next].
    pose proof (cnt_flat_upd dropping (threads s) t _ (MUnlock (object o) :: map MClean l ++ r) x E) as U.
    change (dropping (MUnlock (object o) :: map MClean l ++ r)) with (dropping (map MClean l ++ r)) in U. change (dropping (MCrit o :: r)) with (dropping r) in U.
    rewrite dropping_app, dropping_cleans, cnt_app in U. lia.
  - assert (P : plain r) by exact (i_plain s I _ _ _ E).
    assert (Pn : match r with [] => True | _ :: r' => plain r' end) by (destruct r; [exact Logic.I|now apply plain_tail in P]).
    assert (F : forall q u, set_owner (owner s) p None q = Some u <-> (u <> t /\ owner s q = Some u) \/ (u = t /\ match r with m :: _ => lock_of m = Some q | [] => False end)).
    { intros q u. assert (Nr : ~ (match r with m :: _ => lock_of m = Some q | [] => False end)) by (destruct r; [auto|]; rewrite (P m (or_introl eq_refl)); discriminate).
      assert (Ot : owner s q = Some t <-> q = p).
      { rewrite (i_lock s I). split; [intros (m & r' & X & L); rewrite E in X; injection X as <- <-; now injection L|intros ->; exists (MUnlock p), r; auto]. }
      unfold set_owner. destruct (Nat.eqb_spec p q) as [<-|Ne].
      - split; [discriminate|]. intros [[N X]|[_ X]]; [|contradiction]. apply proj2 in Ot. rewrite (Ot eq_refl) in X. congruence.
      - split.
        + intros X. left. split; [|exact X]. intros ->. apply Ot in X. congruence.
        + intros [[_ X]|[_ X]]; [exact X|contradiction]. }
    destruct (lock_clauses s t _ r _ (store s) (next s) (cleaned s) I E Pn F) as [A B]. split; [|exact A|exact B].
    intros x. pose proof (i_account s I x) as Ax. unfold account, held, being_dropped, set_todo in *. cbn [store threads cleaned next].
    pose proof (cnt_flat_upd dropping (threads s) t _ r x E) as U. change (dropping (MUnlock p :: r)) with (dropping r) in U. lia.
  - assert (P : plain r) by exact (i_plain s I _ _ _ E).
    assert (P2 : plain (map MOp (tbody k) ++ r)) by (apply plain_app; [apply plain_ops|exact P]).
    assert (Pn : match map MOp (tbody k) ++ r with [] => True | _ :: r' => plain r' end) by (destruct (map MOp (tbody k) ++ r); [exact Logic.I|now apply plain_tail in P2]).
    assert (F : forall q u, owner s q = Some u <-> (u <> t /\ owner s q = Some u) \/ (u = t /\ match map MOp (tbody k) ++ r with m :: _ => lock_of m = Some q | [] => False end)).
    { intros q u. assert (Nr : ~ (match map MOp (tbody k) ++ r with m :: _ => lock_of m = Some q | [] => False end)) by (destruct (map MOp (tbody k) ++ r) as [|m0 l0]; [auto|]; rewrite (P2 m0 (or_introl eq_refl)); discriminate).
      split.
      - intros X. left. split; [|exact X]. intros ->. apply (i_lock s I) in X. destruct X as (m & r' & X & L). rewrite E in X. injection X as <- <-. discriminate.
      - intros [[_ X]|[_ X]]; [exact X|contradiction]. }
    destruct (lock_clauses s t _ (map MOp (tbody k) ++ r) _ (store s) (next s) (cleaned s ++ [tid k]) I E Pn F) as [A B]. split; [|exact A|exact B].
    intros x. pose proof (i_account s I x) as Ax. unfold account, held, being_dropped, set_todo in *. cbn [store threads cleaned next]. rewrite cnt_app.
    pose proof (cnt_flat_upd dropping (threads s) t _ (map MOp (tbody k) ++ r) x E) as U. rewrite dropping_app, dropping_ops in U.
    change (dropping (MClean k :: r)) with ([tid k] ++ dropping r) in U. rewrite cnt_app in U. cbn [app] in U. lia.
Qed.
Lemma inv_reach ps s : reach ps s -> Inv s.
Proof. induction 1; [apply inv_init|eapply inv_step; eauto]. Qed.

Lemma critical_total s o : exists st n l, critical s o st n l.
Proof. destruct o as [p k b|p k|p|p k [b|]|p k]; eexists _, _, _; try constructor. apply Permutation_refl. Qed.

Lemma progress s t l : Inv s -> nth_error (threads s) t = Some l -> l <> [] -> exists u s', step s u s'.
Proof.
  intros I E N. destruct l as [|[o|o|p|k] r]; [contradiction| | | |].
  - destruct (owner s (object o)) as [u|] eqn:O.
    + apply (i_lock s I) in O. destruct O as (m & r' & E' & L). destruct m as [o'|o'|p'|k']; try discriminate.
      * destruct (critical_total s o') as (st & n & l & C). eexists u, _. eapply step_crit; eauto.
      * eexists u, _. eapply step_unlock; eauto.
    + eexists t, _. eapply step_lock; eauto.
  - destruct (critical_total s o) as (st & n & l & C). eexists t, _. eapply step_crit; eauto.
  - eexists t, _. eapply step_unlock; eauto.
  - eexists t, _. eapply step_clean; eauto.
Qed.

(** ** every run ends *)
Fixpoint wop (o : op) : nat :=
  match o with
  | Add _ _ b => 1 + list_sum (map (fun o => 3 + wop o) b)
  | Replace _ _ (Some b) => 1 + list_sum (map (fun o => 3 + wop o) b)
  | _ => 0
  end.
Definition wbody (b : list op) : nat := list_sum (map (fun o => 3 + wop o) b).
Definition wtok (k : token) : nat := 1 + wbody (tbody k).
Definition wmicro (m : micro) : nat := match m with MOp o => 3 + wop o | MCrit o => 2 + wop o | MUnlock _ => 1 | MClean k => wtok k end.
Definition wstack (l : list micro) : nat := list_sum (map wmicro l).
Definition measure (s : state) : nat := list_sum (map (fun e => wtok (snd e)) (store s)) + list_sum (map wstack (threads s)).
Lemma wstack_app a b : wstack (a ++ b) = wstack a + wstack b. Proof. unfold wstack. now rewrite map_app, list_sum_app. Qed.
Lemma wstack_cons m l : wstack (m :: l) = wmicro m + wstack l. Proof. reflexivity. Qed.
Lemma wstack_ops b : wstack (map MOp b) = wbody b. Proof. unfold wstack, wbody. now rewrite map_map. Qed.
Lemma wstack_cleans l : wstack (map MClean l) = list_sum (map wtok l). Proof. unfold wstack. now rewrite map_map. Qed.
Lemma sum_perm (a b : list nat) : Permutation a b -> list_sum a = list_sum b.
Proof. unfold list_sum. induction 1; cbn [fold_right]; lia. Qed.
Lemma crit_weight s o st n l : critical s o st n l ->
  list_sum (map (fun e => wtok (snd e)) st) + list_sum (map wtok l) = list_sum (map (fun e => wtok (snd e)) (store s)) + wop o.
Proof.
  intros C. destruct C as [p k b|p k|p l P|p k b|p k|p k]; cbn [wop map].
  - rewrite map_app, list_sum_app. cbn [map snd list_sum fold_right]. unfold wtok at 2. cbn [tbody]. unfold wbody. lia.
  - pose proof (sum_filter (fun e => wtok (snd e)) (in_key p k) (store s)). rewrite map_map. lia.
  - pose proof (sum_filter (fun e => wtok (snd e)) (in_object p) (store s)). rewrite (sum_perm _ _ (Permutation_map wtok P)), map_map. lia.
  - pose proof (sum_filter (fun e => wtok (snd e)) (in_object p) (store s)). rewrite map_app, list_sum_app, map_map. cbn [map snd list_sum fold_right]. unfold wtok at 2. cbn [tbody]. unfold wbody. lia.
  - pose proof (sum_filter (fun e => wtok (snd e)) (in_object p) (store s)). rewrite map_map. lia.
  - cbn. lia.
Qed.
Lemma measure_step s t s' : step s t s' -> measure s' < measure s.
Proof.
  intros H. unfold measure. destruct H as [o r E O|o r st n l E C|p r E|k r E]; cbn [store threads]; unfold set_todo.
  - pose proof (sum_upd wstack (threads s) t _ (MCrit o :: r) E) as U. rewrite !wstack_cons in U. cbn [wmicro] in U. lia.
  - pose proof (sum_upd wstack (threads s) t _ (MUnlock (object o) :: map MClean l ++ r) E) as U. rewrite !wstack_cons, wstack_app, wstack_cleans in U. cbn [wmicro] in U.
    pose proof (crit_weight s o st n l C). lia.
  - pose proof (sum_upd wstack (threads s) t _ r E) as U. rewrite !wstack_cons in U. cbn [wmicro] in U. lia.
  - pose proof (sum_upd wstack (threads s) t _ (map MOp (tbody k) ++ r) E) as U. rewrite !wstack_cons, wstack_app, wstack_ops in U. cbn [wmicro] in U. unfold wtok in U. lia.
Qed.
Lemma runs_bound n s s' : runs n s s' -> n + measure s' <= measure s.
Proof. induction 1 as [|n s t s1 s2 H R IH]; [lia|]. pose proof (measure_step _ _ _ H). lia. Qed.

(** ** what a call took out is destroyed when it returns *)
Lemma other_thread s t s' u l : step s t s' -> u <> t -> nth_error (threads s) u = Some l -> nth_error (threads s') u = Some l.
Proof.
  intros H N E. destruct H as [o r E0 O|o r st n l0 E0 C|p r E0|k r E0]; cbn [threads]; unfold set_todo; rewrite (nth_error_upd _ _ _ _ _ E0); destruct (Nat.eqb_spec t u); congruence.
Qed.
Lemma cleaned_mono s t s' x : step s t s' -> In x (cleaned s) -> In x (cleaned s').
Proof. intros H I. destruct H; cbn [cleaned]; auto. apply in_or_app. auto. Qed.
Lemma own_step s t s' m y : step s t s' -> nth_error (threads s) t = Some (m :: y) ->
  exists z, nth_error (threads s') t = Some (z ++ y) /\ (forall x, In x (dropping [m]) -> In x (cleaned s')).
Proof.
  intros H E. destruct H as [o r E0 O|o r st n l0 E0 C|p r E0|k r E0]; rewrite E in E0; injection E0 as -> ->; cbn [threads cleaned]; unfold set_todo; rewrite (nth_error_upd _ _ _ _ _ E), Nat.eqb_refl.
  - exists [MCrit o]. split; [reflexivity|intros x []].
  - exists (MUnlock (object o) :: map MClean l0). split; [reflexivity|intros x []].
  - exists []. split; [reflexivity|intros x []].
  - exists (map MOp (tbody k)). split; [reflexivity|]. intros x [<-|[]]. apply in_or_app. right. now left.
Qed.
Lemma during_done t r s s' : during t r s s' -> forall y y', nth_error (threads s) t = Some (y ++ r) -> nth_error (threads s') t = Some (y' ++ r) ->
  forall x, In x (dropping y) \/ In x (cleaned s) -> In x (dropping y') \/ In x (cleaned s').
Proof.
  induction 1 as [s|s u s1 s2 H (y1 & E1) D IH]; intros y y' E E' x X.
  - rewrite E in E'. injection E' as E'. apply app_inv_tail in E'. now subst y'.
  - apply (IH y1 y' E1 E'). destruct X as [X|X]; [|right; now apply (cleaned_mono s u s1)].
    destruct (Nat.eq_dec t u) as [<-|N].
    + destruct y as [|m y]; [destruct X|]. cbn [app] in E. destruct (own_step s t s1 m (y ++ r) H E) as (z & Ez & Cl).
      rewrite E1 in Ez. injection Ez as Ez. rewrite app_assoc in Ez. apply app_inv_tail in Ez. subst y1.
      change (m :: y) with ([m] ++ y) in X. rewrite dropping_app in X. apply in_app_or in X. destruct X as [X|X]; [right; now apply Cl|].
      left. rewrite dropping_app. apply in_or_app. now right.
    + rewrite (other_thread s u s1 t (y ++ r) H N E) in E1. injection E1 as E1. apply app_inv_tail in E1. subst y1. now left.
Qed.
Lemma tokens_at_eq s p k : tokens_at s p k = map (fun e => tid (snd e)) (filter (in_key p k) (store s)).
Proof. unfold tokens_at. f_equal. apply filter_ext. intros e. unfold in_key. now rewrite (Nat.eqb_sym p), (Nat.eqb_sym k). Qed.
Lemma tokens_of_eq s p : tokens_of s p = map (fun e => tid (snd e)) (filter (in_object p) (store s)).
Proof. unfold tokens_of. f_equal. apply filter_ext. intros e. unfold in_object. now rewrite (Nat.eqb_sym p). Qed.
Lemma crit_takes s o st n l : critical s o st n l -> Permutation (map tid l) (to_release s o).
Proof.
  intros C. destruct C as [p k b|p k|p l P|p k b|p k|p k]; cbn [to_release map]; rewrite ?tokens_at_eq, ?tokens_of_eq; rewrite ?map_map; try reflexivity.
  rewrite (Permutation_map tid P), map_map. reflexivity.
Qed.
