(** C33: shared_ptr / weak_ptr destroy the object exactly once, exactly when the last owner goes. *)
From Coq Require Import List ZArith Lia Bool.
From Verif Require Import SharedPtrModel SharedPtrProofs.
Import ListNotations.
Set Implicit Arguments.
Local Open Scope Z_scope.

(** number of live shared_ptr objects *)
Definition owners (s : blk) : nat := length (filter is_strong (hs s)).
(** no operation is half way through *)
Definition quiet (s : blk) : Prop := forall h, In h (hs s) -> h = HStrong \/ h = HWeak \/ h = HNull.

Lemma owners_cnt s : Z.of_nat (owners s) = cnt is_strong (hs s).
Proof. reflexivity. Qed.

(** No schedule of copies, releases, lock, release_if_unique, use_count and accesses through owners
    touches a destroyed object or a deleted control block, or deletes either twice. *)
Theorem C33_no_use_after_free : forall lim ls s, lim <= 2^32 - 2 -> run lim init ls s ->
  (forall l, ~ In (l, OUB) ls) /\ (disposed s <= 1)%nat /\ (freed s <= 1)%nat.
Proof.
  intros lim ls s Hl Hr. destruct (run_ok Hl init_inv Hr) as [HI Ho].
  split; [intros l Hin; exact (Ho _ _ Hin eq_refl)|].
  destruct HI as (I1 & I2 & I3 & I4 & I5 & I6 & I7 & I8 & I9).
  pose proof (cnt_nonneg is_strong (hs s)). pose proof (cnt_nonneg is_weak (hs s)). pose proof (cnt_nonneg is_disp (hs s)).
  pose proof (cnt_nonneg is_disp2 (hs s)). pose proof (cnt_nonneg is_free (hs s)).
  destruct (Z.ltb_spec 0 (cnt is_strong (hs s))); split; lia.
Qed.

(** While an owner exists the object has not been destroyed. *)
Theorem C33_alive_while_owned : forall lim ls s, lim <= 2^32 - 2 -> run lim init ls s ->
  (0 < owners s)%nat -> disposed s = 0%nat.
Proof.
  intros lim ls s Hl Hr Ho. destruct (run_ok Hl init_inv Hr) as [HI _].
  destruct HI as (I1 & I2 & I3 & _). apply I3. rewrite <- owners_cnt. lia.
Qed.

Lemma cnt_zero f l : (forall h, In h l -> f h = false) -> cnt f l = 0.
Proof.
  induction l as [|x l IH]; intros H; [reflexivity|]. rewrite cnt_cons, (H x (or_introl eq_refl)), IH; [reflexivity|].
  intros h Hh. apply H. right. exact Hh.
Qed.

(** Nothing leaks: once no operation is in progress, no owner means destroyed, no handle at all means
    that the control block is deleted too (and it is not while a handle of either kind is left). *)
Theorem C33_no_leak : forall lim ls s, lim <= 2^32 - 2 -> run lim init ls s -> quiet s ->
  (owners s = 0%nat <-> disposed s = 1%nat) /\
  ((forall h, In h (hs s) -> h = HNull) <-> freed s = 1%nat).
Proof.
  intros lim ls s Hl Hr Hq. destruct (run_ok Hl init_inv Hr) as [HI _].
  destruct HI as (I1 & I2 & I3 & I4 & I5 & I6 & I7 & I8 & I9).
  assert (D : cnt is_disp (hs s) = 0) by (apply cnt_zero; intros h Hh; destruct (Hq h Hh) as [->|[->| ->]]; reflexivity).
  assert (D2 : cnt is_disp2 (hs s) = 0) by (apply cnt_zero; intros h Hh; destruct (Hq h Hh) as [->|[->| ->]]; reflexivity).
  assert (F : cnt is_free (hs s) = 0) by (apply cnt_zero; intros h Hh; destruct (Hq h Hh) as [->|[->| ->]]; reflexivity).
  pose proof (owners_cnt s). pose proof (cnt_nonneg is_weak (hs s)). split.
  - split; intros X; [lia|]. destruct (owners s); [reflexivity|]. lia.
  - split; intros X.
    + assert (cnt is_strong (hs s) = 0) by (apply cnt_zero; intros h Hh; rewrite (X h Hh); reflexivity).
      assert (cnt is_weak (hs s) = 0) by (apply cnt_zero; intros h Hh; rewrite (X h Hh); reflexivity).
      destruct (Z.ltb_spec 0 (cnt is_strong (hs s))); lia.
    + intros h Hh. assert (weak s = 0).
      { assert (0 <= weak s) by (destruct (Z.ltb_spec 0 (cnt is_strong (hs s))); lia).
        destruct (Z.eq_dec (weak s) 0); [assumption|]. destruct (I5 ltac:(lia)). lia. }
      apply In_nth_error in Hh. destruct Hh as [n Hn].
      destruct (Hq h (nth_error_In _ _ Hn)) as [->|[->| ->]]; [exfalso|exfalso|reflexivity].
      * pose proof (cnt_pos is_strong _ _ Hn eq_refl). destruct (Z.ltb_spec 0 (cnt is_strong (hs s))); lia.
      * pose proof (cnt_pos is_weak _ _ Hn eq_refl). destruct (Z.ltb_spec 0 (cnt is_strong (hs s))); lia.
Qed.

(** weak_ptr::lock: a non-null result is an owner of a live object; a null result means that at that
    moment no owner was left. *)
Theorem C33_lock : forall lim ls s l o s', lim <= 2^32 - 2 -> run lim init ls s -> step lim s l = Some (s', o) ->
  (o = OLocked -> (0 < owners s)%nat /\ owners s' = S (owners s) /\ disposed s' = 0%nat) /\
  (o = OEmpty -> owners s = 0%nat).
Proof.
  intros lim ls s l o s' Hl Hr Hs. destruct (run_ok Hl init_inv Hr) as [HI _].
  destruct (step_ok _ Hl HI Hs) as [HI' Ho]. destruct Ho as (_ & O1 & O2 & _). split.
  - intros E. destruct (O1 E) as [P D]. split; [unfold owners; unfold cnt in P; lia|].
    subst o. unfold step in Hs. destruct l as [i|i|i|i|i|i|i|i|i|i|i|i]; destruct (nth_error (hs s) i) as [h|] eqn:Hi; try discriminate; destruct h; try discriminate;
      repeat match type of Hs with context [if ?b then _ else _] => destruct b eqn:?; try discriminate end.
    injection Hs as <-. cbn [disposed]. split; [|exact D].
    pose proof (cnt_upd is_strong _ _ HStrong Hi) as C. cbn [is_strong b2z] in C. unfold cnt in C. unfold owners. cbn [hs]. lia.
  - intros E. specialize (O2 E). unfold owners. unfold cnt in O2. lia.
Qed.

(** release_if_unique succeeds iff the caller is the only owner; use_count is the number of owners. *)
Theorem C33_unique_and_count : forall lim ls s l o s', lim <= 2^32 - 2 -> run lim init ls s -> step lim s l = Some (s', o) ->
  (forall b, o = OBool b -> (b = true <-> owners s = 1%nat)) /\ (forall n, o = ONum n -> n = Z.of_nat (owners s)).
Proof.
  intros lim ls s l o s' Hl Hr Hs. destruct (run_ok Hl init_inv Hr) as [HI _].
  destruct (step_ok _ Hl HI Hs) as [HI' Ho]. destruct Ho as (_ & _ & _ & O3 & O4 & _). split.
  - intros b E. specialize (O3 b E). rewrite O3. unfold owners, cnt. lia.
  - intros n E. apply O4. exact E.
Qed.

(** The bound on the number of handles is needed: the counters are 32 bits wide and are not checked. *)
Lemma copies_run n : forall s lim, nth_error (hs s) 0 = Some HStrong -> freed s = 0%nat ->
  Z.of_nat (owners s) + Z.of_nat n <= lim -> 0 <= strong s < 2^32 ->
  exists ls s', run lim s ls s' /\ hs s' = hs s ++ repeat HStrong n /\ freed s' = 0%nat /\ disposed s' = disposed s /\
    strong s' = u32 (strong s + Z.of_nat n) /\ 0 <= strong s' < 2^32.
Proof.
  induction n as [|n IH]; intros s lim H0 Hf Hl Hs.
  - exists [], s. cbn [repeat]. rewrite app_nil_r. repeat split; auto; try constructor; try lia.
    rewrite Z.add_0_r. unfold u32. symmetry. apply Z.mod_small. exact Hs.
  - set (s1 := mkB (u32 (strong s + 1)) (weak s) (disposed s) (freed s) (hs s ++ [HStrong])).
    assert (Ow : owners s1 = S (owners s)) by (unfold owners, s1; cbn [hs]; rewrite filter_app, app_length; cbn; lia).
    destruct (IH s1 lim) as (ls & s' & R & E1 & E2 & E3 & E4 & E5).
    + unfold s1. cbn [hs]. destruct (hs s); [discriminate|exact H0].
    + exact Hf.
    + lia.
    + unfold s1. cbn [strong]. apply Z.mod_pos_bound. lia.
    + exists ((LCopy 0, ONone) :: ls), s'. split; [|split; [|split; [|split; [|split]]]]; auto.
      * econstructor; [|exact R]. unfold step. rewrite H0.
        destruct (Z.leb_spec lim (cnt is_strong (hs s))) as [X|X]; [rewrite <- owners_cnt in X; lia|]. unfold s1. rewrite Hf. reflexivity.
      * rewrite E1. unfold s1. cbn [hs repeat]. rewrite <- app_assoc. reflexivity.
      * rewrite E4. unfold s1. cbn [strong]. unfold u32. rewrite Zplus_mod_idemp_l. f_equal. lia.
Qed.

Lemma run_app lim s1 l1 s2 l2 s3 : run lim s1 l1 s2 -> run lim s2 l2 s3 -> run lim s1 (l1 ++ l2) s3.
Proof. induction 1; cbn; [auto|]. intros. econstructor; eauto. Qed.

Theorem C33_counter_overflow_refuted :
  ~ (forall lim ls s, run lim init ls s -> (0 < owners s)%nat -> disposed s = 0%nat).
Proof.
  intros H. destruct (Z_of_nat_complete (2^32)) as [n Hn]; [lia|].
  destruct (@copies_run n init (2^32 + 1)) as (ls & s & R & E1 & E2 & E3 & E4 & E5); try reflexivity.
  - change (owners init) with 1%nat. rewrite <- Hn. lia.
  - cbn. lia.
  - assert (S1 : strong s = 1).
    { rewrite E4, <- Hn. reflexivity. }
    assert (N0 : nth_error (hs s) 0 = Some HStrong) by (rewrite E1; reflexivity).
    set (s1 := mkB 0 (weak s) (disposed s) (freed s) (upd (hs s) 0 HDispose)).
    set (s2 := mkB 0 (weak s) (S (disposed s)) (freed s) (upd (upd (hs s) 0 HDispose) 0 HDisposed)).
    assert (R2 : run (2^32 + 1) init (ls ++ [(LUnique 0, OBool true); (LDispose 0, ONone)]) s2).
    { clear - R S1 N0 E2 E3.
      assert (X : run (2^32 + 1) s [(LUnique 0, OBool true); (LDispose 0, ONone)] s2).
      { econstructor; [unfold step; rewrite N0, E2, S1; cbn [Nat.eqb negb Z.eqb Pos.eqb]; rewrite <- E2; reflexivity|].
        econstructor; [|constructor]. unfold step. cbn [hs freed disposed]. rewrite nth_upd, N0. cbn [Nat.eqb].
        rewrite E2, E3. unfold s2. rewrite E2, E3. reflexivity. }
      exact (run_app R X). }
    specialize (H _ _ _ R2). unfold s2 in H. cbn [disposed] in H. 
    assert (Ho : (0 < owners (mkB 0 (weak s) (S (disposed s)) (freed s) (upd (upd (hs s) 0 HDispose) 0 HDisposed)))%nat).
    { unfold owners. cbn [hs]. rewrite E1. cbn [init hs app upd filter is_strong].
      assert (L : length (filter is_strong (repeat HStrong n)) = n).
      { clear. induction n; cbn; [reflexivity|]. rewrite IHn. reflexivity. }
      rewrite L. lia. }
    specialize (H Ho). discriminate.
Qed.

(** ** Non-vacuity: two owners, a weak_ptr, a lock racing with the last release *)
Example C33_nonvacuous :
  exists s, run 10 init [(LCopy 0, ONone); (LWeak 1, ONone); (LReset 0, ONone); (LLock 2, ONone); (LReset 1, ONone);
     (LCas 3, OEmpty); (LDispose 1, ONone); (LDisposeWeak 1, ONone); (LCount 2, ONum 0); (LWeakReset 2, ONone); (LFree 2, ONone)]%nat s /\
    quiet s /\ disposed s = 1%nat /\ freed s = 1%nat.
Proof.
  eexists. split; [repeat (econstructor; [vm_compute; reflexivity|]); constructor|].
  cbn. repeat split. intros h Hh. cbn in Hh. intuition (subst; auto).
Qed.
Example C33_nonvacuous_lock :
  exists s, run 10 init [(LWeak 0, ONone); (LLock 1, ONone); (LCas 2, OLocked); (LUnique 0, OBool false); (LReset 0, ONone); (LUse 2, OUsed); (LUnique 2, OBool true)]%nat s.
Proof. eexists. repeat (econstructor; [vm_compute; reflexivity|]); constructor. Qed.

Print Assumptions C33_no_use_after_free.
Print Assumptions C33_alive_while_owned.
Print Assumptions C33_no_leak.
Print Assumptions C33_lock.
Print Assumptions C33_unique_and_count.
Print Assumptions C33_counter_overflow_refuted.
