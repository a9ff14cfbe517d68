(** Reference counting invariant. *)
From Coq Require Import List ZArith Lia Bool.
From Verif Require Import SharedPtrModel.
Import ListNotations.
Set Implicit Arguments.
Local Open Scope Z_scope.

Definition b2z (b : bool) : Z := if b then 1 else 0.

Lemma cnt_app f l1 l2 : cnt f (l1 ++ l2) = cnt f l1 + cnt f l2.
Proof. unfold cnt. rewrite filter_app, app_length. lia. Qed.
Lemma cnt_one f h : cnt f [h] = b2z (f h).
Proof. unfold cnt. cbn. destruct (f h); reflexivity. Qed.
Lemma cnt_cons f h l : cnt f (h :: l) = b2z (f h) + cnt f l.
Proof. unfold cnt. cbn [filter]. destruct (f h); cbn [length b2z]; lia. Qed.
Lemma cnt_nonneg f l : 0 <= cnt f l.
Proof. unfold cnt. lia. Qed.
Lemma cnt_upd f l : forall i h h', nth_error l i = Some h -> cnt f (upd l i h') = cnt f l - b2z (f h) + b2z (f h').
Proof.
  induction l as [|x l IH]; intros [|i] h h' H; cbn in H; try discriminate.
  - injection H as ->. cbn [upd]. rewrite !cnt_cons. lia.
  - cbn [upd]. rewrite !cnt_cons, (IH _ _ h' H). lia.
Qed.
Lemma cnt_pos f l i h : nth_error l i = Some h -> f h = true -> 1 <= cnt f l.
Proof.
  revert i. induction l as [|x l IH]; intros [|i] H Hf; cbn in H; try discriminate.
  - injection H as ->. rewrite cnt_cons, Hf. pose proof (cnt_nonneg f l). cbn [b2z]. lia.
  - rewrite cnt_cons. specialize (IH _ H Hf). destruct (f x); cbn [b2z]; lia.
Qed.
Lemma nth_upd l : forall i j h, nth_error (upd l i h) j = if Nat.eqb i j then (match nth_error l j with Some _ => Some h | None => None end) else nth_error l j.
Proof.
  induction l as [|x l IH]; intros [|i] [|j] h; cbn; auto; destruct (Nat.eqb i j) eqn:E; auto; rewrite IH, E; reflexivity.
Qed.

Definition is_disp (h : hst) := match h with HDispose => true | _ => false end.
Definition is_disp2 (h : hst) := match h with HDisposed => true | _ => false end.
Definition is_free (h : hst) := match h with HFree => true | _ => false end.

Definition Inv (s : blk) : Prop :=
  let l := hs s in
  strong s = cnt is_strong l /\
  weak s = cnt is_weak l + (if 0 <? cnt is_strong l then 1 else cnt is_disp l + cnt is_disp2 l) /\
  (0 < cnt is_strong l -> cnt is_disp l = 0 /\ cnt is_disp2 l = 0 /\ disposed s = 0%nat) /\
  (cnt is_strong l = 0 -> cnt is_disp l + cnt is_disp2 l <= 1 /\ Z.of_nat (disposed s) = 1 - cnt is_disp l) /\
  (0 < weak s -> cnt is_free l = 0 /\ freed s = 0%nat) /\
  (weak s = 0 -> cnt is_free l + Z.of_nat (freed s) = 1) /\
  (forall j i c, nth_error l j = Some (HLock i c) -> nth_error l i = Some HWeak /\ 0 < c) /\
  cnt is_strong l < 2^32 /\ cnt is_weak l < 2^32 - 1.

Lemma init_inv : Inv init.
Proof.
  unfold Inv, init. cbn [strong weak disposed freed hs]. change (cnt is_strong [HStrong]) with 1.
  change (cnt is_weak [HStrong]) with 0. change (cnt is_disp [HStrong]) with 0. change (cnt is_disp2 [HStrong]) with 0.
  change (cnt is_free [HStrong]) with 0. cbn. repeat split; try lia.
  all: destruct j as [|[|j]]; cbn in H; discriminate.
Qed.

Lemma u32_small x : 0 <= x < 2^32 -> u32 x = x.
Proof. apply Z.mod_small. Qed.

Lemma locks_upd l j h : (forall k i c, nth_error l k = Some (HLock i c) -> nth_error l i = Some HWeak /\ 0 < c) ->
  (exists h0, nth_error l j = Some h0 /\ (h0 <> HWeak \/ existsb (is_lock j) l = false)) ->
  (forall i c, h = HLock i c -> nth_error l i = Some HWeak /\ i <> j /\ 0 < c) ->
  forall k i c, nth_error (upd l j h) k = Some (HLock i c) -> nth_error (upd l j h) i = Some HWeak /\ 0 < c.
Proof.
  intros H (h0 & Hj & Hh0) Hh k i c. rewrite !nth_upd.
  destruct (Nat.eqb_spec j k) as [->|N].
  - rewrite Hj. intros [= ->]. destruct (Hh i c eq_refl) as (H1 & H2 & H3).
    destruct (Nat.eqb_spec k i); [congruence|]. auto.
  - intros Hk. destruct (H _ _ _ Hk) as [H1 H2]. split; [|exact H2].
    destruct (Nat.eqb_spec j i) as [->|N2]; [|exact H1].
    exfalso. rewrite Hj in H1. injection H1 as ->. destruct Hh0 as [X|X]; [congruence|].
    assert (existsb (is_lock i) l = true); [|congruence]. apply existsb_exists.
    exists (HLock i c). split; [eapply nth_error_In; eauto|]. cbn. apply Nat.eqb_refl.
Qed.
Lemma locks_app l h : (forall k i c, nth_error l k = Some (HLock i c) -> nth_error l i = Some HWeak /\ 0 < c) ->
  (forall i c, h = HLock i c -> nth_error l i = Some HWeak /\ 0 < c) ->
  forall k i c, nth_error (l ++ [h]) k = Some (HLock i c) -> nth_error (l ++ [h]) i = Some HWeak /\ 0 < c.
Proof.
  intros H Hh k i c Hk.
  assert (forall i, nth_error l i = Some HWeak -> nth_error (l ++ [h]) i = Some HWeak).
  { intros i0 X. rewrite nth_error_app1; [exact X|]. apply nth_error_Some. congruence. }
  destruct (Nat.lt_ge_cases k (length l)) as [Hl|Hl].
  - rewrite nth_error_app1 in Hk by exact Hl. destruct (H _ _ _ Hk). auto.
  - rewrite nth_error_app2 in Hk by exact Hl. destruct (k - length l)%nat as [|n]; cbn in Hk; [|destruct n; discriminate].
    injection Hk as ->. destruct (Hh i c eq_refl). auto.
Qed.

Definition ok_obs (s : blk) (o : obs) : Prop :=
  o <> OUB /\
  (o = OLocked -> 0 < cnt is_strong (hs s) /\ disposed s = 0%nat) /\
  (o = OEmpty -> cnt is_strong (hs s) = 0) /\
  (forall b, o = OBool b -> (b = true <-> cnt is_strong (hs s) = 1)) /\
  (forall n, o = ONum n -> n = cnt is_strong (hs s)) /\
  (o = OUsed -> disposed s = 0%nat).

Ltac cnts H := rewrite ?(cnt_upd is_strong _ _ _ H), ?(cnt_upd is_weak _ _ _ H), ?(cnt_upd is_disp _ _ _ H),
  ?(cnt_upd is_disp2 _ _ _ H), ?(cnt_upd is_free _ _ _ H), ?cnt_app, ?cnt_one; cbn [is_strong is_weak is_disp is_disp2 is_free b2z].
Ltac zb := repeat match goal with
  | |- context [?a <? ?b] => destruct (Z.ltb_spec a b)
  | H : context [?a <? ?b] |- _ => destruct (Z.ltb_spec a b)
  end.

(** all of [Inv] except the lock clause is arithmetic *)
Ltac arith := repeat split; zb; try lia.
Ltac noobs := unfold ok_obs; repeat split; intros; try discriminate; try congruence; try lia; auto.

Lemma step_ok lim s l s' o : lim <= 2^32 - 2 -> Inv s -> step lim s l = Some (s', o) -> Inv s' /\ ok_obs s o.
Proof.
  intros Hlim HI Hst. pose proof HI as (I1 & I2 & I3 & I4 & I5 & I6 & I7 & I8 & I9).
  pose proof (cnt_nonneg is_strong (hs s)) as N1. pose proof (cnt_nonneg is_weak (hs s)) as N2.
  pose proof (cnt_nonneg is_disp (hs s)) as N3. pose proof (cnt_nonneg is_disp2 (hs s)) as N4.
  pose proof (cnt_nonneg is_free (hs s)) as N5.
  change (2^32) with 4294967296 in *.
  assert (Hgone : forall i h, nth_error (hs s) i = Some h -> is_strong h || is_weak h || is_disp h || is_disp2 h = true ->
    0 < weak s /\ freed s = 0%nat).
  { intros i h H Hh. assert (X : 0 < weak s).
    { destruct h; try discriminate.
      - pose proof (cnt_pos is_strong _ _ H eq_refl). zb; lia.
      - pose proof (cnt_pos is_weak _ _ H eq_refl). zb; lia.
      - pose proof (cnt_pos is_disp _ _ H eq_refl). zb; lia.
      - pose proof (cnt_pos is_disp2 _ _ H eq_refl). zb; lia. }
    split; [exact X|apply I5; exact X]. }
  assert (Hu : forall x, 0 <= x < 4294967296 -> u32 x = x) by (intros; apply u32_small; lia).
  assert (Hlk : forall st w d f l', (forall k i c, nth_error l' k = Some (HLock i c) -> nth_error l' i = Some HWeak /\ 0 < c) ->
    st = cnt is_strong l' /\ w = cnt is_weak l' + (if 0 <? cnt is_strong l' then 1 else cnt is_disp l' + cnt is_disp2 l') /\
    (0 < cnt is_strong l' -> cnt is_disp l' = 0 /\ cnt is_disp2 l' = 0 /\ d = 0%nat) /\
    (cnt is_strong l' = 0 -> cnt is_disp l' + cnt is_disp2 l' <= 1 /\ Z.of_nat d = 1 - cnt is_disp l') /\
    (0 < w -> cnt is_free l' = 0 /\ f = 0%nat) /\ (w = 0 -> cnt is_free l' + Z.of_nat f = 1) /\
    cnt is_strong l' < 2^32 /\ cnt is_weak l' < 2^32 - 1 -> Inv (mkB st w d f l')).
  { intros st w d f l' H (H1 & H2 & H3 & H4 & H5 & H6 & H7 & H8). unfold Inv. cbn [strong weak disposed freed hs].
    repeat (split; auto). }
  change (2^32) with 4294967296 in *.
  unfold step in Hst.
  destruct l as [i|i|i|i|i|i|i|i|i|i|i|i]; destruct (nth_error (hs s) i) as [h|] eqn:Hi; try discriminate; destruct h; try discriminate.
  - (* copy *)
    destruct (Z.leb_spec lim (cnt is_strong (hs s))); [discriminate|].
    destruct (Hgone _ _ Hi eq_refl) as [G1 G2]. rewrite G2 in Hst. cbn [Nat.eqb negb] in Hst. injection Hst as <- <-.
    pose proof (cnt_pos is_strong _ _ Hi eq_refl). specialize (I3 ltac:(lia)). specialize (I5 G1).
    split; [|noobs]. apply Hlk; [apply locks_app; auto; discriminate|]. cnts Hi. rewrite Hu by lia. arith.
  - (* weak from strong *)
    destruct (Z.leb_spec lim (cnt is_weak (hs s))); [discriminate|].
    destruct (Hgone _ _ Hi eq_refl) as [G1 G2]. rewrite G2 in Hst. cbn [Nat.eqb negb] in Hst. injection Hst as <- <-.
    pose proof (cnt_pos is_strong _ _ Hi eq_refl). specialize (I3 ltac:(lia)). specialize (I5 G1).
    split; [|noobs]. apply Hlk; [apply locks_app; auto; discriminate|]. cnts Hi. rewrite Hu by (zb; lia). arith.
  - (* weak from weak *)
    destruct (Z.leb_spec lim (cnt is_weak (hs s))); [discriminate|].
    destruct (Hgone _ _ Hi eq_refl) as [G1 G2]. rewrite G2 in Hst. cbn [Nat.eqb negb] in Hst. injection Hst as <- <-.
    specialize (I5 G1).
    split; [|noobs]. apply Hlk; [apply locks_app; auto; discriminate|]. cnts Hi. rewrite Hu by (zb; lia). arith.
  - (* release *)
    destruct (Hgone _ _ Hi eq_refl) as [G1 G2]. rewrite G2 in Hst. cbn [Nat.eqb negb] in Hst. injection Hst as <- <-.
    pose proof (cnt_pos is_strong _ _ Hi eq_refl). specialize (I3 ltac:(lia)). specialize (I5 G1).
    rewrite Hu by lia. split; [|noobs]. apply Hlk.
    + apply locks_upd; auto; [exists HStrong; split; [exact Hi|left; discriminate]|destruct (_ =? _); discriminate].
    + destruct (Z.eqb_spec (strong s - 1) 0); cnts Hi; arith.
  - (* release_if_unique *)
    destruct (Hgone _ _ Hi eq_refl) as [G1 G2]. rewrite G2 in Hst. cbn [Nat.eqb negb] in Hst.
    pose proof (cnt_pos is_strong _ _ Hi eq_refl). specialize (I3 ltac:(lia)). specialize (I5 G1).
    destruct (Z.eqb_spec (strong s) 1) as [E|E]; injection Hst as <- <-.
    + split; [|noobs; injection H0 as <-; reflexivity]. apply Hlk.
      * apply locks_upd; auto; [exists HStrong; split; [exact Hi|left; discriminate]|discriminate].
      * cnts Hi; arith.
    + split; [exact HI|]. noobs.
  - (* Dispose *)
    destruct (Hgone _ _ Hi eq_refl) as [G1 G2]. rewrite G2 in Hst. cbn [Nat.eqb negb orb] in Hst.
    pose proof (cnt_pos is_disp _ _ Hi eq_refl).
    assert (Z0 : cnt is_strong (hs s) = 0) by lia. specialize (I4 Z0). specialize (I5 G1).
    assert (disposed s = 0%nat) as D by lia. rewrite D in Hst. cbn [Nat.eqb negb] in Hst. injection Hst as <- <-.
    split; [|noobs]. apply Hlk.
    + apply locks_upd; auto; [exists HDispose; split; [exact Hi|left; discriminate]|discriminate].
    + cnts Hi; arith.
  - (* Dispose, weak release *)
    destruct (Hgone _ _ Hi eq_refl) as [G1 G2]. rewrite G2 in Hst. cbn [Nat.eqb negb orb] in Hst.
    pose proof (cnt_pos is_disp2 _ _ Hi eq_refl).
    assert (Z0 : cnt is_strong (hs s) = 0) by lia. specialize (I4 Z0). specialize (I5 G1). injection Hst as <- <-.
    rewrite Hu by (zb; lia). split; [|noobs]. apply Hlk.
    + apply locks_upd; auto; [exists HDisposed; split; [exact Hi|left; discriminate]|destruct (_ =? _); discriminate].
    + destruct (Z.eqb_spec (weak s - 1) 0); cnts Hi; arith.
  - (* ~weak_ptr *)
    destruct (existsb (is_lock i) (hs s)) eqn:Eb; [discriminate|].
    destruct (Hgone _ _ Hi eq_refl) as [G1 G2]. rewrite G2 in Hst. cbn [Nat.eqb negb orb] in Hst.
    pose proof (cnt_pos is_weak _ _ Hi eq_refl). specialize (I5 G1). injection Hst as <- <-.
    rewrite Hu by (zb; lia). split; [|noobs]. apply Hlk.
    + apply locks_upd; auto; [exists HWeak; split; [exact Hi|right; exact Eb]|destruct (_ =? _); discriminate].
    + destruct (Z.eqb_spec (weak s - 1) 0); cnts Hi; arith.
  - (* Free *)
    pose proof (cnt_pos is_free _ _ Hi eq_refl).
    assert (W0 : weak s = 0) by (zb; lia). specialize (I6 W0).
    assert (F0 : freed s = 0%nat) by lia. rewrite F0 in Hst. cbn [Nat.eqb negb] in Hst. injection Hst as <- <-.
    split; [|noobs]. apply Hlk.
    + apply locks_upd; auto; [exists HFree; split; [exact Hi|left; discriminate]|discriminate].
    + cnts Hi; arith.
  - (* lock *)
    destruct (Hgone _ _ Hi eq_refl) as [G1 G2]. rewrite G2 in Hst. cbn [Nat.eqb negb orb] in Hst. specialize (I5 G1).
    destruct (Z.eqb_spec (strong s) 0) as [E|E]; injection Hst as <- <-.
    + split; [exact HI|]. noobs.
    + split; [|noobs]. apply Hlk.
      * apply locks_app; auto. intros i0 c [= <- <-]. split; [exact Hi|lia].
      * cnts Hi; arith.
  - (* CAS *)
    destruct (Z.leb_spec lim (cnt is_strong (hs s))); [discriminate|].
    destruct (I7 _ _ _ Hi) as [Hw Hc].
    destruct (Hgone _ _ Hw eq_refl) as [G1 G2]. rewrite G2 in Hst. cbn [Nat.eqb negb orb] in Hst. specialize (I5 G1).
    assert (Nij : i0 <> i) by congruence.
    destruct (Z.eqb_spec (strong s) c) as [E|E]; [|destruct (Z.eqb_spec (strong s) 0) as [E0|E0]]; injection Hst as <- <-.
    + specialize (I3 ltac:(lia)). split; [|noobs]. apply Hlk.
      * apply locks_upd; auto; [exists (HLock i0 c); split; [exact Hi|left; discriminate]|discriminate].
      * rewrite Hu by lia. cnts Hi. arith.
    + split; [|noobs]. apply Hlk.
      * apply locks_upd; auto; [exists (HLock i0 c); split; [exact Hi|left; discriminate]|discriminate].
      * cnts Hi. arith.
    + split; [|noobs]. apply Hlk.
      * apply locks_upd; auto; [exists (HLock i0 c); split; [exact Hi|left; discriminate]|].
        intros i1 c1 [= <- <-]. split; [exact Hw|split; [exact Nij|lia]].
      * cnts Hi. arith.
  - (* use *)
    pose proof (cnt_pos is_strong _ _ Hi eq_refl). specialize (I3 ltac:(lia)). destruct I3 as (_ & _ & D). rewrite D in Hst.
    cbn [Nat.eqb negb] in Hst. injection Hst as <- <-. split; [exact HI|noobs].
  - (* use_count *)
    destruct (Hgone _ _ Hi eq_refl) as [G1 G2]. rewrite G2 in Hst. cbn [Nat.eqb negb] in Hst. injection Hst as <- <-.
    split; [exact HI|noobs].
  - destruct (Hgone _ _ Hi eq_refl) as [G1 G2]. rewrite G2 in Hst. cbn [Nat.eqb negb] in Hst. injection Hst as <- <-.
    split; [exact HI|noobs].
Qed.

Lemma run_ok lim s ls s' : lim <= 2^32 - 2 -> Inv s -> run lim s ls s' ->
  Inv s' /\ forall l o, In (l, o) ls -> o <> OUB.
Proof.
  intros Hlim HI Hr. induction Hr as [s|s l o s1 ls s2 Hs Hr IH]; [split; [exact HI|intros ? ? []]|].
  destruct (step_ok _ Hlim HI Hs) as [HI1 Ho]. destruct (IH HI1) as [HI2 IH2].
  split; [exact HI2|]. intros l0 o0 [[= <- <-]|Hin]; [apply Ho|eapply IH2; exact Hin].
Qed.
