From Verif Require Import Base RgModel RgSpec RgProofs RgProofs2.
From Coq Require Import Lia ZArith.

(** * IteratorRange with its sequence *)
Definition span_at {A} (l : list A) (i : nat) (s : list A * nat) : Prop := s = (l, i) /\ (i <= length l)%nat.
Lemma span_bidirectional {A} (l : list A) : bidirectional (span_ops A) l (span_at l).
Proof.
  pose proof (iterator_bidirectional l) as F. pose proof (bi_forward _ _ _ F) as Fw. constructor; [constructor|..]; unfold span_at.
  - intros i s [_ H]. exact H.
  - intros i s [-> H]. exact (fw_valid _ _ _ Fw _ _ (conj eq_refl H)).
  - intros i s a [-> H] E. destruct (fw_get _ _ _ Fw _ _ _ (conj eq_refl H) E) as (s' & E' & -> & H'). cbn [span_ops get fst snd]. rewrite E'. cbn [fst]. eauto.
  - intros i s [-> H]. destruct (fw_first _ _ _ Fw _ _ (conj eq_refl H)) as (s' & E' & -> & H'). cbn [span_ops first fst snd]. rewrite E'. eexists. split; [reflexivity|]. auto.
  - intros i s [-> H] L. destruct (fw_next _ _ _ Fw _ _ (conj eq_refl H) L) as (s' & E' & -> & H'). cbn [span_ops next fst snd]. rewrite E'. eexists. split; [reflexivity|]. auto.
  - intros i s [-> H]. destruct (bi_last _ _ _ F _ _ (conj eq_refl H)) as (s' & E' & -> & H'). cbn [span_ops last fst snd]. rewrite E'. eexists. split; [reflexivity|]. auto.
  - intros i s [-> H] L. destruct (bi_prev _ _ _ F _ _ (conj eq_refl H) L) as (s' & E' & -> & H'). cbn [span_ops prev fst snd]. rewrite E'. eexists. split; [reflexivity|]. auto.
  - intros i j s t [-> _] [-> _]. reflexivity.
Qed.
Lemma span_start {A} (l : list A) : span_at l 0 (l, 0%nat).
Proof. split; [reflexivity|lia]. Qed.

(** * RangeSplitter *)
Section Split.
  Context {A : Type} (max : nat).
  Hypothesis pos : (0 < max)%nat.
  Lemma chunks_nth (l : list A) cs : chunks max l cs -> forall i, nth_error cs i = if (i * max <? length l)%nat then Some (firstn max (skipn (i * max) l)) else None.
  Proof.
    induction 1 as [|l N L|c l cs Hc N H IH]; intros i.
    - destruct i; [reflexivity|]. cbn. reflexivity.
    - pose proof (len_pos _ N). destruct i as [|i].
      + cbn [Nat.mul skipn nth_error]. destruct (Nat.ltb_spec 0 (length l)); [|lia]. rewrite firstn_all2 by lia. reflexivity.
      + destruct (Nat.ltb_spec (S i * max) (length l)); [cbn in *; lia|]. destruct i; reflexivity.
    - pose proof (len_pos _ N). rewrite app_length. destruct i as [|i].
      + cbn [Nat.mul skipn nth_error]. destruct (Nat.ltb_spec 0 (length c + length l)); [|lia]. rewrite <- Hc, firstn_app, Nat.sub_diag, firstn_all. cbn. rewrite app_nil_r. reflexivity.
      + cbn [nth_error]. rewrite IH. replace (S i * max)%nat with (length c + i * max)%nat by (rewrite Hc; cbn; lia).
        rewrite skipn_app. replace (length c + i * max - length c)%nat with (i * max)%nat by lia. rewrite (skipn_all2 c) by lia. cbn [app].
        destruct (Nat.ltb_spec (i * max) (length l)), (Nat.ltb_spec (length c + i * max) (length c + length l)); try reflexivity; lia.
  Qed.
  Lemma chunks_exist_len n : forall l : list A, (length l <= n)%nat -> exists cs, chunks max l cs.
  Proof.
    induction n as [|n IH]; intros l L.
    - destruct l; [|cbn in L; lia]. exists []. constructor.
    - destruct (Nat.eq_dec (length l) 0) as [Z|Z]; [apply length_zero_iff_nil in Z; subst; exists []; constructor|].
      destruct (Nat.le_gt_cases (length l) max) as [S|S].
      + exists [l]. constructor; [apply not_nil; lia|exact S].
      + destruct (IH (skipn max l)) as [cs Hcs]; [rewrite skipn_length; lia|]. exists (firstn max l :: cs). rewrite <- (firstn_skipn max l) at 1.
        constructor; [rewrite firstn_length; lia|apply not_nil; rewrite skipn_length; lia|exact Hcs].
  Qed.
  Lemma chunks_exist (l : list A) : exists cs, chunks max l cs.
  Proof. apply (chunks_exist_len (length l)). lia. Qed.
  Lemma chunks_concat (l : list A) cs : chunks max l cs -> concat cs = l.
  Proof. induction 1; cbn; [reflexivity|apply app_nil_r|congruence]. Qed.

  Variables (l : list A) (cs : list (list A)).
  Hypothesis cut : chunks max l cs.
  Definition spl_at (i : nat) (s : nat) : Prop := s = Nat.min (i * max) (length l) /\ (i <= length cs)%nat.
  Lemma cs_lt i : (i < length cs)%nat <-> (i * max < length l)%nat.
  Proof.
    pose proof (chunks_nth l cs cut i) as Q. split; intros H.
    - destruct (nth_some _ _ H) as [c E]. rewrite E in Q. destruct (Nat.ltb_spec (i * max) (length l)); [assumption|discriminate].
    - destruct (Nat.ltb_spec (i * max) (length l)); [|lia]. apply nth_lt in Q. exact Q.
  Qed.
  Lemma cs_end : (length l <= length cs * max)%nat.
  Proof. pose proof (cs_lt (length cs)). lia. Qed.
  Lemma spl_valid i s : spl_at i s -> negb (s =? length l)%nat = (i <? length cs)%nat.
  Proof.
    intros [-> B]. destruct (Nat.ltb_spec i (length cs)) as [L|L].
    - apply cs_lt in L. destruct (Nat.eqb_spec (Nat.min (i * max) (length l)) (length l)); [lia|reflexivity].
    - replace i with (length cs) by lia. pose proof cs_end. rewrite Nat.min_r by lia. rewrite Nat.eqb_refl. reflexivity.
  Qed.
  Lemma split_forward : forward (split_ops l max) cs spl_at.
  Proof.
    constructor.
    - intros i s [_ B]. exact B.
    - intros i s H. exact (spl_valid i s H).
    - intros i s c H E. pose proof (spl_valid _ _ H) as V. pose proof (nth_lt _ _ _ E) as L. destruct (Nat.ltb_spec i (length cs)); [|lia]. cbn [split_ops get].
      destruct (Nat.eqb_spec s (length l)); [discriminate|]. exists s. split; [|exact H]. rewrite (chunks_nth l cs cut i) in E. apply cs_lt in L.
      destruct (Nat.ltb_spec (i * max) (length l)); [|lia]. destruct H as [-> _]. rewrite Nat.min_l by lia. unfold frag_size.
      rewrite <- E. do 2 f_equal. destruct (Nat.le_gt_cases max (length l - i * max)) as [Q|Q].
      + rewrite Nat.min_l by exact Q. reflexivity.
      + rewrite Nat.min_r by lia. rewrite !firstn_all2 by (rewrite skipn_length; lia). reflexivity.
    - intros i s H. exists 0%nat. split; [reflexivity|]. split; [reflexivity|lia].
    - intros i s H L. pose proof (spl_valid _ _ H) as V. destruct (Nat.ltb_spec i (length cs)); [|lia]. cbn [split_ops next].
      destruct (Nat.eqb_spec s (length l)); [discriminate|]. eexists. split; [reflexivity|]. split; [|lia]. destruct H as [-> _]. apply cs_lt in L. unfold frag_size. cbn [Nat.mul]. lia.
  Qed.
  Lemma split_prev i s : spl_at i s -> (0 < i)%nat -> exists s', prev (split_ops l max) s = (true, s') /\ spl_at (i - 1) s'.
  Proof.
    intros [-> B] L. destruct i as [|i]; [lia|]. assert (Q : (i * max < length l)%nat) by (apply cs_lt; lia). cbn [split_ops prev].
    destruct (Nat.eqb_spec (Nat.min (S i * max) (length l)) 0); [cbn in *; lia|]. unfold align. destruct (Nat.eqb_spec max 0); [lia|]. eexists. split; [reflexivity|].
    split; [|lia]. replace (S i - 1)%nat with i by lia. rewrite (Nat.min_l (i * max)) by lia. cbn [Nat.mul] in *.
    replace ((Nat.min (max + i * max) (length l) - 1) / max)%nat with i; [lia|]. apply (Nat.div_unique _ _ _ (Nat.min (max + i * max) (length l) - 1 - i * max)); lia.
  Qed.
  Lemma split_equals i j s t : spl_at i s -> spl_at j t -> equals (split_ops l max) s t = (i =? j)%nat.
  Proof.
    intros [-> B] [-> B']. cbn [split_ops equals].
    assert (Q : forall a b, (a < b)%nat -> (b <= length cs)%nat -> (Nat.min (a * max) (length l) < Nat.min (b * max) (length l))%nat).
    { intros a b H H'. assert (a * max < length l)%nat by (apply cs_lt; lia). assert (a * max + max <= b * max)%nat by (replace (a * max + max)%nat with (S a * max)%nat by (cbn; lia); apply Nat.mul_le_mono_r; lia). lia. }
    destruct (Nat.eqb_spec i j) as [->|N]; [apply Nat.eqb_refl|]. apply Nat.eqb_neq. destruct (Nat.lt_ge_cases i j) as [L|L].
    - pose proof (Q i j L B'). lia.
    - pose proof (Q j i ltac:(lia) B). lia.
  Qed.
  Lemma split_strict : strict (split_ops l max) cs spl_at.
  Proof.
    constructor; intros s H.
    - pose proof (spl_valid _ _ H) as V. rewrite Nat.ltb_irrefl in V. cbn [split_ops next]. destruct (Nat.eqb_spec s (length l)); [|discriminate]. exists s. auto.
    - destruct H as [-> B]. cbn. eexists. split; [reflexivity|]. split; [reflexivity|exact B].
    - pose proof (spl_valid _ _ H) as V. rewrite Nat.ltb_irrefl in V. cbn [split_ops get]. destruct (Nat.eqb_spec s (length l)); [|discriminate]. exists s. auto.
  Qed.
  (** Last() goes to the last fragment only if that one is shorter than max (or there is none); otherwise it goes to the end *)
  Lemma split_last s : exists s', last (split_ops l max) s = (true, s') /\ spl_at (length l / max) s'.
  Proof.
    cbn [split_ops last]. unfold align. destruct (Nat.eqb_spec max 0); [lia|]. eexists. split; [reflexivity|]. pose proof (Nat.div_mod (length l) max ltac:(lia)). split; [rewrite Nat.min_l; lia|].
    destruct (Nat.le_gt_cases (length l / max) (length cs)) as [|G]; [assumption|]. pose proof cs_end. 
    assert (length cs * max + max <= length l / max * max)%nat by (replace (length cs * max + max)%nat with (S (length cs) * max)%nat by (cbn; lia); apply Nat.mul_le_mono_r; lia). lia.
  Qed.
  Lemma div_exact_end : (length l mod max = 0)%nat -> (length l / max = length cs)%nat.
  Proof.
    intros Z. pose proof (Nat.div_mod (length l) max ltac:(lia)) as D. pose proof cs_end as E. pose proof (cs_lt (length l / max)) as C.
    assert (~ (length l / max < length cs)%nat) by lia. assert (~ (length cs < length l / max)%nat); [|lia]. intros G.
    assert (length cs * max + max <= length l / max * max)%nat by (replace (length cs * max + max)%nat with (S (length cs) * max)%nat by (cbn; lia); apply Nat.mul_le_mono_r; lia). lia.
  Qed.
  Lemma div_short : (length l mod max <> 0)%nat -> (length l / max = length cs - 1)%nat /\ (0 < length cs)%nat.
  Proof.
    intros Z. pose proof (Nat.div_mod (length l) max ltac:(lia)) as D. pose proof (Nat.mod_upper_bound (length l) max ltac:(lia)) as U. pose proof (proj2 (cs_lt (length l / max)) ltac:(lia)).
    pose proof (cs_lt (S (length l / max))) as C. cbn [Nat.mul] in C. lia.
  Qed.
  Lemma split_end s : exists s', range_end (split_ops l max) s = (true, s') /\ spl_at (length cs) s'.
  Proof.
    destruct (split_last s) as (s' & E & H). unfold range_end. rewrite E. unfold andthen. cbn [fst snd]. rewrite (fw_valid _ _ _ split_forward _ _ H).
    destruct (Nat.ltb_spec (length l / max) (length cs)) as [L|L].
    - destruct (fw_next _ _ _ split_forward _ _ H L) as (s2 & E2 & H2). exists s2. split; [exact E2|]. destruct (Nat.eq_dec (length l mod max) 0) as [Z|Z].
      + rewrite (div_exact_end Z) in *. lia.
      + destruct (div_short Z) as [Z1 Z2]. replace (length cs) with (S (length l / max)) by lia. exact H2.
    - exists s'. split; [reflexivity|]. pose proof (proj2 H). replace (length cs) with (length l / max)%nat by lia. exact H.
  Qed.
End Split.

(** * RangeFlattener *)
Section Flatten.
  Context {C A : Type} (o : rops C) (o2 : rops A) (to_range : C -> st o2) (inner : C -> list A) (l : list C)
          (P : nat -> st o -> Prop) (Q : C -> nat -> st o2 -> Prop).
  Hypothesis inner_start : forall c, In c l -> Q c 0%nat (to_range c).
  Definition all : list A := concat (map inner l).
  Definition off (p : nat) : nat := length (concat (map inner (firstn p l))).
  Definition fl_at (k : nat) (s : st o * option (st o2)) : Prop :=
    match snd s with
    | None => k = length all /\ P (length l) (fst s)
    | Some r => exists p c j, P p (fst s) /\ nth_error l p = Some c /\ Q c j r /\ (j < length (inner c))%nat /\ k = (off p + j)%nat
    end.
  Lemma off_full : off (length l) = length all.
  Proof. unfold off. rewrite firstn_all. reflexivity. Qed.
  Lemma off_succ p c : nth_error l p = Some c -> off (S p) = (off p + length (inner c))%nat.
  Proof. intros E. unfold off. rewrite (firstn_succ _ _ _ E), map_app, concat_app, app_length. cbn. rewrite app_nil_r. reflexivity. Qed.
  Lemma off_mono p q : (p <= q)%nat -> (off p <= off q)%nat.
  Proof.
    intros H. induction H as [|q H IH]; [lia|]. destruct (nth_error l q) as [a|] eqn:E.
    - rewrite (off_succ _ _ E). lia.
    - apply nth_error_None in E. unfold off in *. rewrite (firstn_all2 (n := S q)) by lia. rewrite (firstn_all2 (n := q)) in IH by lia. exact IH.
  Qed.
  Lemma off_inside p c j : nth_error l p = Some c -> (j < length (inner c))%nat -> (off p + j < length all)%nat.
  Proof. intros E L. pose proof (off_succ _ _ E). pose proof (off_mono (S p) (length l) (nth_lt _ _ _ E)) as M. rewrite off_full in M. lia. Qed.
  Lemma off_unique p c j p' c' j' : nth_error l p = Some c -> (j < length (inner c))%nat -> nth_error l p' = Some c' -> (j' < length (inner c'))%nat ->
    (off p + j = off p' + j')%nat -> p = p' /\ j = j'.
  Proof.
    intros E L E' L' H. destruct (Nat.lt_trichotomy p p') as [T|[->|T]].
    - pose proof (off_succ _ _ E). pose proof (off_mono (S p) p' T). lia.
    - lia.
    - pose proof (off_succ _ _ E'). pose proof (off_mono (S p') p T). lia.
  Qed.
  Lemma off_nth p c j : nth_error l p = Some c -> (j < length (inner c))%nat -> nth_error all (off p + j) = nth_error (inner c) j.
  Proof.
    intros E L. unfold all. rewrite <- (firstn_skipn p l) at 1. rewrite map_app, concat_app, nth_error_app2 by (fold (off p); lia). fold (off p).
    replace (off p + j - off p)%nat with j by lia. rewrite (skipn_nth _ _ _ E). cbn [map concat]. rewrite nth_error_app1 by exact L. reflexivity.
  Qed.
  Variable fuel : nat.
  Hypothesis enough : (length l < fuel)%nat.

  Lemma fl_find_next_spec : forward o l P -> (forall c, In c l -> forward o2 (inner c) (Q c)) -> forall n p s, (length l - p < n)%nat -> P p s ->
    exists s', fl_find_next o o2 to_range n s = (true, s') /\ fl_at (off p) s'.
  Proof.
    intros F F2. induction n as [|n IH]; intros p s Hn H; [lia|]. cbn [fl_find_next]. rewrite (fw_valid _ _ _ F _ _ H). pose proof (fw_bound _ _ _ F _ _ H) as B.
    destruct (Nat.ltb_spec p (length l)) as [L|L].
    - destruct (nth_some _ _ L) as [c E]. pose proof (nth_error_In _ _ E) as Ic. destruct (fw_get _ _ _ F _ _ _ H E) as (s1 & -> & H1).
      rewrite (fw_valid _ _ _ (F2 c Ic) _ _ (inner_start c Ic)). destruct (Nat.ltb_spec 0 (length (inner c))) as [Lc|Lc].
      + eexists. split; [reflexivity|]. exists p, c, 0%nat. cbn [fst snd]. split; [exact H1|]. split; [exact E|]. split; [apply inner_start; exact Ic|]. split; [exact Lc|lia].
      + destruct (fw_next _ _ _ F _ _ H1 L) as (s2 & E2 & H2). rewrite E2. destruct (IH (S p) s2 ltac:(lia) H2) as (s' & E' & H'). exists s'. split; [exact E'|].
        rewrite (off_succ _ _ E) in H'. replace (off p + length (inner c))%nat with (off p) in H' by lia. exact H'.
    - eexists. split; [reflexivity|]. unfold fl_at. cbn [fst snd]. assert (p = length l) by lia. subst p. split; [apply off_full|exact H].
  Qed.
  Lemma flatten_forward : forward o l P -> (forall c, In c l -> forward o2 (inner c) (Q c)) -> forward (flatten_ops o o2 to_range fuel) all fl_at.
  Proof.
    intros F F2. constructor.
    - intros k [s [r|]] H; unfold fl_at in H; cbn [fst snd] in H.
      + destruct H as (p & c & j & H & E & Hr & L & ->). pose proof (off_inside _ _ _ E L). lia.
      + destruct H as [-> _]. lia.
    - intros k [s [r|]] H; unfold fl_at in H; cbn [fst snd flatten_ops valid] in *.
      + destruct H as (p & c & j & H & E & Hr & L & ->). pose proof (off_inside _ _ _ E L). symmetry. apply Nat.ltb_lt. lia.
      + destruct H as [-> _]. symmetry. apply Nat.ltb_irrefl.
    - intros k [s [r|]] a H Ea; unfold fl_at in H; cbn [fst snd flatten_ops get] in *.
      + destruct H as (p & c & j & H & E & Hr & L & ->). rewrite (off_nth _ _ _ E L) in Ea. pose proof (nth_error_In _ _ E) as Ic.
        destruct (fw_get _ _ _ (F2 c Ic) _ _ _ Hr Ea) as (r' & Er & Hr'). rewrite Er. eexists. split; [reflexivity|]. exists p, c, j. cbn [fst snd]. auto 6.
      + destruct H as [-> _]. apply nth_lt in Ea. lia.
    - intros k [s x] H. assert (Hp : exists p, P p s) by (unfold fl_at in H; cbn [fst snd] in H; destruct x as [r|]; [destruct H as (p & _ & _ & H & _); eauto|destruct H; eauto]).
      destruct Hp as [p Hp]. destruct (fw_first _ _ _ F _ _ Hp) as (s1 & E1 & H1). cbn [flatten_ops first fst snd]. rewrite E1.
      destruct (fl_find_next_spec F F2 fuel 0 s1 ltac:(lia) H1) as (s' & E' & H'). exists s'. auto.
    - intros k [s [r|]] H Lk; unfold fl_at in H; cbn [fst snd flatten_ops next] in *; [|destruct H; lia].
      destruct H as (p & c & j & H & E & Hr & L & ->). pose proof (nth_error_In _ _ E) as Ic. unfold fl_next. cbn [fst snd].
      destruct (fw_next _ _ _ (F2 c Ic) _ _ Hr L) as (r1 & Er & Hr1). rewrite Er. rewrite (fw_valid _ _ _ (F2 c Ic) _ _ Hr1). destruct (Nat.ltb_spec (S j) (length (inner c))) as [L1|L1].
      + eexists. split; [reflexivity|]. exists p, c, (S j). cbn [fst snd]. repeat split; auto.
      + destruct (fw_next _ _ _ F _ _ H (nth_lt _ _ _ E)) as (s1 & E1 & H1). rewrite E1. destruct (fl_find_next_spec F F2 fuel (S p) s1 ltac:(lia) H1) as (s' & E' & H').
        exists s'. split; [exact E'|]. rewrite (off_succ _ _ E) in H'. replace (S (off p + j)) with (off p + length (inner c))%nat by lia. exact H'.
  Qed.
  Lemma flatten_make_spec s : forward o l P -> (forall c, In c l -> forward o2 (inner c) (Q c)) -> P 0%nat s -> exists s', flatten_make o o2 to_range fuel s = (true, s') /\ fl_at 0 s'.
  Proof. intros F F2 H. exact (fl_find_next_spec F F2 fuel 0%nat s ltac:(lia) H). Qed.

  Hypothesis F : bidirectional o l P.
  Hypothesis F2 : forall c, In c l -> bidirectional o2 (inner c) (Q c).
  Lemma fl_find_prev_spec : forall n p s, (p < n)%nat -> (p < length l)%nat -> P p s -> (0 < off (S p))%nat ->
    exists s', fl_find_prev o o2 to_range n s = (true, s') /\ fl_at (off (S p) - 1) s'.
  Proof.
    pose proof (bi_forward _ _ _ F) as Fw. induction n as [|n IH]; intros p s Hn L H O; [lia|]. cbn [fl_find_prev].
    destruct (nth_some _ _ L) as [c E]. pose proof (nth_error_In _ _ E) as Ic. destruct (fw_get _ _ _ Fw _ _ _ H E) as (s1 & -> & H1).
    destruct (bi_last _ _ _ (F2 c Ic) _ _ (inner_start c Ic)) as (r & Er & Hr). rewrite Er. rewrite (fw_valid _ _ _ (bi_forward _ _ _ (F2 c Ic)) _ _ Hr). rewrite (off_succ _ _ E) in *.
    destruct (Nat.ltb_spec (length (inner c) - 1) (length (inner c))) as [Lc|Lc].
    - eexists. split; [reflexivity|]. exists p, c, (length (inner c) - 1)%nat. cbn [fst snd]. repeat split; auto. lia.
    - destruct (fw_first _ _ _ Fw _ _ H1) as (f1 & Ef & Hf). rewrite Ef, (bi_equals _ _ _ F _ _ _ _ H1 Hf). destruct (Nat.eqb_spec p 0) as [->|N]; [cbn in O; lia|].
      destruct (bi_prev _ _ _ F _ _ H1 ltac:(lia)) as (s2 & E2 & H2). rewrite E2. pose proof (IH (p - 1)%nat s2 ltac:(lia) ltac:(lia) H2) as I. replace (S (p - 1)) with p in I by lia.
      destruct (I ltac:(lia)) as (s' & E' & H'). exists s'. split; [exact E'|]. replace (off p + length (inner c) - 1)%nat with (off p - 1)%nat by lia. exact H'.
  Qed.
  (** Stated for a flattened range with an element, or with no inner range at all *)
  Lemma flatten_bidirectional : all <> [] \/ l = [] -> bidirectional (flatten_ops o o2 to_range fuel) all fl_at.
  Proof.
    intros Hne. pose proof (bi_forward _ _ _ F) as Fw. constructor; [apply flatten_forward; [exact Fw|intros c Ic; exact (bi_forward _ _ _ (F2 c Ic))]|..].
    - intros k [s x] H. assert (Hp : exists p, P p s) by (unfold fl_at in H; cbn [fst snd] in H; destruct x as [r|]; [destruct H as (p & _ & _ & H & _); eauto|destruct H; eauto]).
      destruct Hp as [p Hp]. destruct (bi_last _ _ _ F _ _ Hp) as (s1 & E1 & H1). cbn [flatten_ops last fst snd]. rewrite E1. rewrite (fw_valid _ _ _ Fw _ _ H1).
      destruct Hne as [N|Z].
      + pose proof (len_pos _ N) as Lp. assert (Ll : (0 < length l)%nat) by (unfold all in Lp; destruct l; [cbn in Lp|cbn]; lia).
        destruct (Nat.ltb_spec (length l - 1) (length l)); [|lia]. pose proof (fl_find_prev_spec fuel (length l - 1)%nat s1 ltac:(lia) ltac:(lia) H1) as I.
        replace (S (length l - 1)) with (length l) in I by lia. rewrite off_full in I. destruct (I Lp) as (s' & E' & H'). exists s'. auto.
      + destruct (Nat.ltb_spec (length l - 1) (length l)) as [Bad|_]; [rewrite Z in Bad; cbn in Bad; lia|]. eexists. split; [reflexivity|]. unfold fl_at. cbn [fst snd]. unfold all. rewrite Z in *. cbn in *. auto.
    - intros k [s [r|]] H Lk; unfold fl_at in H; cbn [fst snd flatten_ops prev] in *; [|destruct H; lia].
      destruct H as (p & c & j & H & E & Hr & L & ->). pose proof (nth_error_In _ _ E) as Ic. pose proof (F2 c Ic) as F2c. unfold fl_prev. cbn [fst snd].
      destruct (fw_first _ _ _ (bi_forward _ _ _ F2c) _ _ Hr) as (f & Ef & Hf). rewrite Ef, (bi_equals _ _ _ F2c _ _ _ _ Hr Hf). destruct (Nat.eqb_spec j 0) as [->|N]; cbn [negb].
      + destruct (fw_first _ _ _ Fw _ _ H) as (f2 & Ef2 & Hf2). rewrite Ef2, (bi_equals _ _ _ F _ _ _ _ H Hf2). destruct (Nat.eqb_spec p 0) as [->|Np]; cbn [negb]; [cbn in Lk; lia|].
        pose proof (nth_lt _ _ _ E). destruct (bi_prev _ _ _ F _ _ H ltac:(lia)) as (s1 & E1 & H1). rewrite E1. pose proof (fl_find_prev_spec fuel (p - 1)%nat s1 ltac:(lia) ltac:(lia) H1) as I.
        replace (S (p - 1)) with p in I by lia. destruct (I ltac:(lia)) as (s' & E' & H'). exists s'. split; [exact E'|]. rewrite Nat.add_0_r. exact H'.
      + destruct (bi_prev _ _ _ F2c _ _ Hr ltac:(lia)) as (r1 & Er & Hr1). rewrite Er. eexists. split; [reflexivity|]. exists p, c, (j - 1)%nat. cbn [fst snd]. repeat split; auto; lia.
    - intros k k' [s [r|]] [t [q|]] H H'; unfold fl_at in H, H'; cbn [fst snd flatten_ops equals opt_equals] in *.
      + destruct H as (p & c & j & H & E & Hr & L & ->). destruct H' as (p' & c' & j' & H' & E' & Hr' & L' & ->). rewrite (bi_equals _ _ _ F _ _ _ _ H H').
        destruct (Nat.eqb_spec p p') as [<-|Np]; cbn [andb].
        * rewrite E in E'. injection E' as <-. rewrite (bi_equals _ _ _ (F2 c (nth_error_In _ _ E)) _ _ _ _ Hr Hr'). destruct (Nat.eqb_spec j j'), (Nat.eqb_spec (off p + j) (off p + j')); try reflexivity; lia.
        * symmetry. apply Nat.eqb_neq. intros Q'. destruct (off_unique _ _ _ _ _ _ E L E' L' Q'). contradiction.
      + rewrite andb_false_r. destruct H as (p & c & j & H & E & Hr & L & ->). destruct H' as [-> H']. pose proof (off_inside _ _ _ E L). symmetry. apply Nat.eqb_neq. lia.
      + rewrite andb_false_r. destruct H' as (p & c & j & H' & E & Hr & L & ->). destruct H as [-> H]. pose proof (off_inside _ _ _ E L). symmetry. apply Nat.eqb_neq. lia.
      + destruct H as [-> H], H' as [-> H']. rewrite (bi_equals _ _ _ F _ _ _ _ H H'), !Nat.eqb_refl. reflexivity.
  Qed.
End Flatten.
