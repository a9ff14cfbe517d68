From Verif Require Import Base RgModel RgSpec RgProofs.
From Coq Require Import Lia ZArith.

Lemma firstn_succ {A} (l : list A) p a : nth_error l p = Some a -> firstn (S p) l = firstn p l ++ [a].
Proof.
  revert p. induction l as [|x l IH]; intros [|p] E; cbn in E; try discriminate.
  - injection E as ->. reflexivity.
  - change (firstn (S (S p)) (x :: l)) with (x :: firstn (S p) l). rewrite (IH p E). reflexivity.
Qed.
Lemma skipn_nth {A} (l : list A) p a : nth_error l p = Some a -> skipn p l = a :: skipn (S p) l.
Proof.
  revert p. induction l as [|x l IH]; intros [|p] E; cbn in E; try discriminate.
  - injection E as ->. reflexivity.
  - cbn [skipn]. exact (IH p E).
Qed.
Lemma not_nil {A} (l : list A) : (0 < length l)%nat -> l <> [].
Proof. intros H E. rewrite E in H. cbn in H. lia. Qed.
Lemma len_pos {A} (l : list A) : l <> [] -> (0 < length l)%nat.
Proof. destruct l; [congruence|cbn; lia]. Qed.

(** * RangeFilter *)
Section Filter.
  Context {A : Type} (o : rops A) (pred : A -> bool) (l : list A) (P : nat -> st o -> Prop).
  Definition cnt (p : nat) : nat := length (filter pred (firstn p l)).
  Definition good (p : nat) : Prop := forall a, nth_error l p = Some a -> pred a = true.
  Definition flt_at (k : nat) (s : st o) : Prop := exists p, P p s /\ k = cnt p /\ good p.
  Lemma cnt_full : cnt (length l) = length (filter pred l).
  Proof. unfold cnt. rewrite firstn_all. reflexivity. Qed.
  Lemma cnt_succ p a : nth_error l p = Some a -> cnt (S p) = (cnt p + if pred a then 1 else 0)%nat.
  Proof. intros E. unfold cnt. rewrite (firstn_succ _ _ _ E), filter_app, app_length. cbn. destruct (pred a); reflexivity. Qed.
  Lemma cnt_mono p q : (p <= q)%nat -> (cnt p <= cnt q)%nat.
  Proof.
    intros H. induction H as [|q H IH]; [lia|]. destruct (nth_error l q) as [a|] eqn:E.
    - rewrite (cnt_succ _ _ E). lia.
    - apply nth_error_None in E. unfold cnt in *. rewrite (firstn_all2 (n := S q)) by lia. rewrite (firstn_all2 (n := q)) in IH by lia. exact IH.
  Qed.
  Lemma nth_filter p a : nth_error l p = Some a -> pred a = true -> nth_error (filter pred l) (cnt p) = Some a.
  Proof.
    intros E Ha. rewrite <- (firstn_skipn p l) at 1. rewrite filter_app, nth_error_app2 by reflexivity. fold (cnt p). rewrite Nat.sub_diag, (skipn_nth _ _ _ E). cbn. rewrite Ha. reflexivity.
  Qed.
  Lemma good_lt p q : good p -> (p < q)%nat -> (p < length l)%nat -> (cnt p < cnt q)%nat.
  Proof.
    intros G H L. destruct (nth_some _ _ L) as [a E]. pose proof (cnt_succ _ _ E) as Q. rewrite (G a E) in Q. pose proof (cnt_mono (S p) q ltac:(lia)). lia.
  Qed.
  Lemma good_end p : good p -> (p <= length l)%nat -> cnt p = length (filter pred l) -> p = length l.
  Proof.
    intros G H E. destruct (Nat.eq_dec p (length l)) as [|N]; [assumption|]. pose proof (good_lt p (length l) G ltac:(lia) ltac:(lia)). rewrite cnt_full in *. lia.
  Qed.
  Lemma good_inside p : (p <= length l)%nat -> (cnt p < length (filter pred l))%nat -> (p < length l)%nat.
  Proof. intros H E. destruct (Nat.eq_dec p (length l)) as [->|N]; [rewrite cnt_full in E|]; lia. Qed.
  Lemma good_get p a : good p -> nth_error (filter pred l) (cnt p) = Some a -> (p <= length l)%nat -> nth_error l p = Some a.
  Proof.
    intros G E H. pose proof (good_inside p H (nth_lt _ _ _ E)) as L. destruct (nth_some _ _ L) as [b Eb]. rewrite (nth_filter _ _ Eb (G b Eb)) in E. congruence.
  Qed.
  Lemma end_good : good (length l).
  Proof. intros a E. apply nth_lt in E. lia. Qed.
  Variable fuel : nat.
  Hypothesis enough : (length l < fuel)%nat.

  Lemma find_next_spec : forward o l P -> forall n p s, (length l - p < n)%nat -> P p s ->
    exists s', find_next o pred n s = (true, s') /\ flt_at (cnt p) s'.
  Proof.
    intros F. induction n as [|n IH]; intros p s Hn H; [lia|]. cbn [find_next]. rewrite (fw_valid _ _ _ F _ _ H).
    pose proof (fw_bound _ _ _ F _ _ H) as B. destruct (Nat.ltb_spec p (length l)) as [L|L].
    - destruct (nth_some _ _ L) as [a E]. destruct (fw_get _ _ _ F _ _ _ H E) as (s1 & -> & H1). destruct (pred a) eqn:Ea.
      + eexists. split; [reflexivity|]. exists p. split; [exact H1|]. split; [reflexivity|]. intros b Eb. congruence.
      + destruct (fw_next _ _ _ F _ _ H1 L) as (s2 & E2 & H2). rewrite E2. unfold andthen. cbn [fst snd].
        destruct (IH (S p) s2 ltac:(lia) H2) as (s' & E' & H'). exists s'. split; [exact E'|]. rewrite (cnt_succ _ _ E), Ea, Nat.add_0_r in H'. exact H'.
    - eexists. split; [reflexivity|]. exists p. split; [exact H|]. split; [reflexivity|]. replace p with (length l) by lia. apply end_good.
  Qed.
  Lemma find_prev_spec : bidirectional o l P -> forall n p s, (p < n)%nat -> (p < length l)%nat -> P p s -> (0 < cnt (S p))%nat ->
    exists s', find_prev o pred n s = (true, s') /\ flt_at (cnt (S p) - 1) s'.
  Proof.
    intros F. pose proof (bi_forward _ _ _ F) as Fw. induction n as [|n IH]; intros p s Hn L H C; [lia|]. cbn [find_prev]. rewrite (fw_valid _ _ _ Fw _ _ H).
    destruct (Nat.ltb_spec p (length l)) as [_|?]; [|lia].
    destruct (nth_some _ _ L) as [a E]. destruct (fw_get _ _ _ Fw _ _ _ H E) as (s1 & -> & H1). rewrite (cnt_succ _ _ E) in *. destruct (pred a) eqn:Ea.
    - eexists. split; [reflexivity|]. exists p. split; [exact H1|]. split; [lia|]. intros b Eb. congruence.
    - destruct p as [|p]; [cbn in C; lia|]. destruct (bi_prev _ _ _ F _ _ H1 ltac:(lia)) as (s2 & E2 & H2). rewrite E2. unfold andthen. cbn [fst snd].
      replace (S p - 1)%nat with p in H2 by lia. destruct (IH p s2 ltac:(lia) ltac:(lia) H2 ltac:(lia)) as (s' & E' & H'). exists s'. split; [exact E'|].
      rewrite Nat.add_0_r. exact H'.
  Qed.
  Lemma find_prev_inv_spec f : bidirectional o l P -> P 0%nat f -> forall n p s, (p < n)%nat -> (p < length l)%nat -> P p s -> cnt (S p) = length (filter pred l) ->
    exists s', find_prev_inv o pred n f s = (true, s') /\ flt_at (length (filter pred l) - 1) s'.
  Proof.
    intros F Hf. pose proof (bi_forward _ _ _ F) as Fw. induction n as [|n IH]; intros p s Hn L H C; [lia|]. cbn [find_prev_inv]. rewrite (fw_valid _ _ _ Fw _ _ H).
    destruct (Nat.ltb_spec p (length l)) as [_|?]; [|lia].
    destruct (nth_some _ _ L) as [a E]. destruct (fw_get _ _ _ Fw _ _ _ H E) as (s1 & -> & H1). rewrite (cnt_succ _ _ E) in *. destruct (pred a) eqn:Ea.
    - eexists. split; [reflexivity|]. exists p. split; [exact H1|]. split; [lia|]. intros b Eb. congruence.
    - rewrite (bi_equals _ _ _ F _ _ _ _ H1 Hf). destruct p as [|p]; cbn [Nat.eqb].
      + destruct (bi_last _ _ _ F _ _ H1) as (s2 & E2 & H2). rewrite E2. unfold andthen. cbn [fst snd].
        destruct (fw_next _ _ _ Fw _ _ H2 ltac:(lia)) as (s3 & E3 & H3). rewrite E3. exists s3. split; [reflexivity|].
        exists (length l). split; [replace (length l) with (S (length l - 1)) by lia; exact H3|]. split; [|apply end_good]. rewrite cnt_full. cbn in C. lia.
      + destruct (bi_prev _ _ _ F _ _ H1 ltac:(lia)) as (s2 & E2 & H2). rewrite E2. unfold andthen. cbn [fst snd].
        replace (S p - 1)%nat with p in H2 by lia. exact (IH p s2 ltac:(lia) ltac:(lia) H2 ltac:(lia)).
  Qed.
  Lemma filter_forward : forward o l P -> forward (filter_ops o pred fuel) (filter pred l) flt_at.
  Proof.
    intros F. constructor.
    - intros i s (p & H & -> & G). rewrite <- cnt_full. apply cnt_mono. exact (fw_bound _ _ _ F _ _ H).
    - intros i s (p & H & -> & G). change (valid (filter_ops o pred fuel) s) with (valid o s). rewrite (fw_valid _ _ _ F _ _ H). pose proof (fw_bound _ _ _ F _ _ H) as B.
      destruct (Nat.ltb_spec p (length l)) as [L|L]; symmetry.
      + apply Nat.ltb_lt. rewrite <- cnt_full. apply good_lt; assumption.
      + apply Nat.ltb_ge. replace p with (length l) by lia. rewrite cnt_full. lia.
    - intros i s a (p & H & -> & G) E. apply good_get in E; [|exact G|exact (fw_bound _ _ _ F _ _ H)].
      destruct (fw_get _ _ _ F _ _ _ H E) as (s' & E' & H'). exists s'. split; [exact E'|]. exists p. auto.
    - intros i s (p & H & _). destruct (fw_first _ _ _ F _ _ H) as (s' & E' & H'). cbn. rewrite E'. unfold andthen. cbn [fst snd].
      exact (find_next_spec F fuel 0%nat s' ltac:(lia) H').
    - intros i s (p & H & -> & G) L. pose proof (good_inside p (fw_bound _ _ _ F _ _ H) L) as Lp. destruct (fw_next _ _ _ F _ _ H Lp) as (s' & E' & H'). cbn. rewrite E'.
      unfold andthen. cbn [fst snd]. destruct (nth_some _ _ Lp) as [a E]. pose proof (cnt_succ _ _ E) as C. rewrite (G a E) in C. replace (S (cnt p)) with (cnt (S p)) by lia.
      exact (find_next_spec F fuel (S p) s' ltac:(lia) H').
  Qed.
  Lemma filter_bidirectional : bidirectional o l P -> bidirectional (filter_ops o pred fuel) (filter pred l) flt_at.
  Proof.
    intros F. pose proof (bi_forward _ _ _ F) as Fw. constructor; [exact (filter_forward Fw)|..].
    - intros i s (p & H & _). destruct (bi_last _ _ _ F _ _ H) as (s1 & E1 & H1). destruct (fw_first _ _ _ Fw _ _ H1) as (f & Ef & Hf). cbn. rewrite E1. unfold andthen. cbn [fst snd].
      rewrite Ef. cbn [fst snd]. destruct (Nat.eq_dec (length l) 0) as [Z|Z].
      + apply length_zero_iff_nil in Z. destruct fuel as [|n]; [lia|]. cbn [find_prev_inv]. rewrite (fw_valid _ _ _ Fw _ _ H1), Z. cbn. exists s1. split; [reflexivity|].
        exists 0%nat. rewrite Z in H1. cbn in H1. split; [exact H1|]. split; [reflexivity|]. intros a E. rewrite Z in E. discriminate.
      + apply (find_prev_inv_spec f F Hf fuel (length l - 1)); try lia; [exact H1|]. replace (S (length l - 1)) with (length l) by lia. apply cnt_full.
    - intros i s (p & H & -> & G) [L1 L2]. pose proof (good_inside p (fw_bound _ _ _ Fw _ _ H) L2) as Lp.
      destruct p as [|p]; [cbn in L1; lia|]. destruct (bi_prev _ _ _ F _ _ H ltac:(lia)) as (s' & E' & H'). cbn [filter_ops prev]. rewrite E'. unfold andthen. cbn [fst snd].
      replace (S p - 1)%nat with p in H' by lia. exact (find_prev_spec F fuel p s' ltac:(lia) ltac:(lia) H' L1).
    - intros i j s t (p & H & -> & G) (q & H' & -> & G'). change (equals (filter_ops o pred fuel) s t) with (equals o s t). rewrite (bi_equals _ _ _ F _ _ _ _ H H').
      pose proof (fw_bound _ _ _ Fw _ _ H). pose proof (fw_bound _ _ _ Fw _ _ H'). destruct (Nat.eqb_spec p q) as [->|N]; [symmetry; apply Nat.eqb_refl|].
      symmetry. apply Nat.eqb_neq. destruct (Nat.lt_ge_cases p q) as [L|L].
      + pose proof (good_lt p q G L ltac:(lia)). lia.
      + pose proof (good_lt q p G' ltac:(lia) ltac:(lia)). lia.
  Qed.
  Lemma filter_back_from_end : bidirectional o l P -> back_from_end o l P -> back_from_end (filter_ops o pred fuel) (filter pred l) flt_at.
  Proof.
    intros F K s (p & H & E & G) N. pose proof (bi_forward _ _ _ F) as Fw. assert (p = length l) by (apply good_end; auto; exact (fw_bound _ _ _ Fw _ _ H)). subst p.
    assert (Nl : l <> []) by (intros Q; rewrite Q in N; apply N; reflexivity). pose proof (len_pos _ Nl). destruct (K s H Nl) as (s' & E' & H'). cbn [filter_ops prev]. rewrite E'. unfold andthen. cbn [fst snd].
    pose proof (find_prev_spec F fuel (length l - 1) s' ltac:(lia) ltac:(lia) H') as Q. replace (S (length l - 1)) with (length l) in Q by lia. rewrite cnt_full in Q.
    apply Q. apply len_pos. exact N.
  Qed.
  Lemma filter_end_throws s : forward o l P -> strict o l P -> flt_at (length (filter pred l)) s ->
    (exists s', next (filter_ops o pred fuel) s = (false, s') /\ flt_at (length (filter pred l)) s') /\
    (exists s', get (filter_ops o pred fuel) s = (None, s') /\ flt_at (length (filter pred l)) s').
  Proof.
    intros Fw K (p & H & E & G). assert (p = length l) by (apply good_end; auto; exact (fw_bound _ _ _ Fw _ _ H)). subst p. split.
    - destruct (sr_next _ _ _ K s H) as (s' & E' & H'). cbn. rewrite E'. exists s'. split; [reflexivity|]. exists (length l). auto.
    - destruct (sr_get _ _ _ K s H) as (s' & E' & H'). cbn. exists s'. split; [exact E'|]. exists (length l). auto.
  Qed.
  Lemma filter_make_spec s : forward o l P -> P 0%nat s -> exists s', filter_make o pred fuel s = (true, s') /\ flt_at 0 s'.
  Proof. intros F H. exact (find_next_spec F fuel 0%nat s ltac:(lia) H). Qed.
End Filter.

(** * RangeDropper: the initial state stands at position [k] *)
Section Drop.
  Context {A : Type} (o : rops A) (l : list A) (P : nat -> st o -> Prop) (n : nat).
  Definition drop_start : nat := Nat.min n (length l).
  Definition drop_at (i : nat) (s : st o * st o) : Prop := P drop_start (fst s) /\ P (drop_start + i)%nat (snd s).
  Lemma drop_len : length (skipn n l) = (length l - drop_start)%nat.
  Proof. rewrite skipn_length. unfold drop_start. lia. Qed.
  Lemma drop_nth i : nth_error (skipn n l) i = nth_error l (n + i).
  Proof. clear P. revert l. induction n as [|k IH]; intros [|x l0]; cbn; auto. - destruct i; reflexivity. Qed.
  Lemma drop_nth_some i a : nth_error (skipn n l) i = Some a -> nth_error l (drop_start + i) = Some a.
  Proof. intros E. pose proof (nth_lt _ _ _ E) as L. rewrite skipn_length in L. rewrite drop_nth in E. unfold drop_start. rewrite Nat.min_l by lia. exact E. Qed.
  Lemma do_drop_spec : forward o l P -> forall c p s, P p s -> exists s', do_drop o c s = (true, s') /\ P (Nat.min (p + c) (length l)) s'.
  Proof.
    intros F. induction c as [|c IH]; intros p s H; pose proof (fw_bound _ _ _ F _ _ H) as B; cbn [do_drop].
    - exists s. split; [reflexivity|]. rewrite Nat.min_l by lia. rewrite Nat.add_0_r. exact H.
    - rewrite (fw_valid _ _ _ F _ _ H). destruct (Nat.ltb_spec p (length l)) as [L|L].
      + destruct (fw_next _ _ _ F _ _ H L) as (s' & E & H'). rewrite E. unfold andthen. cbn [fst snd]. destruct (IH _ _ H') as (s2 & E2 & H2). exists s2. split; [exact E2|].
        replace (p + S c)%nat with (S p + c)%nat by lia. exact H2.
      + exists s. split; [reflexivity|]. rewrite Nat.min_r by lia. replace (length l) with p by lia. exact H.
  Qed.
  Lemma drop_make_spec s : forward o l P -> P 0%nat s -> exists s', drop_make o n s = (true, s') /\ drop_at 0 s'.
  Proof.
    intros F H. destruct (do_drop_spec F n _ _ H) as (s' & E & H'). unfold drop_make. rewrite E. eexists. split; [reflexivity|]. unfold drop_at. cbn [fst snd]. rewrite Nat.add_0_r. auto.
  Qed.
  Lemma drop_forward : forward o l P -> forward (drop_ops o) (skipn n l) drop_at.
  Proof.
    intros F. constructor; rewrite ?drop_len.
    - intros i s [_ H]. pose proof (fw_bound _ _ _ F _ _ H). lia.
    - intros i s [_ H]. cbn [drop_ops valid]. rewrite (fw_valid _ _ _ F _ _ H). destruct (Nat.ltb_spec (drop_start + i) (length l)), (Nat.ltb_spec i (length l - drop_start)); try reflexivity; lia.
    - intros i [a0 s] a [H0 H] E. cbn in H0, H. destruct (fw_get _ _ _ F _ _ _ H (drop_nth_some _ _ E)) as (s' & E' & H'). cbn. rewrite E'. eexists. split; [reflexivity|]. split; assumption.
    - intros i [a0 s] [H0 H]. cbn in *. eexists. split; [reflexivity|]. split; cbn [fst snd]; [assumption|]. rewrite Nat.add_0_r. exact H0.
    - intros i [a0 s] [H0 H] L. cbn [fst snd] in *. destruct (fw_next _ _ _ F _ _ H ltac:(lia)) as (s' & E' & H'). cbn. rewrite E'. eexists. split; [reflexivity|]. split; cbn [fst snd]; [assumption|].
      rewrite <- plus_n_Sm. exact H'.
  Qed.
  Lemma drop_bidirectional : bidirectional o l P -> bidirectional (drop_ops o) (skipn n l) drop_at.
  Proof.
    intros F. pose proof (bi_forward _ _ _ F) as Fw. constructor; [exact (drop_forward Fw)|..]; rewrite ?drop_len.
    - intros i [a0 s] [H0 H]. cbn [fst snd drop_ops last] in *. pose proof (fw_bound _ _ _ Fw _ _ H0). rewrite (fw_valid _ _ _ Fw _ _ H0). destruct (Nat.ltb_spec drop_start (length l)) as [L|L].
      + destruct (bi_last _ _ _ F _ _ H) as (s' & E' & H'). rewrite E'. eexists. split; [reflexivity|]. split; cbn [fst snd]; [assumption|]. replace (drop_start + (length l - drop_start - 1))%nat with (length l - 1)%nat by lia. exact H'.
      + eexists. split; [reflexivity|]. split; cbn [fst snd]; [assumption|]. replace (drop_start + (length l - drop_start - 1))%nat with drop_start by lia. exact H0.
    - intros i [a0 s] [H0 H] L. cbn [fst snd drop_ops prev] in *. rewrite (bi_equals _ _ _ F _ _ _ _ H H0). destruct (Nat.eqb_spec (drop_start + i) drop_start); [lia|].
      destruct (bi_prev _ _ _ F _ _ H ltac:(lia)) as (s' & E' & H'). rewrite E'. eexists. split; [reflexivity|]. split; cbn [fst snd]; [assumption|]. replace (drop_start + (i - 1))%nat with (drop_start + i - 1)%nat by lia. exact H'.
    - intros i j s t [H0 H] [H0' H']. cbn [drop_ops equals]. rewrite (bi_equals _ _ _ F _ _ _ _ H0 H0'), (bi_equals _ _ _ F _ _ _ _ H H'), Nat.eqb_refl. cbn [andb].
      destruct (Nat.eqb_spec (drop_start + i) (drop_start + j)), (Nat.eqb_spec i j); try reflexivity; lia.
  Qed.
  Lemma drop_back_from_end : bidirectional o l P -> back_from_end o l P -> back_from_end (drop_ops o) (skipn n l) drop_at.
  Proof.
    intros F K [a0 s] [H0 H] N. pose proof (len_pos _ N) as L. rewrite drop_len in *. cbn [fst snd drop_ops prev] in *. rewrite (bi_equals _ _ _ F _ _ _ _ H H0). destruct (Nat.eqb_spec (drop_start + (length l - drop_start)) drop_start); [lia|].
    replace (drop_start + (length l - drop_start))%nat with (length l) in H by lia. destruct (K s H (not_nil l ltac:(lia))) as (s' & E' & H'). rewrite E'. eexists. split; [reflexivity|]. split; cbn [fst snd]; [assumption|].
    replace (drop_start + (length l - drop_start - 1))%nat with (length l - 1)%nat by lia. exact H'.
  Qed.
  Lemma drop_strict : bidirectional o l P -> strict o l P -> strict (drop_ops o) (skipn n l) drop_at.
  Proof.
    intros F K. constructor; rewrite ?drop_len; intros [a0 s] [H0 H]; cbn [fst snd drop_ops next prev get] in *; pose proof (fw_bound _ _ _ (bi_forward _ _ _ F) _ _ H0).
    - replace (drop_start + (length l - drop_start))%nat with (length l) in H by lia. destruct (sr_next _ _ _ K s H) as (s' & E' & H'). rewrite E'. eexists. split; [reflexivity|]. split; cbn [fst snd]; [assumption|].
      replace (drop_start + (length l - drop_start))%nat with (length l) by lia. exact H'.
    - rewrite (bi_equals _ _ _ F _ _ _ _ H H0), Nat.add_0_r, Nat.eqb_refl. eexists. split; [reflexivity|]. split; assumption.
    - replace (drop_start + (length l - drop_start))%nat with (length l) in H by lia. destruct (sr_get _ _ _ K s H) as (s' & E' & H'). rewrite E'. eexists. split; [reflexivity|]. split; cbn [fst snd]; [assumption|].
      replace (drop_start + (length l - drop_start))%nat with (length l) by lia. exact H'.
  Qed.
  Lemma drop_random m : small l -> random_access o m l P -> forward o l P -> random_access (drop_ops o) (drop_move o m) (skipn n l) drop_at.
  Proof.
    intros Sm F Fw. unfold small in Sm.
    assert (Q : forall i s, drop_at i s -> position (drop_move o m) s = Z.of_nat i /\ size (drop_move o m) s = Z.of_nat (length l - drop_start) /\ (drop_start + i <= length l)%nat).
    { intros i [a0 s] [H0 H]. cbn [fst snd drop_move position size] in *. rewrite (ra_position _ _ _ _ F _ _ H0), (ra_position _ _ _ _ F _ _ H), (ra_size _ _ _ _ F _ _ H).
      pose proof (fw_bound _ _ _ Fw _ _ H). repeat split; try lia; rewrite size_t_small; lia. }
    constructor; rewrite ?drop_len.
    - intros i s H. apply Q. exact H.
    - intros i s H. apply Q with i. exact H.
    - intros i s d H Hd. destruct (Q i s H) as (Q1 & Q2 & Q3). cbn [drop_move position size move] in *. rewrite Q1, Q2. rewrite in_bounds_true by lia.
      destruct H as [H0 H]. destruct (ra_move _ _ _ _ F _ _ d H ltac:(lia)) as (s' & E' & H'). rewrite E'. eexists. split; [reflexivity|]. split; cbn [fst snd]; [assumption|].
      replace (drop_start + Z.to_nat (Z.of_nat i + d))%nat with (Z.to_nat (Z.of_nat (drop_start + i) + d)) by lia. exact H'.
    - intros i s d H Hd Hn. destruct (Q i s H) as (Q1 & Q2 & Q3). cbn [drop_move position size move] in *. rewrite Q1, Q2. rewrite in_bounds_false by lia. exists s. auto.
  Qed.
End Drop.

(** * RangeTaker: the underlying range may stand anywhere, at position [k], when the taker is made *)
Section Take.
  Context {A : Type} (o : rops A) (l : list A) (P : nat -> st o -> Prop) (count k : nat).
  Definition taken : list A := firstn count (skipn k l).
  Definition take_at (i : nat) (s : tstate o) : Prop := P k (t_initial s) /\ P (k + i)%nat (t_impl s) /\ t_index s = i /\ (i <= length taken)%nat.
  Lemma taken_len : length taken = Nat.min count (length l - k).
  Proof. unfold taken. rewrite firstn_length, skipn_length. reflexivity. Qed.
  Lemma nth_firstn_some {B} (m : list B) c i a : nth_error (firstn c m) i = Some a -> nth_error m i = Some a.
  Proof. revert c i. induction m as [|x m IH]; intros [|c] [|i] E; cbn in *; try discriminate; auto. apply (IH c). exact E. Qed.
  Lemma taken_nth i a : nth_error taken i = Some a -> nth_error l (k + i) = Some a.
  Proof. intros E. apply nth_firstn_some in E. rewrite drop_nth in E. exact E. Qed.
  Lemma take_make_spec s : P k s -> take_at 0 (take_make o s).
  Proof. intros H. unfold take_at, take_make. cbn [t_initial t_impl t_index]. rewrite Nat.add_0_r. repeat split; auto. lia. Qed.
  Hypothesis F : forward o l P.
  Lemma take_valid_at i s : take_at i s -> take_valid o count s = (i <? length taken)%nat.
  Proof.
    intros (H0 & H & E & B). unfold take_valid. rewrite (fw_valid _ _ _ F _ _ H), E. rewrite taken_len in *.
    destruct (Nat.ltb_spec (k + i) (length l)), (Nat.ltb_spec i count), (Nat.ltb_spec i (Nat.min count (length l - k))); cbn; try reflexivity; lia.
  Qed.
  Lemma take_next_at i s : take_at i s -> (i < length taken)%nat -> exists s', take_next o count s = (true, s') /\ take_at (S i) s'.
  Proof.
    intros H L. unfold take_next. rewrite (take_valid_at _ _ H). destruct (Nat.ltb_spec i (length taken)); [|lia].
    destruct H as (Hi & Hj & E & B). rewrite taken_len in L. destruct (fw_next _ _ _ F _ _ Hj ltac:(lia)) as (s' & E' & H'). rewrite E'. eexists. split; [reflexivity|].
    unfold take_at, lift. cbn [t_initial t_impl t_index fst snd]. rewrite <- plus_n_Sm. rewrite E. repeat split; auto.
  Qed.
  Lemma take_forward : forward (take_ops o count) taken take_at.
  Proof.
    constructor.
    - intros i s H. apply H.
    - intros i s H. exact (take_valid_at _ _ H).
    - intros i s a H E. cbn. rewrite (take_valid_at _ _ H). pose proof (nth_lt _ _ _ E). destruct (Nat.ltb_spec i (length taken)); [|lia].
      destruct H as (Hp & Hj & Ei & B). destruct (fw_get _ _ _ F _ _ _ Hj (taken_nth _ _ E)) as (s' & E' & H'). rewrite E'. eexists. split; [reflexivity|]. repeat split; auto.
    - intros i s (H0 & _). cbn. eexists. split; [reflexivity|]. apply take_make_spec. exact H0.
    - intros i s H L. exact (take_next_at _ _ H L).
  Qed.
  Lemma take_last_loop_spec : forall n i s p, (length taken - i < n)%nat -> take_at i s -> take_at (Nat.min i (length taken - 1)) p ->
    exists p', take_last_loop o count n s p = (true, p') /\ take_at (length taken - 1) p'.
  Proof.
    induction n as [|n IH]; intros i s p Hn Hs Hp; [lia|]. cbn [take_last_loop]. rewrite (take_valid_at _ _ Hs). pose proof (proj2 (proj2 (proj2 Hs))) as B. destruct (Nat.ltb_spec i (length taken)) as [L|L].
    - destruct (take_next_at _ _ Hs L) as (s1 & E1 & H1). rewrite E1. rewrite (take_valid_at _ _ H1). destruct (Nat.ltb_spec (S i) (length taken)) as [L1|L1].
      + rewrite Nat.min_l in Hp by lia. destruct (take_next_at _ _ Hp L) as (p1 & E2 & H2). rewrite E2. apply (IH (S i)); try lia; try assumption. rewrite Nat.min_l by lia. exact H2.
      + apply (IH (S i)); try lia; try assumption. replace (Nat.min (S i) (length taken - 1)) with (Nat.min i (length taken - 1)) by lia. exact Hp.
    - exists p. split; [reflexivity|]. replace (length taken - 1)%nat with (Nat.min i (length taken - 1)) by lia. exact Hp.
  Qed.
  Lemma take_prev_at i s s' : take_at i s -> (0 < i)%nat -> prev o (t_impl s) = (true, s') -> P (k + i - 1)%nat s' -> exists t, prev (take_ops o count) s = (true, t) /\ take_at (i - 1) t.
  Proof.
    intros (H0 & H & E & B) L E' H'. cbn [take_ops prev]. unfold take_prev. rewrite E. destruct (Nat.ltb_spec 0 i); [|lia]. rewrite E'. eexists. split; [reflexivity|].
    unfold take_at, lift. cbn [t_initial t_impl t_index fst snd]. repeat split; auto; [|lia]. replace (k + (i - 1))%nat with (k + i - 1)%nat by lia. exact H'.
  Qed.
  Lemma take_bidirectional : bidirectional o l P -> bidirectional (take_ops o count) taken take_at.
  Proof.
    intros Fb. constructor; [exact take_forward|..].
    - intros i s (H0 & _). cbn [take_ops last take_first snd]. pose proof (take_make_spec _ H0) as Z. unfold take_make in Z.
      destruct (take_last_loop_spec (count + 1) 0 _ (mkT (t_initial s) (t_initial s) 0) ltac:(rewrite taken_len; lia) Z) as (p' & E' & H'); [cbn [Nat.min]; exact Z|]. rewrite E'. eexists. split; [reflexivity|].
      destruct H' as (_ & H' & Ei & B'). unfold take_at. cbn [t_initial t_impl t_index]. auto.
    - intros i s H L. pose proof H as (_ & Hi & _). rewrite taken_len in L. destruct (bi_prev _ _ _ Fb _ _ Hi ltac:(lia)) as (s' & E' & H'). apply (take_prev_at i s s' H); [lia|exact E'|exact H'].
    - intros i j s t (H0 & H & E & _) (H0' & H' & E' & _). cbn [take_ops equals]. rewrite (bi_equals _ _ _ Fb _ _ _ _ H0 H0'), (bi_equals _ _ _ Fb _ _ _ _ H H'), Nat.eqb_refl, E, E'. cbn [andb].
      destruct (Nat.eqb_spec (k + i) (k + j)), (Nat.eqb_spec i j); try reflexivity; lia.
  Qed.
  Lemma take_back_from_end : bidirectional o l P -> back_from_end o l P -> back_from_end (take_ops o count) taken take_at.
  Proof.
    intros Fb K s H N. pose proof (len_pos _ N) as L. pose proof H as (_ & Hi & _). rewrite taken_len in L.
    assert (Q : exists s', prev o (t_impl s) = (true, s') /\ P (k + length taken - 1)%nat s').
    { rewrite taken_len in *. destruct (Nat.eq_dec (k + Nat.min count (length l - k)) (length l)) as [E|E].
      - rewrite E in *. destruct (K _ Hi (not_nil l ltac:(lia))) as (s' & E' & H'). exists s'. auto.
      - apply (bi_prev _ _ _ Fb); [exact Hi|lia]. }
    destruct Q as (s' & E' & H'). apply (take_prev_at _ s s' H); [rewrite taken_len; lia|exact E'|exact H'].
  Qed.
  (** It does not matter whether the underlying range is strict *)
  Lemma take_strict : strict (take_ops o count) taken take_at.
  Proof.
    constructor; intros s H.
    - cbn [take_ops next]. unfold take_next. rewrite (take_valid_at _ _ H), Nat.ltb_irrefl. exists s. auto.
    - cbn [take_ops prev]. unfold take_prev. pose proof H as (_ & _ & E & _). rewrite E. cbn [Nat.ltb Nat.leb]. exists s. auto.
    - cbn [take_ops get]. rewrite (take_valid_at _ _ H), Nat.ltb_irrefl. exists s. auto.
  Qed.
  Lemma take_random m : small l -> random_access o m l P -> random_access (take_ops o count) (take_move o count m) taken take_at.
  Proof.
    intros Sm Fr. unfold small in Sm.
    assert (Q : forall i s, take_at i s -> size (take_move o count m) s = Z.of_nat (length taken)).
    { intros i s (H0 & H & _). cbn [take_move size]. rewrite (ra_position _ _ _ _ Fr _ _ H0), (ra_size _ _ _ _ Fr _ _ H0), taken_len. pose proof (fw_bound _ _ _ F _ _ H0). rewrite size_t_small by lia. lia. }
    constructor.
    - intros i s (_ & _ & E & _). cbn [take_move position]. rewrite E. reflexivity.
    - intros i s H. exact (Q i s H).
    - intros i s d H Hd. pose proof (Q i s H) as Q1. cbn [take_move size move] in *. rewrite Q1. destruct H as (H0 & H & E & B). rewrite E. rewrite taken_len in *. rewrite in_bounds_true by lia.
      pose proof (fw_bound _ _ _ F _ _ H0). destruct (ra_move _ _ _ _ Fr _ _ d H ltac:(lia)) as (s' & E' & H'). rewrite E'. eexists. split; [reflexivity|].
      unfold take_at. rewrite taken_len. cbn [t_initial t_impl t_index]. repeat split; auto; [|lia]. replace (k + Z.to_nat (Z.of_nat i + d))%nat with (Z.to_nat (Z.of_nat (k + i) + d)) by lia. exact H'.
    - intros i s d H Hd Hn. pose proof (Q i s H) as Q1. cbn [take_move size move] in *. rewrite Q1. pose proof H as (H0 & _ & E & B). rewrite E. pose proof (fw_bound _ _ _ F _ _ H0). pose proof taken_len.
      rewrite in_bounds_false by lia. exists s. auto.
  Qed.
End Take.

(** * RangeCycler *)
Section Cycle.
  Context {A : Type} (o : rops A) (l : list A) (P : nat -> st o -> Prop).
  Hypothesis F : bidirectional o l P.
  Hypothesis nonempty : l <> [].
  Definition cyc_at (i : nat) (s : st o) : Prop := (i < length l)%nat /\ P i s.
  Lemma cycle_valid i s : cyc_at i s -> valid (cycle_ops o) s = true /\ exists a s', nth_error l i = Some a /\ get (cycle_ops o) s = (Some a, s') /\ cyc_at i s'.
  Proof.
    intros [L H]. split; [reflexivity|]. destruct (nth_some _ _ L) as [a E]. destruct (fw_get _ _ _ (bi_forward _ _ _ F) _ _ _ H E) as (s' & E' & H'). exists a, s'. repeat split; auto.
  Qed.
  Lemma cycle_next_spec i s : cyc_at i s -> exists s', next (cycle_ops o) s = (true, s') /\ cyc_at (S i mod length l) s'.
  Proof.
    intros [L H]. pose proof (bi_forward _ _ _ F) as Fw. cbn [cycle_ops next]. unfold cycle_next. destruct (fw_next _ _ _ Fw _ _ H L) as (s1 & E1 & H1). rewrite E1. unfold andthen. cbn [fst snd].
    rewrite (fw_valid _ _ _ Fw _ _ H1). destruct (Nat.ltb_spec (S i) (length l)) as [L1|L1].
    - exists s1. split; [reflexivity|]. rewrite Nat.mod_small by lia. split; assumption.
    - destruct (fw_first _ _ _ Fw _ _ H1) as (s2 & E2 & H2). rewrite E2. cbn [fst snd]. unfold check_valid. rewrite (fw_valid _ _ _ Fw _ _ H2). destruct (Nat.ltb_spec 0 (length l)); [|lia].
      exists s2. split; [reflexivity|]. replace (S i) with (length l) by lia. rewrite Nat.mod_same by lia. split; assumption.
  Qed.
  Lemma cycle_prev_spec i s : cyc_at i s -> exists s', prev (cycle_ops o) s = (true, s') /\ cyc_at ((i + length l - 1) mod length l) s'.
  Proof.
    intros [L H]. pose proof (bi_forward _ _ _ F) as Fw. cbn [cycle_ops prev]. unfold cycle_prev. destruct (fw_first _ _ _ Fw _ _ H) as (f & Ef & Hf). rewrite Ef. rewrite (bi_equals _ _ _ F _ _ _ _ H Hf).
    destruct (Nat.eqb_spec i 0) as [->|N].
    - destruct (bi_last _ _ _ F _ _ H) as (s1 & E1 & H1). rewrite E1. unfold andthen, check_valid. cbn [fst snd]. rewrite (fw_valid _ _ _ Fw _ _ H1). destruct (Nat.ltb_spec (length l - 1) (length l)); [|lia].
      exists s1. split; [reflexivity|]. rewrite Nat.mod_small by lia. split; [lia|exact H1].
    - destruct (bi_prev _ _ _ F _ _ H ltac:(lia)) as (s1 & E1 & H1). rewrite E1. unfold andthen, check_valid. cbn [fst snd]. rewrite (fw_valid _ _ _ Fw _ _ H1). destruct (Nat.ltb_spec (i - 1) (length l)); [|lia].
      exists s1. split; [reflexivity|]. replace ((i + length l - 1) mod length l)%nat with (i - 1)%nat; [split; [lia|exact H1]|].
      replace (i + length l - 1)%nat with ((i - 1) + 1 * length l)%nat by lia. rewrite Nat.mod_add by lia. rewrite Nat.mod_small by lia. reflexivity.
  Qed.
  Lemma cycle_first_last i s : cyc_at i s -> (exists s', first (cycle_ops o) s = (true, s') /\ cyc_at 0 s') /\ (exists s', last (cycle_ops o) s = (true, s') /\ cyc_at (length l - 1) s').
  Proof.
    intros [L H]. pose proof (bi_forward _ _ _ F) as Fw. cbn [cycle_ops first last]. split.
    - destruct (fw_first _ _ _ Fw _ _ H) as (s1 & E1 & H1). rewrite E1. unfold andthen, check_valid. cbn [fst snd]. rewrite (fw_valid _ _ _ Fw _ _ H1). destruct (Nat.ltb_spec 0 (length l)); [|lia]. exists s1. repeat split; auto.
    - destruct (bi_last _ _ _ F _ _ H) as (s1 & E1 & H1). rewrite E1. unfold andthen, check_valid. cbn [fst snd]. rewrite (fw_valid _ _ _ Fw _ _ H1). destruct (Nat.ltb_spec (length l - 1) (length l)); [|lia]. exists s1. repeat split; auto; lia.
  Qed.
  (** Any number of steps never ends and the element is the one at the position modulo the size *)
  Fixpoint steps (n : nat) (s : st o) : bool * st o := match n with O => (true, s) | S n' => andthen (steps n' s) (next (cycle_ops o)) end.
  Lemma cycle_steps n i s : cyc_at i s -> exists s', steps n s = (true, s') /\ cyc_at ((i + n) mod length l) s'.
  Proof.
    intros H. pose proof (len_pos _ nonempty). induction n as [|n (s1 & E1 & H1)].
    - exists s. rewrite Nat.add_0_r, Nat.mod_small by apply H. auto.
    - cbn [steps]. rewrite E1. unfold andthen. cbn [fst snd]. destruct (cycle_next_spec _ _ H1) as (s2 & E2 & H2). exists s2. split; [exact E2|]. 
      replace ((i + S n) mod length l)%nat with (S ((i + n) mod length l) mod length l)%nat; [exact H2|].
      replace (i + S n)%nat with (1 + (i + n))%nat by lia. replace (S ((i + n) mod length l)) with (1 + (i + n) mod length l)%nat by lia. apply Nat.add_mod_idemp_r. lia.
  Qed.
  (** for (x : Cycle(range)) runs no body: end() is Last().Next(), that is begin() again *)
  Lemma cycle_for i s fuel : cyc_at i s -> range_for (cycle_ops o) (S fuel) s = Some [].
  Proof.
    intros H. unfold range_for, range_end. destruct (cycle_first_last _ _ H) as [(b & Eb & Hb) (e & Ee & He)]. rewrite Eb, Ee. unfold andthen. cbn [fst snd]. cbn [cycle_ops valid].
    destruct (cycle_next_spec _ _ He) as (e1 & E1 & H1). rewrite E1. cbn [andb for_loop]. replace (S (length l - 1)) with (length l) in H1 by (destruct H; lia). rewrite Nat.mod_same in H1 by (destruct H; lia).
    cbn [cycle_ops equals]. rewrite (bi_equals _ _ _ F _ _ _ _ (proj2 Hb) (proj2 H1)). reflexivity.
  Qed.
End Cycle.
