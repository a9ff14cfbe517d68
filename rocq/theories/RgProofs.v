From Verif Require Import Base RgModel RgSpec.
From Coq Require Import Lia ZArith.

Lemma nth_some {A} (l : list A) i : (i < length l)%nat -> exists a, nth_error l i = Some a.
Proof. intros H. destruct (nth_error l i) as [a|] eqn:E; [eauto|]. apply nth_error_None in E. lia. Qed.
Lemma nth_lt {A} (l : list A) i a : nth_error l i = Some a -> (i < length l)%nat.
Proof. intros H. apply nth_error_Some. congruence. Qed.
Lemma ltb_eqb_neg i n : (i <= n)%nat -> negb (i =? n)%nat = (i <? n)%nat.
Proof. intros H. destruct (Nat.eqb_spec i n), (Nat.ltb_spec i n); cbn; try reflexivity; lia. Qed.

(** * IteratorRange *)
Definition it_at {A} (l : list A) (i : nat) (s : nat) : Prop := s = i /\ (i <= length l)%nat.
Lemma iterator_bidirectional {A} (l : list A) : bidirectional (iterator_ops l) l (it_at l).
Proof.
  constructor; [constructor|..]; unfold it_at; cbn.
  - intros i s [_ H]. exact H.
  - intros i s [-> H]. apply ltb_eqb_neg. exact H.
  - intros i s a [-> H] E. pose proof (nth_lt _ _ _ E). destruct (Nat.eqb_spec i (length l)); [lia|]. exists i. rewrite E. auto.
  - intros i s _. exists 0%nat. repeat split. lia.
  - intros i s [-> H] L. destruct (Nat.eqb_spec i (length l)); [lia|]. exists (S i). repeat split. lia.
  - intros i s _. eexists. split; [reflexivity|]. destruct (Nat.eqb_spec (length l) 0); lia.
  - intros i s [-> H] L. destruct (Nat.eqb_spec i 0); [lia|]. exists (i - 1)%nat. repeat split. lia.
  - intros i j s t [-> _] [-> _]. reflexivity.
Qed.
Lemma iterator_back_from_end {A} (l : list A) : back_from_end (iterator_ops l) l (it_at l).
Proof.
  intros s [-> H] N. cbn. destruct (Nat.eqb_spec (length l) 0) as [E|E]; [destruct l; [congruence|discriminate E]|].
  exists (length l - 1)%nat. unfold it_at. repeat split. lia.
Qed.
Lemma iterator_strict {A} (l : list A) : strict (iterator_ops l) l (it_at l).
Proof.
  constructor; unfold it_at; cbn.
  - intros s [-> H]. rewrite Nat.eqb_refl. eauto.
  - intros s [-> H]. cbn. eauto.
  - intros s [-> H]. rewrite Nat.eqb_refl. eauto.
Qed.
(** The length of a list that a program holds is less than 2^63 *)
Definition small {A} (l : list A) : Prop := (Z.of_nat (length l) < 2 ^ 63)%Z.
Lemma size_t_small x : (0 <= x < 2 ^ 64)%Z -> size_t x = x.
Proof. intros H. apply Z.mod_small. exact H. Qed.
Lemma size_t_neg x : (- 2 ^ 63 <= x < 0)%Z -> size_t x = (x + 2 ^ 64)%Z.
Proof. intros H. unfold size_t. symmetry. apply Z.mod_unique with (-1)%Z; lia. Qed.
Lemma in_bounds x n : (0 <= n < 2 ^ 63)%Z -> (- 2 ^ 31 <= x <= n + 2 ^ 31)%Z -> (size_t x <=? n)%Z = ((0 <=? x) && (x <=? n))%Z.
Proof.
  intros Hn Hx. destruct (Z.leb_spec 0 x) as [L|L]; cbn [andb].
  - rewrite size_t_small by lia. reflexivity.
  - rewrite size_t_neg by lia. apply Z.leb_gt. lia.
Qed.
Lemma in_bounds_true x n : (0 <= x <= n)%Z -> (n < 2 ^ 63)%Z -> (size_t x <=? n)%Z = true.
Proof. intros Hn Hx. rewrite size_t_small by lia. apply Z.leb_le. lia. Qed.
Lemma in_bounds_false i d n : (0 <= i <= n)%Z -> (n < 2 ^ 63)%Z -> (- 2 ^ 31 <= d < 2 ^ 31)%Z -> ~ (0 <= i + d <= n)%Z -> (size_t (i + d) <=? n)%Z = false.
Proof. intros Hi Hn Hd H. rewrite in_bounds by lia. destruct (Z.leb_spec 0 (i + d)), (Z.leb_spec (i + d) n); cbn; try reflexivity; lia. Qed.
Lemma iterator_random {A} (l : list A) : small l -> random_access (iterator_ops l) (iterator_move l) l (it_at l).
Proof.
  intros Hs. unfold small in Hs. constructor; unfold it_at; cbn [iterator_move position size move].
  - intros i s [-> _]. reflexivity.
  - reflexivity.
  - intros i s d [-> H] Hd. rewrite in_bounds_true by lia. eexists. split; [reflexivity|]. split; [reflexivity|lia].
  - intros i s d [-> H] Hd Hn. rewrite in_bounds_false by lia. eauto.
Qed.

(** * RangeSingle *)
Definition single_at (i : nat) (v : bool) : Prop := (i <= 1)%nat /\ v = (i =? 0)%nat.
Lemma single_bidirectional {A} (x : A) : bidirectional (single_ops x) [x] single_at.
Proof.
  constructor; [constructor|..]; unfold single_at; cbn.
  - intros i s [H _]. exact H.
  - intros i s [H ->]. destruct i as [|[|i]]; try reflexivity; lia.
  - intros i s a [H ->] E. destruct i as [|[|i]]; cbn in E; try discriminate; try lia. injection E as ->. exists true. auto.
  - intros. exists true. auto.
  - intros i s [H ->] L. destruct i as [|i]; [|lia]. exists false. auto.
  - intros. exists true. auto.
  - intros i s [H ->] L. lia.
  - intros i j s t [H ->] [H' ->]. destruct i as [|[|i]], j as [|[|j]]; try reflexivity; lia.
Qed.
Lemma single_back_from_end {A} (x : A) : back_from_end (single_ops x) [x] single_at.
Proof. intros s [_ ->] _. cbn. exists true. split; [reflexivity|]. split; [lia|reflexivity]. Qed.
Lemma single_strict {A} (x : A) : strict (single_ops x) [x] single_at.
Proof. constructor; intros s [H ->]; cbn; eexists; (split; [reflexivity|]); split; auto. Qed.
Lemma single_random {A} (x : A) : random_access (single_ops x) (single_move x) [x] single_at.
Proof.
  constructor; unfold single_at; cbn [single_move position size move length].
  - intros i s [H ->]. destruct i as [|[|i]]; try reflexivity; lia.
  - reflexivity.
  - intros i s d [H ->] Hd. assert (E : (if (i =? 0)%nat then 0 else 1)%Z = Z.of_nat i) by (destruct i as [|[|i]]; try reflexivity; lia). rewrite E.
    rewrite in_bounds_true by lia. eexists. split; [reflexivity|]. split; [lia|]. rewrite size_t_small by lia.
    destruct (Z.eqb_spec (Z.of_nat i + d) 0), (Nat.eqb_spec (Z.to_nat (Z.of_nat i + d)) 0); try reflexivity; lia.
  - intros i s d [H ->] Hd Hn. assert (E : (if (i =? 0)%nat then 0 else 1)%Z = Z.of_nat i) by (destruct i as [|[|i]]; try reflexivity; lia). rewrite E.
    change 1%Z with (Z.of_nat 1). rewrite in_bounds_false by lia. eauto.
Qed.

(** * RangeTransformer *)
Section Transform.
  Context {A B : Type} (o : rops A) (f : A -> B) (l : list A) (P : nat -> st o -> Prop).
  Definition tr_at (i : nat) (s : st o * option B) : Prop :=
    P i (fst s) /\ (forall y, snd s = Some y -> exists a, nth_error l i = Some a /\ y = f a).
  Lemma tr_none i s : P i s -> tr_at i (s, None).
  Proof. intros H. split; [exact H|discriminate]. Qed.
  Lemma transform_forward : forward o l P -> forward (transform_ops o f) (map f l) tr_at.
  Proof.
    intros F. constructor; rewrite ?map_length.
    - intros i s [H _]. exact (fw_bound _ _ _ F _ _ H).
    - intros i s [H _]. exact (fw_valid _ _ _ F _ _ H).
    - intros i [s c] b [H C] E. cbn in *. rewrite nth_error_map in E. destruct (nth_error l i) as [a|] eqn:Ea; [|discriminate]. injection E as <-.
      destruct c as [y|].
      + destruct (C y eq_refl) as (a' & E' & ->). injection E' as <-. eexists. split; [reflexivity|]. split; [exact H|].
        intros y E. cbn in E. injection E as <-. eauto.
      + destruct (fw_get _ _ _ F _ _ _ H Ea) as (s' & -> & H'). eexists. split; [reflexivity|]. split; [exact H'|]. intros y E. cbn in E. injection E as <-. eauto.
    - intros i [s c] [H _]. destruct (fw_first _ _ _ F _ _ H) as (s' & E & H'). cbn in *. rewrite E. eexists. split; [reflexivity|]. apply tr_none. exact H'.
    - intros i [s c] [H _] L. destruct (fw_next _ _ _ F _ _ H L) as (s' & E & H'). cbn in *. rewrite E. eexists. split; [reflexivity|]. apply tr_none. exact H'.
  Qed.
  Lemma transform_bidirectional : bidirectional o l P -> bidirectional (transform_ops o f) (map f l) tr_at.
  Proof.
    intros F. constructor; [apply transform_forward; apply F|..]; rewrite ?map_length.
    - intros i [s c] [H _]. destruct (bi_last _ _ _ F _ _ H) as (s' & E & H'). cbn in *. rewrite E. eexists. split; [reflexivity|]. apply tr_none. exact H'.
    - intros i [s c] [H _] L. destruct (bi_prev _ _ _ F _ _ H L) as (s' & E & H'). cbn in *. rewrite E. eexists. split; [reflexivity|]. apply tr_none. exact H'.
    - intros i j s t [H _] [H' _]. exact (bi_equals _ _ _ F _ _ _ _ H H').
  Qed.
  Lemma transform_back_from_end : back_from_end o l P -> back_from_end (transform_ops o f) (map f l) tr_at.
  Proof.
    intros F [s c] [H _] N. rewrite map_length in *. destruct (F s H) as (s' & E & H'); [destruct l; [contradiction N; reflexivity|discriminate]|].
    cbn in *. rewrite E. eexists. split; [reflexivity|]. apply tr_none. exact H'.
  Qed.
  Lemma transform_strict : strict o l P -> strict (transform_ops o f) (map f l) tr_at.
  Proof.
    intros F. constructor; rewrite ?map_length; intros [s c] [H C]; cbn in *.
    - destruct (sr_next _ _ _ F s H) as (s' & E & H'). rewrite E. eexists. split; [reflexivity|]. apply tr_none. exact H'.
    - destruct (sr_prev _ _ _ F s H) as (s' & E & H'). rewrite E. eexists. split; [reflexivity|]. apply tr_none. exact H'.
    - destruct c as [y|]; [destruct (C y eq_refl) as (a & E & _); apply nth_lt in E; lia|].
      destruct (sr_get _ _ _ F s H) as (s' & E & H'). rewrite E. eexists. split; [reflexivity|]. apply tr_none. exact H'.
  Qed.
  Lemma transform_random m : random_access o m l P -> random_access (transform_ops o f) (transform_move o f m) (map f l) tr_at.
  Proof.
    intros F. constructor; rewrite ?map_length.
    - intros i s [H _]. exact (ra_position _ _ _ _ F _ _ H).
    - intros i s [H _]. exact (ra_size _ _ _ _ F _ _ H).
    - intros i [s c] d [H _] Hd. destruct (ra_move _ _ _ _ F _ _ _ H Hd) as (s' & E & H'). cbn in *. rewrite E. eexists. split; [reflexivity|]. apply tr_none. exact H'.
    - intros i [s c] d [H _] Hd Hn. destruct (ra_refuse _ _ _ _ F _ _ _ H Hd Hn) as (s' & E & H'). cbn in *. rewrite E. eexists. split; [reflexivity|]. apply tr_none. exact H'.
  Qed.
End Transform.

(** * RangeReverser *)
Section Reverse.
  Context {A : Type} (o : rops A) (l : list A) (P : nat -> st o -> Prop).
  Definition rev_at (i : nat) (s : st o * bool) : Prop :=
    ((i < length l)%nat /\ snd s = false /\ P (length l - 1 - i)%nat (fst s)) \/
    (i = length l /\ l <> [] /\ snd s = true /\ P 0%nat (fst s)) \/
    (i = 0%nat /\ l = [] /\ snd s = false /\ P 0%nat (fst s)).
  Lemma rev_at_start s : P (length l - 1)%nat s -> rev_at 0 (s, false).
  Proof.
    intros H. unfold rev_at. destruct l as [|x l0] eqn:E.
    - right. right. cbn in *. auto.
    - left. rewrite <- E in *. assert (0 < length l)%nat by (rewrite E; cbn; lia). split; [assumption|]. split; [reflexivity|]. cbn [fst]. rewrite Nat.sub_0_r. exact H.
  Qed.
  Lemma nth_rev i : (i < length l)%nat -> nth_error (rev l) i = nth_error l (length l - 1 - i).
  Proof.
    clear P. intros H. revert i H. induction l as [|x l0 IH] using rev_ind; intros i H; [cbn in H; lia|].
    rewrite rev_app_distr. cbn [rev app]. rewrite app_length in *. cbn [length] in *. destruct i as [|i]; cbn [nth_error].
    - rewrite nth_error_app2 by lia. replace (length l0 + 1 - 1 - 0 - length l0)%nat with 0%nat by lia. reflexivity.
    - rewrite IH by lia. rewrite nth_error_app1 by lia. f_equal. lia.
  Qed.
  Lemma reverse_bidirectional : bidirectional o l P -> bidirectional (reverse_ops o) (rev l) rev_at.
  Proof.
    intros F. pose proof (bi_forward _ _ _ F) as Fw. constructor; [constructor|..]; rewrite ?rev_length.
    - intros i s [H|[(-> & _)|(-> & -> & _)]]; cbn; lia.
    - intros i [s b] H. cbn [reverse_ops valid fst snd]. unfold rev_at in H; cbn [fst snd] in H. destruct H as [(L & -> & H)|[(-> & N & -> & H)|(-> & E & -> & H)]].
      + rewrite (fw_valid _ _ _ Fw _ _ H). cbn [negb andb]. destruct (Nat.ltb_spec (length l - 1 - i) (length l)), (Nat.ltb_spec i (length l)); try reflexivity; lia.
      + cbn [negb andb]. symmetry. apply Nat.ltb_irrefl.
      + rewrite (fw_valid _ _ _ Fw _ _ H), E. reflexivity.
    - intros i [s b] a H E. assert (L : (i < length l)%nat) by (rewrite <- (rev_length l); exact (nth_lt _ _ _ E)).
      unfold rev_at in H; cbn [fst snd] in H. destruct H as [(_ & -> & H)|[(-> & _)|(_ & ? & _)]]; [|lia|match goal with Q : l = [] |- _ => rewrite Q in *; cbn in *; lia end].
      rewrite nth_rev in E by exact L. destruct (fw_get _ _ _ Fw _ _ _ H E) as (s' & Eg & H'). cbn. rewrite Eg. eexists. split; [reflexivity|]. left. auto.
    - intros i [s b] H. assert (Hp : exists j, P j s) by (destruct H as [(_ & _ & H)|[(_ & _ & _ & H)|(_ & _ & _ & H)]]; cbn in H; eauto).
      destruct Hp as [j Hp]. destruct (bi_last _ _ _ F _ _ Hp) as (s' & E & H'). cbn. unfold rev_first. cbn. rewrite E. eexists. split; [reflexivity|].
      cbn. apply rev_at_start. exact H'.
    - intros i [s b] H L. unfold rev_at in H; cbn [fst snd] in H. destruct H as [(_ & -> & H)|[(-> & _)|(_ & ? & _)]]; [|lia|match goal with Q : l = [] |- _ => rewrite Q in *; cbn in *; lia end].
      destruct (fw_first _ _ _ Fw _ _ H) as (f & Ef & Hf). cbn. unfold rev_next. cbn. rewrite Ef. rewrite (bi_equals _ _ _ F _ _ _ _ H Hf).
      destruct (Nat.eqb_spec (length l - 1 - i) 0) as [E0|N0].
      + eexists. split; [reflexivity|]. right. left. rewrite E0 in H. split; [lia|]. split; [intros Q; rewrite Q in L; cbn in L; lia|]. auto.
      + destruct (bi_prev _ _ _ F _ _ H ltac:(lia)) as (s' & E & H'). rewrite E. eexists. split; [reflexivity|]. left. cbn. split; [lia|]. split; [reflexivity|].
        replace (length l - 1 - S i)%nat with (length l - 1 - i - 1)%nat by lia. exact H'.
    - intros i [s b] H. assert (Hp : exists j, P j s) by (destruct H as [(_ & _ & H)|[(_ & _ & _ & H)|(_ & _ & _ & H)]]; cbn in H; eauto).
      destruct Hp as [j Hp]. destruct (fw_first _ _ _ Fw _ _ Hp) as (s' & E & H'). cbn. unfold rev_last. cbn. rewrite E. eexists. split; [reflexivity|]. cbn.
      destruct (length l) as [|n] eqn:El.
      + right. right. apply length_zero_iff_nil in El. cbn. auto.
      + left. rewrite El. cbn [fst snd]. split; [lia|]. split; [reflexivity|]. replace (S n - 1 - (S n - 1))%nat with 0%nat by lia. exact H'.
    - intros i [s b] H L. unfold rev_at in H; cbn [fst snd] in H. destruct H as [(_ & -> & H)|[(-> & _)|(_ & ? & _)]]; [|lia|match goal with Q : l = [] |- _ => rewrite Q in *; cbn in *; lia end].
      destruct (fw_next _ _ _ Fw _ _ H ltac:(lia)) as (s' & E & H'). cbn. unfold rev_prev. cbn. rewrite E. eexists. split; [reflexivity|]. left. cbn. split; [lia|]. split; [reflexivity|].
      replace (length l - 1 - (i - 1))%nat with (S (length l - 1 - i))%nat by lia. exact H'.
    - intros i j [s b] [t c] H H'. unfold rev_at in H, H'; cbn [fst snd] in H, H'. cbn.
      destruct H as [(L & -> & H)|[(-> & N & -> & H)|(-> & E & -> & H)]]; destruct H' as [(L' & -> & H')|[(-> & N' & -> & H')|(-> & E' & -> & H')]];
        rewrite (bi_equals _ _ _ F _ _ _ _ H H'); cbn; try rewrite andb_false_r; try rewrite andb_true_r;
        try (subst; cbn in *; lia); try (exfalso; congruence).
      + destruct (Nat.eqb_spec (length l - 1 - i) (length l - 1 - j)), (Nat.eqb_spec i j); try reflexivity; lia.
      + destruct (Nat.eqb_spec i (length l)); [lia|reflexivity].
      + destruct (Nat.eqb_spec (length l) j); [lia|reflexivity].
      + rewrite Nat.eqb_refl. reflexivity.
  Qed.
  Lemma reverse_back_from_end : back_from_end (reverse_ops o) (rev l) rev_at.
  Proof.
    intros [s b] H N. rewrite rev_length in *. unfold rev_at in H; cbn [fst snd] in H.
    destruct H as [(L & _)|[(_ & _ & -> & H)|(_ & -> & _)]]; [lia| |contradiction N; reflexivity].
    cbn. unfold rev_prev. cbn. eexists. split; [reflexivity|]. left. assert (0 < length l)%nat by (destruct l; [contradiction N; reflexivity|cbn; lia]).
    cbn. split; [lia|]. split; [reflexivity|]. replace (length l - 1 - (length l - 1))%nat with 0%nat by lia. exact H.
  Qed.
  Lemma reverse_make_spec i s : bidirectional o l P -> P i s -> exists s', reverse_make o s = (true, s') /\ rev_at 0 s'.
  Proof.
    intros F H. destruct (bi_last _ _ _ F _ _ H) as (s' & E & H'). unfold reverse_make, rev_first. cbn. rewrite E. eexists. split; [reflexivity|]. apply rev_at_start. exact H'.
  Qed.
  (** Move, GetPosition: only between elements *)
  Lemma reverse_random_inner m i s d : small l -> random_access o m l P -> rev_at i s -> (i < length l)%nat ->
    position (reverse_move o m) s = Z.of_nat i /\ size (reverse_move o m) s = Z.of_nat (length l) /\
    ((0 <= Z.of_nat i + d < Z.of_nat (length l))%Z -> exists s', move (reverse_move o m) d s = (true, s') /\ rev_at (Z.to_nat (Z.of_nat i + d)) s').
  Proof.
    intros Sm F H L. unfold small in Sm. unfold rev_at in H. destruct H as [(_ & Eb & H)|[(-> & _)|(_ & ? & _)]]; [|lia|match goal with Q : l = [] |- _ => rewrite Q in *; cbn in *; lia end].
    cbn [reverse_move position size move]. rewrite (ra_position _ _ _ _ F _ _ H), (ra_size _ _ _ _ F _ _ H), Eb.
    split; [rewrite size_t_small; lia|]. split; [reflexivity|]. intros Hd.
    destruct (ra_move _ _ _ _ F _ _ (- d)%Z H ltac:(lia)) as (s' & E & H'). rewrite E. eexists. split; [reflexivity|]. left. cbn. split; [lia|]. split; [reflexivity|].
    replace (length l - 1 - Z.to_nat (Z.of_nat i + d))%nat with (Z.to_nat (Z.of_nat (length l - 1 - i) + - d)) by lia. exact H'.
  Qed.
End Reverse.
