(** C62: ranges and range adapters show the list they should. *)
From Verif Require Import Base RgModel RgSpec RgProofs RgProofs2 RgProofs3 RgProofs4.
From Coq Require Import Lia ZArith.

(** ** What showing a list means for a user *)
(** for (x : range) visits exactly the elements, in order, from wherever the range stands *)
Theorem C62_range_for {A} (o : rops A) l i s fuel : shows o l i s -> (length l < fuel)%nat -> range_for o fuel s = Some l.
Proof. intros (P & H & F) L. exact (bidirectional_for o l P fuel i s F L H). Qed.
(** The algorithms are the list functions on the elements from the current position on *)
Theorem C62_algorithms {A} (o : rops A) l i s fuel : shows_forward o l i s -> (length l < fuel)%nat ->
  rg_count o fuel s = Some (length l - i)%nat /\
  (forall p, rg_contains o p fuel s = Some (existsb p (skipn i l))) /\
  (forall p, rg_any_of o p fuel s = Some (existsb p (skipn i l))) /\
  (forall p, rg_all_of o p fuel s = Some (forallb p (skipn i l))) /\
  (forall p, rg_none_of o p fuel s = Some (forallb (fun a => negb (p a)) (skipn i l))) /\
  (forall n, rg_element_at o n fuel s = Some (nth_error l (i + n))) /\
  (forall X (f : X -> A -> X) x, rg_fold o f x fuel s = Some (fold_left f (skipn i l) x)) /\
  (forall f, rg_fold1 o f fuel s = Some (match skipn i l with [] => None | a :: m => Some (fold_left f m a) end)).
Proof.
  intros (P & H & F) L. repeat split; intros.
  - rewrite (count_spec o l P fuel i s F L H), skipn_length. reflexivity.
  - exact (contains_spec o l P fuel i s F L H p).
  - exact (any_of_spec o l P fuel i s F L H p).
  - exact (all_of_spec o l P fuel i s F L H p).
  - exact (none_of_spec o l P fuel i s F L H p).
  - exact (element_at_spec o l P fuel i s F L H n).
  - exact (fold_spec o l P fuel i s F L H f x).
  - exact (fold1_spec o l P fuel i s F L H f).
Qed.
Theorem C62_index_of {A} (o : rops A) l i s fuel p : shows_forward o l i s -> (length l < fuel)%nat ->
  (forall n, rg_index_of o p fuel s = Some (Some n) <->
     (exists a, nth_error l (i + n) = Some a /\ p a = true) /\ (forall k a, (k < n)%nat -> nth_error l (i + k) = Some a -> p a = false)) /\
  (rg_index_of o p fuel s = Some None <-> (forall a, In a (skipn i l) -> p a = false)).
Proof. intros (P & H & F) L. split; [intros n; exact (index_of_spec o l P fuel i s F L H p n)|exact (index_of_none o l P fuel i s F L H p)]. Qed.
Theorem C62_min_max {A} (o : rops A) l i s fuel less : shows_forward o l i s -> (length l < fuel)%nat ->
  (forall a, less a a = false) -> (forall a b c, less b a = false -> less c b = false -> less c a = false) -> (forall a b, less a b = true -> less b a = false) ->
  match skipn i l with
  | [] => rg_min o less fuel s = Some None /\ rg_max o less fuel s = Some None
  | m => (exists r, rg_min o less fuel s = Some (Some r) /\ In r m /\ (forall b, In b m -> less b r = false)) /\
         (exists r, rg_max o less fuel s = Some (Some r) /\ In r m /\ (forall b, In b m -> less r b = false))
  end.
Proof.
  intros (P & H & F) L H1 H2 H3. pose proof (min_spec o l P fuel i s F L H less H1 H2 H3) as M. pose proof (max_spec o l P fuel i s F L H less H1 H2 H3) as N.
  destruct (skipn i l); auto.
Qed.

(** ** The ranges *)
Theorem C62_iterator_range {A} (l : list A) i : (i <= length l)%nat -> (Z.of_nat (length l) < 2 ^ 63)%Z -> shows_random (iterator_ops l) (iterator_move l) l i i.
Proof. intros H Hs. exists (it_at l). split; [split; [reflexivity|exact H]|]. exact (conj (iterator_bidirectional l) (conj (iterator_back_from_end l) (conj (iterator_strict l) (iterator_random l Hs)))). Qed.
Theorem C62_single {A} (x : A) : shows_random (single_ops x) (single_move x) [x] 0 true.
Proof. exists single_at. split; [split; [lia|reflexivity]|]. exact (conj (single_bidirectional x) (conj (single_back_from_end x) (conj (single_strict x) (single_random x)))). Qed.
(** Transform: the images, with every ability of the underlying range; the cached value never outlives a move *)
Theorem C62_transform {A B} (o : rops A) (f : A -> B) l i s :
  (shows_forward o l i s -> shows_forward (transform_ops o f) (map f l) i (transform_make o s)) /\
  (shows o l i s -> shows (transform_ops o f) (map f l) i (transform_make o s)) /\
  (shows_back o l i s -> shows_back (transform_ops o f) (map f l) i (transform_make o s)) /\
  (shows_strict o l i s -> shows_strict (transform_ops o f) (map f l) i (transform_make o s)) /\
  (forall m, shows_random o m l i s -> shows_random (transform_ops o f) (transform_move o f m) (map f l) i (transform_make o s)).
Proof.
  pose proof (transform_forward o f l) as T1. pose proof (transform_bidirectional o f l) as T2. pose proof (transform_back_from_end o f l) as T3.
  pose proof (transform_strict o f l) as T4. pose proof (transform_random o f l) as T5.
  repeat split; [intros (P & H & F)|intros (P & H & F)|intros (P & H & F & G)|intros (P & H & F & G & K)|intros m (P & H & F & G & K & R)];
    exists (tr_at o f l P); (split; [split; [exact H|discriminate]|]); eauto 8.
Qed.
(** Reverse: the elements backwards; back from the end as well *)
Theorem C62_reverse {A} (o : rops A) l i s : shows o l i s -> exists s', reverse_make o s = (true, s') /\ shows_back (reverse_ops o) (rev l) 0 s'.
Proof.
  intros (P & H & F). destruct (reverse_make_spec o l P i s F H) as (s' & E & H'). exists s'. split; [exact E|]. exists (rev_at o l P). split; [exact H'|].
  exact (conj (reverse_bidirectional o l P F) (reverse_back_from_end o l P)).
Qed.
(** ... random access to it is right only between elements: see the refutations for the end *)
Theorem C62_reverse_random_partial {A} (o : rops A) m l i s : (Z.of_nat (length l) < 2 ^ 63)%Z -> shows_random o m l i s ->
  exists P, (exists s', reverse_make o s = (true, s') /\ P 0%nat s') /\ bidirectional (reverse_ops o) (rev l) P /\
    forall j s', P j s' -> (j < length l)%nat ->
      position (reverse_move o m) s' = Z.of_nat j /\ size (reverse_move o m) s' = Z.of_nat (length l) /\
      forall d, (0 <= Z.of_nat j + d < Z.of_nat (length l))%Z -> exists t, move (reverse_move o m) d s' = (true, t) /\ P (Z.to_nat (Z.of_nat j + d)) t.
Proof.
  intros Sm (P & H & F & G & K & R). exists (rev_at o l P). split; [exact (reverse_make_spec o l P i s F H)|]. split; [exact (reverse_bidirectional o l P F)|].
  intros j s' H' L. pose proof (fun d => reverse_random_inner o l P m j s' d Sm R H' L) as Q. destruct (Q 0%Z) as (Q1 & Q2 & _). split; [exact Q1|]. split; [exact Q2|]. intros d. apply (Q d).
Qed.
(** Filter: the elements that satisfy the predicate, in order *)
Theorem C62_filter {A} (o : rops A) pred l s fuel : (length l < fuel)%nat ->
  (shows_forward o l 0 s -> exists s', filter_make o pred fuel s = (true, s') /\ shows_forward (filter_ops o pred fuel) (filter pred l) 0 s') /\
  (shows o l 0 s -> exists s', filter_make o pred fuel s = (true, s') /\ shows (filter_ops o pred fuel) (filter pred l) 0 s') /\
  (shows_back o l 0 s -> exists s', filter_make o pred fuel s = (true, s') /\ shows_back (filter_ops o pred fuel) (filter pred l) 0 s').
Proof.
  intros L. split; [|split].
  - intros (P & H & F). destruct (filter_make_spec o pred l P fuel L s F H) as (s' & E & H'). exists s'. split; [exact E|]. exists (flt_at o pred l P). split; [exact H'|]. exact (filter_forward o pred l P fuel L F).
  - intros (P & H & F). destruct (filter_make_spec o pred l P fuel L s (bi_forward _ _ _ F) H) as (s' & E & H'). exists s'. split; [exact E|]. exists (flt_at o pred l P). split; [exact H'|]. exact (filter_bidirectional o pred l P fuel L F).
  - intros (P & H & F & G). destruct (filter_make_spec o pred l P fuel L s (bi_forward _ _ _ F) H) as (s' & E & H'). exists s'. split; [exact E|]. exists (flt_at o pred l P). split; [exact H'|].
    exact (conj (filter_bidirectional o pred l P fuel L F) (filter_back_from_end o pred l P fuel L F G)).
Qed.
(** Drop: all but the first n *)
Theorem C62_drop {A} (o : rops A) n l s :
  (shows_forward o l 0 s -> exists s', drop_make o n s = (true, s') /\ shows_forward (drop_ops o) (skipn n l) 0 s') /\
  (shows o l 0 s -> exists s', drop_make o n s = (true, s') /\ shows (drop_ops o) (skipn n l) 0 s') /\
  (shows_back o l 0 s -> exists s', drop_make o n s = (true, s') /\ shows_back (drop_ops o) (skipn n l) 0 s') /\
  (shows_strict o l 0 s -> exists s', drop_make o n s = (true, s') /\ shows_strict (drop_ops o) (skipn n l) 0 s') /\
  (forall m, (Z.of_nat (length l) < 2 ^ 63)%Z -> shows_random o m l 0 s -> exists s', drop_make o n s = (true, s') /\ shows_random (drop_ops o) (drop_move o m) (skipn n l) 0 s').
Proof.
  split; [|split; [|split; [|split]]].
  - intros (P & H & F). destruct (drop_make_spec o l P n s F H) as (s' & E & H'). exists s'. split; [exact E|]. exists (drop_at o l P n). split; [exact H'|]. exact (drop_forward o l P n F).
  - intros (P & H & F). destruct (drop_make_spec o l P n s (bi_forward _ _ _ F) H) as (s' & E & H'). exists s'. split; [exact E|]. exists (drop_at o l P n). split; [exact H'|]. exact (drop_bidirectional o l P n F).
  - intros (P & H & F & G). destruct (drop_make_spec o l P n s (bi_forward _ _ _ F) H) as (s' & E & H'). exists s'. split; [exact E|]. exists (drop_at o l P n). split; [exact H'|].
    exact (conj (drop_bidirectional o l P n F) (drop_back_from_end o l P n F G)).
  - intros (P & H & F & G & K). destruct (drop_make_spec o l P n s (bi_forward _ _ _ F) H) as (s' & E & H'). exists s'. split; [exact E|]. exists (drop_at o l P n). split; [exact H'|].
    exact (conj (drop_bidirectional o l P n F) (conj (drop_back_from_end o l P n F G) (drop_strict o l P n F K))).
  - intros m Sm (P & H & F & G & K & R). destruct (drop_make_spec o l P n s (bi_forward _ _ _ F) H) as (s' & E & H'). exists s'. split; [exact E|]. exists (drop_at o l P n). split; [exact H'|].
    exact (conj (drop_bidirectional o l P n F) (conj (drop_back_from_end o l P n F G) (conj (drop_strict o l P n F K) (drop_random o l P n m Sm R (bi_forward _ _ _ F))))).
Qed.
(** Take: the first n from where the range stands; steps out of it are refused whatever the underlying range does *)
Theorem C62_take {A} (o : rops A) n l i s :
  (shows_forward o l i s -> shows_forward (take_ops o n) (firstn n (skipn i l)) 0 (take_make o s)) /\
  (shows o l i s -> shows (take_ops o n) (firstn n (skipn i l)) 0 (take_make o s)) /\
  (shows_back o l i s -> shows_strict (take_ops o n) (firstn n (skipn i l)) 0 (take_make o s)) /\
  (forall m, (Z.of_nat (length l) < 2 ^ 63)%Z -> shows_random o m l i s -> shows_random (take_ops o n) (take_move o n m) (firstn n (skipn i l)) 0 (take_make o s)).
Proof.
  split; [|split; [|split]].
  - intros (P & H & F). exists (take_at o l P n i). split; [exact (take_make_spec o l P n i s H)|]. exact (take_forward o l P n i F).
  - intros (P & H & F). exists (take_at o l P n i). split; [exact (take_make_spec o l P n i s H)|]. exact (take_bidirectional o l P n i (bi_forward _ _ _ F) F).
  - intros (P & H & F & G). pose proof (bi_forward _ _ _ F) as Fw. exists (take_at o l P n i). split; [exact (take_make_spec o l P n i s H)|].
    exact (conj (take_bidirectional o l P n i Fw F) (conj (take_back_from_end o l P n i F G) (take_strict o l P n i Fw))).
  - intros m Sm (P & H & F & G & K & R). pose proof (bi_forward _ _ _ F) as Fw. exists (take_at o l P n i). split; [exact (take_make_spec o l P n i s H)|].
    exact (conj (take_bidirectional o l P n i Fw F) (conj (take_back_from_end o l P n i F G) (conj (take_strict o l P n i Fw) (take_random o l P n i Fw m Sm R)))).
Qed.
(** Cycle over a non-empty range never ends: after any number of steps it is at the position modulo the size *)
Theorem C62_cycle {A} (o : rops A) l i s : shows o l i s -> (i < length l)%nat ->
  exists P, P i s /\ forall j t, P j t -> (j < length l)%nat /\ valid (cycle_ops o) t = true /\
    (exists a t', nth_error l j = Some a /\ get (cycle_ops o) t = (Some a, t') /\ P j t') /\
    (exists t', next (cycle_ops o) t = (true, t') /\ P (S j mod length l)%nat t') /\
    (exists t', prev (cycle_ops o) t = (true, t') /\ P ((j + length l - 1) mod length l)%nat t') /\
    (exists t', first (cycle_ops o) t = (true, t') /\ P 0%nat t') /\
    (exists t', last (cycle_ops o) t = (true, t') /\ P (length l - 1)%nat t').
Proof.
  intros (P & H & F) L. exists (cyc_at o l P). split; [split; assumption|]. intros j t Hj. split; [apply Hj|]. destruct (cycle_valid o l P F j t Hj) as [V G]. split; [exact V|]. split; [exact G|].
  split; [exact (cycle_next_spec o l P F j t Hj)|]. split; [exact (cycle_prev_spec o l P F j t Hj)|]. exact (cycle_first_last o l P F j t Hj).
Qed.
(** Split: the fragments, each of max elements but perhaps the last; backwards step by step too, and range-based for visits them all;
    Last() is right only if the last fragment is short *)
Theorem C62_split_partial {A} (l : list A) max cs : (0 < max)%nat -> chunks max l cs ->
  concat cs = l /\
  exists P, P 0%nat 0%nat /\ forward (split_ops l max) cs P /\ back_from_end (split_ops l max) cs P /\ strict (split_ops l max) cs P /\
    (forall i s, P i s -> (0 < i)%nat -> exists s', prev (split_ops l max) s = (true, s') /\ P (i - 1)%nat s') /\
    (forall i j s t, P i s -> P j t -> equals (split_ops l max) s t = (i =? j)%nat) /\
    (forall i s fuel, P i s -> (length cs < fuel)%nat -> range_for (split_ops l max) fuel s = Some cs) /\
    ((length l mod max <> 0)%nat -> bidirectional (split_ops l max) cs P).
Proof.
  intros Hm Hc. split; [exact (chunks_concat max l cs Hc)|]. exists (spl_at max l cs). split; [split; [reflexivity|lia]|]. pose proof (split_forward max Hm l cs Hc) as Fw. split; [exact Fw|].
  pose proof (split_prev max Hm l cs Hc) as Pv. split; [intros s H N; apply Pv; [exact H|apply len_pos; exact N]|]. split; [exact (split_strict max Hm l cs Hc)|].
  split; [exact Pv|]. split; [exact (split_equals max Hm l cs Hc)|]. split.
  - intros i s fuel H L. pose proof H as [E _]. rewrite E in *. exact (split_for l max cs fuel i Hm Hc L H).
  - intros Z. constructor; [exact Fw| | |exact (split_equals max Hm l cs Hc)].
    + intros i s H. destruct (split_last max Hm l cs Hc s) as (s' & E & H'). exists s'. split; [exact E|]. destruct (div_short max Hm l cs Hc Z) as [<- _]. exact H'.
    + intros i s H L. apply Pv; [exact H|lia].
Qed.
Theorem C62_split_exists {A} (l : list A) max : (0 < max)%nat -> exists cs, chunks max l cs.
Proof. intros H. exact (chunks_exist max H l). Qed.
(** Flatten: the elements of the inner ranges one after the other *)
Theorem C62_flatten {C A} (o : rops C) (o2 : rops A) to_range (inner : C -> list A) l s fuel (Q : C -> nat -> st o2 -> Prop) : (length l < fuel)%nat ->
  (forall c, In c l -> Q c 0%nat (to_range c)) ->
  (shows_forward o l 0 s -> (forall c, In c l -> forward o2 (inner c) (Q c)) ->
     exists s', flatten_make o o2 to_range fuel s = (true, s') /\ shows_forward (flatten_ops o o2 to_range fuel) (concat (map inner l)) 0 s') /\
  (shows o l 0 s -> (forall c, In c l -> bidirectional o2 (inner c) (Q c)) -> concat (map inner l) <> [] \/ l = [] ->
     exists s', flatten_make o o2 to_range fuel s = (true, s') /\ shows (flatten_ops o o2 to_range fuel) (concat (map inner l)) 0 s').
Proof.
  intros L Hs. split.
  - intros (P & H & F) F2. destruct (flatten_make_spec o o2 to_range inner l P Q Hs fuel L s F F2 H) as (s' & E & H'). exists s'. split; [exact E|].
    exists (fl_at o o2 inner l P Q). split; [exact H'|]. exact (flatten_forward o o2 to_range inner l P Q Hs fuel L F F2).
  - intros (P & H & F) F2 Ne. pose proof (fun c Ic => bi_forward _ _ _ (F2 c Ic)) as F2w. destruct (flatten_make_spec o o2 to_range inner l P Q Hs fuel L s (bi_forward _ _ _ F) F2w H) as (s' & E & H'). exists s'. split; [exact E|].
    exists (fl_at o o2 inner l P Q). split; [exact H'|]. exact (flatten_bidirectional o o2 to_range inner l P Q Hs fuel L F F2 Ne).
Qed.
(** Zip: the images of the pairs up to the end of the shorter range *)
Theorem C62_zip {A B C} (o1 : rops A) (o2 : rops B) (f : A -> B -> C) l1 l2 i s1 s2 fuel : (Nat.min (length l1) (length l2) < fuel)%nat -> 
  (shows_forward o1 l1 i s1 -> shows_forward o2 l2 i s2 -> shows_forward (zip_ops o1 o2 f fuel) (zip_with f l1 l2) i (s1, s2)) /\
  (shows_back o1 l1 i s1 -> shows_back o2 l2 i s2 -> shows_back (zip_ops o1 o2 f fuel) (zip_with f l1 l2) i (s1, s2)) /\
  (shows_strict o1 l1 i s1 -> shows_back o2 l2 i s2 -> (length l1 <= length l2)%nat -> shows_strict (zip_ops o1 o2 f fuel) (zip_with f l1 l2) i (s1, s2)).
Proof.
  intros L. split; [|split].
  - intros (P & H & F) (P' & H' & F'). exists (zip_at o1 o2 P P'). split; [split; assumption|]. eapply zip_forward; eassumption.
  - intros (P & H & F & G) (P' & H' & F' & G'). exists (zip_at o1 o2 P P'). split; [split; assumption|]. pose proof (bi_forward _ _ _ F) as Fw. pose proof (bi_forward _ _ _ F') as Fw'.
    split; [eapply zip_bidirectional|eapply zip_back_from_end]; eassumption.
  - intros (P & H & F & G & K) (P' & H' & F' & G') Le. exists (zip_at o1 o2 P P'). split; [split; assumption|]. pose proof (bi_forward _ _ _ F) as Fw. pose proof (bi_forward _ _ _ F') as Fw'.
    split; [eapply zip_bidirectional; eassumption|]. split; [eapply zip_back_from_end; eassumption|]. eapply zip_strict; eassumption.
Qed.
(** Concat: the elements of the ranges one after the other *)
Theorem C62_concat {A} (o : rops A) (ranges : list (st o)) (ls : list (list A)) :
  (Forall2 (fun r l => shows_forward o l 0 r) ranges ls -> shows_forward (concat_ops o ranges) (concat ls) 0 (concat_make o ranges)) /\
  (Forall2 (fun r l => shows o l 0 r) ranges ls -> shows (concat_ops o ranges) (concat ls) 0 (concat_make o ranges)).
Proof.
  assert (N : forall (R : st o -> list A -> (nat -> st o -> Prop) -> Prop), Forall2 (fun r l => exists P, R r l P) ranges ls ->
    length ranges = length ls /\ exists Q, forall i r l, nth_error ranges i = Some r -> nth_error ls i = Some l -> R r l (Q i)).
  { intros R H. split; [clear -H; induction H; cbn; congruence|]. induction H as [|r l rs ls' (P & HP) H2 (Q & IH)].
    - exists (fun _ _ _ => True). intros [|i] r l E; discriminate.
    - exists (fun i => match i with O => P | S i' => Q i' end). intros [|i] r' l' E E'; cbn in E, E'; [injection E as <-; injection E' as <-; exact HP|exact (IH i r' l' E E')]. }
  split; intros H; destruct (N _ H) as [Len (Q & X)].
  - assert (St : forall i r, nth_error ranges i = Some r -> Q i 0%nat r) by (intros i r E; destruct (nth_some ls i) as [l E']; [rewrite <- Len; exact (nth_lt _ _ _ E)|exact (proj1 (X i r l E E'))]).
    assert (Fw : forall i c, nth_error ls i = Some c -> forward o c (Q i)) by (intros i c E; destruct (nth_some ranges i) as [r E']; [rewrite Len; exact (nth_lt _ _ _ E)|exact (proj2 (X i r c E' E))]).
    exists (con_at o ls Q). split; [eapply concat_make_spec; eassumption|eapply concat_forward; eassumption].
  - assert (St : forall i r, nth_error ranges i = Some r -> Q i 0%nat r) by (intros i r E; destruct (nth_some ls i) as [l E']; [rewrite <- Len; exact (nth_lt _ _ _ E)|exact (proj1 (X i r l E E'))]).
    assert (Fb : forall i c, nth_error ls i = Some c -> bidirectional o c (Q i)) by (intros i c E; destruct (nth_some ranges i) as [r E']; [rewrite Len; exact (nth_lt _ _ _ E)|exact (proj2 (X i r c E' E))]).
    assert (Fw : forall i c, nth_error ls i = Some c -> forward o c (Q i)) by (intros i c E; exact (bi_forward _ _ _ (Fb i c E))).
    exists (con_at o ls Q). split; [eapply concat_make_spec; eassumption|eapply concat_bidirectional; eassumption].
Qed.

(** ** What is not so *)
(** Split::Last() goes past the last fragment when that one is full: the range is not valid *)
Theorem C62_split_last_refuted {A} (l : list A) max s : (0 < max)%nat -> (length l mod max = 0)%nat ->
  exists s', last (split_ops l max) s = (true, s') /\ valid (split_ops l max) s' = false.
Proof.
  intros Hm Z. destruct (chunks_exist max Hm l) as [cs Hc]. destruct (split_last max Hm l cs Hc s) as (s' & E & H). exists s'. split; [exact E|].
  rewrite (fw_valid _ _ _ (split_forward max Hm l cs Hc) _ _ H), (div_exact_end max Hm l cs Hc Z). apply Nat.ltb_irrefl.
Qed.
(** A reversed range with random access: Move cannot reach the end, and from the end it does not come back to an element *)
Theorem C62_reverse_move_refuted {A} (l : list A) : l <> [] -> (Z.of_nat (length l) < 2 ^ 31)%Z ->
  fst (move (reverse_move (iterator_ops l) (iterator_move l)) (Z.of_nat (length l)) ((length l - 1)%nat, false)) = false /\
  (exists s, move (reverse_move (iterator_ops l) (iterator_move l)) 0 (0%nat, true) = (true, s) /\ valid (reverse_ops (iterator_ops l)) s = false) /\
  (forall d s, move (reverse_move (iterator_ops l) (iterator_move l)) d (0%nat, true) = (true, s) -> valid (reverse_ops (iterator_ops l)) s = false).
Proof.
  intros N Sm. pose proof (len_pos _ N) as L. split; [|split].
  - cbn [reverse_move move iterator_move fst snd lift]. rewrite in_bounds_false by lia. reflexivity.
  - eexists. split; [cbn [reverse_move move iterator_move fst snd]; rewrite in_bounds_true by lia; reflexivity|]. reflexivity.
  - intros d s E. cbn [reverse_move move iterator_move fst snd] in E. injection E as E1 E2. rewrite <- E2. reflexivity.
Qed.
(** ... and the position of an empty reversed range is 2^64 - 1 *)
Theorem C62_reverse_position_refuted {A} : exists s, reverse_make (iterator_ops (@nil A)) 0%nat = (true, s) /\
  position (reverse_move (iterator_ops []) (iterator_move [])) s = (2 ^ 64 - 1)%Z.
Proof. eexists. split; reflexivity. Qed.
(** Next at the end of a reversed range does not throw *)
Theorem C62_reverse_next_refuted {A} (l : list A) : l <> [] ->
  exists s, valid (reverse_ops (iterator_ops l)) s = false /\ next (reverse_ops (iterator_ops l)) s = (true, s).
Proof. intros N. exists (0%nat, true). split; reflexivity. Qed.
(** Prev at the first element of a filtered range throws and leaves the range on an element that the predicate does not accept *)
Theorem C62_filter_prev_refuted : let f := filter_ops (iterator_ops [1; 2; 3]) Nat.even 10 in
  exists s0 s1, filter_make (iterator_ops [1; 2; 3]) Nat.even 10 0%nat = (true, s0) /\ get f s0 = (Some 2%nat, s0) /\
    prev f s0 = (false, s1) /\ valid f s1 = true /\ get f s1 = (Some 1%nat, s1).
Proof. exists 1%nat, 0%nat. repeat split. Qed.
(** Prev at the first element of a flattened or concatenated range does not throw but ends the range, and Prev at the end throws *)
Theorem C62_flatten_prev_refuted {A} (a : A) : let f := flatten_ops (iterator_ops [[a]]) (span_ops A) (fun l => (l, 0%nat)) 10 in
  (exists s0 s1, flatten_make (iterator_ops [[a]]) (span_ops A) (fun l => (l, 0%nat)) 10 0%nat = (true, s0) /\ valid f s0 = true /\ prev f s0 = (true, s1) /\ valid f s1 = false /\ fst (prev f s1) = false) /\
  (exists s0 s1, concat_make (span_ops A) [([a], 0%nat)] = s0 /\ prev (concat_ops (span_ops A) [([a], 0%nat)]) s0 = (true, s1) /\
     valid (concat_ops (span_ops A) [([a], 0%nat)]) s1 = false /\ fst (prev (concat_ops (span_ops A) [([a], 0%nat)]) s1) = false).
Proof. split; do 2 eexists; repeat split. Qed.
(** Flatten of inner ranges that are all empty: begin() and end() differ, and a range-based for throws *)
Theorem C62_flatten_empty_refuted {A} n fuel : (n < fuel)%nat -> let inner := repeat (@nil A) (S n) in
  let f := flatten_ops (iterator_ops inner) (span_ops A) (fun l => (l, 0%nat)) (S fuel) in
  exists b e, first f (0%nat, None) = (true, b) /\ range_end f (0%nat, None) = (true, e) /\ valid f b = false /\ valid f e = false /\ equals f b e = false /\
    range_for f (S fuel) (0%nat, None) = None.
Proof.
  intros L inner f.
  assert (Len : length inner = S n) by apply repeat_length.
  assert (Nth : forall i, (i < S n)%nat -> nth_error inner i = Some []).
  { intros i Hi. destruct (nth_some inner i) as [x E]; [lia|]. rewrite E. f_equal. apply (repeat_spec (S n) []). exact (nth_error_In _ _ E). }
  assert (V : forall i, valid (iterator_ops inner) i = negb (i =? S n)%nat) by (intros i; cbn [iterator_ops valid]; rewrite Len; reflexivity).
  assert (G : forall i, (i < S n)%nat -> get (iterator_ops inner) i = (Some [], i)).
  { intros i Hi. cbn [iterator_ops get]. rewrite Len. destruct (Nat.eqb_spec i (S n)); [lia|]. rewrite (Nth i Hi). reflexivity. }
  assert (Nx : forall i, (i < S n)%nat -> next (iterator_ops inner) i = (true, S i)) by (intros i Hi; cbn [iterator_ops next]; rewrite Len; destruct (Nat.eqb_spec i (S n)); [lia|reflexivity]).
  assert (A1 : forall k i, (i <= S n)%nat -> (S n - i < k)%nat -> fl_find_next (iterator_ops inner) (span_ops A) (fun l => (l, 0%nat)) k i = (true, (S n, None))).
  { induction k as [|k IH]; intros i Hi Hk; [lia|]. cbn [fl_find_next]. rewrite V. destruct (Nat.eqb_spec i (S n)) as [->|Ni]; cbn [negb]; [reflexivity|].
    rewrite (G i ltac:(lia)). cbn [span_ops valid iterator_ops fst snd length Nat.eqb negb]. rewrite (Nx i ltac:(lia)). apply IH; lia. }
  assert (A2 : forall k i, (i <= n)%nat -> (i < k)%nat -> fl_find_prev (iterator_ops inner) (span_ops A) (fun l => (l, 0%nat)) k i = (true, (0%nat, None))).
  { induction k as [|k IH]; intros i Hi Hk; [lia|]. cbn [fl_find_prev]. rewrite (G i ltac:(lia)). cbn. destruct i as [|i]; cbn; [reflexivity|]. rewrite Nat.sub_0_r. apply IH; lia. }
  assert (B : first f (0%nat, None) = (true, (S n, None))).
  { unfold f. cbn [flatten_ops first fst snd iterator_ops]. apply A1; lia. }
  assert (E : range_end f (0%nat, None) = (true, (0%nat, None))).
  { unfold range_end, f. cbn [flatten_ops last fst snd]. cbn [iterator_ops last]. rewrite Len. cbn [Nat.eqb]. replace (S n - 1)%nat with n by lia.
    change (valid (mkOps nat _ _ _ _ _ _ _) n) with (valid (iterator_ops inner) n). rewrite V. destruct (Nat.eqb_spec n (S n)); [lia|]. cbn [negb].
    change (mkOps nat _ _ _ _ _ _ _) with (iterator_ops inner). rewrite A2 by lia. reflexivity. }
  exists (S n, None), (0%nat, None). repeat split; try assumption; try reflexivity.
  unfold range_for. rewrite B, E. reflexivity.
Qed.
(** Zip of ranges of different lengths: a Next that throws has moved the longer one if that comes first, so that stepping back gives a
    pair that is not in the zipped range *)
Theorem C62_zip_desync_refuted : let z := zip_ops (iterator_ops [1; 2; 3]) (iterator_ops [10; 20]) pair 10 in
  exists s, next z (2, 2)%nat = (false, s) /\ exists s', prev z s = (true, s') /\ get z s' = (Some (3, 20)%nat, s').
Proof. eexists. split; [reflexivity|]. eexists. split; reflexivity. Qed.
(** for (x : Cycle(range)) runs no body *)
Theorem C62_cycle_for_refuted {A} (o : rops A) l i s fuel : shows o l i s -> (i < length l)%nat -> range_for (cycle_ops o) (S fuel) s = Some [].
Proof. intros (P & H & F) L. exact (cycle_for o l P F i s fuel (conj L H)). Qed.

(** ** The hypotheses can be met: adapters on adapters over a list *)
Example C62_composed : exists s, reverse_make (transform_ops (iterator_ops [1; 2; 3; 4; 5]) (fun x => (x, x * x))) (transform_make (iterator_ops [1; 2; 3; 4; 5]) 0%nat) = (true, s) /\
  shows (take_ops (reverse_ops (transform_ops (iterator_ops [1; 2; 3; 4; 5]) (fun x => (x, x * x)))) 3) [(5, 25); (4, 16); (3, 9)] 0 (take_make (reverse_ops (transform_ops (iterator_ops [1; 2; 3; 4; 5]) (fun x => (x, x * x)))) s).
Proof.
  destruct (C62_iterator_range [1; 2; 3; 4; 5] 0 ltac:(cbn; lia) ltac:(cbn; lia)) as (P & H & F & _). assert (I : shows (iterator_ops [1; 2; 3; 4; 5]) [1; 2; 3; 4; 5] 0 0%nat) by (exists P; auto).
  apply (proj1 (proj2 (C62_transform _ (fun x => (x, x * x)) _ _ _))) in I. destruct (C62_reverse _ _ _ _ I) as (s & E & (P' & H' & F' & _)). exists s. split; [exact E|].
  assert (J : shows (reverse_ops (transform_ops (iterator_ops [1; 2; 3; 4; 5]) (fun x => (x, x * x)))) (rev (map (fun x => (x, x * x)) [1; 2; 3; 4; 5])) 0 s) by (exists P'; auto).
  exact (proj1 (proj2 (C62_take _ 3 _ _ _)) J).
Qed.
Example C62_flatten_case : exists s, flatten_make (iterator_ops [[1; 2]; []; [3]]) (span_ops nat) (fun l => (l, 0%nat)) 10 0%nat = (true, s) /\
  shows (flatten_ops (iterator_ops [[1; 2]; []; [3]]) (span_ops nat) (fun l => (l, 0%nat)) 10) [1; 2; 3] 0 s.
Proof.
  apply (C62_flatten (iterator_ops [[1; 2]; []; [3]]) (span_ops nat) (fun l => (l, 0%nat)) (fun l => l) [[1; 2]; []; [3]] 0%nat 10 span_at).
  - cbn; lia.
  - intros c _. apply span_start.
  - destruct (C62_iterator_range [[1; 2]; []; [3]] 0 ltac:(cbn; lia) ltac:(cbn; lia)) as (P & H & F & _). exists P. auto.
  - intros c _. apply span_bidirectional.
  - left. discriminate.
Qed.
Example C62_concat_case : shows (concat_ops (span_ops nat) [([1; 2], 0); ([], 0); ([3], 0)]) [1; 2; 3] 0 (concat_make (span_ops nat) [([1; 2], 0); ([], 0); ([3], 0)]).
Proof.
  apply (proj2 (C62_concat (span_ops nat) [([1; 2], 0); ([], 0); ([3], 0)] [[1; 2]; []; [3]])).
  repeat constructor; (eexists; split; [apply span_start|apply span_bidirectional]).
Qed.
Example C62_run_case : range_for (filter_ops (iterator_ops [1; 2; 3; 4]) Nat.even 10) 10 0%nat = Some [2; 4] /\
  rg_min (iterator_ops [3; 1; 2]) Nat.ltb 10 0%nat = Some (Some 1) /\ range_for (split_ops [1; 2; 3; 4] 2) 10 0%nat = Some [[1; 2]; [3; 4]] /\
  chunks 2 [1; 2; 3; 4; 5] [[1; 2]; [3; 4]; [5]].
Proof.
  repeat split.
  apply (chunks_cons 2 [1; 2] [3; 4; 5]); [reflexivity|discriminate|]. apply (chunks_cons 2 [3; 4] [5]); [reflexivity|discriminate|]. apply chunks_last; [discriminate|cbn; lia].
Qed.

Print Assumptions C62_range_for.
Print Assumptions C62_algorithms.
Print Assumptions C62_index_of.
Print Assumptions C62_min_max.
Print Assumptions C62_iterator_range.
Print Assumptions C62_single.
Print Assumptions C62_transform.
Print Assumptions C62_reverse.
Print Assumptions C62_reverse_random_partial.
Print Assumptions C62_filter.
Print Assumptions C62_drop.
Print Assumptions C62_take.
Print Assumptions C62_cycle.
Print Assumptions C62_split_partial.
Print Assumptions C62_split_exists.
Print Assumptions C62_flatten.
Print Assumptions C62_zip.
Print Assumptions C62_concat.
Print Assumptions C62_split_last_refuted.
Print Assumptions C62_reverse_move_refuted.
Print Assumptions C62_reverse_position_refuted.
Print Assumptions C62_reverse_next_refuted.
Print Assumptions C62_filter_prev_refuted.
Print Assumptions C62_flatten_prev_refuted.
Print Assumptions C62_flatten_empty_refuted.
Print Assumptions C62_zip_desync_refuted.
Print Assumptions C62_cycle_for_refuted.
