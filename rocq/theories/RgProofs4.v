From Verif Require Import Base RgModel RgSpec RgProofs RgProofs2 RgProofs3.
From Coq Require Import Lia ZArith.

(** * RangeZipper *)
Section Zip.
  Context {A B C : Type} (o1 : rops A) (o2 : rops B) (f : A -> B -> C) (l1 : list A) (l2 : list B) (P1 : nat -> st o1 -> Prop) (P2 : nat -> st o2 -> Prop).
  Definition zip_at (i : nat) (s : st o1 * st o2) : Prop := P1 i (fst s) /\ P2 i (snd s).
  Lemma zip_len : forall (a : list A) (b : list B), length (zip_with f a b) = Nat.min (length a) (length b).
  Proof. induction a as [|x a IH]; intros [|y b]; cbn [zip_with length Nat.min]; auto. Qed.
  Lemma zip_nth : forall (a : list A) (b : list B) i c, nth_error (zip_with f a b) i = Some c -> exists x y, nth_error a i = Some x /\ nth_error b i = Some y /\ c = f x y.
  Proof.
    induction a as [|x a IH]; intros [|y b] [|i] c E; cbn in E; try discriminate.
    - injection E as <-. exists x, y. auto.
    - exact (IH b i c E).
  Qed.
  Variable fuel : nat.
  Hypothesis enough : (Nat.min (length l1) (length l2) < fuel)%nat.
  Hypothesis F1 : forward o1 l1 P1.
  Hypothesis F2 : forward o2 l2 P2.
  Lemma zip_valid_at i s : zip_at i s -> zip_valid o1 o2 s = (i <? Nat.min (length l1) (length l2))%nat.
  Proof.
    intros [H1 H2]. unfold zip_valid. rewrite (fw_valid _ _ _ F1 _ _ H1), (fw_valid _ _ _ F2 _ _ H2).
    destruct (Nat.ltb_spec i (length l1)), (Nat.ltb_spec i (length l2)), (Nat.ltb_spec i (Nat.min (length l1) (length l2))); cbn; try reflexivity; lia.
  Qed.
  Lemma zip_next_at i s : zip_at i s -> (i < Nat.min (length l1) (length l2))%nat -> exists s', both o1 o2 (next o1) (next o2) s = (true, s') /\ zip_at (S i) s'.
  Proof.
    intros [H1 H2] L. destruct (fw_next _ _ _ F1 _ _ H1 ltac:(lia)) as (a & Ea & Ha). destruct (fw_next _ _ _ F2 _ _ H2 ltac:(lia)) as (b & Eb & Hb).
    unfold both. rewrite Ea, Eb. eexists. split; [reflexivity|]. split; assumption.
  Qed.
  Lemma zip_first_at i s : zip_at i s -> exists s', both o1 o2 (first o1) (first o2) s = (true, s') /\ zip_at 0 s'.
  Proof.
    intros [H1 H2]. destruct (fw_first _ _ _ F1 _ _ H1) as (a & Ea & Ha). destruct (fw_first _ _ _ F2 _ _ H2) as (b & Eb & Hb).
    unfold both. rewrite Ea, Eb. eexists. split; [reflexivity|]. split; assumption.
  Qed.
  Lemma zip_forward : forward (zip_ops o1 o2 f fuel) (zip_with f l1 l2) zip_at.
  Proof.
    constructor; rewrite ?zip_len.
    - intros i s [H1 H2]. pose proof (fw_bound _ _ _ F1 _ _ H1). pose proof (fw_bound _ _ _ F2 _ _ H2). lia.
    - intros i s H. exact (zip_valid_at _ _ H).
    - intros i s c [H1 H2] E. destruct (zip_nth _ _ _ _ E) as (x & y & Ex & Ey & ->). destruct (fw_get _ _ _ F1 _ _ _ H1 Ex) as (a & Ea & Ha). destruct (fw_get _ _ _ F2 _ _ _ H2 Ey) as (b & Eb & Hb).
      cbn [zip_ops get]. rewrite Ea, Eb. eexists. split; [reflexivity|]. split; assumption.
    - intros i s H. exact (zip_first_at _ _ H).
    - intros i s H L. exact (zip_next_at _ _ H L).
  Qed.
  Lemma zip_last_loop_spec : forall n i s e, (Nat.min (length l1) (length l2) - i < n)%nat -> zip_at i s -> e = (i =? 0)%nat ->
    exists s', zip_last_loop o1 o2 n s e = (true, (s', (Nat.min (length l1) (length l2) =? 0)%nat)) /\ zip_at (Nat.min (length l1) (length l2)) s'.
  Proof.
    induction n as [|n IH]; intros i s e Hn H He; [lia|]. cbn [zip_last_loop]. rewrite (zip_valid_at _ _ H). destruct (Nat.ltb_spec i (Nat.min (length l1) (length l2))) as [L|L].
    - destruct (zip_next_at _ _ H L) as (s1 & E1 & H1). rewrite E1. apply (IH (S i)); [lia|exact H1|reflexivity].
    - pose proof (fw_bound _ _ _ F1 _ _ (proj1 H)). pose proof (fw_bound _ _ _ F2 _ _ (proj2 H)). assert (Q : i = Nat.min (length l1) (length l2)) by lia. rewrite <- Q. exists s. rewrite He. auto.
  Qed.
  Hypothesis B1 : bidirectional o1 l1 P1.
  Hypothesis B2 : bidirectional o2 l2 P2.
  Hypothesis K1 : back_from_end o1 l1 P1.
  Hypothesis K2 : back_from_end o2 l2 P2.
  Lemma prev_any {D} (o : rops D) l P i s : bidirectional o l P -> back_from_end o l P -> P i s -> (0 < i)%nat -> exists s', prev o s = (true, s') /\ P (i - 1)%nat s'.
  Proof.
    intros Fb K H L. pose proof (fw_bound _ _ _ (bi_forward _ _ _ Fb) _ _ H). destruct (Nat.eq_dec i (length l)) as [->|N].
    - apply K; [exact H|]. apply not_nil. exact L.
    - apply (bi_prev _ _ _ Fb); [exact H|lia].
  Qed.
  Lemma zip_prev_at i s : zip_at i s -> (0 < i)%nat -> exists s', both o1 o2 (prev o1) (prev o2) s = (true, s') /\ zip_at (i - 1) s'.
  Proof.
    intros [H1 H2] L. destruct (prev_any _ _ _ _ _ B1 K1 H1 L) as (a & Ea & Ha). destruct (prev_any _ _ _ _ _ B2 K2 H2 L) as (b & Eb & Hb).
    unfold both. rewrite Ea, Eb. eexists. split; [reflexivity|]. split; assumption.
  Qed.
  Lemma zip_bidirectional : bidirectional (zip_ops o1 o2 f fuel) (zip_with f l1 l2) zip_at.
  Proof.
    constructor; [exact zip_forward|..]; rewrite ?zip_len.
    - intros i s H. cbn [zip_ops last]. destruct (zip_first_at _ _ H) as (s1 & E1 & H1). rewrite E1. destruct (zip_last_loop_spec fuel 0 s1 true ltac:(lia) H1 eq_refl) as (s2 & E2 & H2). rewrite E2. cbn [fst snd].
      destruct (Nat.eqb_spec (Nat.min (length l1) (length l2)) 0) as [Z|Z].
      + exists s2. split; [reflexivity|]. rewrite Z in *. exact H2.
      + apply zip_prev_at; [exact H2|lia].
    - intros i s H L. apply zip_prev_at; [exact H|lia].
    - intros i j s t [H1 H2] [H1' H2']. cbn [zip_ops equals]. rewrite (bi_equals _ _ _ B1 _ _ _ _ H1 H1'), (bi_equals _ _ _ B2 _ _ _ _ H2 H2'). apply andb_diag.
  Qed.
  Lemma zip_back_from_end : back_from_end (zip_ops o1 o2 f fuel) (zip_with f l1 l2) zip_at.
  Proof. intros s H N. apply zip_prev_at; [exact H|]. apply len_pos. exact N. Qed.
  (** Steps out of the list throw and do no harm if the first range is not the longer one *)
  Lemma zip_strict : strict o1 l1 P1 -> (length l1 <= length l2)%nat -> strict (zip_ops o1 o2 f fuel) (zip_with f l1 l2) zip_at.
  Proof.
    intros S1 Le. constructor; rewrite ?zip_len; [rewrite Nat.min_l by exact Le| |rewrite Nat.min_l by exact Le]; intros [a b] [H1 H2]; cbn [fst snd] in *.
    - cbn [zip_ops next]. unfold both. destruct (sr_next _ _ _ S1 _ H1) as (a' & E & H). cbn [fst snd]. rewrite E. eexists. split; [reflexivity|]. split; assumption.
    - cbn [zip_ops prev]. unfold both. destruct (sr_prev _ _ _ S1 _ H1) as (a' & E & H). cbn [fst snd]. rewrite E. eexists. split; [reflexivity|]. split; assumption.
    - cbn [zip_ops get fst snd]. destruct (sr_get _ _ _ S1 _ H1) as (a' & E & H). rewrite E. eexists. split; [reflexivity|]. split; assumption.
  Qed.
End Zip.

(** * RangeConcater *)
Section Concat.
  Context {A : Type} (o : rops A) (ranges : list (st o)) (ls : list (list A)) (Q : nat -> nat -> st o -> Prop).
  Hypothesis same : length ranges = length ls.
  Hypothesis start : forall i r, nth_error ranges i = Some r -> Q i 0%nat r.
  Definition coff (p : nat) : nat := length (concat (firstn p ls)).
  Definition con_at (k : nat) (s : cstate o) : Prop :=
    match s with
    | None => k = length (concat ls)
    | Some (i, r) => exists li j, nth_error ls i = Some li /\ Q i j r /\ (j < length li)%nat /\ k = (coff i + j)%nat
    end.
  Lemma coff_off p : coff p = off (fun x : list A => x) ls p.
  Proof. unfold coff, off. rewrite map_id. reflexivity. Qed.
  Lemma all_concat : all (fun x : list A => x) ls = concat ls.
  Proof. unfold all. rewrite map_id. reflexivity. Qed.
  Lemma coff_succ p c : nth_error ls p = Some c -> coff (S p) = (coff p + length c)%nat.
  Proof. intros E. rewrite !coff_off. exact (off_succ _ _ _ _ E). Qed.
  Lemma coff_full : coff (length ls) = length (concat ls).
  Proof. rewrite coff_off, off_full, all_concat. reflexivity. Qed.
  Lemma coff_inside p c j : nth_error ls p = Some c -> (j < length c)%nat -> (coff p + j < length (concat ls))%nat.
  Proof. intros E L. rewrite coff_off, <- all_concat. exact (off_inside _ _ _ _ _ E L). Qed.
  Lemma coff_nth p c j : nth_error ls p = Some c -> (j < length c)%nat -> nth_error (concat ls) (coff p + j) = nth_error c j.
  Proof. intros E L. rewrite coff_off, <- all_concat. exact (off_nth (fun x => x) ls _ _ _ E L). Qed.
  Lemma range_exists i c : nth_error ls i = Some c -> exists r, nth_error ranges i = Some r.
  Proof. intros E. apply nth_some. rewrite same. exact (nth_lt _ _ _ E). Qed.
  Lemma list_exists i r : nth_error ranges i = Some r -> exists c, nth_error ls i = Some c.
  Proof. intros E. apply nth_some. rewrite <- same. exact (nth_lt _ _ _ E). Qed.
  Hypothesis Fw : forall i c, nth_error ls i = Some c -> forward o c (Q i).
  Lemma c_forward_spec : forall n i, (length ls - i <= n)%nat -> (i <= length ls)%nat -> con_at (coff i) (c_forward o i (skipn i ranges)).
  Proof.
    induction n as [|n IH]; intros i Hn Hi.
    - rewrite skipn_all2 by lia. cbn. replace i with (length ls) by lia. apply coff_full.
    - destruct (Nat.eq_dec i (length ls)) as [->|N].
      + rewrite skipn_all2 by lia. cbn. apply coff_full.
      + destruct (nth_some ls i ltac:(lia)) as [c E]. destruct (range_exists _ _ E) as [r Er]. rewrite (skipn_nth _ _ _ Er). cbn [c_forward]. rewrite (fw_valid _ _ _ (Fw _ _ E) _ _ (start _ _ Er)).
        destruct (Nat.ltb_spec 0 (length c)) as [L|L].
        * cbn. exists c, 0%nat. repeat split; auto.
        * pose proof (IH (S i) ltac:(lia) ltac:(lia)) as I. rewrite (coff_succ _ _ E) in I. replace (coff i + length c)%nat with (coff i) in I by lia. exact I.
  Qed.
  Lemma concat_make_spec : con_at 0 (concat_make o ranges).
  Proof. pose proof (c_forward_spec (length ls) 0 ltac:(lia) ltac:(lia)) as I. exact I. Qed.
  Lemma concat_forward : forward (concat_ops o ranges) (concat ls) con_at.
  Proof.
    constructor.
    - intros k [[i r]|] H; cbn in H; [|lia]. destruct H as (c & j & E & Hr & L & ->). pose proof (coff_inside _ _ _ E L). lia.
    - intros k [[i r]|] H; cbn [con_at concat_ops valid] in *; symmetry; [|rewrite H; apply Nat.ltb_irrefl]. destruct H as (c & j & E & Hr & L & ->). pose proof (coff_inside _ _ _ E L). apply Nat.ltb_lt. lia.
    - intros k [[i r]|] a H Ea; cbn [con_at concat_ops get] in *; [|apply nth_lt in Ea; lia]. destruct H as (c & j & E & Hr & L & ->). rewrite (coff_nth _ _ _ E L) in Ea.
      destruct (fw_get _ _ _ (Fw _ _ E) _ _ _ Hr Ea) as (r' & Er & Hr'). rewrite Er. eexists. split; [reflexivity|]. cbn. exists c, j. auto.
    - intros k s _. eexists. split; [reflexivity|]. exact concat_make_spec.
    - intros k [[i r]|] H Lk; cbn [con_at concat_ops next concat_next] in *; [|lia]. destruct H as (c & j & E & Hr & L & ->).
      destruct (fw_next _ _ _ (Fw _ _ E) _ _ Hr L) as (r1 & Er & Hr1). rewrite Er, (fw_valid _ _ _ (Fw _ _ E) _ _ Hr1). destruct (Nat.ltb_spec (S j) (length c)) as [L1|L1].
      + eexists. split; [reflexivity|]. cbn. exists c, (S j). repeat split; auto.
      + eexists. split; [reflexivity|]. pose proof (nth_lt _ _ _ E). pose proof (c_forward_spec (length ls) (S i) ltac:(lia) ltac:(lia)) as I. rewrite (coff_succ _ _ E) in I. replace (S (coff i + j)) with (coff i + length c)%nat by lia. exact I.
  Qed.
  Hypothesis Fb : forall i c, nth_error ls i = Some c -> bidirectional o c (Q i).
  Lemma c_backward_spec : forall n, (n <= length ls)%nat -> exists s, c_backward o ranges n = (true, s) /\ (if (coff n =? 0)%nat then s = None else con_at (coff n - 1) s).
  Proof.
    intros n. induction n as [|m IH]; intros Hn; [exists None; split; reflexivity|]. cbn [c_backward]. destruct (nth_some ls m ltac:(lia)) as [c E]. destruct (range_exists _ _ E) as [r Er]. rewrite Er.
    destruct (bi_last _ _ _ (Fb _ _ E) _ _ (start _ _ Er)) as (r1 & El & H1). rewrite El, (fw_valid _ _ _ (bi_forward _ _ _ (Fb _ _ E)) _ _ H1), (coff_succ _ _ E).
    destruct (Nat.ltb_spec (length c - 1) (length c)) as [L|L].
    - eexists. split; [reflexivity|]. destruct (Nat.eqb_spec (coff m + length c) 0); [lia|]. cbn. exists c, (length c - 1)%nat. repeat split; auto. lia.
    - destruct (IH ltac:(lia)) as (s & Es & Hs). exists s. split; [exact Es|]. replace (coff m + length c)%nat with (coff m) by lia. exact Hs.
  Qed.
  Lemma concat_bidirectional : bidirectional (concat_ops o ranges) (concat ls) con_at.
  Proof.
    constructor; [exact concat_forward|..].
    - intros k s _. cbn [concat_ops last]. rewrite same. destruct (c_backward_spec (length ls) ltac:(lia)) as (s' & E & H). exists s'. split; [exact E|]. rewrite coff_full in H.
      destruct (Nat.eqb_spec (length (concat ls)) 0) as [Z|Z]; [|exact H]. rewrite H. cbn. lia.
    - intros k [[i r]|] H Lk; cbn [con_at concat_ops prev concat_prev] in *; [|lia]. destruct H as (c & j & E & Hr & L & ->). pose proof (Fb _ _ E) as F.
      destruct (fw_first _ _ _ (bi_forward _ _ _ F) _ _ Hr) as (f & Ef & Hf). rewrite Ef, (bi_equals _ _ _ F _ _ _ _ Hr Hf). destruct (Nat.eqb_spec j 0) as [->|N].
      + destruct (c_backward_spec i) as (s' & E' & H'); [pose proof (nth_lt _ _ _ E); lia|]. exists s'. split; [exact E'|]. rewrite Nat.add_0_r in *. destruct (Nat.eqb_spec (coff i) 0); [lia|exact H'].
      + destruct (bi_prev _ _ _ F _ _ Hr ltac:(lia)) as (r1 & Er & Hr1). rewrite Er. eexists. split; [reflexivity|]. cbn. exists c, (j - 1)%nat. repeat split; auto; lia.
    - intros k k' [[i r]|] [[i' r']|] H H'; cbn [con_at concat_ops equals] in *.
      + destruct H as (c & j & E & Hr & L & ->). destruct H' as (c' & j' & E' & Hr' & L' & ->). destruct (Nat.eqb_spec i i') as [<-|Np]; cbn [andb].
        * rewrite E in E'. injection E' as <-. rewrite (bi_equals _ _ _ (Fb _ _ E) _ _ _ _ Hr Hr'). destruct (Nat.eqb_spec j j'), (Nat.eqb_spec (coff i + j) (coff i + j')); try reflexivity; lia.
        * symmetry. apply Nat.eqb_neq. rewrite !coff_off. intros Z. destruct (off_unique (fun x => x) ls _ _ _ _ _ _ E L E' L' Z). contradiction.
      + destruct H as (c & j & E & Hr & L & ->). pose proof (coff_inside _ _ _ E L). symmetry. apply Nat.eqb_neq. lia.
      + destruct H' as (c & j & E & Hr & L & ->). pose proof (coff_inside _ _ _ E L). symmetry. apply Nat.eqb_neq. lia.
      + subst. symmetry. apply Nat.eqb_refl.
  Qed.
End Concat.

(** * The algorithms *)
Section Loop.
  Context {A X R : Type} (o : rops A) (l : list A) (P : nat -> st o -> Prop) (body : X -> A -> X + R) (done : X -> R).
  Hypothesis F : forward o l P.
  Fixpoint run (x : X) (m : list A) : R := match m with [] => done x | a :: m' => match body x a with inr r => r | inl x' => run x' m' end end.
  Lemma loop_spec : forall n i x s, (length l - i < n)%nat -> P i s -> loop o body done n x s = Some (run x (skipn i l)).
  Proof.
    induction n as [|n IH]; intros i x s Hn H; [lia|]. cbn [loop]. rewrite (fw_valid _ _ _ F _ _ H). pose proof (fw_bound _ _ _ F _ _ H). destruct (Nat.ltb_spec i (length l)) as [L|L].
    - destruct (nth_some _ _ L) as [a E]. destruct (fw_get _ _ _ F _ _ _ H E) as (s1 & E1 & H1). rewrite E1, (skipn_nth _ _ _ E). cbn [run]. destruct (body x a) as [x'|r]; [|reflexivity].
      destruct (fw_next _ _ _ F _ _ H1 L) as (s2 & E2 & H2). rewrite E2. apply IH; [lia|exact H2].
    - rewrite skipn_all2 by lia. reflexivity.
  Qed.
End Loop.
Section Algorithms.
  Context {A : Type} (o : rops A) (l : list A) (P : nat -> st o -> Prop) (fuel i : nat) (s : st o).
  Hypothesis F : forward o l P.
  Hypothesis enough : (length l < fuel)%nat.
  Hypothesis here : P i s.
  Ltac go := rewrite (loop_spec o l P _ _ F) with (i := i) by (assumption || lia); f_equal.
  Lemma count_spec : rg_count o fuel s = Some (length (skipn i l)).
  Proof. unfold rg_count. go. change (length (skipn i l)) with (0 + length (skipn i l))%nat. generalize 0%nat. induction (skipn i l) as [|a m IH]; intros n; cbn; [lia|]. rewrite IH. lia. Qed.
  Lemma contains_spec p : rg_contains o p fuel s = Some (existsb p (skipn i l)).
  Proof. unfold rg_contains. go. induction (skipn i l) as [|a m IH]; cbn; [reflexivity|]. destruct (p a); [reflexivity|exact IH]. Qed.
  Lemma any_of_spec p : rg_any_of o p fuel s = Some (existsb p (skipn i l)).
  Proof. exact (contains_spec p). Qed.
  Lemma all_of_spec p : rg_all_of o p fuel s = Some (forallb p (skipn i l)).
  Proof. unfold rg_all_of. go. induction (skipn i l) as [|a m IH]; cbn; [reflexivity|]. destruct (p a); [exact IH|reflexivity]. Qed.
  Lemma none_of_spec p : rg_none_of o p fuel s = Some (forallb (fun a => negb (p a)) (skipn i l)).
  Proof. unfold rg_none_of. go. induction (skipn i l) as [|a m IH]; cbn; [reflexivity|]. destruct (p a); [reflexivity|exact IH]. Qed.
  Lemma element_at_spec n : rg_element_at o n fuel s = Some (nth_error l (i + n)).
  Proof.
    unfold rg_element_at. go. rewrite <- drop_nth. set (m := skipn i l). clearbody m.
    assert (Q : forall m c, run (fun (k : nat) (a : A) => if (n =? k)%nat then inr (Some a) else inl (S k)) (fun _ => None) c m = if (c <=? n)%nat then nth_error m (n - c) else None).
    { clear. induction m as [|a m IH]; intros c; cbn [run].
      - destruct (c <=? n)%nat; [destruct (n - c)%nat|]; reflexivity.
      - destruct (Nat.eqb_spec n c) as [->|N]; [rewrite Nat.leb_refl, Nat.sub_diag; reflexivity|]. rewrite IH.
        destruct (Nat.leb_spec (S c) n), (Nat.leb_spec c n); try reflexivity; try lia. replace (n - c)%nat with (S (n - S c)) by lia. reflexivity. }
    rewrite Q. cbn [Nat.leb]. rewrite Nat.sub_0_r. reflexivity.
  Qed.
  (** The index of the first match from here *)
  Lemma index_of_spec p n : rg_index_of o p fuel s = Some (Some n) <-> (exists a, nth_error l (i + n) = Some a /\ p a = true) /\ (forall k a, (k < n)%nat -> nth_error l (i + k) = Some a -> p a = false).
  Proof.
    unfold rg_index_of. rewrite (loop_spec o l P _ _ F) with (i := i) by (assumption || lia).
    assert (Q : forall m c, run (fun (k : nat) (a : A) => if p a then inr (Some k) else inl (S k)) (fun _ => None) c m = Some n <->
      exists j, n = (c + j)%nat /\ (exists a, nth_error m j = Some a /\ p a = true) /\ (forall k a, (k < j)%nat -> nth_error m k = Some a -> p a = false)).
    { clear. induction m as [|a m IH]; intros c; cbn [run].
      - split; [discriminate|]. intros (j & _ & (a & E & _) & _). destruct j; discriminate.
      - destruct (p a) eqn:Ea.
        + split.
          * intros E. injection E as <-. exists 0%nat. split; [lia|]. split; [exists a; auto|]. intros k b L. lia.
          * intros (j & -> & (b & E & Hb) & H). destruct j as [|j]; [rewrite Nat.add_0_r; reflexivity|]. rewrite (H 0%nat a ltac:(lia) eq_refl) in Ea. discriminate.
        + rewrite IH. split.
          * intros (j & -> & (b & E & Hb) & H). exists (S j). split; [lia|]. split; [exists b; auto|]. intros [|k] d L Ed; [cbn in Ed; congruence|]. apply (H k d); [lia|exact Ed].
          * intros (j & -> & (b & E & Hb) & H). destruct j as [|j]; [cbn in E; congruence|]. exists j. split; [lia|]. split; [exists b; auto|]. intros k d L Ed. apply (H (S k) d); [lia|exact Ed]. }
    pose proof (Q (skipn i l) 0%nat) as Q0. split.
    - intros E. injection E as E. apply Q0 in E. destruct E as (j & -> & (a & Ea & Ha) & H). cbn [Nat.add] in *. split.
      + exists a. rewrite drop_nth in Ea. auto.
      + intros k b L Eb. apply (H k b L). rewrite drop_nth. exact Eb.
    - intros [(a & Ea & Ha) H]. f_equal. apply Q0. exists n. split; [reflexivity|]. split; [exists a; rewrite drop_nth; auto|]. intros k b L Eb. rewrite drop_nth in Eb. exact (H k b L Eb).
  Qed.
  Lemma index_of_none p : rg_index_of o p fuel s = Some None <-> (forall a, In a (skipn i l) -> p a = false).
  Proof.
    unfold rg_index_of. rewrite (loop_spec o l P _ _ F) with (i := i) by (assumption || lia). generalize 0%nat. induction (skipn i l) as [|a m IH]; intros c; cbn [run].
    - split; [intros _ a []|reflexivity].
    - destruct (p a) eqn:Ea.
      + split; [discriminate|]. intros H. rewrite (H a (or_introl eq_refl)) in Ea. discriminate.
      + rewrite IH. split; [intros H b [<-|Ib]; [exact Ea|exact (H b Ib)]|]. intros H b Ib. apply H. right. exact Ib.
  Qed.
  Lemma fold_spec {X} (f : X -> A -> X) x : rg_fold o f x fuel s = Some (fold_left f (skipn i l) x).
  Proof. unfold rg_fold. go. revert x. induction (skipn i l) as [|a m IH]; intros x; cbn; [reflexivity|]. exact (IH (f x a)). Qed.
  Lemma fold1_spec f : rg_fold1 o f fuel s = Some (match skipn i l with [] => None | a :: m => Some (fold_left f m a) end).
  Proof.
    unfold rg_fold1. go. destruct (skipn i l) as [|a m]; [reflexivity|]. cbn [run]. revert a. induction m as [|b m IH]; intros a; cbn [run fold_left]; [reflexivity|]. exact (IH (f a b)).
  Qed.
  (** The smallest and the largest element; of several equal ones, the first *)
  Lemma min_run (less : A -> A -> bool) (irr : forall a, less a a = false) (trans : forall a b c, less b a = false -> less c b = false -> less c a = false) (asym : forall a b, less a b = true -> less b a = false) :
    forall m x, exists r, run (R := option A) (fun r a => inl (match r with None => Some a | Some m => if less a m then Some a else r end)) (fun r => r) (Some x) m = Some r /\
      In r (x :: m) /\ (forall b, In b (x :: m) -> less b r = false).
  Proof.
    induction m as [|a m IH]; intros x; cbn [run].
    - exists x. split; [reflexivity|]. split; [left; reflexivity|]. intros b [<-|[]]. apply irr.
    - destruct (less a x) eqn:Ea.
      + destruct (IH a) as (r & E & I & H). exists r. split; [exact E|]. split; [right; exact I|]. intros b [<-|Ib]; [|apply H; exact Ib].
        apply trans with a; [apply H; left; reflexivity|apply asym; exact Ea].
      + destruct (IH x) as (r & E & I & H). exists r. split; [exact E|]. split; [destruct I as [I|I]; [left; exact I|right; right; exact I]|].
        intros b [<-|[<-|Ib]]; [apply H; left; reflexivity|apply trans with x; [apply H; left; reflexivity|exact Ea]|apply H; right; exact Ib].
  Qed.
  Lemma min_spec less (irr : forall a, less a a = false) (trans : forall a b c, less b a = false -> less c b = false -> less c a = false) (asym : forall a b, less a b = true -> less b a = false) :
    match skipn i l with
    | [] => rg_min o less fuel s = Some None
    | m => exists r, rg_min o less fuel s = Some (Some r) /\ In r m /\ (forall b, In b m -> less b r = false)
    end.
  Proof.
    unfold rg_min. rewrite (loop_spec o l P _ _ F) with (i := i) by (assumption || lia). destruct (skipn i l) as [|a m]; [reflexivity|]. cbn [run].
    destruct (min_run less irr trans asym m a) as (r & E & I & H). exists r. rewrite E. auto.
  Qed.
  Lemma max_spec less (irr : forall a, less a a = false) (trans : forall a b c, less b a = false -> less c b = false -> less c a = false) (asym : forall a b, less a b = true -> less b a = false) :
    match skipn i l with
    | [] => rg_max o less fuel s = Some None
    | m => exists r, rg_max o less fuel s = Some (Some r) /\ In r m /\ (forall b, In b m -> less r b = false)
    end.
  Proof.
    unfold rg_max. rewrite (loop_spec o l P _ _ F) with (i := i) by (assumption || lia). destruct (skipn i l) as [|a m]; [reflexivity|]. cbn [run].
    destruct (min_run (fun x y => less y x) irr (fun x y z H1 H2 => trans z y x H2 H1) (fun x y H => asym y x H) m a) as (r & E & I & H). exists r. rewrite E. auto.
  Qed.
End Algorithms.

(** * Range-based for *)
Section ForEach.
  Context {A : Type} (o : rops A) (l : list A) (P : nat -> st o -> Prop).
  Hypothesis F : forward o l P.
  Hypothesis eqs : forall i j s t, P i s -> P j t -> equals o s t = (i =? j)%nat.
  Lemma for_loop_spec stop : P (length l) stop -> forall n i s, (length l - i < n)%nat -> P i s -> for_loop o n s stop = Some (skipn i l).
  Proof.
    intros Hs. induction n as [|n IH]; intros i s Hn H; [lia|]. cbn [for_loop]. rewrite (eqs _ _ _ _ H Hs). pose proof (fw_bound _ _ _ F _ _ H). destruct (Nat.eqb_spec i (length l)) as [->|N].
    - rewrite skipn_all. reflexivity.
    - assert (L : (i < length l)%nat) by lia. destruct (nth_some _ _ L) as [a E]. destruct (fw_get _ _ _ F _ _ _ H E) as (s1 & E1 & H1). rewrite E1, (skipn_nth _ _ _ E).
      destruct (fw_next _ _ _ F _ _ H1 L) as (s2 & E2 & H2). rewrite E2, (IH (S i) s2 ltac:(lia) H2). reflexivity.
  Qed.
  Lemma range_for_spec fuel i s : (length l < fuel)%nat -> P i s -> (exists e, range_end o s = (true, e) /\ P (length l) e) -> range_for o fuel s = Some l.
  Proof.
    intros Hf H (e & Ee & He). unfold range_for. destruct (fw_first _ _ _ F _ _ H) as (b & Eb & Hb). rewrite Eb, Ee. cbn [andb]. rewrite (for_loop_spec e He fuel 0 b ltac:(lia) Hb). reflexivity.
  Qed.
End ForEach.
Lemma bidirectional_for {A} (o : rops A) l P fuel i s : bidirectional o l P -> (length l < fuel)%nat -> P i s -> range_for o fuel s = Some l.
Proof.
  intros F Hf H. pose proof (bi_forward _ _ _ F) as Fw. apply (range_for_spec o l P Fw (bi_equals _ _ _ F) fuel i s Hf H).
  unfold range_end. destruct (bi_last _ _ _ F _ _ H) as (e & E & He). rewrite E. unfold andthen. cbn [fst snd]. rewrite (fw_valid _ _ _ Fw _ _ He).
  destruct (Nat.ltb_spec (length l - 1) (length l)) as [L|L].
  - destruct (fw_next _ _ _ Fw _ _ He L) as (e2 & E2 & H2). exists e2. split; [exact E2|]. replace (length l) with (S (length l - 1)) by lia. exact H2.
  - exists e. split; [reflexivity|]. replace (length l) with (length l - 1)%nat by lia. exact He.
Qed.
Lemma split_for {A} (l : list A) max cs fuel i : (0 < max)%nat -> chunks max l cs -> (length cs < fuel)%nat -> spl_at max l cs i (Nat.min (i * max) (length l)) ->
  range_for (split_ops l max) fuel (Nat.min (i * max) (length l)) = Some cs.
Proof.
  intros Hm Hc Hf H. apply (range_for_spec (split_ops l max) cs (spl_at max l cs) (split_forward max Hm l cs Hc) (split_equals max Hm l cs Hc) fuel i _ Hf H). exact (split_end max Hm l cs Hc _).
Qed.
