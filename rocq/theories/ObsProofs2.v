(** Proofs about observable sets, lists, multimaps and multisets. *)
From Coq Require Import Permutation.
From Verif Require Import Base CollModel CollSpec CollProofs ObsModel ObsSpec ObsProofs.

(** Sets *)
Section set.
  Variable K : Type.
  Variable eqk : K -> K -> bool.
  Hypothesis Q : equiv eqk.
  Notation has := (has K eqk).
  Notation id := (fun x : K => x).
  Lemma has_false l k : has l k = false <-> forall e, In e l -> eqk e k = false.
  Proof.
    unfold ObsSpec.has. induction l as [ | x l IH]; cbn [existsb]; [split; [intros _ e [] | reflexivity] | ]. rewrite orb_false_iff, IH. split; [intros [H1 H2] e [<- | He]; auto | intros H; split; [apply H; left; reflexivity | intros e He; apply H; right; exact He]].
  Qed.
  Lemma has_in l k : In k l -> has l k = true.
  Proof. intros H. unfold ObsSpec.has. apply existsb_exists. exists k. split; [exact H | apply Q]. Qed.
  Variable C : Type.
  Variable elems : C -> list K.
  Variable w_add : C -> K -> option C.
  Variable w_remove : C -> K -> option C.
  Variable inv : C -> Prop.
  Definition set_laws : Prop :=
    (forall c, inv c -> distinct id eqk (elems c)) /\
    (forall c k, inv c -> if has (elems c) k then w_add c k = None
       else exists c', w_add c k = Some c' /\ inv c' /\ forall k', has (elems c') k' = if eqk k k' then true else has (elems c) k') /\
    (forall c k, inv c -> if has (elems c) k then exists c', w_remove c k = Some c' /\ inv c' /\ forall k', has (elems c') k' = if eqk k k' then false else has (elems c) k'
       else w_remove c k = None).
  Hypothesis L : set_laws.
  Notation agr := (fun o c => s_agrees K eqk o (elems c)).
  Notation sfol := (follows (op * K) (scopy K) C (s_honest K) (s_replay K eqk) agr).
  Lemma e_remove_each_follows : forall l c x, inv c -> agr x c -> distinct id eqk l -> (forall e, In e l -> has (elems c) e = true) ->
    let '(c', t, n) := e_remove_each K C w_remove l c in
    sfol x t c' /\ inv c' /\ n = length l /\ forall k, has (elems c') k = if has l k then false else has (elems c) k.
  Proof.
    induction l as [ | k l IH]; intros c x I A D H; cbn [e_remove_each].
    - split; [apply follows_nil; exact A | ]. auto.
    - destruct L as (_ & _ & LR). specialize (LR c k I). rewrite (H k (or_introl eq_refl)) in LR. destruct LR as (c1 & E1 & I1 & G1). rewrite E1.
      destruct D as [D1 D2].
      assert (A1 : agr (s_replay K eqk x (Removed, k)) c1). { intros k'. unfold s_replay. cbn [fst snd]. rewrite G1, (A k'). reflexivity. }
      specialize (IH c1 (s_replay K eqk x (Removed, k)) I1 A1 D2). destruct (e_remove_each K C w_remove l c1) as [[c2 t] n].
      destruct IH as (F & I2 & Hn & G2). { intros e He. rewrite G1, (D1 e He). apply H. right. exact He. }
      split; [ | split; [exact I2 | split; [cbn; lia | ]]].
      + apply follows_cons; [ | exact A1 | exact F]. unfold s_honest. cbn [fst snd]. rewrite (A k). apply H. left. reflexivity.
      + intros k'. rewrite G2, G1. unfold ObsSpec.has at 3. cbn [existsb]. fold (has l k'). destruct (eqk k k'), (has l k'); reflexivity.
  Qed.
  Lemma e_step_follows c o x : inv c -> agr x c -> sfol x (snd (e_step K C elems w_add w_remove c o)) (fst (e_step K C elems w_add w_remove c o)) /\ inv (fst (e_step K C elems w_add w_remove c o)).
  Proof.
    intros I A. pose proof L as (LU & LA & LR). destruct o as [k | k | pred | ]; cbn [e_step].
    - unfold e_add. specialize (LA c k I). destruct (has (elems c) k) eqn:E; [rewrite LA; split; [apply follows_nil; exact A | exact I] | ]. destruct LA as (c' & -> & I' & G). cbn [fst snd].
      split; [ | exact I']. apply follows_one; [unfold s_honest; cbn [fst snd]; rewrite (A k); exact E | ]. intros k'. unfold s_replay. cbn [fst snd]. rewrite G, (A k'). reflexivity.
    - unfold e_remove. specialize (LR c k I). destruct (has (elems c) k) eqn:E; [ | rewrite LR; split; [apply follows_nil; exact A | exact I]]. destruct LR as (c' & -> & I' & G). cbn [fst snd].
      split; [ | exact I']. apply follows_one; [unfold s_honest; cbn [fst snd]; rewrite (A k); exact E | ]. intros k'. unfold s_replay. cbn [fst snd]. rewrite G, (A k'). reflexivity.
    - unfold e_remove_where. pose proof (e_remove_each_follows (filter pred (elems c)) c x I A) as R. destruct (e_remove_each K C w_remove (filter pred (elems c)) c) as [[c' t] n]. cbn [fst snd].
      destruct R as (R1 & R2 & _); [apply distinct_filter, LU, I | | split; assumption]. intros e He. apply filter_In in He. apply has_in, He.
    - unfold e_clear. pose proof (e_remove_each_follows (elems c) c x I A) as R. destruct (e_remove_each K C w_remove (elems c) c) as [[c' t] n]. cbn [fst snd].
      destruct R as (R1 & R2 & _); [apply LU, I | | split; assumption]. intros e He. apply has_in, He.
  Qed.
  Lemma e_run_grun l c : e_run K C elems w_add w_remove c l = grun _ _ _ (e_step K C elems w_add w_remove) c l.
  Proof. revert c. induction l as [ | o l IH]; intros c; [reflexivity | ]. cbn [e_run grun]. destruct (e_step K C elems w_add w_remove c o) as [c1 t1]. rewrite IH. reflexivity. Qed.
  Lemma e_populate_replay : forall l, distinct id eqk l -> forall x, (forall e, In e l -> x e = false) ->
    all_honest _ _ (s_honest K) (s_replay K eqk) x (map (fun k => (Added, k)) l) /\
    forall k, replay_all _ _ (s_replay K eqk) x (map (fun k => (Added, k)) l) k = has l k || x k.
  Proof.
    induction l as [ | k l IH]; intros D x H; [split; [exact I | reflexivity] | ]. destruct D as [D1 D2]. cbn [map all_honest].
    destruct (IH D2 (s_replay K eqk x (Added, k))) as [H1 H2]. { intros e He. unfold s_replay. cbn [fst snd]. rewrite (D1 e He : eqk k e = false). apply H. right. exact He. }
    split; [split; [exact (H k (or_introl eq_refl)) | exact H1] | ]. intros k'. unfold replay_all in *. cbn [fold_left]. rewrite H2. unfold s_replay. cbn [fst snd]. unfold ObsSpec.has. cbn [existsb]. destruct (eqk k k'), (existsb (fun e => eqk e k') l), (x k'); reflexivity.
  Qed.
  Lemma e_observes c l : inv c ->
    observes _ _ _ (s_honest K) (s_replay K eqk) agr s_empty (e_populate K C elems c) c (snd (e_run K C elems w_add w_remove c l)) (fst (e_run K C elems w_add w_remove c l)) /\
    inv (fst (e_run K C elems w_add w_remove c l)).
  Proof.
    intros I. destruct (e_populate_replay (elems c) (proj1 L c I) s_empty) as [P1 P2]; [reflexivity | ].
    assert (A : agr (replay_all _ _ (s_replay K eqk) s_empty (e_populate K C elems c)) c). { intros k. unfold e_populate. rewrite P2. apply orb_false_r. }
    rewrite e_run_grun. destruct (run_follows _ _ _ _ (s_honest K) (s_replay K eqk) agr (e_step K C elems w_add w_remove) inv e_step_follows l c _ I A) as [F1 F2].
    split; [ | exact F2]. split; [exact P1 | ]. split; [exact A | exact F1].
  Qed.
  Lemma e_results c k : inv c ->
    snd (e_add K C w_add c k) = negb (has (elems c) k) /\ snd (e_remove K C w_remove c k) = has (elems c) k /\
    forall pred, snd (e_remove_where K C elems w_remove pred c) = length (filter pred (elems c)) /\
      forall k', has (elems (fst (fst (e_remove_where K C elems w_remove pred c)))) k' = has (filter (fun e => negb (pred e)) (elems c)) k'.
  Proof.
    intros I. pose proof L as (LU & LA & LR). split; [ | split].
    - unfold e_add. specialize (LA c k I). destruct (has (elems c) k); [rewrite LA; reflexivity | ]. destruct LA as (c' & -> & _). reflexivity.
    - unfold e_remove. specialize (LR c k I). destruct (has (elems c) k); [ | rewrite LR; reflexivity]. destruct LR as (c' & -> & _). reflexivity.
    - intros pred. unfold e_remove_where. pose proof (e_remove_each_follows (filter pred (elems c)) c (has (elems c)) I) as R. destruct (e_remove_each K C w_remove (filter pred (elems c)) c) as [[c' t] n].
      destruct R as (_ & _ & Hn & G); [intros k'; reflexivity | apply distinct_filter, LU, I | | ]. { intros e He. apply filter_In in He. apply has_in, He. }
      cbn [fst snd]. split; [exact Hn | ]. intros k'. rewrite G. pose proof (LU c I) as D. clear - D Q. induction (elems c) as [ | a l IH]; [reflexivity | ]. destruct D as [D1 D2]. specialize (IH D2). cbn [filter].
      assert (N : forall p, eqk a k' = true -> has (filter p l) k' = false).
      { intros p E. apply has_false. intros e He. apply filter_In in He. specialize (D1 e (proj1 He)). destruct Q as (_ & S & T). rewrite S, <- (T a k' e E). exact D1. }
      unfold ObsSpec.has in *. destruct (pred a) eqn:P; cbn [negb existsb].
      + destruct (eqk a k') eqn:E; cbn [orb]; [ | exact IH]. symmetry. apply N. reflexivity.
      + destruct (eqk a k') eqn:E; cbn [orb]; [ | exact IH]. rewrite N by reflexivity. reflexivity.
  Qed.
  Lemma en_seen_replay comparer key : (forall k, comparer key k = eqk k key) -> forall l x, all_honest _ _ (s_honest K) (s_replay K eqk) x l ->
    en_seen K comparer key (x key) l = replay_all _ _ (s_replay K eqk) x l key.
  Proof.
    intros Hc. induction l as [ | [o k] l IH]; intros x H; [reflexivity | ]. destruct H as [H1 H2]. unfold en_seen, replay_all in *. cbn [fold_left]. rewrite <- IH by exact H2. f_equal. unfold en_on, s_replay. cbn [fst snd]. rewrite Hc.
    destruct (eqk k key), o; try reflexivity. destruct H1.
  Qed.
  Lemma faithful_honest : forall t x, faithful _ _ _ (s_honest K) (s_replay K eqk) agr x t -> all_honest _ _ (s_honest K) (s_replay K eqk) x (map fst t).
  Proof. induction t as [ | [e c] t IH]; intros x H; [exact I | ]. destruct H as (H1 & _ & H3). split; [exact H1 | apply IH, H3]. Qed.
  Lemma en_follows w_has comparer key c l : (forall k, comparer key k = eqk k key) -> (forall c k, inv c -> w_has c k = has (elems c) k) -> inv c ->
    en_seen K comparer key (w_has c key) (map fst (snd (e_run K C elems w_add w_remove c l))) = w_has (fst (e_run K C elems w_add w_remove c l)) key.
  Proof.
    intros Hc Hw I. rewrite e_run_grun.
    destruct (run_follows _ _ _ _ (s_honest K) (s_replay K eqk) agr (e_step K C elems w_add w_remove) inv e_step_follows l c (has (elems c)) I ltac:(intros k; reflexivity)) as [[F1 F2] I2].
    rewrite !Hw by assumption. rewrite <- F2. apply (en_seen_replay comparer key Hc). apply faithful_honest, F1.
  Qed.
  Lemma en_set_get w_has key c b : (forall c k, inv c -> w_has c k = has (elems c) k) -> inv c -> w_has (fst (en_set K C w_add w_remove key c b)) key = b.
  Proof.
    intros Hw I. pose proof L as (_ & LA & LR). destruct Q as (R & _). specialize (LA c key I). specialize (LR c key I). unfold en_set, e_add, e_remove. destruct b, (has (elems c) key) eqn:E.
    - rewrite LA. cbn [fst]. rewrite Hw by assumption. exact E.
    - destruct LA as (c' & -> & I' & G). cbn [fst]. rewrite Hw, G, R by assumption. reflexivity.
    - destruct LR as (c' & -> & I' & G). cbn [fst]. rewrite Hw, G, R by assumption. reflexivity.
    - rewrite LR. cbn [fst]. rewrite Hw by assumption. exact E.
  Qed.
End set.

Section set_instances.
  Variable K : Type.
  Notation id := (fun x : K => x).
  Lemma has_lookup lt l k : has K (eqv lt) l k = match lookup K K id lt l k with Some _ => true | None => false end.
  Proof.
    unfold has, lookup, class. induction l as [ | x l IH]; [reflexivity | ]. cbn [existsb filter]. destruct (eqv lt x k); [reflexivity | exact IH].
  Qed.
  Lemma sorted_set_laws lt copied : swo lt -> set_laws K (eqv lt) (list K) (fun l => l) (fun c k => u_add K K id lt (copied c) c k) (fun c k => u_remove K K id lt (copied c) c k) (inc K K id lt).
  Proof.
    intros W. split; [apply (inc_distinct K lt id) | ]. split.
    - intros c k I. pose proof (u_add_spec K K id lt W (copied c) c k I) as H. rewrite has_lookup. unfold lookup. destruct (class K K id lt c k); cbn [hd_error]; [ | exact H].
      destruct H as (l' & H1 & H2 & _ & H3). exists l'. split; [exact H1 | ]. split; [exact H2 | ]. intros k'. rewrite !has_lookup. unfold lookup. rewrite H3. destruct (eqv lt k k'); reflexivity.
    - intros c k I. pose proof (u_remove_spec K K id lt W (copied c) c k I) as H. rewrite has_lookup. unfold lookup. destruct (class K K id lt c k); cbn [hd_error]; [exact H | ].
      destruct H as (l' & H1 & H2 & _ & H3). exists l'. split; [exact H1 | ]. split; [exact H2 | ]. intros k'. rewrite !has_lookup. unfold lookup. rewrite H3. destruct (eqv lt k k'); reflexivity.
  Qed.
End set_instances.

(** Lists *)
Section list_.
  Variable A : Type.
  Variable eqA : A -> A -> bool.
  Notation lfol := (follows (op * nat * A) (list A) (list A) (l_honest A) (l_replay A) eq).
  Lemma ol_remove_at_follows c i : match ol_remove_at A c i with Some (c', t) => lfol c t c' /\ exists x, nth_error c i = Some x /\ t = [((Removed, i, x), c')] /\ c' = firstn i c ++ skipn (S i) c | None => length c <= i end.
  Proof.
    unfold ol_remove_at, l_get, l_remove_at. destruct (Nat.ltb_spec i (length c)) as [H | H]; [ | exact H]. destruct (nth_error c i) as [x | ] eqn:E; [ | apply nth_error_None in E; exact E].
    split; [apply follows_one; [exact E | reflexivity] | ]. exists x. auto.
  Qed.
  Lemma remove_loop_follows pred : forall n c index ret pre, ret <= index -> length pre = index - ret -> length c = length pre + n -> firstn (length pre) c = pre ->
    exists c' t r, ol_remove_loop A pred n index ret c = Some (c', t, r) /\ lfol c t c' /\ c' = pre ++ filter (fun x => negb (pred x)) (skipn (length pre) c) /\ r = ret + length (filter pred (skipn (length pre) c)).
  Proof.
    induction n as [ | n IH]; intros c index ret pre Hr Hp Hc Hf; cbn [ol_remove_loop].
    - exists c, [], ret. split; [reflexivity | ]. split; [apply follows_nil; reflexivity | ]. rewrite skipn_all2 by lia. cbn. rewrite app_nil_r. split; [ | lia]. rewrite <- Hf at 1. symmetry. rewrite firstn_all2 by lia. reflexivity.
    - rewrite <- Hp. assert (Ec : exists x rest, c = pre ++ x :: rest).
      { destruct (skipn (length pre) c) as [ | x rest] eqn:S. { apply (f_equal (@length A)) in S. rewrite skipn_length in S. cbn in S. lia. } exists x, rest. rewrite <- Hf at 1. rewrite <- S. symmetry. apply firstn_skipn. }
      destruct Ec as (x & rest & ->). assert (Hsk : skipn (length pre) (pre ++ x :: rest) = x :: rest) by (rewrite skipn_app, skipn_all, Nat.sub_diag; reflexivity). rewrite Hsk.
      unfold l_get. replace (Nat.ltb (length pre) (length (pre ++ x :: rest))) with true by (symmetry; apply Nat.ltb_lt; lia). rewrite nth_error_app2, Nat.sub_diag by lia. cbn [nth_error filter].
      destruct (pred x) eqn:P; cbn [negb].
      + unfold l_remove_at. replace (Nat.ltb (length pre) (length (pre ++ x :: rest))) with true by (symmetry; apply Nat.ltb_lt; lia). rewrite erase_at_app.
        destruct (IH (pre ++ rest) (S index) (S ret) pre) as (c' & t & r & E1 & E2 & E3 & E4); [lia | lia | rewrite app_length in *; cbn in Hc; lia | rewrite firstn_app, firstn_all, Nat.sub_diag; cbn; apply app_nil_r | ].
        rewrite E1. exists c', (((Removed, length pre, x), pre ++ rest) :: t), r. split; [reflexivity | ]. rewrite skipn_app, skipn_all, Nat.sub_diag in E3, E4. cbn [app skipn] in E3, E4.
        split; [ | split; [exact E3 | cbn [length]; lia]].
        assert (Hrep : l_replay A (pre ++ x :: rest) (Removed, length pre, x) = pre ++ rest) by (unfold l_replay; apply (erase_at_app A pre rest x)).
        apply follows_cons; [ | exact Hrep | rewrite Hrep; exact E2]. cbn. rewrite nth_error_app2, Nat.sub_diag by lia. reflexivity.
      + destruct (IH (pre ++ x :: rest) (S index) ret (pre ++ [x])) as (c' & t & r & E1 & E2 & E3 & E4); [lia | rewrite app_length; cbn [length]; lia | rewrite !app_length in *; cbn [length] in *; lia | | ].
        { replace (pre ++ x :: rest) with ((pre ++ [x]) ++ rest) by (rewrite <- app_assoc; reflexivity). rewrite firstn_app, firstn_all, Nat.sub_diag. cbn. apply app_nil_r. }
        exists c', t, r. split; [exact E1 | ]. split; [exact E2 | ]. assert (Hsk2 : skipn (length (pre ++ [x])) (pre ++ x :: rest) = rest).
        { replace (pre ++ x :: rest) with ((pre ++ [x]) ++ rest) by (rewrite <- app_assoc; reflexivity). rewrite skipn_app, skipn_all, Nat.sub_diag. reflexivity. }
        rewrite Hsk2 in E3, E4. split; [rewrite E3, <- app_assoc; reflexivity | exact E4].
  Qed.
  Lemma ol_clear_follows : forall f c, length c < f -> exists t, ol_clear A f c = Some ([], t) /\ lfol c t [].
  Proof.
    induction f as [ | f IH]; intros c Hf; [lia | ]. cbn [ol_clear]. destruct c as [ | x c]; [exists []; split; [reflexivity | apply follows_nil; reflexivity] | ].
    pose proof (ol_remove_at_follows (x :: c) 0) as H. destruct (ol_remove_at A (x :: c) 0) as [[c1 t1] | ]; [ | cbn in H; lia]. destruct H as [F (y & Hy & Ht & Hc)]. cbn in Hc.
    assert (Hl : length c1 < f) by (rewrite Hc; cbn in Hf; lia). destruct (IH c1 Hl) as (t2 & -> & F2). exists (t1 ++ t2). split; [reflexivity | ]. eapply follows_app; [exact F | ]. destruct F as [_ EF]. unfold lev. rewrite EF. exact F2.
  Qed.
  Lemma ol_step_follows c o : lfol c (snd (ol_step A eqA c o)) (fst (ol_step A eqA c o)).
  Proof.
    assert (N : lfol c [] c) by (apply follows_nil; reflexivity). destruct o as [x | i x | i x | i | x | pred | ]; cbn [ol_step].
    - unfold ol_add. cbn [fst snd]. rewrite app_length. cbn [length]. replace (length c + 1 - 1) with (length c) by lia. apply follows_one; cbn; [lia | ]. rewrite firstn_all, skipn_all. reflexivity.
    - unfold ol_set, l_set. destruct (Nat.ltb_spec i (length c)); cbn [fst snd]; [ | exact N]. apply follows_one; cbn; [assumption | reflexivity].
    - unfold ol_insert, l_insert. destruct (Nat.leb_spec i (length c)); cbn [fst snd]; [ | exact N]. apply follows_one; cbn; [assumption | reflexivity].
    - pose proof (ol_remove_at_follows c i) as H. destruct (ol_remove_at A c i) as [[c' t] | ]; [apply H | exact N].
    - unfold ol_remove. destruct (index_of A eqA c x) as [i | ]; [ | exact N]. pose proof (ol_remove_at_follows c i) as H. destruct (ol_remove_at A c i) as [[c' t] | ]; [apply H | exact N].
    - unfold ol_remove_all. destruct (remove_loop_follows pred (length c) c 0 0 []) as (c' & t & r & -> & F & _); [lia | reflexivity | reflexivity | reflexivity | ]. exact F.
    - destruct (ol_clear_follows (S (length c)) c ltac:(lia)) as (t & -> & F). exact F.
  Qed.
  Lemma ol_run_grun l c : ol_run A eqA c l = grun _ _ _ (ol_step A eqA) c l.
  Proof. revert c. induction l as [ | o l IH]; intros c; [reflexivity | ]. cbn [ol_run grun]. destruct (ol_step A eqA c o) as [c1 t1]. rewrite IH. reflexivity. Qed.
  Lemma ol_populate_replay : forall c pre, all_honest _ _ (l_honest A) (l_replay A) pre (ol_populate A (length pre) c) /\ replay_all _ _ (l_replay A) pre (ol_populate A (length pre) c) = pre ++ c.
  Proof.
    induction c as [ | x c IH]; intros pre; [split; [exact I | symmetry; apply app_nil_r] | ]. cbn [ol_populate all_honest]. assert (E : l_replay A pre (Added, length pre, x) = pre ++ [x]) by (cbn; rewrite firstn_all, skipn_all; reflexivity).
    unfold replay_all in *. cbn [fold_left]. rewrite E. destruct (IH (pre ++ [x])) as [H1 H2]. rewrite app_length, Nat.add_1_r in H1, H2. rewrite H2, <- app_assoc. repeat split; [cbn; lia | exact H1].
  Qed.
  Lemma ol_observes c l : observes _ _ _ (l_honest A) (l_replay A) eq [] (ol_populate A 0 c) c (snd (ol_run A eqA c l)) (fst (ol_run A eqA c l)).
  Proof.
    destruct (ol_populate_replay c []) as [H1 H2]. cbn [length app] in *. split; [exact H1 | ]. split; [exact H2 | ]. rewrite H2, ol_run_grun.
    apply (run_follows _ _ _ _ (l_honest A) (l_replay A) eq (ol_step A eqA) (fun _ => True)); [ | exact I | reflexivity]. intros c0 o x _ ->. split; [apply ol_step_follows | exact I].
  Qed.
End list_.
