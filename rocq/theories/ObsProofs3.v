(** Proofs about observable multimaps and multisets. *)
From Coq Require Import Permutation.
From Verif Require Import Base CollModel CollSpec CollProofs ObsModel ObsSpec ObsProofs.

Section multi.
  Variables K V : Type.
  Variable lt : K -> K -> bool.
  Hypothesis W : swo lt.
  Variable veq : V -> V -> bool.
  Hypothesis HV : forall a b, veq a b = true <-> a = b.
  Variable copied : list (K * V) -> bool.
  Notation E := (K * V)%type.
  Notation eqk := (eqv lt).
  Notation values := (values K V eqk). Notation without := (without V veq). Notation ndl := (nd K E fst lt).
  Notation cls := (class K E fst lt).
  Notation mfol := (follows (op * K * V) (mcopy K V) (list E) (m_honest K V) (m_replay K V eqk veq) (m_agrees K V eqk)).

  Lemma values_app a b k : values (a ++ b) k = values a k ++ values b k.
  Proof. unfold ObsSpec.values. rewrite filter_app, map_app. reflexivity. Qed.
  Lemma values_cons k v l k' : values ((k, v) :: l) k' = if eqk k k' then v :: values l k' else values l k'.
  Proof. unfold ObsSpec.values. cbn [filter fst]. destruct (eqk k k'); reflexivity. Qed.
  Lemma without_mid a x b v : (forall y, In y a -> veq v y = false) -> veq v x = true -> without v (a ++ x :: b) = a ++ b.
  Proof. induction a as [ | y a IH]; intros H1 H2; cbn [app ObsSpec.without]; [rewrite H2; reflexivity | ]. rewrite (H1 y) by (left; reflexivity). f_equal. apply IH; [ | exact H2]. intros z Hz. apply H1. right. exact Hz. Qed.
  Lemma without_none l v : (forall y, In y l -> veq v y = false) -> without v l = l.
  Proof. induction l as [ | y l IH]; intros H; cbn [ObsSpec.without]; [reflexivity | ]. rewrite (H y) by (left; reflexivity). f_equal. apply IH. intros z Hz. apply H. right. exact Hz. Qed.
  Lemma veq_refl a : veq a a = true. Proof. apply HV. reflexivity. Qed.
  Lemma without_perm l v : In v l -> Permutation l (v :: without v l).
  Proof.
    induction l as [ | y l IH]; intros H; [destruct H | ]. cbn [ObsSpec.without]. destruct (veq v y) eqn:Q; [apply HV in Q; subst; reflexivity | ].
    destruct H as [-> | H]; [rewrite veq_refl in Q; discriminate | ]. rewrite (IH H) at 1. apply perm_swap.
  Qed.
  Lemma eqk_same a b c : eqk a b = true -> eqk a c = eqk b c. Proof. apply eqv_eqv, W. Qed.

  Lemma w_remove_first_values c k v : ndl c ->
    ndl (w_remove_first K V lt veq copied c k (Some v)) /\
    forall k', values (w_remove_first K V lt veq copied c k (Some v)) k' = if eqk k k' then without v (values c k') else values c k'.
  Proof.
    intros N. unfold w_remove_first. pose proof (m_remove_first_spec K E fst lt W (wanted K V veq (Some v)) (copied c) c k N) as H. destruct (find (wanted K V veq (Some v)) (cls c k)) as [x | ] eqn:F.
    - destruct H as (a & b & H1 & H2 & H3 & H4 & ->). split; [rewrite H1 in N; exact (nd_del K E fst lt a x b N) | ]. intros k'. rewrite H1. change (x :: b) with ([x] ++ b). rewrite !values_app. destruct x as [xk xv]. rewrite (values_cons xk xv []).
      cbn [fst] in H2. rewrite (eqk_same _ _ k' H2). destruct (eqk k k') eqn:Q; [ | reflexivity]. symmetry. apply (without_mid (values a k') xv (values b k') v); [ | exact H3].
      intros y Hy. apply in_map_iff in Hy. destruct Hy as ([yk yv] & <- & Hy). apply filter_In in Hy. destruct Hy as [Hy1 Hy2]. apply (H4 (yk, yv) Hy1). cbn [fst] in *.
      rewrite (eqv_sym K lt), (eqk_same k k' yk Q), (eqv_sym K lt). exact Hy2.
    - rewrite H. split; [exact N | ]. intros k'. destruct (eqk k k') eqn:Q; [ | reflexivity]. symmetry. apply without_none. intros y Hy. apply in_map_iff in Hy. destruct Hy as ([yk yv] & <- & Hy).
      apply (find_none _ _ F (yk, yv)). apply filter_In in Hy. destruct Hy as [Hy1 Hy2]. apply filter_In. split; [exact Hy1 | ]. cbn [fst] in *. rewrite (eqv_sym K lt), (eqk_same k k' yk Q), (eqv_sym K lt). exact Hy2.
  Qed.
  Definition take_all (vs l : list V) : list V := fold_left (fun l v => without v l) vs l.
  Lemma remove_each_values : forall l c x, ndl c -> m_agrees K V eqk x c -> (forall k, exists r, Permutation (values c k) (values l k ++ r)) ->
    let '(c', t, n) := mm_remove_each K V lt veq copied l c in
    mfol x t c' /\ ndl c' /\ n = length l /\ forall k, values c' k = take_all (values l k) (values c k).
  Proof.
    induction l as [ | [k v] l IH]; intros c x N A H; cbn [mm_remove_each].
    - split; [apply follows_nil; exact A | ]. auto.
    - destruct (w_remove_first_values c k v N) as [N1 G1]. set (c1 := w_remove_first K V lt veq copied c k (Some v)) in *.
      assert (Rk : eqk k k = true) by (apply eqv_refl, W).
      assert (A1 : m_agrees K V eqk (m_replay K V eqk veq x (Removed, k, v)) c1). { intros k'. cbn [m_replay]. rewrite G1, (A k'). reflexivity. }
      assert (Hin : forall k', eqk k k' = true -> In v (values c k')). { intros k' Q. destruct (H k') as [r Hr]. rewrite values_cons, Q in Hr. apply (Permutation_in v (Permutation_sym Hr)). left. reflexivity. }
      specialize (IH c1 (m_replay K V eqk veq x (Removed, k, v)) N1 A1). destruct (mm_remove_each K V lt veq copied l c1) as [[c2 t] n].
      destruct IH as (F & N2 & Hn & G2).
      { intros k'. destruct (H k') as [r Hr]. rewrite values_cons in Hr. rewrite G1. destruct (eqk k k') eqn:Q; [ | exists r; exact Hr]. exists r. apply (Permutation_cons_inv (a := v)). rewrite <- (without_perm (values c k') v) by (apply Hin; exact Q). exact Hr. }
      split; [ | split; [exact N2 | split; [cbn; lia | ]]].
      + apply follows_cons; [ | exact A1 | exact F]. cbn [m_honest]. rewrite (A k). apply Hin. exact Rk.
      + intros k'. rewrite G2, G1, values_cons. destruct (eqk k k'); reflexivity.
  Qed.
  Lemma covered c l r : Permutation c (l ++ r) -> forall k, exists r', Permutation (values c k) (values l k ++ r').
  Proof.
    intros P k. exists (values r k). rewrite <- values_app. unfold ObsSpec.values. apply Permutation_map. clear - P. induction P; cbn [filter].
    - reflexivity.
    - destruct (eqk (fst x) k); [constructor; exact IHP | exact IHP].
    - destruct (eqk (fst x) k), (eqk (fst y) k); try reflexivity. apply perm_swap.
    - etransitivity; eassumption.
  Qed.
  Lemma filter_perm {A} (p : A -> bool) l : Permutation l (filter p l ++ filter (fun x => negb (p x)) l).
  Proof. induction l as [ | x l IH]; [reflexivity | ]. cbn [filter]. destruct (p x); cbn [negb app]; [constructor; exact IH | ]. rewrite IH at 1. apply Permutation_middle. Qed.
  Lemma while_key_class c k : ndl c -> while_key K V lt k (m_find K E fst lt c k) = cls c k.
  Proof.
    intros N. destruct (m_reads K E fst lt W c k N) as (_ & _ & _ & ->). destruct (three K E fst lt W c k N) as (El & _ & _). destruct (cls c k) as [ | x r] eqn:C; [reflexivity | ].
    assert (Hf : from K E fst lt c k = cls c k ++ filter (fun e => lt k (fst e)) c).
    { destruct (lb_split K E fst lt W c k N) as [L1 L2]. destruct (three K E fst lt W c k N) as (El2 & L & _). rewrite <- L2, L. rewrite El2 at 2. rewrite skipn_app, skipn_all, Nat.sub_diag. reflexivity. }
    rewrite Hf. rewrite <- C. assert (G : forall a b, (forall e, In e a -> eqk (fst e) k = true) -> (forall e, In e b -> lt k (fst e) = true) -> while_key K V lt k (a ++ b) = a).
    { induction a as [ | e a IHa]; intros b Ha Hb; cbn [app while_key].
      - destruct b as [ | e b]; [reflexivity | ]. cbn [while_key]. rewrite (Hb e) by (left; reflexivity). rewrite orb_true_r. reflexivity.
      - pose proof (Ha e (or_introl eq_refl)) as He. apply eqv_iff in He. destruct He as [-> ->]. cbn [orb]. f_equal. apply IHa; [intros; apply Ha; right; assumption | exact Hb]. }
    apply G.
    - intros e He. apply filter_In in He. apply He.
    - intros e He. apply filter_In in He. apply He.
  Qed.
  Lemma mm_step_follows c o x : ndl c -> m_agrees K V eqk x c -> mfol x (snd (mm_step K V lt veq copied c o)) (fst (mm_step K V lt veq copied c o)) /\ ndl (fst (mm_step K V lt veq copied c o)).
  Proof.
    intros N A. destruct o as [k v | k v | k | pred | ]; cbn [mm_step].
    - unfold mm_add. cbn [fst snd]. destruct (m_add_spec K E fst lt W c (k, v) N) as (N1 & _ & G). split; [ | exact N1]. apply follows_one; [exact I | ]. intros k'. cbn [m_replay]. rewrite (A k'). unfold ObsSpec.values.
      change (filter (fun e => eqk (fst e) k') (m_add K E fst lt c (k, v))) with (cls (m_add K E fst lt c (k, v)) k'). rewrite G. cbn [fst]. destruct (eqk k k'); [ | reflexivity]. rewrite map_app. reflexivity.
    - unfold mm_remove_first. rewrite (proj1 (m_reads K E fst lt W c k N)). destruct (find (wanted K V veq v) (cls c k)) as [e | ] eqn:F; cbn [fst snd]; [ | split; [apply follows_nil; exact A | exact N]].
      destruct (w_remove_first_values c k (snd e) N) as [N1 G1]. split; [ | exact N1]. apply follows_one.
      + cbn [m_honest]. rewrite (A k). apply find_some in F. apply in_map_iff. exists e. split; [reflexivity | apply F].
      + intros k'. cbn [m_replay]. rewrite G1, (A k'). reflexivity.
    - unfold mm_remove_all. rewrite while_key_class by exact N. pose proof (remove_each_values (cls c k) c x N A (covered c _ _ (filter_perm (fun e => eqk (fst e) k) c))) as R.
      destruct (mm_remove_each K V lt veq copied (cls c k) c) as [[c' t] n]. cbn [fst snd]. destruct R as (R1 & R2 & _). split; assumption.
    - unfold mm_remove_where. pose proof (remove_each_values (filter pred c) c x N A (covered c _ _ (filter_perm pred c))) as R.
      destruct (mm_remove_each K V lt veq copied (filter pred c) c) as [[c' t] n]. cbn [fst snd]. destruct R as (R1 & R2 & _). split; assumption.
    - unfold mm_clear. assert (P : Permutation c (c ++ [])) by (rewrite app_nil_r; reflexivity). pose proof (remove_each_values c c x N A (covered c _ _ P)) as R.
      destruct (mm_remove_each K V lt veq copied c c) as [[c' t] n]. cbn [fst snd]. destruct R as (R1 & R2 & _). split; assumption.
  Qed.
  Lemma mm_run_grun l c : mm_run K V lt veq copied c l = grun _ _ _ (mm_step K V lt veq copied) c l.
  Proof. revert c. induction l as [ | o l IH]; intros c; [reflexivity | ]. cbn [mm_run grun]. destruct (mm_step K V lt veq copied c o) as [c1 t1]. rewrite IH. reflexivity. Qed.
  Lemma mm_populate_replay : forall l x,
    all_honest _ _ (m_honest K V) (m_replay K V eqk veq) x (mm_populate K V l) /\ forall k, replay_all _ _ (m_replay K V eqk veq) x (mm_populate K V l) k = x k ++ values l k.
  Proof.
    induction l as [ | [k v] l IH]; intros x; [split; [exact I | intros k; symmetry; apply app_nil_r] | ]. destruct (IH (m_replay K V eqk veq x (Added, k, v))) as [H1 H2]. split; [split; [exact I | exact H1] | ].
    intros k'. unfold replay_all in *. cbn [mm_populate map fold_left fst snd]. unfold mm_populate in H2. rewrite H2. cbn [m_replay]. rewrite values_cons. destruct (eqk k k'); [rewrite <- app_assoc; reflexivity | reflexivity].
  Qed.
  Lemma mm_observes c l : ndl c ->
    observes _ _ _ (m_honest K V) (m_replay K V eqk veq) (m_agrees K V eqk) m_empty (mm_populate K V c) c (snd (mm_run K V lt veq copied c l)) (fst (mm_run K V lt veq copied c l)) /\ ndl (fst (mm_run K V lt veq copied c l)).
  Proof.
    intros N. destruct (mm_populate_replay c m_empty) as [P1 P2]. rewrite mm_run_grun.
    destruct (run_follows _ _ _ _ (m_honest K V) (m_replay K V eqk veq) (m_agrees K V eqk) (mm_step K V lt veq copied) ndl mm_step_follows l c _ N P2) as [F1 F2]. split; [ | exact F2]. split; [exact P1 | ]. split; [exact P2 | exact F1].
  Qed.
  (** Results *)
  Lemma take_all_filter (p : V -> bool) l : take_all (filter p l) l = filter (fun v => negb (p v)) l.
  Proof.
    assert (G : forall vs x l, (forall v, In v vs -> veq v x = false) -> take_all vs (x :: l) = x :: take_all vs l).
    { induction vs as [ | v vs IH]; intros x l0 H; [reflexivity | ]. unfold take_all in *. cbn [fold_left ObsSpec.without]. rewrite (H v) by (left; reflexivity). apply IH. intros w Hw. apply H. right. exact Hw. }
    induction l as [ | x l IH]; [reflexivity | ]. cbn [filter]. destruct (p x) eqn:P; cbn [negb].
    - unfold take_all. cbn [fold_left ObsSpec.without]. rewrite veq_refl. exact IH.
    - rewrite G; [f_equal; exact IH | ]. intros v Hv. apply filter_In in Hv. destruct Hv as [_ Hv]. destruct (veq v x) eqn:Q; [ | reflexivity]. apply HV in Q. congruence.
  Qed.
  Lemma take_all_self l : take_all l l = [].
  Proof. pose proof (take_all_filter (fun _ => true) l) as H. replace (filter (fun _ : V => true) l) with l in H; [rewrite H; induction l; [reflexivity | assumption || (cbn; clear -l; induction l; auto)] | ]. clear. induction l as [ | x l IH]; [reflexivity | ]. cbn. f_equal. exact IH. Qed.
  Lemma values_filter (pred : E -> bool) c k : (forall a b, In a c -> eqk (fst a) k = true -> fst b = k -> snd b = snd a -> pred a = pred b) ->
    forall q : bool -> bool, values (filter (fun e => q (pred e)) c) k = filter (fun v => q (pred (k, v))) (values c k).
  Proof.
    intros H q. induction c as [ | [a v] c IH]; [reflexivity | ]. specialize (IH ltac:(intros; eapply H; eauto; right; assumption)). cbn [filter]. rewrite values_cons.
    destruct (eqk a k) eqn:Q.
    - rewrite (H (a, v) (k, v) ltac:(left; reflexivity) Q eq_refl eq_refl). destruct (q (pred (k, v))) eqn:P; cbn [filter]; rewrite P; [rewrite values_cons, Q, IH; reflexivity | exact IH].
    - destruct (q (pred (a, v))); [rewrite values_cons, Q | ]; exact IH.
  Qed.
  Lemma mm_results c k v : ndl c ->
    snd (mm_remove_first K V lt veq copied c k (Some v)) = existsb (veq v) (values c k) /\
    (forall v', snd (mm_remove_first K V lt veq copied c k v') = false -> fst (fst (mm_remove_first K V lt veq copied c k v')) = c) /\
    snd (mm_remove_first K V lt veq copied c k None) = (match values c k with [] => false | _ => true end) /\
    snd (mm_remove_all K V lt veq copied c k) = length (values c k) /\
    (forall k', values (fst (fst (mm_remove_all K V lt veq copied c k))) k' = if eqk k k' then [] else values c k') /\
    (forall pred, snd (mm_remove_where K V lt veq copied pred c) = length (filter pred c)) /\
    (forall pred, (forall a b, eqk (fst a) (fst b) = true -> snd a = snd b -> pred a = pred b) ->
       forall k', values (fst (fst (mm_remove_where K V lt veq copied pred c))) k' = values (filter (fun e => negb (pred e)) c) k').
  Proof.
    intros N. repeat apply conj.
    - unfold mm_remove_first. rewrite (proj1 (m_reads K E fst lt W c k N)). unfold ObsSpec.values. change (filter (fun e => eqk (fst e) k) c) with (cls c k). induction (cls c k) as [ | e l IH]; [reflexivity | ]. cbn [find map existsb wanted]. destruct (veq v (snd e)); [reflexivity | exact IH].
    - intros v' H. unfold mm_remove_first in *. destruct (find (wanted K V veq v') (m_range K E fst lt c k)); [discriminate | reflexivity].
    - unfold mm_remove_first. rewrite (proj1 (m_reads K E fst lt W c k N)). unfold ObsSpec.values. change (filter (fun e => eqk (fst e) k) c) with (cls c k). destruct (cls c k); reflexivity.
    - unfold mm_remove_all. rewrite while_key_class by exact N. pose proof (remove_each_values (cls c k) c (values c) N (fun k => eq_refl) (covered c _ _ (filter_perm (fun e => eqk (fst e) k) c))) as R.
      destruct (mm_remove_each K V lt veq copied (cls c k) c) as [[c' t] n]. cbn [snd]. destruct R as (_ & _ & -> & _). unfold ObsSpec.values. rewrite map_length. reflexivity.
    - intros k'. unfold mm_remove_all. rewrite while_key_class by exact N. pose proof (remove_each_values (cls c k) c (values c) N (fun k => eq_refl) (covered c _ _ (filter_perm (fun e => eqk (fst e) k) c))) as R.
      destruct (mm_remove_each K V lt veq copied (cls c k) c) as [[c' t] n]. cbn [fst]. destruct R as (_ & _ & _ & G). rewrite G. unfold ObsSpec.values at 1. destruct (eqk k k') eqn:Q.
      + fold (cls (cls c k) k'). rewrite (cls_same K E fst lt W (cls c k) k k' Q). unfold class. replace (filter (fun e => eqk (fst e) k) (filter (fun e => eqk (fst e) k) c)) with (filter (fun e => eqk (fst e) k) c).
        * unfold ObsSpec.values. rewrite <- (cls_same K E fst lt W c k k' Q : filter (fun e => eqk (fst e) k') c = filter (fun e => eqk (fst e) k) c). apply take_all_self.
        * clear. induction c as [ | e c IH]; [reflexivity | ]. cbn [filter]. destruct (eqk (fst e) k) eqn:Q; [cbn [filter]; rewrite Q; f_equal; exact IH | exact IH].
      + fold (cls (cls c k) k'). rewrite (cls_other K E fst lt W c k k' Q). reflexivity.
    - intros pred. unfold mm_remove_where. pose proof (remove_each_values (filter pred c) c (values c) N (fun k => eq_refl) (covered c _ _ (filter_perm pred c))) as R.
      destruct (mm_remove_each K V lt veq copied (filter pred c) c) as [[c' t] n]. apply R.
    - intros pred Hp k'. unfold mm_remove_where. pose proof (remove_each_values (filter pred c) c (values c) N (fun k => eq_refl) (covered c _ _ (filter_perm pred c))) as R.
      destruct (mm_remove_each K V lt veq copied (filter pred c) c) as [[c' t] n]. cbn [fst]. destruct R as (_ & _ & _ & G). rewrite G.
      assert (Hv : forall q : bool -> bool, values (filter (fun e => q (pred e)) c) k' = filter (fun v => q (pred (k', v))) (values c k')).
      { apply values_filter. intros a b _ Ha Hb1 Hb2. apply Hp; [rewrite Hb1; exact Ha | symmetry; exact Hb2]. }
      rewrite (Hv negb). pose proof (Hv (fun b => b)) as Hid. change (values (filter pred c) k' = filter (fun v => pred (k', v)) (values c k')) in Hid. rewrite Hid. apply take_all_filter.
  Qed.
End multi.

Section multiset.
  Variable K : Type.
  Variable lt : K -> K -> bool.
  Hypothesis W : swo lt.
  Variable copied : list K -> bool.
  Notation id := (fun x : K => x).
  Notation eqk := (eqv lt). Notation count := (count K eqk). Notation ndl := (nd K K id lt).
  Notation mfol := (follows (op * K) (K -> nat) (list K) (ms_honest K) (ms_replay K eqk) (ms_agrees K eqk)).
  Lemma count_class l k : count l k = length (class K K id lt l k). Proof. reflexivity. Qed.
  Lemma count_app a b k : count (a ++ b) k = count a k + count b k.
  Proof. unfold ObsSpec.count. rewrite filter_app, app_length. reflexivity. Qed.
  Lemma count_cons x l k : count (x :: l) k = (if eqk x k then 1 else 0) + count l k.
  Proof. unfold ObsSpec.count. cbn [filter]. destruct (eqk x k); reflexivity. Qed.
  Lemma eqk_same' a b c : eqk a b = true -> eqk a c = eqk b c. Proof. apply eqv_eqv, W. Qed.
  Lemma remove_first_count c k : ndl c ->
    match ms_remove_first K K id lt (copied c) c k with
    | Some c' => count c k > 0 /\ ndl c' /\ forall k', count c' k' = if eqk k k' then count c k' - 1 else count c k'
    | None => count c k = 0
    end.
  Proof.
    intros N. pose proof (ms_remove_first_spec K K id lt W (copied c) c k N) as H. rewrite count_class. destruct (class K K id lt c k) as [ | x r] eqn:C; [rewrite H; reflexivity | ]. destruct H as (a & b & H1 & -> & _).
    split; [cbn; lia | ]. split; [rewrite H1 in N; exact (nd_del K K id lt a x b N) | ]. intros k'. rewrite H1. change (x :: b) with ([x] ++ b). rewrite !count_app, count_cons. apply (cls_head K K id lt k c x r) in C.
    rewrite (eqk_same' x k k' C). assert (Z : count [] k' = 0) by reflexivity. destruct (eqk k k'); lia.
  Qed.
  Lemma ms_remove_each_count : forall l c x, ndl c -> ms_agrees K eqk x c -> (forall k, count l k <= count c k) ->
    let '(c', t, n) := ms_remove_each K lt copied l c in
    mfol x t c' /\ ndl c' /\ n = length l /\ forall k, count c' k = count c k - count l k.
  Proof.
    induction l as [ | k l IH]; intros c x N A H; cbn [ms_remove_each].
    - split; [apply follows_nil; exact A | ]. repeat split; auto. intros k. unfold ObsSpec.count at 3. cbn. lia.
    - pose proof (remove_first_count c k N) as R. assert (Rk : eqk k k = true) by (apply eqv_refl, W). pose proof (H k) as Hk. rewrite count_cons, Rk in Hk.
      destruct (ms_remove_first K K id lt (copied c) c k) as [c1 | ]; [ | lia]. destruct R as (R1 & N1 & G1).
      assert (A1 : ms_agrees K eqk (ms_replay K eqk x (Removed, k)) c1). { intros k'. unfold ms_replay. cbn [fst snd]. rewrite G1, (A k'). reflexivity. }
      specialize (IH c1 (ms_replay K eqk x (Removed, k)) N1 A1). destruct (ms_remove_each K lt copied l c1) as [[c2 t] n]. destruct IH as (F & N2 & Hn & G2).
      { intros k'. pose proof (H k') as Hk'. rewrite count_cons in Hk'. rewrite G1. destruct (eqk k k'); lia. }
      split; [ | split; [exact N2 | split; [cbn; lia | ]]].
      + apply follows_cons; [ | exact A1 | exact F]. unfold ms_honest. cbn [fst snd]. rewrite (A k). exact R1.
      + intros k'. rewrite G2, G1, count_cons. destruct (eqk k k'); lia.
  Qed.
  Lemma count_filter p l k : count (filter p l) k + count (filter (fun e => negb (p e)) l) k = count l k.
  Proof. induction l as [ | x l IH]; [reflexivity | ]. cbn [filter]. rewrite count_cons. destruct (p x); cbn [negb]; rewrite count_cons; lia. Qed.
  Lemma count_filter_le p l k : count (filter p l) k <= count l k.
  Proof. pose proof (count_filter p l k). lia. Qed.
  Lemma while_value_class c k : ndl c -> while_value K lt k (m_find K K id lt c k) = class K K id lt c k.
  Proof.
    intros N. destruct (m_reads K K id lt W c k N) as (_ & _ & _ & ->). destruct (class K K id lt c k) as [ | x r] eqn:C; [reflexivity | ].
    assert (Hf : from K K id lt c k = class K K id lt c k ++ filter (fun e => lt k e) c).
    { destruct (lb_split K K id lt W c k N) as [L1 L2]. destruct (three K K id lt W c k N) as (El2 & L & _). rewrite <- L2, L. rewrite El2 at 2. rewrite skipn_app, skipn_all, Nat.sub_diag. reflexivity. }
    rewrite Hf. rewrite <- C. assert (G : forall a b, (forall e, In e a -> eqk e k = true) -> (forall e, In e b -> lt k e = true) -> while_value K lt k (a ++ b) = a).
    { induction a as [ | e a IHa]; intros b Ha Hb; cbn [app while_value].
      - destruct b as [ | e b]; [reflexivity | ]. cbn [while_value]. rewrite (Hb e) by (left; reflexivity). rewrite orb_true_r. reflexivity.
      - pose proof (Ha e (or_introl eq_refl)) as He. apply eqv_iff in He. destruct He as [-> ->]. cbn [orb]. f_equal. apply IHa; [intros; apply Ha; right; assumption | exact Hb]. }
    apply G.
    - intros e He. apply filter_In in He. apply He.
    - intros e He. apply filter_In in He. apply He.
  Qed.
  Lemma mso_step_follows c o x : ndl c -> ms_agrees K eqk x c -> mfol x (snd (mso_step K lt copied c o)) (fst (mso_step K lt copied c o)) /\ ndl (fst (mso_step K lt copied c o)).
  Proof.
    intros N A. destruct o as [k | k | k | pred | ]; cbn [mso_step].
    - unfold ms_add. cbn [fst snd]. destruct (m_add_spec K K id lt W c k N) as (N1 & _ & G). split; [ | exact N1]. apply follows_one; [exact I | ]. intros k'. unfold ms_replay. cbn [fst snd]. rewrite (A k'), !count_class, G. cbv beta.
      destruct (eqk k k'); [rewrite app_length; cbn; lia | reflexivity].
    - unfold mso_remove_first. pose proof (remove_first_count c k N) as R. destruct (ms_remove_first K K id lt (copied c) c k) as [c1 | ]; cbn [fst snd]; [ | split; [apply follows_nil; exact A | exact N]]. destruct R as (R1 & N1 & G1).
      split; [ | exact N1]. apply follows_one; [unfold ms_honest; cbn [fst snd]; rewrite (A k); exact R1 | ]. intros k'. unfold ms_replay. cbn [fst snd]. rewrite G1, (A k'). reflexivity.
    - unfold mso_remove_all. rewrite while_value_class by exact N. pose proof (ms_remove_each_count (class K K id lt c k) c x N A) as R. destruct (ms_remove_each K lt copied (class K K id lt c k) c) as [[c' t] n]. cbn [fst snd].
      destruct R as (R1 & R2 & _); [ | split; assumption]. intros k'. apply (count_filter_le (fun e => eqk e k)).
    - unfold mso_remove_where. pose proof (ms_remove_each_count (filter pred c) c x N A) as R. destruct (ms_remove_each K lt copied (filter pred c) c) as [[c' t] n]. cbn [fst snd].
      destruct R as (R1 & R2 & _); [ | split; assumption]. intros k'. pose proof (count_filter pred c k'). lia.
    - unfold mso_clear. pose proof (ms_remove_each_count c c x N A) as R. destruct (ms_remove_each K lt copied c c) as [[c' t] n]. cbn [fst snd].
      destruct R as (R1 & R2 & _); [ | split; assumption]. intros k'. lia.
  Qed.
  Lemma mso_run_grun l c : mso_run K lt copied c l = grun _ _ _ (mso_step K lt copied) c l.
  Proof. revert c. induction l as [ | o l IH]; intros c; [reflexivity | ]. cbn [mso_run grun]. destruct (mso_step K lt copied c o) as [c1 t1]. rewrite IH. reflexivity. Qed.
  Lemma mso_populate_replay : forall l x,
    all_honest _ _ (ms_honest K) (ms_replay K eqk) x (mso_populate K l) /\ forall k, replay_all _ _ (ms_replay K eqk) x (mso_populate K l) k = x k + count l k.
  Proof.
    induction l as [ | k l IH]; intros x; [split; [exact I | intros k; change (x k = x k + 0); lia] | ]. destruct (IH (ms_replay K eqk x (Added, k))) as [H1 H2]. split; [split; [exact I | exact H1] | ].
    intros k'. unfold replay_all in *. unfold mso_populate in *. cbn [map fold_left]. rewrite H2. unfold ms_replay at 1. cbn [fst snd]. rewrite count_cons. destruct (eqk k k'); lia.
  Qed.
  Lemma mso_observes c l : ndl c ->
    observes _ _ _ (ms_honest K) (ms_replay K eqk) (ms_agrees K eqk) (fun _ => 0) (mso_populate K c) c (snd (mso_run K lt copied c l)) (fst (mso_run K lt copied c l)) /\ ndl (fst (mso_run K lt copied c l)).
  Proof.
    intros N. destruct (mso_populate_replay c (fun _ => 0)) as [P1 P2]. rewrite mso_run_grun.
    destruct (run_follows _ _ _ _ (ms_honest K) (ms_replay K eqk) (ms_agrees K eqk) (mso_step K lt copied) ndl mso_step_follows l c _ N P2) as [F1 F2]. split; [ | exact F2]. split; [exact P1 | ]. split; [exact P2 | exact F1].
  Qed.
  Lemma mso_results c k : ndl c ->
    snd (mso_remove_first K lt copied c k) = (match count c k with 0 => false | _ => true end) /\
    snd (mso_remove_all K lt copied c k) = count c k /\
    (forall k', count (fst (fst (mso_remove_all K lt copied c k))) k' = if eqk k k' then 0 else count c k') /\
    (forall pred, snd (mso_remove_where K lt copied pred c) = length (filter pred c)) /\
    (forall pred k', count (fst (fst (mso_remove_where K lt copied pred c))) k' = count (filter (fun e => negb (pred e)) c) k').
  Proof.
    intros N. repeat apply conj.
    - unfold mso_remove_first. pose proof (remove_first_count c k N) as R. destruct (ms_remove_first K K id lt (copied c) c k) as [c1 | ]; cbn [snd]; [destruct R as (R & _); destruct (count c k); [lia | reflexivity] | rewrite R; reflexivity].
    - unfold mso_remove_all. rewrite while_value_class by exact N. pose proof (ms_remove_each_count (class K K id lt c k) c (count c) N (fun k => eq_refl)) as R. destruct (ms_remove_each K lt copied (class K K id lt c k) c) as [[c' t] n]. cbn [snd].
      destruct R as (_ & _ & R & _); [ | exact R]. intros k'. apply (count_filter_le (fun e => eqk e k)).
    - intros k'. unfold mso_remove_all. rewrite while_value_class by exact N. pose proof (ms_remove_each_count (class K K id lt c k) c (count c) N (fun k => eq_refl)) as R. destruct (ms_remove_each K lt copied (class K K id lt c k) c) as [[c' t] n]. cbn [fst].
      destruct R as (_ & _ & _ & R). { intros k2. apply (count_filter_le (fun e => eqk e k)). } rewrite R. destruct (eqk k k') eqn:Q.
      + assert (count c k' <= count (class K K id lt c k) k'); [ | lia]. unfold ObsSpec.count, class. rewrite (cls_same K K id lt W c k k' Q : filter (fun e => eqk e k') c = filter (fun e => eqk e k) c).
        fold (class K K id lt (filter (fun e => eqk e k) c) k'). rewrite (cls_same K K id lt W _ k k' Q). unfold class. clear. induction c as [ | e c IH]; [reflexivity | ]. cbn [filter]. destruct (eqk e k) eqn:Q; [cbn [filter]; rewrite Q; cbn [length]; lia | exact IH].
      + rewrite (count_class (class K K id lt c k)), (cls_other K K id lt W c k k' Q). cbn. lia.
    - intros pred. unfold mso_remove_where. pose proof (ms_remove_each_count (filter pred c) c (count c) N (fun k => eq_refl)) as R. destruct (ms_remove_each K lt copied (filter pred c) c) as [[c' t] n]. cbn [snd].
      destruct R as (_ & _ & R & _); [ | exact R]. intros k'. pose proof (count_filter pred c k'). lia.
    - intros pred k'. unfold mso_remove_where. pose proof (ms_remove_each_count (filter pred c) c (count c) N (fun k => eq_refl)) as R. destruct (ms_remove_each K lt copied (filter pred c) c) as [[c' t] n]. cbn [fst].
      destruct R as (_ & _ & _ & R). { intros k2. pose proof (count_filter pred c k2). lia. } rewrite R. pose proof (count_filter pred c k'). lia.
  Qed.
End multiset.
