(** Proofs about the observable collections. *)
From Coq Require Import Permutation.
From Verif Require Import Base CollModel CollSpec CollProofs ObsModel ObsSpec.

(** Runs *)
Section faithful.
  Variables Ev O C Op : Type.
  Variable honest : O -> Ev -> Prop.
  Variable replay : O -> Ev -> O.
  Variable agrees : O -> C -> Prop.
  Notation follows := (follows Ev O C honest replay agrees). Notation replay_all := (replay_all Ev O replay).
  Lemma follows_app o t1 c1 t2 c2 : follows o t1 c1 -> follows (replay_all o (map fst t1)) t2 c2 -> follows o (t1 ++ t2) c2.
  Proof.
    intros [F1 _] [F2 A2]. split.
    - clear A2. revert o F1 F2. induction t1 as [ | [e c] t1 IH]; intros o F1 F2; [exact F2 | ]. destruct F1 as (H1 & H2 & H3). cbn [app faithful]. split; [exact H1 | ]. split; [exact H2 | ]. apply IH; [exact H3 | exact F2].
    - rewrite map_app. unfold replay_all. rewrite fold_left_app. exact A2.
  Qed.
  Lemma follows_one o e c : honest o e -> agrees (replay o e) c -> follows o [(e, c)] c.
  Proof. intros H A. split; [cbn; auto | exact A]. Qed.
  Lemma follows_nil o c : agrees o c -> follows o [] c.
  Proof. intros A. split; [exact I | exact A]. Qed.
  Lemma follows_cons o e c t c' : honest o e -> agrees (replay o e) c -> follows (replay o e) t c' -> follows o ((e, c) :: t) c'.
  Proof. intros H A F. apply (follows_app o [(e, c)] c t c'); [apply follows_one; assumption | exact F]. Qed.
  Variable step : C -> Op -> C * list (Ev * C).
  Fixpoint grun (c : C) (l : list Op) : C * list (Ev * C) :=
    match l with [] => (c, []) | o :: l' => let '(c1, t1) := step c o in let '(c2, t2) := grun c1 l' in (c2, t1 ++ t2) end.
  Variable inv : C -> Prop.
  Hypothesis Hstep : forall c o x, inv c -> agrees x c -> follows x (snd (step c o)) (fst (step c o)) /\ inv (fst (step c o)).
  Lemma run_follows : forall l c x, inv c -> agrees x c -> follows x (snd (grun c l)) (fst (grun c l)) /\ inv (fst (grun c l)).
  Proof.
    induction l as [ | o l IH]; intros c x I A; [split; [apply follows_nil; exact A | exact I] | ]. cbn [grun]. destruct (Hstep c o x I A) as [F1 I1]. destruct (step c o) as [c1 t1]. cbn [fst snd] in *.
    destruct (IH c1 (replay_all x (map fst t1)) I1 (proj2 F1)) as [F2 I2]. destruct (grun c1 l) as [c2 t2]. cbn [fst snd] in *. split; [eapply follows_app; eassumption | exact I2].
  Qed.
End faithful.

Definition equiv {K} (e : K -> K -> bool) : Prop := (forall a, e a a = true) /\ (forall a b, e a b = e b a) /\ (forall a b c, e a b = true -> e a c = e b c).
Lemma eqv_equiv {K} (lt : K -> K -> bool) : swo lt -> equiv (eqv lt).
Proof. intros W. split; [apply eqv_refl, W | ]. split; [apply eqv_sym | ]. intros a b c. apply eqv_eqv, W. Qed.
Fixpoint distinct {K E} (key : E -> K) (e : K -> K -> bool) (l : list E) : Prop :=
  match l with [] => True | x :: l' => (forall y, In y l' -> e (key x) (key y) = false) /\ distinct key e l' end.
Lemma distinct_filter {K E} (key : E -> K) e p l : distinct key e l -> distinct key e (filter p l).
Proof.
  induction l as [ | x l IH]; cbn [distinct filter]; [auto | ]. intros [H1 H2]. destruct (p x); [ | auto]. cbn [distinct]. split; [ | auto]. intros y Hy. apply filter_In in Hy. apply H1, Hy.
Qed.
Lemma find_filter {A} (p : A -> bool) l : find p l = hd_error (filter p l).
Proof. induction l as [ | x l IH]; [reflexivity | ]. cbn [find filter]. destruct (p x); [reflexivity | exact IH]. Qed.

(** Dictionaries *)
Section dict.
  Variables K V : Type.
  Variable eqk : K -> K -> bool.
  Hypothesis Q : equiv eqk.
  Notation assoc := (assoc K V eqk).
  Lemma assoc_eqv l a b : eqk a b = true -> assoc l a = assoc l b.
  Proof.
    intros H. unfold ObsSpec.assoc. f_equal. induction l as [ | x l IH]; [reflexivity | ]. cbn [find]. destruct Q as (_ & S & T). rewrite (S (fst x) a), (T a b (fst x) H), (S b (fst x)), IH. reflexivity.
  Qed.
  Lemma assoc_in l k v : distinct fst eqk l -> In (k, v) l -> assoc l k = Some v.
  Proof.
    unfold ObsSpec.assoc. induction l as [ | x l IH]; intros D H; [destruct H | ]. cbn [find]. destruct D as [D1 D2]. destruct H as [-> | H].
    - cbn [fst]. destruct Q as (R & _). rewrite R. reflexivity.
    - rewrite (D1 (k, v) H : eqk (fst x) k = false). apply IH; assumption.
  Qed.
  Lemma assoc_none l k : assoc l k = None <-> forall e, In e l -> eqk (fst e) k = false.
  Proof.
    unfold ObsSpec.assoc. induction l as [ | x l IH]; cbn [find]; [split; [intros _ e [] | reflexivity] | ]. destruct (eqk (fst x) k) eqn:E; cbn.
    - split; [discriminate | ]. intros H. rewrite (H x) in E by (left; reflexivity). discriminate.
    - rewrite IH. split; [intros H e [<- | He]; auto | intros H e He; apply H; right; exact He].
  Qed.

  Variable C : Type.
  Variable elems : C -> list (K * V).
  Variable w_get : C -> K -> option V.
  Variable w_add : C -> K -> V -> option C.
  Variable w_set : C -> K -> V -> C.
  Variable w_remove : C -> K -> option C.
  Variable inv : C -> Prop.
  Definition dict_laws : Prop :=
    (forall c, inv c -> distinct fst eqk (elems c)) /\
    (forall c k, inv c -> w_get c k = assoc (elems c) k) /\
    (forall c k v, inv c -> match assoc (elems c) k with
       | Some _ => w_add c k v = None
       | None => exists c', w_add c k v = Some c' /\ inv c' /\ forall k', assoc (elems c') k' = if eqk k k' then Some v else assoc (elems c) k' end) /\
    (forall c k v, inv c -> inv (w_set c k v) /\ forall k', assoc (elems (w_set c k v)) k' = if eqk k k' then Some v else assoc (elems c) k') /\
    (forall c k, inv c -> match assoc (elems c) k with
       | None => w_remove c k = None
       | Some _ => exists c', w_remove c k = Some c' /\ inv c' /\ forall k', assoc (elems c') k' = if eqk k k' then None else assoc (elems c) k' end).
  Hypothesis L : dict_laws.
  Notation agr := (fun o c => d_agrees K V eqk o (elems c)).
  Notation dfol := (follows (op * K * V) (dcopy K V) C (d_honest K V) (d_replay K V eqk) agr).

  Lemma remove_each_follows : forall l c x, inv c -> agr x c -> distinct fst eqk l -> (forall e, In e l -> assoc (elems c) (fst e) = Some (snd e)) ->
    let '(c', t, n) := d_remove_each K V C w_remove l c in
    dfol x t c' /\ inv c' /\ n = length l /\ forall k, assoc (elems c') k = match assoc l k with Some _ => None | None => assoc (elems c) k end.
  Proof.
    induction l as [ | [k v] l IH]; intros c x I A D H; cbn [d_remove_each].
    - split; [apply follows_nil; exact A | ]. auto.
    - destruct L as (_ & _ & _ & _ & LR). specialize (LR c k I). rewrite (H (k, v) (or_introl eq_refl) : assoc (elems c) k = Some v) in LR. destruct LR as (c1 & E1 & I1 & G1). rewrite E1.
      destruct D as [D1 D2]. cbn [fst] in D1.
      assert (A1 : agr (d_replay K V eqk x (Removed, k, v)) c1). { intros k'. cbn [d_replay]. rewrite G1, A. reflexivity. }
      specialize (IH c1 (d_replay K V eqk x (Removed, k, v)) I1 A1 D2). destruct (d_remove_each K V C w_remove l c1) as [[c2 t] n].
      destruct IH as (F & I2 & Hn & G2). { intros e He. rewrite G1, (D1 e He). apply H. right. exact He. }
      split; [ | split; [exact I2 | split; [cbn; lia | ]]].
      + apply follows_cons; [ | exact A1 | exact F]. cbn [d_honest]. rewrite A. exact (H (k, v) (or_introl eq_refl)).
      + intros k'. rewrite G2, G1. unfold ObsSpec.assoc at 3. cbn [find fst]. destruct (eqk k k') eqn:E; cbn [option_map]; [ | reflexivity]. destruct (assoc l k'); reflexivity.
  Qed.
  Lemma d_step_follows c o x : inv c -> agr x c -> dfol x (snd (d_step K V C elems w_get w_add w_set w_remove c o)) (fst (d_step K V C elems w_get w_add w_set w_remove c o)) /\ inv (fst (d_step K V C elems w_get w_add w_set w_remove c o)).
  Proof.
    intros I A. pose proof L as (LU & LG & LA & LS & LR). destruct o as [k v | k v | k | pred | ]; cbn [d_step].
    - unfold d_add. specialize (LA c k v I). destruct (assoc (elems c) k) eqn:E; [rewrite LA; split; [apply follows_nil; exact A | exact I] | ]. destruct LA as (c' & -> & I' & G). cbn [fst snd].
      split; [ | exact I']. apply follows_one; [cbn; rewrite A; exact E | ]. intros k'. cbn. rewrite G, A. reflexivity.
    - unfold d_set. rewrite (LG c k I). destruct (LS c k v I) as [I' G]. cbn [fst snd]. split; [ | exact I']. apply follows_one; [cbn | intros k'; cbn; rewrite G, A; destruct (assoc (elems c) k); reflexivity].
      destruct (assoc (elems c) k) eqn:E; [exists v0 | ]; rewrite A; exact E.
    - unfold d_remove. rewrite (LG c k I). specialize (LR c k I). destruct (assoc (elems c) k) eqn:E; [ | split; [apply follows_nil; exact A | exact I]]. destruct LR as (c' & -> & I' & G). cbn [fst snd].
      split; [ | exact I']. apply follows_one; [cbn; rewrite A; exact E | ]. intros k'. cbn. rewrite G, A. reflexivity.
    - unfold d_remove_where. pose proof (remove_each_follows (filter pred (elems c)) c x I A) as R. destruct (d_remove_each K V C w_remove (filter pred (elems c)) c) as [[c' t] n]. cbn [fst snd].
      destruct R as (R1 & R2 & _); [apply distinct_filter, LU, I | | split; assumption]. intros [k v] He. apply filter_In in He. apply assoc_in; [apply LU, I | apply He].
    - unfold d_clear. pose proof (remove_each_follows (elems c) c x I A) as R. destruct (d_remove_each K V C w_remove (elems c) c) as [[c' t] n]. cbn [fst snd].
      destruct R as (R1 & R2 & _); [apply LU, I | | split; assumption]. intros [k v] He. apply assoc_in; [apply LU, I | exact He].
  Qed.
  Lemma d_run_grun l c : d_run K V C elems w_get w_add w_set w_remove c l = grun _ _ _ (d_step K V C elems w_get w_add w_set w_remove) c l.
  Proof. revert c. induction l as [ | o l IH]; intros c; [reflexivity | ]. cbn [d_run grun]. destruct (d_step K V C elems w_get w_add w_set w_remove c o) as [c1 t1]. rewrite IH. reflexivity. Qed.
  (** the populator *)
  Lemma populate_replay : forall l, distinct fst eqk l -> forall x, (forall e, In e l -> x (fst e) = None) ->
    all_honest _ _ (d_honest K V) (d_replay K V eqk) x (map (fun e => (Added, fst e, snd e)) l) /\
    forall k, replay_all _ _ (d_replay K V eqk) x (map (fun e => (Added, fst e, snd e)) l) k = match assoc l k with Some v => Some v | None => x k end.
  Proof.
    induction l as [ | [k v] l IH]; intros D x H; [split; [exact I | reflexivity] | ]. destruct D as [D1 D2]. cbn [map all_honest fst snd].
    destruct (IH D2 (d_replay K V eqk x (Added, k, v))) as [H1 H2]. { intros e He. cbn. rewrite (D1 e He : eqk k (fst e) = false). apply H. right. exact He. }
    split; [split; [exact (H (k, v) (or_introl eq_refl)) | exact H1] | ]. intros k'. unfold replay_all in *. cbn [fold_left]. rewrite H2. cbn [d_replay]. unfold ObsSpec.assoc at 2. cbn [find fst].
    destruct (assoc l k') eqn:E.
    - destruct (eqk k k') eqn:Ek; cbn [option_map snd]; [ | unfold ObsSpec.assoc in E; rewrite E; reflexivity]. exfalso.
      unfold ObsSpec.assoc in E. destruct (find (fun e => eqk (fst e) k') l) as [e | ] eqn:F; [ | discriminate]. apply find_some in F. destruct F as [F1 F2]. specialize (D1 e F1). cbn [fst] in D1.
      destruct Q as (_ & S & T). rewrite (T k k' (fst e) Ek), S, F2 in D1. discriminate.
    - destruct (eqk k k') eqn:Ek; cbn [option_map snd]; [reflexivity | ]. unfold ObsSpec.assoc in E. rewrite E. reflexivity.
  Qed.
  Lemma d_observes c l : inv c ->
    observes _ _ _ (d_honest K V) (d_replay K V eqk) agr d_empty (d_populate K V C elems c) c (snd (d_run K V C elems w_get w_add w_set w_remove c l)) (fst (d_run K V C elems w_get w_add w_set w_remove c l)) /\
    inv (fst (d_run K V C elems w_get w_add w_set w_remove c l)).
  Proof.
    intros I. destruct (populate_replay (elems c) (proj1 L c I) d_empty) as [P1 P2]; [reflexivity | ].
    assert (A : agr (replay_all _ _ (d_replay K V eqk) d_empty (d_populate K V C elems c)) c). { intros k. unfold d_populate. rewrite P2. destruct (assoc (elems c) k); reflexivity. }
    rewrite d_run_grun. destruct (run_follows _ _ _ _ (d_honest K V) (d_replay K V eqk) agr (d_step K V C elems w_get w_add w_set w_remove) inv d_step_follows l c _ I A) as [F1 F2].
    split; [ | exact F2]. split; [exact P1 | ]. split; [exact A | exact F1].
  Qed.
  (** Results *)
  Lemma d_results c k v : inv c ->
    snd (d_add K V C w_add c k v) = (match assoc (elems c) k with Some _ => false | None => true end) /\
    snd (d_remove K V C w_get w_remove c k) = (match assoc (elems c) k with Some _ => true | None => false end) /\
    forall pred, snd (d_remove_where K V C elems w_remove pred c) = length (filter pred (elems c)) /\
      forall k', assoc (elems (fst (fst (d_remove_where K V C elems w_remove pred c)))) k' = assoc (filter (fun e => negb (pred e)) (elems c)) k'.
  Proof.
    intros I. pose proof L as (LU & LG & LA & LS & LR). split; [ | split].
    - unfold d_add. specialize (LA c k v I). destruct (assoc (elems c) k); [rewrite LA; reflexivity | ]. destruct LA as (c' & -> & _). reflexivity.
    - unfold d_remove. rewrite (LG c k I). destruct (assoc (elems c) k); reflexivity.
    - intros pred. unfold d_remove_where. pose proof (remove_each_follows (filter pred (elems c)) c (assoc (elems c)) I) as R. destruct (d_remove_each K V C w_remove (filter pred (elems c)) c) as [[c' t] n].
      destruct R as (_ & _ & Hn & G); [intros k'; reflexivity | apply distinct_filter, LU, I | | ]. { intros [k1 v1] He. apply filter_In in He. apply assoc_in; [apply LU, I | apply He]. }
      cbn [fst snd]. split; [exact Hn | ]. intros k'. rewrite G. pose proof (LU c I) as D. clear - D Q. induction (elems c) as [ | [a b] l IH]; [reflexivity | ]. destruct D as [D1 D2]. specialize (IH D2). cbn [filter].
      unfold ObsSpec.assoc in *. destruct (pred (a, b)) eqn:P; cbn [negb]; cbn [find fst].
      + destruct (eqk a k') eqn:E; cbn [option_map]; [ | exact IH]. symmetry. change (assoc (filter (fun e => negb (pred e)) l) k' = None). apply assoc_none. intros e He. apply filter_In in He.
        specialize (D1 e (proj1 He)). cbn [fst] in D1. destruct Q as (_ & S & T). rewrite S, <- (T a k' (fst e) E). exact D1.
      + destruct (eqk a k') eqn:E; cbn [option_map snd]; [ | exact IH]. replace (option_map snd (find (fun e => eqk (fst e) k') (filter pred l))) with (@None V); [reflexivity | ].
        symmetry. change (assoc (filter pred l) k' = None). apply assoc_none. intros e He. apply filter_In in He.
        specialize (D1 e (proj1 He)). cbn [fst] in D1. destruct Q as (_ & S & T). rewrite S, <- (T a k' (fst e) E). exact D1.
  Qed.
  (** Key values *)
  Section kv.
    Variables N : Type.
    Variable some : V -> N.
    Variable null : N.
    Definition nz (o : option V) : N := match o with Some v => some v | None => null end.
    Lemma kv_seen_replay comparer key : (forall k, comparer key k = eqk k key) -> forall l x, kv_seen K V N some null comparer key (nz (x key)) l = nz (replay_all _ _ (d_replay K V eqk) x l key).
    Proof.
      intros Hc. induction l as [ | [[o k] v] l IH]; intros x; [reflexivity | ]. unfold kv_seen, replay_all in *. cbn [fold_left]. rewrite <- IH. f_equal. cbn [kv_on d_replay]. rewrite Hc. destruct (eqk k key), o; reflexivity.
    Qed.
    Lemma kv_follows comparer key c l : (forall k, comparer key k = eqk k key) -> inv c ->
      kv_seen K V N some null comparer key (kv_get K V C w_get N some null key c) (map fst (snd (d_run K V C elems w_get w_add w_set w_remove c l))) = kv_get K V C w_get N some null key (fst (d_run K V C elems w_get w_add w_set w_remove c l)).
    Proof.
      intros Hc I. rewrite d_run_grun.
      destruct (run_follows _ _ _ _ (d_honest K V) (d_replay K V eqk) agr (d_step K V C elems w_get w_add w_set w_remove) inv d_step_follows l c (assoc (elems c)) I ltac:(intros k; reflexivity)) as [[F1 F2] I2].
      unfold kv_get. pose proof L as (_ & LG & _). rewrite !LG by assumption. rewrite <- F2. apply (kv_seen_replay comparer key Hc).
    Qed.
    Lemma kv_set_get (get : N -> option V) key c n : inv c -> (forall v, get n = Some v -> some v = n) -> (get n = None -> n = null) ->
      kv_get K V C w_get N some null key (fst (kv_set K V C w_get w_set w_remove N get key c n)) = n.
    Proof.
      intros I H1 H2. pose proof L as (_ & LG & _ & LS & LR). unfold kv_set, kv_get. destruct Q as (R & _). destruct (get n) as [v | ].
      - unfold d_set. cbn [fst]. destruct (LS c key v I) as [I' G]. rewrite LG, G, R by assumption. apply H1. reflexivity.
      - unfold d_remove. rewrite (LG c key I). specialize (LR c key I). destruct (assoc (elems c) key) eqn:E; cbn [fst].
        + destruct LR as (c' & -> & I' & G). rewrite LG, G, R by assumption. symmetry. auto.
        + rewrite LG, E by assumption. symmetry. auto.
    Qed.
  End kv.
End dict.

(** The two wrapped dictionaries obey the laws. *)
Section instances.
  Variables K V : Type.
  Section sorted.
    Variable lt : K -> K -> bool.
    Hypothesis W : swo lt.
    Notation E := (K * V)%type.
    Lemma assoc_lookup l k : assoc K V (eqv lt) l k = option_map snd (lookup K E fst lt l k).
    Proof. unfold assoc, lookup, class. rewrite find_filter. reflexivity. Qed.
    Lemma inc_distinct {E'} (key : E' -> K) l : inc K E' key lt l -> distinct key (eqv lt) l.
    Proof.
      induction l as [ | x l IH]; cbn [inc distinct]; [auto | ]. intros [H1 H2]. split; [ | auto]. rewrite Forall_forall in H1. intros y Hy. unfold eqv. rewrite (H1 y Hy). reflexivity.
    Qed.
    Lemma sorted_laws copied : dict_laws K V (eqv lt) (list E) (fun l => l) (s_get K V lt) (s_add K V lt copied) (s_set K V lt) (s_remove K V lt copied) (inc K E fst lt).
    Proof.
      split; [apply inc_distinct | ]. split; [ | split; [ | split]].
      - intros c k I. unfold s_get. rewrite find_elem_spec by (try apply inc_nd; assumption). symmetry. apply assoc_lookup.
      - intros c k v I. pose proof (u_add_spec K E fst lt W (copied c) c (k, v) I) as H. cbn [fst] in H. rewrite assoc_lookup. unfold lookup. destruct (class K E fst lt c k); cbn [hd_error option_map]; [ | exact H].
        destruct H as (l' & H1 & H2 & _ & H3). exists l'. split; [exact H1 | ]. split; [exact H2 | ]. intros k'. rewrite !assoc_lookup. unfold lookup. rewrite H3. destruct (eqv lt k k'); reflexivity.
      - intros c k v I. destruct (u_set_spec K E fst lt W (fun a b => (fst a, snd b)) c (k, v) I) as [H1 H2]; [reflexivity | ]. split; [exact H1 | ]. intros k'. rewrite !assoc_lookup. unfold lookup, s_set. rewrite H2. cbn [fst].
        destruct (eqv lt k k'); [ | reflexivity]. cbn [hd_error option_map]. destruct (class K E fst lt c k); reflexivity.
      - intros c k I. pose proof (u_remove_spec K E fst lt W (copied c) c k I) as H. rewrite assoc_lookup. unfold lookup. destruct (class K E fst lt c k); cbn [hd_error option_map]; [exact H | ].
        destruct H as (l' & H1 & H2 & _ & H3). exists l'. split; [exact H1 | ]. split; [exact H2 | ]. intros k'. rewrite !assoc_lookup. unfold lookup. rewrite H3. destruct (eqv lt k k'); reflexivity.
    Qed.
  End sorted.
  Section ordered.
    Variable eqk : K -> K -> bool.
    Hypothesis Q : equiv eqk.
    Notation assoc := (assoc K V eqk).
    Lemma assoc_app a b k : assoc (a ++ b) k = match assoc a k with Some v => Some v | None => assoc b k end.
    Proof. unfold ObsSpec.assoc. induction a as [ | x a IH]; [reflexivity | ]. cbn [app find]. destruct (eqk (fst x) k); [reflexivity | exact IH]. Qed.
    Lemma distinct_snoc (l : list (K * V)) k v : distinct fst eqk l -> assoc l k = None -> distinct fst eqk (l ++ [(k, v)]).
    Proof.
      intros D H. pose proof (proj1 (assoc_none K V eqk l k) H) as H'. clear H. rename H' into H. induction l as [ | x l IH]; cbn [app distinct]; [split; [intros y [] | exact I] | ]. destruct D as [D1 D2]. split.
      - intros y Hy. apply in_app_or in Hy. destruct Hy as [Hy | [<- | []]]; [auto | ]. apply H. left. reflexivity.
      - apply IH; [exact D2 | ]. intros e He. apply H. right. exact He.
    Qed.
    Lemma find_assoc l k : match find (fun e => eqk (fst e) k) l with Some _ => exists v, assoc l k = Some v | None => assoc l k = None end.
    Proof. unfold ObsSpec.assoc. destruct (find (fun e => eqk (fst e) k) l); cbn; eauto. Qed.
    Lemma ordered_laws : dict_laws K V eqk (list (K * V)) (fun l => l) (o_get K V eqk) (o_add K V eqk) (o_set K V eqk) (o_remove K V eqk) (distinct fst eqk).
    Proof.
      pose proof Q as (R & S & T). split; [auto | ]. split; [reflexivity | ]. split; [ | split].
      - intros c k v D. unfold o_add. pose proof (find_assoc c k) as F. destruct (find (fun e => eqk (fst e) k) c); [destruct F as [v' ->]; reflexivity | ]. rewrite F.
        exists (c ++ [(k, v)]). split; [reflexivity | ]. split; [apply distinct_snoc; assumption | ]. intros k'. rewrite assoc_app. unfold ObsSpec.assoc at 2. cbn [find fst].
        destruct (eqk k k') eqn:E; cbn [option_map snd].
        + rewrite <- (assoc_eqv K V eqk Q c k k' E), F. reflexivity.
        + destruct (assoc c k'); reflexivity.
      - intros c k v D. unfold o_set. pose proof (find_assoc c k) as F. destruct (find (fun e => eqk (fst e) k) c) eqn:Fd.
        + split.
          * clear F Fd. induction c as [ | x c IH]; [exact I | ]. destruct D as [D1 D2]. cbn [map distinct]. split; [ | auto]. intros y Hy. apply in_map_iff in Hy. destruct Hy as (z & <- & Hz).
            destruct (eqk (fst x) k), (eqk (fst z) k); cbn [fst]; apply D1; assumption.
          * intros k'. unfold ObsSpec.assoc. clear F. assert (F : exists e, In e c /\ eqk (fst e) k = true) by (apply find_some in Fd; exists p; tauto). clear Fd.
            induction c as [ | x c IH]; [destruct F as (e & [] & _) | ]. destruct D as [D1 D2]. cbn [map find]. destruct (eqk (fst x) k) eqn:Ex; cbn [fst].
            -- rewrite (T _ _ k' Ex). destruct (eqk k k') eqn:E; [reflexivity | ]. f_equal. clear - D1 Ex T S. induction c as [ | y c IH]; [reflexivity | ]. cbn [map find].
               assert (Ey : eqk (fst y) k = false) by (rewrite S, <- (T (fst x) k (fst y) Ex); apply D1; left; reflexivity). rewrite Ey. rewrite IH; [reflexivity | ]. intros z Hz. apply D1. right. exact Hz.
            -- destruct F as (e & [<- | He] & Fe); [congruence | ]. specialize (IH D2 ltac:(exists e; auto)). destruct (eqk (fst x) k') eqn:Exk; [ | exact IH].
               destruct (eqk k k') eqn:E; [ | reflexivity]. rewrite (T _ _ k Exk), (S k' k), E in Ex. discriminate.
        + split; [apply distinct_snoc; assumption | ]. intros k'. rewrite assoc_app. unfold ObsSpec.assoc at 2. cbn [find fst]. destruct (eqk k k') eqn:E; cbn [option_map snd].
          * rewrite <- (assoc_eqv K V eqk Q c k k' E), F. reflexivity.
          * destruct (assoc c k'); reflexivity.
      - intros c k D. unfold o_remove. pose proof (find_assoc c k) as F. destruct (find (fun e => eqk (fst e) k) c); [destruct F as [v' ->] | rewrite F; reflexivity].
        eexists. split; [reflexivity | ]. split; [apply distinct_filter, D | ]. intros k'. unfold ObsSpec.assoc. clear D. induction c as [ | x c IH]; [destruct (eqk k k'); reflexivity | ]. cbn [filter].
        destruct (eqk (fst x) k) eqn:Ex; cbn [negb find].
        + rewrite (T _ _ k' Ex). destruct (eqk k k') eqn:E; [exact IH | ]. exact IH.
        + destruct (eqk (fst x) k') eqn:Exk; [ | exact IH]. destruct (eqk k k') eqn:E; [ | reflexivity]. exfalso. rewrite (S k k') in E. rewrite <- (T _ _ k Exk), Ex in E. discriminate.
    Qed.
  End ordered.
End instances.
