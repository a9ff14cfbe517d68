From Coq Require Import List Bool Arith Lia Sorting.Sorted.
From Verif Require Import TxEnumModel TxDictModel TxDictSpec ViewModel ViewSpec.
Import ListNotations.

(* observable *)
Lemma set_calls_ext {A} l : forall (P P' Q : A -> Prop), (forall x, P x <-> P' x) -> set_calls P l Q -> set_calls P' l Q.
Proof.
  induction l as [|[o a] l IH]; intros P P' Q E H; inversion H as [? ? E0 | ? ? ? ? N R | ? ? ? ? N R]; subst.
  - constructor. intros x. rewrite <- E. apply E0.
  - constructor; [rewrite <- E; exact N|]. refine (IH _ _ _ _ R). intros x. cbv beta. rewrite <- (E x). reflexivity.
  - constructor; [apply E, N|]. refine (IH _ _ _ _ R). intros x. cbv beta. rewrite <- (E x). reflexivity.
Qed.

Section Keys.
Variables K V : Type.
Variable klt : K -> K -> bool.
Variable cmp : K -> K -> bool.
Hypothesis klt_irrefl : forall a, klt a a = false.
Hypothesis klt_trans : forall a b c, klt a b = true -> klt b c = true -> klt a c = true.
Hypothesis klt_total : forall a b, klt a b = false -> klt b a = false -> a = b.
Hypothesis cmp_spec : forall a b, cmp a b = true <-> a = b.
Notation entry := (entry K V).
Notation e_op := (e_op K V). Notation e_key := (e_key K V).

Definition short (e : entry) : cop * K := (e_op e, e_key e).
Fixpoint collapse (d : list entry) : list (cop * K) :=
  match d with
  | [] => []
  | x :: r => match r with
              | [] => [short x]
              | y :: r' => if cmp (e_key x) (e_key y) then collapse r' else short x :: collapse r
              end
  end.

Definition good_ops (d : list entry) : Prop := forall e, In e d -> check_entry K V e = true.

Lemma before_same x y : entry_before klt x y -> cmp (e_key x) (e_key y) = true -> e_op x = OpRemoved /\ e_op y = OpAdded.
Proof.
  intros [H|(E & A & B)] C; [|split; assumption].
  apply cmp_spec in C. unfold ViewModel.e_key in C. rewrite C, klt_irrefl in H. discriminate.
Qed.

Lemma list2_ind (P : list entry -> Prop) :
  P [] -> (forall x, P [x]) -> (forall x y r, P r -> P (y :: r) -> P (x :: y :: r)) -> forall l, P l.
Proof.
  intros H0 H1 H2. assert (G : forall l, P l /\ forall x, P (x :: l)).
  { induction l as [|x l [A B]]; [split; auto|]. split; [apply B|]. intros z. apply H2; [exact A | apply B]. }
  intros l. apply G.
Qed.

Lemma run_collapse d : StronglySorted (entry_before klt) d -> good_ops d ->
  forall n, length d <= n -> match find_next K V cmp None d with Some s => drain K V cmp n s = Some (collapse d) | None => False end.
Proof.
  induction d as [|x|x y r IHr IHy] using list2_ind; intros S G n L.
  - cbn. now destruct n.
  - cbn [find_next]. rewrite (G x) by now left. cbn [find_next drain]. cbn [length] in L. destruct n as [|n]; [lia|].
    cbn [find_next]. destruct n; reflexivity.
  - assert (Cx : check_entry K V x = true) by (apply G; now left).
    assert (Cy : check_entry K V y = true) by (apply G; right; now left).
    inversion S as [|? ? S1 F1]; subst. inversion F1 as [|? ? B1 F2]; subst. inversion S1 as [|? ? S2 F3]; subst.
    cbn [find_next]. rewrite Cx. cbn [find_next]. rewrite Cy. cbn [collapse].
    destruct (cmp (e_key x) (e_key y)) eqn:E.
    + destruct (before_same _ _ B1 E) as [Ox Oy]. rewrite Ox, Oy. cbn [is_removed is_added andb].
      apply IHr; [exact S2 | intros e I; apply G; now right; right | cbn [length] in L; lia].
    + cbn [length] in L. destruct n as [|n]; [lia|]. cbn [drain].
      specialize (IHy S1 (fun e I => G e (or_intror I)) n ltac:(cbn [length]; lia)).
      destruct (find_next K V cmp None (y :: r)) as [s|]; [|contradiction]. rewrite IHy. reflexivity.
Qed.

Lemma keys_diff_collapse d : StronglySorted (entry_before klt) d -> good_ops d -> keys_diff K V cmp d = Some (collapse d).
Proof.
  intros S G. unfold keys_diff. pose proof (run_collapse d S G (length d) (le_n _)) as H.
  destruct (find_next K V cmp None d); [exact H | contradiction].
Qed.

(* keys of the entries after one that starts a new key are greater *)
Lemma later_greater x y r : StronglySorted (entry_before klt) (x :: y :: r) -> cmp (e_key x) (e_key y) = false ->
  Forall (fun z => klt (e_key x) (e_key z) = true) (y :: r).
Proof.
  intros S E. inversion S as [|? ? S1 F1]; subst. inversion F1 as [|? ? B1 F2]; subst. inversion S1 as [|? ? S2 F3]; subst.
  assert (Lxy : klt (e_key x) (e_key y) = true).
  { destruct B1 as [H|(Eq & _)]; [exact H|]. unfold ViewModel.e_key in E. rewrite Eq in E.
    rewrite (proj2 (cmp_spec _ _) eq_refl) in E. discriminate. }
  constructor; [exact Lxy|]. apply Forall_forall. intros z I.
  rewrite Forall_forall in F3. destruct (F3 z I) as [H|(Eq & _)]; [exact (klt_trans _ _ _ Lxy H)|].
  unfold ViewModel.e_key in *. now rewrite <- Eq.
Qed.
Lemma after_pair x y r : StronglySorted (entry_before klt) (x :: y :: r) -> cmp (e_key x) (e_key y) = true ->
  Forall (fun z => klt (e_key x) (e_key z) = true) r.
Proof.
  intros S E. inversion S as [|? ? S1 F1]; subst. inversion F1 as [|? ? B1 F2]; subst. inversion S1 as [|? ? S2 F3]; subst.
  destruct (before_same _ _ B1 E) as [Ox Oy]. apply cmp_spec in E.
  apply Forall_forall. intros z I. rewrite Forall_forall in F3. destruct (F3 z I) as [H|(_ & R & _)].
  - unfold ViewModel.e_key in *. now rewrite E.
  - unfold ViewModel.e_op in Oy. congruence.
Qed.

Lemma collapse_in d : StronglySorted (entry_before klt) d -> forall o k,
  In (o, k) (collapse d) <-> (exists v, In (o, (k, v)) d) /\ (forall o' v', In (o', (k, v')) d -> o' = o).
Proof.
  induction d as [|x|x y r IHr IHy] using list2_ind; intros S o k.
  - cbn. split; [intros [] | intros [[v []] _]].
  - cbn [collapse In]. destruct x as [ox [kx vx]]. unfold short, ViewModel.e_op, ViewModel.e_key. cbn [fst snd]. split.
    + intros [E|[]]. injection E as <- <-. split; [exists vx; now left|]. intros o' v' [E|[]]. now injection E.
    + intros [[v [E|[]]] _]. left. now injection E as <- <- _.
  - pose proof S as S0. inversion S as [|? ? S1 F1]; subst. inversion F1 as [|? ? B1 F2]; subst. inversion S1 as [|? ? S2 F3]; subst.
    cbn [collapse]. destruct (cmp (e_key x) (e_key y)) eqn:E.
    + rewrite (IHr S2). pose proof (after_pair _ _ _ S0 E) as G. rewrite Forall_forall in G.
      destruct (before_same _ _ B1 E) as [Ox Oy]. apply cmp_spec in E.
      destruct x as [ox [kx vx]], y as [oy [ky vy]]. unfold ViewModel.e_op, ViewModel.e_key in *. cbn [fst snd] in *. subst ox oy ky.
      assert (N : forall o v, ~ In (o, (kx, v)) r) by (intros o1 v1 I; apply G in I; cbn in I; rewrite klt_irrefl in I; discriminate).
      split.
      * intros [[v I] U]. split; [exists v; right; now right|]. intros o' v' [Q|[Q|Q]].
        -- injection Q as <- <- _. exfalso. exact (N _ _ I).
        -- injection Q as <- <- _. exfalso. exact (N _ _ I).
        -- exact (U _ _ Q).
      * intros [[v [Q|[Q|I]]] U].
        -- injection Q as <- <- _. specialize (U OpAdded vy (or_intror (or_introl eq_refl))). discriminate.
        -- injection Q as <- <- _. specialize (U OpRemoved vx (or_introl eq_refl)). discriminate.
        -- split; [exists v; exact I|]. intros o' v' Q. apply (U o' v'). right. now right.
    + pose proof (later_greater _ _ _ S0 E) as G. rewrite Forall_forall in G.
      change (In (o, k) (short x :: collapse (y :: r)) <-> (exists v, In (o, (k, v)) (x :: y :: r)) /\ (forall o' v', In (o', (k, v')) (x :: y :: r) -> o' = o)).
      destruct x as [ox [kx vx]]. unfold ViewModel.e_key in G. cbn [fst snd] in G.
      assert (N : forall o v, ~ In (o, (kx, v)) (y :: r)) by (intros o1 v1 I; apply G in I; cbn in I; rewrite klt_irrefl in I; discriminate).
      split.
      * intros [Q|I].
        -- unfold short, ViewModel.e_op, ViewModel.e_key in Q. cbn [fst snd] in Q. injection Q as <- <-. split; [exists vx; now left|].
           intros o' v' [Q|Q]; [now injection Q | exfalso; exact (N _ _ Q)].
        -- apply (IHy S1) in I as [[v I] U]. split; [exists v; now right|]. intros o' v' [Q|Q]; [|exact (U _ _ Q)].
           injection Q as <- <- _. exfalso. exact (N _ _ I).
      * intros [[v [Q|I]] U].
        -- left. unfold short, ViewModel.e_op, ViewModel.e_key. cbn [fst snd]. now injection Q as <- <- _.
        -- right. apply (IHy S1). split; [exists v; exact I|]. intros o' v' Q. apply (U o' v'). now right.
Qed.

Lemma collapse_sorted d : StronglySorted (entry_before klt) d -> StronglySorted (fun a b => klt (snd a) (snd b) = true) (collapse d).
Proof.
  induction d as [|x|x y r IHr IHy] using list2_ind; intros S.
  - constructor.
  - repeat constructor.
  - pose proof S as S0. inversion S as [|? ? S1 F1]; subst. inversion S1 as [|? ? S2 F3]; subst.
    cbn [collapse]. destruct (cmp (e_key x) (e_key y)) eqn:E; [exact (IHr S2)|].
    constructor; [exact (IHy S1)|]. pose proof (later_greater _ _ _ S0 E) as G. rewrite Forall_forall in G.
    apply Forall_forall. intros [o k] I. apply (collapse_in (y :: r) S1 o k) in I as [[v I] _]. apply G in I. exact I.
Qed.

Lemma exact_good c m d : exact_diff klt c m d -> good_ops d.
Proof.
  intros X [o kv] I. unfold check_entry, ViewModel.e_op. cbn [fst]. destruct o; try reflexivity.
  exfalso. exact (ed_updated X kv I).
Qed.

Lemma keys_of_exact c m d : exact_diff klt c m d ->
  exists kd, keys_diff K V cmp d = Some kd /\ exact_key_diff klt c m kd.
Proof.
  intros X. exists (collapse d). split; [apply keys_diff_collapse; [exact (ed_order X) | exact (exact_good _ _ _ X)]|].
  pose proof (collapse_in d (ed_order X)) as CI. constructor.
  - intros k. rewrite CI. unfold has_key. split.
    + intros [[v I] U]. apply (ed_added X) in I as [Hm Hc]. split; [congruence|]. intros Hk.
      destruct (c k) as [u|] eqn:Ec; [|congruence].
      assert (I : In (OpRemoved, (k, u)) d) by (apply (ed_removed X); split; [exact Ec | congruence]).
      specialize (U _ _ I). discriminate.
    + intros [Hm Hc]. destruct (m k) as [v|] eqn:Em; [|congruence].
      destruct (c k) as [u|] eqn:Ec; [exfalso; apply Hc; congruence|]. split.
      * exists v. apply (ed_added X). split; [exact Em | congruence].
      * intros o' v' I. destruct o'; [reflexivity | apply (ed_removed X) in I as [? _]; congruence | exfalso; exact (ed_updated X _ I)].
  - intros k. rewrite CI. unfold has_key. split.
    + intros [[v I] U]. apply (ed_removed X) in I as [Hc Hm]. split; [congruence|]. intros Hk.
      destruct (m k) as [u|] eqn:Em; [|congruence].
      assert (I : In (OpAdded, (k, u)) d) by (apply (ed_added X); split; [exact Em | congruence]).
      specialize (U _ _ I). discriminate.
    + intros [Hc Hm]. destruct (c k) as [v|] eqn:Ec; [|congruence].
      destruct (m k) as [u|] eqn:Em; [exfalso; apply Hm; congruence|]. split.
      * exists v. apply (ed_removed X). split; [exact Ec | congruence].
      * intros o' v' I. destruct o'; [apply (ed_added X) in I as [? _]; congruence | reflexivity | exfalso; exact (ed_updated X _ I)].
  - intros k I. apply CI in I as [[v I] _]. exact (ed_updated X _ I).
  - exact (collapse_sorted d (ed_order X)).
Qed.

Lemma history_map (P Q : sst K V -> op K V -> res K V -> Prop) : (forall s o r, P s o r -> Q s o r) ->
  forall ops s rs, history klt P s ops rs -> history klt Q s ops rs.
Proof.
  intros PQ. induction ops as [|o ops IH]; intros s rs H; destruct rs as [|r rs]; cbn [history] in *; auto.
  destruct H as [A B]. split; [apply PQ, A | apply IH, B].
Qed.

Lemma keys_calls c evs m : dict_calls cmp c evs m -> set_calls (has_key c) (keys_events K V evs) (has_key m).
Proof.
  induction 1; cbn [keys_events flat_map is_updated ViewModel.e_op ViewModel.e_key fst snd app].
  - constructor. intros x; reflexivity.
  - constructor; [unfold has_key; congruence|]. refine (set_calls_ext _ _ _ _ _ IHdict_calls).
    intros x. unfold has_key, put. destruct (cmp k x) eqn:E.
    + apply cmp_spec in E. subst. split; [now left | discriminate].
    + split; [now right|]. intros [->|Q]; [rewrite (proj2 (cmp_spec k k) eq_refl) in E; discriminate | exact Q].
  - refine (set_calls_ext _ _ _ _ _ IHdict_calls). intros x. unfold has_key, put. destruct (cmp k x) eqn:E; [|reflexivity].
    apply cmp_spec in E. subst. split; [congruence | discriminate].
  - constructor; [unfold has_key; congruence|]. refine (set_calls_ext _ _ _ _ _ IHdict_calls).
    intros x. unfold has_key, put. destruct (cmp k x) eqn:E.
    + apply cmp_spec in E. subst. split; [congruence | intros [Q _]; congruence].
    + split; [intros Q; split; [|exact Q] | tauto]. intros ->. rewrite (proj2 (cmp_spec k k) eq_refl) in E. discriminate.
Qed.
End Keys.

Section Cast.
Variables K A B : Type.
Variable cast : A -> B.

Definition cast_dict (m : K -> option A) : K -> option B := fun k => match m k with Some a => Some (cast a) | None => None end.

Lemma dict_calls_ext (eqk : K -> K -> bool) (V : Type) (c c' m : K -> option V) l : (forall k, c k = c' k) -> dict_calls eqk c l m ->
  exists m', dict_calls eqk c' l m' /\ forall k, m k = m' k.
Proof.
  intros E H. revert c' E. induction H; intros c' E.
  - exists c'. split; [constructor | exact E].
  - destruct (IHdict_calls (put eqk k (Some v) c')) as (m' & D & Q); [intros x; unfold put; now rewrite E|].
    exists m'. split; [constructor; [rewrite <- E; assumption | exact D] | exact Q].
  - destruct (IHdict_calls (put eqk k (Some v) c')) as (m' & D & Q); [intros x; unfold put; now rewrite E|].
    exists m'. split; [econstructor; [rewrite <- E; eassumption | exact D] | exact Q].
  - destruct (IHdict_calls (put eqk k None c')) as (m' & D & Q); [intros x; unfold put; now rewrite E|].
    exists m'. split; [constructor; [rewrite <- E; assumption | exact D] | exact Q].
Qed.

Lemma cast_dict_calls eqk c evs m : dict_calls eqk c evs m ->
  exists m', dict_calls eqk (cast_dict c) (dc_events K A B cast evs) m' /\ forall k, m' k = cast_dict m k.
Proof.
  induction 1 as [c | c k v l m N H IH | c k u v l m N H IH | c k v l m N H IH]; cbn [dc_events map fst snd].
  - exists (cast_dict c). split; [constructor | reflexivity].
  - destruct IH as (m1 & D & Q).
    assert (X : forall x, cast_dict (put eqk k (Some v) c) x = (put eqk k (Some (cast v)) (cast_dict c)) x) by (intros x; unfold cast_dict, put; destruct (eqk k x); reflexivity).
    destruct (dict_calls_ext eqk B _ _ m1 _ X D) as (m2 & D2 & Q2).
    exists m2. split; [constructor; [unfold cast_dict; now rewrite N | exact D2] | intros x; rewrite <- Q2; apply Q].
  - destruct IH as (m1 & D & Q).
    assert (X : forall x, cast_dict (put eqk k (Some v) c) x = (put eqk k (Some (cast v)) (cast_dict c)) x) by (intros x; unfold cast_dict, put; destruct (eqk k x); reflexivity).
    destruct (dict_calls_ext eqk B _ _ m1 _ X D) as (m2 & D2 & Q2).
    exists m2. split; [econstructor; [unfold cast_dict; rewrite N; reflexivity | exact D2] | intros x; rewrite <- Q2; apply Q].
  - destruct IH as (m1 & D & Q).
    assert (X : forall x, cast_dict (put eqk k None c) x = (put eqk k None (cast_dict c)) x) by (intros x; unfold cast_dict, put; destruct (eqk k x); reflexivity).
    destruct (dict_calls_ext eqk B _ _ m1 _ X D) as (m2 & D2 & Q2).
    exists m2. split; [constructor; [unfold cast_dict; now rewrite N | exact D2] | intros x; rewrite <- Q2; apply Q].
Qed.

Definition image (P : A -> Prop) : B -> Prop := fun b => exists a, P a /\ cast a = b.

Lemma cast_set_calls P evs Q : (forall a a', cast a = cast a' -> a = a') -> set_calls P evs Q ->
  set_calls (image P) (sc_events A B cast evs) (image Q).
Proof.
  intros Inj. induction 1 as [P Q E | P Q a l N H IH | P Q a l N H IH]; cbn [sc_events map fst snd].
  - constructor. intros b. unfold image. split; intros (a & I & J); exists a; (split; [apply E, I | exact J]).
  - constructor.
    + intros (a' & I & J). apply Inj in J. subst. contradiction.
    + refine (set_calls_ext _ _ _ _ _ IH). intros b. unfold image. split.
      * intros (a' & [->|I] & <-); [now left | right; exists a'; auto].
      * intros [->|(a' & I & <-)]; [exists a; auto | exists a'; auto].
  - constructor.
    + exists a; auto.
    + refine (set_calls_ext _ _ _ _ _ IH). intros b. unfold image. split.
      * intros (a' & [Ne I] & <-). split; [intro J; apply Inj in J; contradiction | exists a'; auto].
      * intros [Ne (a' & I & <-)]. exists a'. split; [split; [congruence | exact I] | reflexivity].
Qed.

Lemma cast_list_calls x evs y : list_calls x evs y -> list_calls (map cast x) (lc_events A B cast evs) (map cast y).
Proof.
  induction 1 as [x | x i a l y N H IH | x i a l y N H IH | x i a l y N H IH]; cbn [lc_events map fst snd].
  - constructor.
  - constructor; [now rewrite map_length|]. now rewrite firstn_map, skipn_map, <- map_cons, <- map_app.
  - constructor; [now rewrite map_length|]. now rewrite firstn_map, skipn_map, <- map_cons, <- map_app.
  - constructor; [now apply map_nth_error|]. now rewrite firstn_map, skipn_map, <- map_app.
Qed.
End Cast.

Section Back.
Variables A B : Type.
Variable cast : A -> B.
Variable back : B -> option A.
Variable aeq : A -> A -> bool.
Hypothesis aeq_spec : forall a b, aeq a b = true <-> a = b.
(* the two casts undo each other on the items of the collection *)
Definition round_trip (items : list A) : Prop :=
  (forall a, In a items -> back (cast a) = Some a) /\ (forall a b, back b = Some a -> cast a = b).

Lemma contains_in items b : round_trip items -> (sc_contains A B back aeq items b = true <-> In b (map cast items)).
Proof.
  intros [R1 R2]. unfold sc_contains. rewrite in_map_iff. destruct (back b) as [a|] eqn:E.
  - rewrite existsb_exists. split.
    + intros (x & I & Q). apply aeq_spec in Q. subst x. exists a. split; [now apply R2 | exact I].
    + intros (x & Q & I). pose proof (R1 x I) as Rx. rewrite Q, E in Rx. injection Rx as ->. exists x. split; [exact I | now apply aeq_spec].
  - split; [discriminate|]. intros (x & Q & I). pose proof (R1 x I) as Rx. rewrite Q, E in Rx. discriminate.
Qed.

Lemma find_from_spec items a : match find_from A aeq a items with
  | [] => ~ In a items
  | x :: r => x = a /\ exists pre, items = pre ++ x :: r /\ ~ In a pre end.
Proof.
  induction items as [|y items IH]; cbn [find_from]; [intros []|].
  destruct (aeq a y) eqn:E.
  - apply aeq_spec in E. subst y. split; [reflexivity|]. exists []. split; [reflexivity | intros []].
  - assert (Ne : y <> a) by (intro; subst; rewrite (proj2 (aeq_spec a a) eq_refl) in E; discriminate).
    destruct (find_from A aeq a items) as [|x r].
    + intros [Q|Q]; [contradiction | now apply IH].
    + destruct IH as (-> & pre & -> & N). split; [reflexivity|]. exists (y :: pre). split; [reflexivity|]. intros [Q|Q]; contradiction.
Qed.

Lemma find_spec items b : round_trip items ->
  match sc_find A B cast back aeq items b with
  | [] => ~ In b (map cast items)
  | x :: r => x = b /\ exists pre, map cast items = pre ++ x :: r /\ ~ In b pre end.
Proof.
  intros [R1 R2]. unfold sc_find. destruct (back b) as [a|] eqn:E.
  - pose proof (find_from_spec items a) as F. destruct (find_from A aeq a items) as [|x r]; cbn [map].
    + intro I. apply in_map_iff in I as (x & Q & I). pose proof (R1 x I) as Rx. rewrite Q, E in Rx. injection Rx as ->. contradiction.
    + destruct F as (-> & pre & -> & N). split; [now apply R2|]. exists (map cast pre). split; [now rewrite map_app|].
      intro I. apply in_map_iff in I as (x & Q & I).
      assert (In x (pre ++ a :: r)) by (apply in_app_iff; now left).
      pose proof (R1 x H) as Rx. rewrite Q, E in Rx. injection Rx as ->. contradiction.
  - intro I. apply in_map_iff in I as (x & Q & I). pose proof (R1 x I) as Rx. rewrite Q, E in Rx. discriminate.
Qed.

Lemma index_of_spec items a : match index_of A aeq a items with
  | None => ~ In a items
  | Some i => nth_error items i = Some a /\ forall j, j < i -> nth_error items j <> Some a end.
Proof.
  induction items as [|y items IH]; cbn [index_of]; [intros []|].
  destruct (aeq a y) eqn:E.
  - apply aeq_spec in E. subst y. split; [reflexivity | lia].
  - assert (Ne : y <> a) by (intro; subst; rewrite (proj2 (aeq_spec a a) eq_refl) in E; discriminate).
    destruct (index_of A aeq a items) as [i|]; cbn [option_map].
    + destruct IH as [P Q]. split; [exact P|]. intros [|j] L; cbn [nth_error]; [congruence | apply Q; lia].
    + intros [Q|Q]; [contradiction | now apply IH].
Qed.

Lemma lc_index_spec items b : round_trip items ->
  match lc_index_of A B back aeq items b with
  | None => ~ In b (map cast items)
  | Some i => nth_error (map cast items) i = Some b /\ forall j, j < i -> nth_error (map cast items) j <> Some b end.
Proof.
  intros [R1 R2]. unfold lc_index_of. destruct (back b) as [a|] eqn:E.
  - pose proof (index_of_spec items a) as F. destruct (index_of A aeq a items) as [i|].
    + destruct F as [P Q]. split; [rewrite (map_nth_error cast _ _ P); f_equal; now apply R2|].
      intros j L N. destruct (nth_error items j) as [x|] eqn:Nj.
      * rewrite (map_nth_error cast _ _ Nj) in N. injection N as N. pose proof (R1 x (nth_error_In _ _ Nj)) as Rx.
        rewrite N, E in Rx. injection Rx as ->. exact (Q j L Nj).
      * apply nth_error_None in Nj. assert (length (map cast items) <= j) by now rewrite map_length.
        apply nth_error_None in H. congruence.
    + intro I. apply in_map_iff in I as (x & Q & I). pose proof (R1 x I) as Rx. rewrite Q, E in Rx. injection Rx as ->. contradiction.
  - intro I. apply in_map_iff in I as (x & Q & I). pose proof (R1 x I) as Rx. rewrite Q, E in Rx. discriminate.
Qed.
End Back.
