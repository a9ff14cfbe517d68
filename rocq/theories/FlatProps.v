(** C36: flat_map / flat_set is a map under its comparator. *)
From Coq Require Import List Arith Lia Bool Sorting.Sorted.
From Verif Require Import FlatSpec FlatModel FlatProofs.
Import ListNotations.
Set Implicit Arguments.

Section P.
Variables K V : Type.
Variable less : K -> K -> bool.
Variable dflt : V.
Notation cont := (cont K V).
Notation fmap := (fmap K V).

(** what each operation does to the map; positions are positions in the ordered content *)
Inductive mstep (m : fmap) : op K V -> fmap -> Prop :=
| s_insert e : mstep m (Insert e) (madd_new less m e)
| s_hint h e : mstep m (InsertHint h e) (madd_new less m e)
| s_index k : mstep m (Index k) (madd_new less m (k, dflt))
| s_assign k v : mstep m (Assign k v) (mset less (madd_new less m (k, dflt)) k v)
| s_range es : mstep m (InsertRange es) (fold_left (madd_new less) es m)
| s_erase k : mstep m (Erase k) (mdel less m k)
| s_erase_pos l i e : lists less m l -> nth_error l i = Some e -> mstep m (ErasePos i) (mdel less m (fst e))
| s_erase_range l i j : lists less m l -> i <= j <= length l ->
    mstep m (EraseRange i j) (mdel_all less m (firstn (j - i) (skipn i l)))
| s_clear : mstep m Clear (@mempty K V).
Inductive msteps : fmap -> list (op K V) -> fmap -> Prop :=
| ms_nil m : msteps m [] m
| ms_cons m o m1 os m2 : mstep m o m1 -> msteps m1 os m2 -> msteps m (o :: os) m2.

Section Ord.
Hypothesis O : strict_weak_order less.

Lemma skipn_skipn' (X : Type) (l : list X) : forall a b, skipn a (skipn b l) = skipn (b + a) l.
Proof. induction l as [|x l IH]; intros a [|b]; cbn; auto. destruct a; auto. Qed.
Lemma rep_ext m m' (l : cont) : (forall k, m k = m' k) -> lists' less m l -> lists' less m' l.
Proof. intros E (S&H). split; auto. intros k e. rewrite <- E. apply H. Qed.

Lemma del_all_ext (es : list (K * V)) : forall m k, del_all less m es k = mdel_all less m es k.
Proof.
  unfold mdel_all. induction es as [|e es IH]; intros m k; cbn; auto. fold (del_all less (mdel less m (fst e)) es). rewrite IH.
  unfold mdel. destruct (same less (fst e) k); cbn; auto. destruct (existsb _ es); auto.
Qed.

Lemma range_ok (es : list (K * V)) : forall (m : fmap) l, lists' less m l -> lists' less (fold_left (madd_new less) es m) (insert_range less l es).
Proof.
  unfold insert_range. induction es as [|e es IH]; intros m l H; cbn; auto. apply IH.
  destruct (insert less l e) as ((l', r), b) eqn:E. cbn. now destruct (@insert_ok _ _ _ O m l e H _ _ _ E).
Qed.

Lemma step_ok (m : fmap) l o l' : lists' less m l -> step less dflt l o = Some l' -> exists m', mstep m o m' /\ lists' less m' l'.
Proof.
  intros H S. destruct o; cbn [step] in S.
  - injection S as <-. eexists. split; [constructor|]. destruct (insert less l e) as ((l', r), b) eqn:E. cbn. now destruct (@insert_ok _ _ _ O m l e H _ _ _ E).
  - destruct (h <=? length l) eqn:L; [|discriminate]. apply Nat.leb_le in L. injection S as <-. eexists. split; [constructor|].
    rewrite (@hint_ok _ _ _ O m l h e H L). cbn. destruct (insert less l e) as ((l', r), b) eqn:E. cbn. now destruct (@insert_ok _ _ _ O m l e H _ _ _ E).
  - injection S as <-. eexists. split; [constructor|]. destruct (index less dflt l k) as (l', r) eqn:E. cbn. now destruct (@index_ok _ _ _ dflt O m l k H _ _ E).
  - injection S as <-. eexists. split; [constructor|]. now apply (@assign_ok _ _ _ dflt O m l k v).
  - injection S as <-. eexists. split; [constructor|]. now apply range_ok.
  - injection S as <-. eexists. split; [constructor|]. destruct (erase_key less l k) as (l', n) eqn:E. cbn. now destruct (@erase_key_ok _ _ _ O m l k H _ _ E).
  - destruct (i <? length l) eqn:L; [|discriminate]. apply Nat.ltb_lt in L. injection S as <-.
    destruct (nth_error l i) as [e|] eqn:E; [|apply nth_error_None in E; lia].
    exists (mdel less m (fst e)). split; [eapply s_erase_pos; eauto; now apply lists_iff|]. now apply erase_pos_ok.
  - destruct ((i <=? j) && (j <=? length l)) eqn:L; [|discriminate]. apply andb_true_iff in L. destruct L as (L1&L2). apply Nat.leb_le in L1, L2. injection S as <-.
    eexists. split; [eapply s_erase_range; [apply lists_iff; eauto|lia]|]. unfold verase_range.
    eapply rep_ext; [apply del_all_ext|]. apply erase_range_ok; auto.
    replace (skipn j l) with (skipn (j - i) (skipn i l)). { rewrite firstn_skipn, firstn_skipn. exact H. }
    rewrite skipn_skipn'. f_equal. lia.
  - injection S as <-. eexists. split; [constructor|]. split; [constructor|]. intros k e. unfold mempty. cbn. split; [discriminate|tauto].
Qed.

(** After any sequence of operations from an empty container (the constructors taking elements are
    Clear and InsertRange) the iteration lists exactly what the sequence of map operations leaves,
    in strict key order. *)
Theorem C36_flat_is_a_map os l : runs less dflt [] os = Some l -> exists m, msteps (@mempty K V) os m /\ lists less m l.
Proof.
  assert (G : forall os m l0, lists' less m l0 -> runs less dflt l0 os = Some l -> exists m', msteps m os m' /\ lists less m' l).
  { clear os. induction os as [|o os IH]; intros m l0 H Hr; cbn in Hr.
    - injection Hr as ->. exists m. split; [constructor|now apply lists_iff].
    - destruct (step less dflt l0 o) as [l1|] eqn:S; [|discriminate]. destruct (step_ok _ H S) as (m1&A&B).
      destruct (IH m1 l1 B Hr) as (m2&C&D). exists m2. split; auto. econstructor; eauto. }
  apply G. split; [constructor|]. intros k e. unfold mempty. cbn. split; [discriminate|tauto].
Qed.

(** The content of the map determines the container: two containers that hold the same map are equal
    element by element (so operator == compares maps). *)
Theorem C36_unique_representation (m : fmap) (l1 l2 : cont) : lists less m l1 -> lists less m l2 -> l1 = l2.
Proof.
  rewrite !lists_iff. revert m l2. induction l1 as [|e l1 IH]; intros m l2 H1 H2.
  - destruct l2 as [|f l2]; auto. exfalso. assert (m (fst f) = Some f) by (apply H2; split; [now left|apply same_refl; auto]).
    apply H1 in H. destruct H as ([]&_).
  - destruct l2 as [|f l2]. { exfalso. assert (m (fst e) = Some e) by (apply H1; split; [now left|apply same_refl; auto]). apply H2 in H. destruct H as ([]&_). }
    assert (E : e = f).
    { assert (A : In e (f :: l2)). { assert (m (fst e) = Some e) by (apply H1; split; [now left|apply same_refl; auto]). now apply H2 in H. }
      assert (B : In f (e :: l1)). { assert (m (fst f) = Some f) by (apply H2; split; [now left|apply same_refl; auto]). now apply H1 in H. }
      destruct A as [A|A]; auto. destruct B as [B|B]; auto. exfalso.
      destruct H1 as (S1&_), H2 as (S2&_). inversion S1 as [|? ? _ F1]; inversion S2 as [|? ? _ F2]; subst. rewrite Forall_forall in F1, F2.
      apply F1 in B. apply F2 in A. unfold R in *. apply (asym O) in A. congruence. }
    subst f. f_equal. apply (IH (mdel less m (fst e))).
    + apply (@rep_del _ _ _ O m [] e l1); auto. apply same_refl; auto.
    + apply (@rep_del _ _ _ O m [] e l2); auto. apply same_refl; auto.
Qed.

(** insert reports success exactly when the key was absent, and its iterator is on the entry stored
    under the key afterwards (the old one, unchanged, if there was one). *)
Theorem C36_insert (m : fmap) l e l' r b : lists less m l -> insert less l e = (l', r, b) ->
  lists less (madd_new less m e) l' /\ (b = true <-> m (fst e) = None) /\
  exists f, nth_error l' r = Some f /\ same less (fst e) (fst f) = true /\ (m (fst e) = None -> f = e) /\ (m (fst e) <> None -> l' = l /\ m (fst e) = Some f).
Proof.
  rewrite !lists_iff. intros H E. destruct (@insert_ok _ _ _ O m l e H _ _ _ E) as (A&B&C). split; [exact A|]. split; [exact B|].
  unfold add_if in *. destruct (m (fst e)) as [f|] eqn:M.
  - exists f. rewrite C, M. repeat split; auto; try discriminate. 2:{ unfold insert in E. destruct (absent_at _ _ _ _); injection E as <- <- <-; auto. exfalso. assert (Some f = None) by (apply B; auto). discriminate. }
    now apply H in M.
  - exists e. rewrite C. unfold madd. rewrite same_refl by auto. destruct e. repeat split; auto; congruence || (cbn; apply same_refl; auto).
Qed.

(** A position hint, right or wrong, never changes the outcome. *)
Theorem C36_hint_irrelevant (m : fmap) l h e : lists less m l -> h <= length l ->
  insert_hint less l h e = (fst (fst (insert less l e)), snd (fst (insert less l e))).
Proof. rewrite lists_iff. intros H L. eapply hint_ok; eauto. Qed.

(** operator [] inserts a default when the key is absent and refers to the entry of the key. *)
Theorem C36_index (m : fmap) l k l' r : lists less m l -> index less dflt l k = (l', r) ->
  lists less (madd_new less m (k, dflt)) l' /\
  option_map snd (nth_error l' r) = Some (match m k with Some e => snd e | None => dflt end).
Proof.
  rewrite !lists_iff. intros H E. destruct (@index_ok _ _ _ dflt O m l k H _ _ E) as (A&B). split; auto.
  rewrite B. unfold add_if. destruct (m k) eqn:M; [now rewrite M|]. unfold madd. now rewrite same_refl.
Qed.

(** find, count, at *)
Theorem C36_find (m : fmap) l k : lists less m l ->
  match m k with
  | None => find less l k = length l /\ count less l k = 0 /\ at_key less l k = None
  | Some e => nth_error l (find less l k) = Some e /\ count less l k = 1 /\ at_key less l k = Some (snd e)
  end.
Proof.
  rewrite lists_iff. intros H. pose proof (@find_ok _ _ _ O m l k H) as F. unfold count, at_key. destruct (m k) as [e|].
  - destruct F as (F1&F2). destruct (find less l k =? length l) eqn:E; [apply Nat.eqb_eq in E; lia|]. rewrite F2. auto.
  - rewrite F, Nat.eqb_refl. auto.
Qed.

(** lower_bound / upper_bound / equal_range split the content at the key *)
Theorem C36_bounds (m : fmap) l k : lists less m l ->
  lower_bound less l k <= length l /\ upper_bound less l k <= length l /\
  equal_range less l k = (lower_bound less l k, upper_bound less l k) /\
  (forall i e, nth_error l i = Some e -> (less (fst e) k = true <-> i < lower_bound less l k)) /\
  (forall i e, nth_error l i = Some e -> (less k (fst e) = true <-> upper_bound less l k <= i)).
Proof.
  rewrite lists_iff. intros (S&_). destruct (@lower_spec _ _ _ O l k S) as (a&b&E&L&A&B). destruct (@upper_spec _ _ _ O l k S) as (a'&b'&E'&L'&A'&B').
  rewrite L, L'. repeat split.
  - rewrite E, app_length. lia.
  - rewrite E', app_length. lia.
  - unfold equal_range. now rewrite L, L'.
  - intros X. destruct (le_lt_dec (length a) i); auto. exfalso. rewrite E, nth_error_app2 in H by lia. apply nth_error_In in H. apply B in H. congruence.
  - intros X. rewrite E, nth_error_app1 in H by lia. apply nth_error_In in H. auto.
  - intros X. destruct (le_lt_dec (length a') i); auto. exfalso. rewrite E', nth_error_app1 in H by lia. apply nth_error_In in H. apply A' in H. congruence.
  - intros X. rewrite E', nth_error_app2 in H by lia. apply nth_error_In in H. auto.
Qed.

(** erase by key reports how many entries it removed *)
Theorem C36_erase (m : fmap) l k l' n : lists less m l -> erase_key less l k = (l', n) ->
  lists less (mdel less m k) l' /\ n = (match m k with None => 0 | Some _ => 1 end) /\ length l = length l' + n.
Proof.
  rewrite !lists_iff. intros H E. destruct (@erase_key_ok _ _ _ O m l k H _ _ E) as (A&B). split; [exact A|]. split; [exact B|].
  unfold erase_key in E. pose proof (@find_ok _ _ _ O m l k H) as F. destruct (m k).
  - destruct F as (F1&F2). destruct (find less l k =? length l) eqn:Q; [apply Nat.eqb_eq in Q; lia|]. injection E as <- <-. unfold verase.
    rewrite app_length, firstn_length, skipn_length. lia.
  - rewrite F, Nat.eqb_refl in E. injection E as <- <-. lia.
Qed.

(** The only undefined uses are invalid iterators. *)
Theorem C36_defined (l : cont) o : step less dflt l o = None <->
  match o with InsertHint h _ => length l < h | ErasePos i => length l <= i | EraseRange i j => j < i \/ length l < j | _ => False end.
Proof.
  destruct o; cbn [step]; try (split; [discriminate|tauto]).
  - destruct (h <=? length l) eqn:E; [apply Nat.leb_le in E|apply Nat.leb_gt in E]; (split; [discriminate || auto|lia || auto]).
  - destruct (i <? length l) eqn:E; [apply Nat.ltb_lt in E|apply Nat.ltb_ge in E]; (split; [discriminate || auto|lia || auto]).
  - destruct ((i <=? j) && (j <=? length l)) eqn:E.
    + apply andb_true_iff in E. destruct E as (E1&E2). apply Nat.leb_le in E1, E2. split; [discriminate|lia].
    + split; auto. intros _. apply andb_false_iff in E. destruct E as [E|E]; apply Nat.leb_gt in E; auto.
Qed.
End Ord.
End P.

(** The copy constructor with an allocator (flat_map.h:101-107, flat_set.h:72-78) copies the elements but
    default-constructs the comparator.  The comparator object is the pair (default, given). *)
Record cmp_map (C K V : Type) := { cm_cmp : C; cm_cont : list (K * V) }.
Definition copy_with_allocator (C K V : Type) (dflt_cmp : C) (other : cmp_map C K V) : cmp_map C K V :=
  {| cm_cmp := dflt_cmp; cm_cont := cm_cont other |}.

(** With a comparator that carries state (here: ascending or descending) the copy is not ordered by its
    own comparator and lookups miss keys that are present. *)
Theorem C36_allocator_copy_keeps_order_refuted :
  ~ (forall (less : bool -> nat -> nat -> bool) (d : bool) (o : cmp_map bool nat unit),
       (forall c, strict_weak_order (less c)) -> strictly_sorted (less (cm_cmp o)) (cm_cont o) ->
       let c := copy_with_allocator d o in
       strictly_sorted (less (cm_cmp c)) (cm_cont c) /\
       forall k, In k (map fst (cm_cont c)) -> find (less (cm_cmp c)) (cm_cont c) k < length (cm_cont c)).
Proof.
  intros H. set (less := fun (c : bool) (x y : nat) => if c then y <? x else x <? y).
  destruct (H less false {| cm_cmp := true; cm_cont := [(2, tt); (1, tt)] |}) as (A&B).
  - intros c. split; destruct c; unfold less; intros; repeat match goal with H : (_ <? _) = true |- _ => apply Nat.ltb_lt in H | H : (_ <? _) = false |- _ => apply Nat.ltb_ge in H end;
      (apply Nat.ltb_lt || apply Nat.ltb_ge); lia.
  - intros [|[|i]] [|[|j]] e f L E F; cbn in *; try lia; try discriminate; try (destruct j; discriminate). injection E as <-. injection F as <-. reflexivity.
  - specialize (B 2). cbn in B. assert (2 < 2) by (apply B; auto). lia.
Qed.

(** ---- non-vacuity ---- *)
Lemma ltb_swo : strict_weak_order Nat.ltb.
Proof.
  split; intros; repeat match goal with H : (_ <? _) = true |- _ => apply Nat.ltb_lt in H | H : (_ <? _) = false |- _ => apply Nat.ltb_ge in H end;
    (apply Nat.ltb_lt || apply Nat.ltb_ge); lia.
Qed.
(** keys compared by their tens: different keys can be "the same" *)
Definition tens (x y : nat) : bool := x / 10 <? y / 10.
Lemma tens_swo : strict_weak_order tens.
Proof.
  unfold tens. split; intros; repeat match goal with H : (_ <? _) = true |- _ => apply Nat.ltb_lt in H | H : (_ <? _) = false |- _ => apply Nat.ltb_ge in H end;
    (apply Nat.ltb_lt || apply Nat.ltb_ge); lia.
Qed.
Example C36_run : runs tens 0 [] [Insert (30, 1); Insert (11, 2); InsertHint 0 (50, 3); Insert (35, 9); Assign 38 7; Index 99; InsertRange [(60, 1); (5, 8); (69, 4)];
     Erase 12; ErasePos 0; EraseRange 1 2] = Some [(30, 7); (60, 1); (99, 0)].
Proof. reflexivity. Qed.
Example C36_sample : lists tens (fun k => if k / 10 =? 3 then Some (30, 7) else if k / 10 =? 6 then Some (60, 1) else None) [(30, 7); (60, 1)].
Proof.
  apply lists_iff. split.
  - constructor; [constructor; constructor|]. constructor; [reflexivity|constructor].
  - intros k e. unfold same, tens. destruct (k / 10 =? 3) eqn:E3; [apply Nat.eqb_eq in E3|apply Nat.eqb_neq in E3].
    + rewrite E3. split. * intros X. injection X as <-. cbn. auto. * intros ([<-|[<-|[]]]&X); auto. discriminate.
    + destruct (k / 10 =? 6) eqn:E6; [apply Nat.eqb_eq in E6|apply Nat.eqb_neq in E6].
      * rewrite E6. split. -- intros X. injection X as <-. cbn. auto. -- intros ([<-|[<-|[]]]&X); auto. discriminate.
      * split; [discriminate|]. intros ([<-|[<-|[]]]&X); exfalso; cbn [fst] in X; apply andb_true_iff in X; rewrite !negb_true_iff in X; destruct X as (X1&X2);
          apply Nat.ltb_ge in X1, X2; change (30 / 10) with 3 in *; change (60 / 10) with 6 in *; lia.
Qed.
Example C36_ops : insert tens [(30, 7); (60, 1)] (45, 5) = ([(30, 7); (45, 5); (60, 1)], 1, true) /\ insert tens [(30, 7); (60, 1)] (62, 5) = ([(30, 7); (60, 1)], 1, false) /\
  find tens [(30, 7); (60, 1)] 64 = 1 /\ find tens [(30, 7); (60, 1)] 40 = 2 /\ equal_range tens [(30, 7); (60, 1)] 31 = (0, 1) /\ erase_key tens [(30, 7); (60, 1)] 31 = ([(60, 1)], 1).
Proof. repeat split; reflexivity. Qed.

Print Assumptions C36_flat_is_a_map.
Print Assumptions C36_unique_representation.
Print Assumptions C36_insert.
Print Assumptions C36_hint_irrelevant.
Print Assumptions C36_index.
Print Assumptions C36_find.
Print Assumptions C36_bounds.
Print Assumptions C36_erase.
Print Assumptions C36_defined.
Print Assumptions C36_allocator_copy_keeps_order_refuted.
