(** Proofs about areas of operations, the pool, lines and sequence numbers. *)
From Coq Require Import ZArith List Bool Lia Arith.
From Verif Require Import ScopesModel ScopesSpec.
Import ListNotations.
Open Scope Z_scope.

(** * Areas *)

Definition union (l : list (nat * Z)) : Z := fold_right (fun p m => Z.lor m (snd p)) 0 l.

(** The objects of the open areas remember the union of the outer ones. *)
Fixpoint recorded (t : thread) (k : kind) (f : nat -> option area) (l : list (nat * Z)) : Prop :=
  match l with
  | [] => True
  | (i, _) :: r => f i = Some (Area t k (union r)) /\ ~ In i (map fst r) /\ recorded t k f r
  end.

Lemma recorded_other : forall t k f i a l, ~ In i (map fst l) -> recorded t k f l -> recorded t k (set_area f i a) l.
Proof.
  induction l as [|[j o] l IH]; cbn [recorded map fst In]; intros H R; [easy|].
  destruct R as (R1 & R2 & R3). repeat split; [|assumption|apply IH; tauto].
  unfold set_area. destruct (Nat.eqb_spec j i); [subst; tauto | assumption].
Qed.

Lemma set_mask_same : forall f t k v, set_mask f t k v t k = v.
Proof. intros; unfold set_mask. rewrite Nat.eqb_refl. now destruct k. Qed.

Lemma kind_eqb_spec : forall a b, kind_eqb a b = true <-> a = b.
Proof. intros [] []; cbn; split; congruence. Qed.

Lemma set_mask_other : forall f t k v t' k', (t' <> t \/ k' <> k) -> set_mask f t k v t' k' = f t' k'.
Proof.
  intros f t k v t' k' H; unfold set_mask.
  destruct (Nat.eqb_spec t' t); [|reflexivity]. destruct (kind_eqb k' k) eqn:E; [|reflexivity].
  apply kind_eqb_spec in E. tauto.
Qed.

Lemma open_none : forall t k es, fold_left (open_step t k) es None = None.
Proof. induction es; cbn; auto. Qed.

Definition area_of (s : tstate) (t : thread) (k : kind) (l : list (nat * Z)) : Prop :=
  t_mask s t k = union l /\ recorded t k (t_area s) l /\
  (forall i a, t_area s i = Some a -> a_thread a = t -> a_kind a = k -> In i (map fst l)).

Lemma begun_snoc : forall es e, begun (es ++ [e]) = begun es ++ match e with Begin _ _ i _ => [i] | _ => [] end.
Proof. intros; unfold begun; rewrite flat_map_app. cbn. now rewrite app_nil_r. Qed.

Lemma area_begun : forall es i a, t_area (trun es) i = Some a -> In i (begun es).
Proof.
  induction es as [|e es IH] using rev_ind; intros i a H; [discriminate|].
  unfold trun in *; rewrite fold_left_app in H; cbn [fold_left] in H.
  set (s := fold_left _ es tstate0) in *. rewrite begun_snoc; apply in_or_app.
  destruct e as [t k j ops|t j|t k op]; cbn [tstep fst t_area] in H.
  - unfold set_area in H. destruct (Nat.eqb_spec i j); [subst; right; now left | left; eapply IH; eassumption].
  - left. destruct (t_area s j) as [b|] eqn:E.
    + destruct (Nat.eqb (a_thread b) t); cbn [fst t_area] in H; unfold set_area in H;
        (destruct (Nat.eqb_spec i j); [discriminate | eapply IH; eassumption]).
    + cbn [fst] in H. eapply IH; eassumption.
  - left. destruct k; cbn [fst] in H; eapply IH; eassumption.
Qed.

Lemma recorded_at : forall t k f l i, recorded t k f l -> In i (map fst l) -> exists o, f i = Some (Area t k o).
Proof.
  induction l as [|[j o] l IH]; cbn [recorded map fst In]; intros i R H; [destruct H|].
  destruct R as (R1 & R2 & R3). destruct H as [<-|H]; [eauto | now apply IH].
Qed.

Lemma existsb_fst : forall i (l : list (nat * Z)), existsb (fun p => Nat.eqb (fst p) i) l = true <-> In i (map fst l).
Proof.
  intros; rewrite existsb_exists, in_map_iff. split.
  - intros (x & H & E). apply Nat.eqb_eq in E. eauto.
  - intros (x & E & H). exists x. now rewrite Nat.eqb_eq.
Qed.

Lemma trun_inv : forall t k es l, NoDup (begun es) -> open_areas t k es = Some l ->
  area_of (trun es) t k l.
Proof.
  intros t k es; induction es as [|e es IH] using rev_ind; intros l ND H.
  - injection H as <-. repeat split; discriminate.
  - unfold open_areas in *; rewrite fold_left_app in H; cbn [fold_left] in H.
    destruct (fold_left (open_step t k) es (Some [])) as [l0|] eqn:E0; [|discriminate].
    rewrite begun_snoc in ND.
    assert (ND' : NoDup (begun es)).
    { clear - ND. revert ND; generalize (begun es). intros x; induction x as [|a x IHx]; intros H; [constructor|].
      cbn in H; inversion H; subst. constructor; [intros I; apply H2, in_or_app; now left | now apply IHx]. }
    specialize (IH l0 ND' eq_refl).
    assert (NB : forall i a, t_area (trun es) i = Some a -> In i (begun es)) by (intros; eapply area_begun; eassumption).
    replace (trun (es ++ [e])) with (fst (tstep (trun es) e)) by (unfold trun; now rewrite fold_left_app).
    destruct (trun es) as [mk ar]. destruct IH as (I1 & I2 & I3). cbn [t_mask t_area] in *.
    destruct e as [t' k' i ops|t' i|t' k' op]; cbn [open_step] in H.
    + assert (NI : ~ In i (begun es)) by (apply NoDup_remove_2 in ND; now rewrite app_nil_r in ND).
      assert (NL : ~ In i (map fst l0)).
      { intros X. destruct (recorded_at _ _ _ _ _ I2 X) as [o Ho]. apply NI. eapply NB; eassumption. }
      cbn [tstep fst]. unfold area_of; cbn [t_mask t_area].
      assert (D : (t' = t /\ k' = k /\ l = (i, ops) :: l0) \/ ((t <> t' \/ k <> k') /\ l = l0)).
      { destruct (Nat.eqb_spec t' t) as [->|N]; [|right; injection H as <-; split; [left; congruence|reflexivity]].
        destruct k', k; injection H as <-; try (left; now repeat split); right; split; try reflexivity; right; discriminate. }
      destruct D as [(-> & -> & ->)|(D & ->)].
      * rewrite set_mask_same. repeat split.
        -- cbn [union fold_right snd]. now rewrite I1.
        -- unfold set_area. now rewrite Nat.eqb_refl, I1.
        -- exact NL.
        -- now apply recorded_other.
        -- intros j a. unfold set_area. destruct (Nat.eqb_spec j i) as [->|Nj]; cbn [map fst In]; [now left|].
           intros; right; eapply I3; eassumption.
      * rewrite set_mask_other by assumption. repeat split; [assumption|now apply recorded_other|].
        intros j a. unfold set_area. destruct (Nat.eqb_spec j i) as [->|Nj].
        -- intros [= <-]; cbn. intros; subst. exfalso; tauto.
        -- intros; eapply I3; eassumption.
    + cbn [tstep]. cbn [t_mask t_area].
      destruct l0 as [|[j o] r].
      * injection H as <-.
        destruct (ar i) as [a|] eqn:Ea; [|cbn [fst]; unfold area_of; cbn [t_mask t_area]; now repeat split].
        destruct (Nat.eqb_spec (a_thread a) t'); cbn [fst]; unfold area_of; cbn [t_mask t_area].
        -- rewrite set_mask_other.
           2:{ destruct (Nat.eq_dec t t'); [right; intros ->|left; assumption].
               specialize (I3 i a Ea). subst. destruct I3; congruence. }
           repeat split; [assumption|]. intros x b. unfold set_area.
           destruct (Nat.eqb_spec x i); [discriminate|]. apply I3.
        -- repeat split; [assumption|]. intros x b. unfold set_area.
           destruct (Nat.eqb_spec x i); [discriminate|]. apply I3.
      * cbn [recorded] in I2. destruct I2 as (R1 & R2 & R3).
        destruct (Nat.eqb_spec j i) as [->|Nj].
        -- destruct (Nat.eqb_spec t' t) as [->|Nt]; [|discriminate]. injection H as <-.
           rewrite R1. cbn [a_thread a_kind a_old]. rewrite Nat.eqb_refl. cbn [fst].
           unfold area_of; cbn [t_mask t_area]. rewrite set_mask_same.
           repeat split; [now apply recorded_other|].
           intros x b. unfold set_area. destruct (Nat.eqb_spec x i); [discriminate|].
           intros A B C. destruct (I3 x b A B C) as [X|X]; [cbn in X; congruence | exact X].
        -- destruct (existsb _ r) eqn:Ex; [discriminate|]. injection H as <-.
           assert (NI : ~ In i (map fst ((j, o) :: r))).
           { intros [X|X]; [cbn in X; congruence|]. apply existsb_fst in X. congruence. }
           assert (RR : recorded t k ar ((j, o) :: r)) by now repeat split.
           destruct (ar i) as [a|] eqn:Ea.
           ++ assert (NO : ~ (a_thread a = t /\ a_kind a = k)).
              { intros (A & B). apply NI. eapply I3; eassumption. }
              destruct (Nat.eqb_spec (a_thread a) t'); cbn [fst]; unfold area_of; cbn [t_mask t_area].
              ** rewrite set_mask_other.
                 2:{ destruct (Nat.eq_dec t t'); [right; intros ->|left; assumption]. apply NO; split; congruence. }
                 split; [exact I1|]. split; [now apply recorded_other|].
                 intros x b. unfold set_area. destruct (Nat.eqb_spec x i); [discriminate|]. apply I3.
              ** split; [exact I1|]. split; [now apply recorded_other|].
                 intros x b. unfold set_area. destruct (Nat.eqb_spec x i); [discriminate|]. apply I3.
           ++ cbn [fst]. unfold area_of; cbn [t_mask t_area]. now repeat split.
    + injection H as <-. destruct k'; cbn [tstep fst]; unfold area_of; cbn [t_mask t_area]; now repeat split.
Qed.

Lemma land_union : forall op l, Z.land op (union l) <> 0 <-> covered op l.
Proof.
  intros op; induction l as [|[i o] l IH]; cbn [union fold_right snd].
  - rewrite Z.land_0_r. split; [congruence|]. intros (i & o & [] & _).
  - fold (union l). rewrite Z.land_lor_distr_r. rewrite Z.lor_eq_0_iff. split.
    + intros H. destruct (Z.eq_dec (Z.land op o) 0) as [E|N].
      * destruct (Z.eq_dec (Z.land op (union l)) 0) as [E'|N']; [tauto|].
        apply IH in N' as (j & p & A & B). exists j, p. split; [now right|assumption].
      * exists i, o. split; [now left|assumption].
    + intros (j & p & [A|A] & B) [C1 C2]; [congruence|].
      apply (proj2 IH); [now exists j, p | assumption].
Qed.

(** * The pool *)

Lemma count_pos : forall (x : nat) l, In x l -> (1 <= count_occ Nat.eq_dec l x)%nat.
Proof. intros x l H. now apply (count_occ_In Nat.eq_dec) in H. Qed.

Lemma sum_pos : forall (f : nat -> nat) l y, In y l -> (f y <= list_sum (map f l))%nat.
Proof.
  induction l as [|z l IH]; intros y H; [destruct H|]. cbn [map]. change (list_sum (f z :: map f l)) with (f z + list_sum (map f l))%nat.
  destruct H as [->|H]; [lia|]. specialize (IH y H). lia.
Qed.

Lemma use_count_one : forall w hs x, In x hs -> use_count w hs x = 1%nat ->
  e_refs w x = 0%nat /\ (forall y, In y hs -> ~ In x (owns w y)) /\ count_occ Nat.eq_dec hs x = 1%nat.
Proof.
  intros w hs x H E. unfold use_count in E. pose proof (count_pos x hs H).
  split; [lia|]. split; [|lia]. intros y Hy Ho.
  apply (nodup_In Nat.eq_dec) in Hy.
  pose proof (sum_pos (fun y => count_occ Nat.eq_dec (owns w y) x) _ y Hy). cbn beta in *.
  pose proof (count_pos x _ Ho). lia.
Qed.

Lemma list_sum_zero : forall l, (forall n, In n l -> n = 0%nat) -> list_sum l = 0%nat.
Proof.
  induction l as [|n l IH]; intros H; [reflexivity|]. change (list_sum (n :: l)) with (n + list_sum l)%nat.
  rewrite (H n), IH; [reflexivity| |now left]. intros m Hm; apply H; now right.
Qed.

Lemma use_count_more : forall w hs x, NoDup hs -> In x hs -> use_count w hs x <> 1%nat ->
  e_refs w x <> 0%nat \/ exists y, In y hs /\ In x (owns w y).
Proof.
  intros w hs x ND H E. destruct (Nat.eq_dec (e_refs w x) 0) as [E0|N0]; [right|now left].
  destruct (existsb (fun y => existsb (Nat.eqb x) (owns w y)) hs) eqn:B.
  - apply existsb_exists in B as (y & Hy & B). apply existsb_exists in B as (z & Hz & B).
    apply Nat.eqb_eq in B. subst. eauto.
  - exfalso. apply E. unfold use_count. rewrite E0.
    rewrite (proj1 (NoDup_count_occ' Nat.eq_dec hs) ND x H).
    rewrite list_sum_zero; [reflexivity|].
    intros n Hn. apply in_map_iff in Hn as (y & <- & Hy). apply nodup_In in Hy.
    apply count_occ_not_In. intros Ho.
    assert (true = false); [|discriminate]. rewrite <- B. symmetry. apply existsb_exists. exists y. split; [assumption|].
    apply existsb_exists. exists x. split; [assumption | apply Nat.eqb_refl].
Qed.

(** What a pass removes, and that it keeps the order. *)
Lemma collect_incl : forall w todo kept x, In x (collect w kept todo) -> In x (kept ++ todo).
Proof.
  induction todo as [|y r IH]; intros kept x H; cbn [collect] in H.
  - now rewrite app_nil_r.
  - destruct (Nat.eqb _ 1).
    + apply IH in H. apply in_app_or in H as [H|H]; apply in_or_app; [now left | right; now right].
    + apply IH in H. now rewrite <- app_assoc in H.
Qed.

Lemma collect_kept : forall w todo kept x, In x kept -> In x (collect w kept todo).
Proof.
  induction todo as [|y r IH]; intros kept x H; cbn [collect]; [assumption|].
  destruct (Nat.eqb _ 1); apply IH; [assumption | apply in_or_app; now left].
Qed.

Lemma collect_safe : forall w todo kept x, In x (kept ++ todo) ->
  e_refs w x <> 0%nat \/ (exists y, In y (collect w kept todo) /\ In x (owns w y))
  \/ (2 <= count_occ Nat.eq_dec (kept ++ todo) x)%nat ->
  In x (collect w kept todo).
Proof.
  induction todo as [|z r IH]; intros kept x H R; cbn [collect] in *; [now rewrite app_nil_r in H|].
  destruct (Nat.eqb_spec (use_count w (kept ++ z :: r) z) 1) as [E|N].
  - apply use_count_one in E as (E1 & E2 & E3); [|apply in_or_app; right; now left].
    destruct (Nat.eq_dec x z) as [->|Nx].
    + exfalso. destruct R as [R|[(y & Hy & Ho)|R]].
      * congruence.
      * apply collect_incl in Hy. apply (E2 y); [|exact Ho].
        apply in_app_or in Hy as [Hy|Hy]; apply in_or_app; [now left | right; now right].
      * lia.
    + apply IH.
      * apply in_app_or in H as [H|[H|H]]; [apply in_or_app; now left | congruence | apply in_or_app; now right].
      * destruct R as [R|[R|R]]; [now left | right; now left | right; right].
        rewrite count_occ_app in *. cbn [count_occ] in R. destruct (Nat.eq_dec z x); [congruence|assumption].
  - apply IH.
    + rewrite <- app_assoc. exact H.
    + destruct R as [R|[R|R]]; [now left | right; now left | right; right]. rewrite <- app_assoc. exact R.
Qed.

Lemma collect_count : forall w todo kept, (length (collect w kept todo) <= length kept + length todo)%nat.
Proof.
  induction todo as [|y r IH]; intros kept; cbn [collect length]; [lia|].
  destruct (Nat.eqb _ 1); [specialize (IH kept) | specialize (IH (kept ++ [y])); rewrite app_length in IH; cbn [length] in IH]; lia.
Qed.

(** A pass either removes something or changes nothing. *)
Lemma collect_fix : forall w todo kept,
  (length (collect w kept todo) < length kept + length todo)%nat \/
  (collect w kept todo = kept ++ todo /\
   forall x, In x todo -> use_count w (kept ++ todo) x <> 1%nat).
Proof.
  induction todo as [|y r IH]; intros kept; cbn [collect length].
  - right. rewrite app_nil_r. split; [reflexivity | intros x []].
  - destruct (Nat.eqb_spec (use_count w (kept ++ y :: r) y) 1) as [E|N].
    + left. pose proof (collect_count w r kept). lia.
    + destruct (IH (kept ++ [y])) as [L|[E F]].
      * left. rewrite app_length in L. cbn [length] in L. lia.
      * right. rewrite <- app_assoc in E, F. cbn [app] in E, F. split; [exact E|].
        intros x [<-|Hx]; [exact N | now apply F].
Qed.

Lemma collect_nodup : forall w todo kept, NoDup (kept ++ todo) -> NoDup (collect w kept todo).
Proof.
  induction todo as [|y r IH]; intros kept ND; cbn [collect]; [now rewrite app_nil_r in ND|].
  destruct (Nat.eqb _ 1); apply IH.
  - now apply NoDup_remove_1 in ND.
  - rewrite <- app_assoc. exact ND.
Qed.

Lemma collect_stable : forall w hs, collect_garbage w hs = hs ->
  forall x, In x hs -> use_count w hs x <> 1%nat.
Proof.
  intros w hs H x Hx. unfold collect_garbage in H.
  destruct (collect_fix w hs []) as [L|[_ F]]; [rewrite H in L; cbn [length] in L; lia | now apply F].
Qed.

Lemma collect_times_stable : forall n w hs, (length hs <= n)%nat ->
  collect_garbage w (collect_times n w hs) = collect_times n w hs.
Proof.
  induction n as [|n IH]; intros w hs L; cbn [collect_times].
  - destruct hs; [reflexivity | cbn in L; lia].
  - unfold collect_garbage at 2.
    destruct (collect_fix w hs []) as [L'|[E F]].
    + apply IH. unfold collect_garbage. cbn [length] in L'. lia.
    + assert (S : collect_garbage w hs = hs) by exact E. rewrite S.
      assert (T : forall m, collect_times m w hs = hs).
      { induction m as [|m IHm]; cbn [collect_times]; [reflexivity|]. now rewrite S. }
      change (collect w [] hs) with (collect_garbage w hs). rewrite ?S, !T. exact S.
Qed.

Lemma collect_times_nodup : forall n w hs, NoDup hs -> NoDup (collect_times n w hs).
Proof.
  induction n as [|n IH]; intros w hs ND; cbn [collect_times]; [assumption|].
  apply IH, collect_nodup. exact ND.
Qed.

(** * Lines *)

Lemma skipn_app_len : forall {A} (a b : list A), skipn (length a) (a ++ b) = b.
Proof. induction a; cbn; auto. Qed.

Lemma firstn_app_len : forall {A} (a b : list A), firstn (length a) (a ++ b) = a.
Proof. induction a; intros; cbn; [reflexivity|now rewrite IHa]. Qed.

Lemma scan_plain : forall l t, no_newline l ->
  scan (l ++ t) = ((length l + fst (scan t))%nat, snd (scan t)).
Proof.
  induction l as [|c l IH]; intros t [H1 H2]; cbn [app scan length].
  - now destruct (scan t).
  - destruct (Z.eqb_spec c 10) as [->|]; [exfalso; apply H1; now left|].
    destruct (Z.eqb_spec c 13) as [->|]; [exfalso; apply H2; now left|].
    rewrite IH by (split; intros X; [apply H1 | apply H2]; now right). reflexivity.
Qed.

Lemma read_line_at : forall pre l t d, no_newline l -> scan t = (0%nat, d) ->
  read_line (Reader (pre ++ l ++ t) (length pre)) =
  (l, Reader (pre ++ l ++ t) (length pre + length l + d)).
Proof.
  intros pre l t d H E. unfold read_line; cbn [rd_text rd_pos].
  rewrite skipn_app_len, scan_plain, E by assumption. cbn [fst snd].
  rewrite Nat.add_0_r. now rewrite firstn_app_len.
Qed.

Lemma read_lines_spec : forall t ls, Lines t ls -> forall pre,
  read_lines (length ls) (Reader (pre ++ t) (length pre)) =
  (ls, Reader (pre ++ t) (length (pre ++ t))) /\
  forall m, (m < length ls)%nat ->
  (rd_pos (snd (read_lines m (Reader (pre ++ t) (length pre)))) < length (pre ++ t))%nat.
Proof.
  assert (STEP : forall pre l nl t ls, no_newline l -> (nl ++ t <> []) \/ l <> [] ->
    scan (nl ++ t) = (0%nat, length nl) ->
    (read_lines (length ls) (Reader ((pre ++ l ++ nl) ++ t) (length (pre ++ l ++ nl))) =
       (ls, Reader ((pre ++ l ++ nl) ++ t) (length ((pre ++ l ++ nl) ++ t))) /\
     forall m, (m < length ls)%nat ->
     (rd_pos (snd (read_lines m (Reader ((pre ++ l ++ nl) ++ t) (length (pre ++ l ++ nl))))) < length ((pre ++ l ++ nl) ++ t))%nat) ->
    read_lines (length (l :: ls)) (Reader (pre ++ l ++ nl ++ t) (length pre)) =
      (l :: ls, Reader (pre ++ l ++ nl ++ t) (length (pre ++ l ++ nl ++ t))) /\
    forall m, (m < length (l :: ls))%nat ->
      (rd_pos (snd (read_lines m (Reader (pre ++ l ++ nl ++ t) (length pre)))) < length (pre ++ l ++ nl ++ t))%nat).
  { intros pre l nl t ls Hl NE Hs [A B].
    replace ((pre ++ l ++ nl) ++ t) with (pre ++ l ++ nl ++ t) in * by (now rewrite <- !app_assoc).
    replace (length (pre ++ l ++ nl)) with (length pre + length l + length nl)%nat in * by (rewrite !app_length; lia).
    pose proof (read_line_at pre l (nl ++ t) (length nl) Hl Hs) as R.
    split.
    - cbn [length read_lines]. rewrite R, A. reflexivity.
    - intros [|m] Hm; cbn [read_lines].
      + cbn [snd rd_pos]. rewrite !app_length. destruct NE as [N|N].
        * destruct (nl ++ t) eqn:E; [congruence|]. rewrite <- app_length, E. cbn. lia.
        * destruct l; [congruence|]. cbn. lia.
      + rewrite R. specialize (B m). cbn [length] in Hm.
        destruct (read_lines m (Reader (pre ++ l ++ nl ++ t) (length pre + length l + length nl))) as [x y] eqn:E.
        cbn [snd] in *. apply B. lia. }
  intros t ls H; induction H as [|l NE Hl|l t ls Hl HL IH|l t ls Hl HL IH|l t ls Hl NC HL IH]; intros pre.
  - cbn [length read_lines]. rewrite !app_nil_r. split; [reflexivity | intros m Hm; lia].
  - specialize (STEP pre l [] [] [] Hl (or_intror NE) eq_refl). cbn [app] in STEP.
    rewrite !app_nil_r in STEP. apply STEP. split; [reflexivity | intros m Hm; cbn in Hm; lia].
  - apply (STEP pre l [10] t ls Hl); [left; discriminate | reflexivity | apply IH].
  - apply (STEP pre l [13; 10] t ls Hl); [left; discriminate | reflexivity | apply IH].
  - apply (STEP pre l [13] t ls Hl); [left; discriminate | | apply IH].
    cbn [app scan Z.eqb Pos.eqb length]. f_equal. destruct t as [|c t]; [reflexivity|].
    destruct (Z.eqb_spec c 10) as [->|]; [exfalso; eapply NC; reflexivity | reflexivity].
Qed.

Lemma split_line : forall t, exists l r, t = l ++ r /\ no_newline l /\
  (r = [] \/ (exists r', r = 10 :: r') \/ (exists r', r = 13 :: r')).
Proof.
  induction t as [|c t (l & r & -> & [H1 H2] & H)].
  - exists [], []. split; [reflexivity|]. split; [split; intros [] | now left].
  - destruct (Z.eq_dec c 10) as [->|N1].
    { exists [], (10 :: l ++ r). split; [reflexivity|]. split; [split; intros []|]. right; left; eauto. }
    destruct (Z.eq_dec c 13) as [->|N2].
    { exists [], (13 :: l ++ r). split; [reflexivity|]. split; [split; intros []|]. right; right; eauto. }
    exists (c :: l), r. split; [reflexivity|]. split; [|exact H].
    split; intros [X|X]; congruence || tauto.
Qed.

Lemma lines_exist : forall n t, (length t <= n)%nat -> exists ls, Lines t ls.
Proof.
  induction n as [|n IH]; intros t L.
  - destruct t; [exists []; constructor | cbn in L; lia].
  - destruct (split_line t) as (l & r & -> & Hl & H). rewrite app_length in L.
    destruct H as [->|[(r' & ->)|(r' & ->)]].
    + rewrite app_nil_r. destruct l as [|c l]; [exists []; constructor|].
      exists [c :: l]. constructor; [discriminate|assumption].
    + cbn [length] in L. destruct (IH r') as [ls H]; [lia|]. exists (l :: ls). now constructor.
    + cbn [length] in L. destruct r' as [|c r'].
      * exists [l]. apply L_cr; [assumption | discriminate | constructor].
      * cbn [length] in L. destruct (Z.eq_dec c 10) as [->|N].
        -- destruct (IH r') as [ls H]; [lia|]. exists (l :: ls). now apply L_crlf.
        -- destruct (IH (c :: r')) as [ls H]; [cbn [length]; lia|]. exists (l :: ls).
           apply L_cr; [assumption | congruence | assumption].
Qed.

(** * Sequence numbers *)

Lemma next_times_nth : forall n w s i, 0 < w -> 0 <= s < 2 ^ w -> (i < n)%nat ->
  nth_error (next_times n w s) i = Some ((s + Z.of_nat i) mod 2 ^ w).
Proof.
  induction n as [|n IH]; intros w s i Hw Hs Hi; [lia|].
  assert (P : 0 < 2 ^ w) by (apply Z.pow_pos_nonneg; lia).
  cbn [next_times next]. destruct i as [|i]; cbn [nth_error].
  - rewrite Z.add_0_r, Z.mod_small by lia. reflexivity.
  - rewrite IH; [|assumption | apply Z.mod_pos_bound; lia | lia].
    rewrite Zplus_mod_idemp_l. do 2 f_equal. lia.
Qed.

Lemma next_times_length : forall n w s, length (next_times n w s) = n.
Proof. induction n; intros; cbn [next_times next length]; [reflexivity|]. now rewrite IHn. Qed.

Lemma next_times_nodup : forall n w s, 0 < w -> 0 <= s < 2 ^ w -> Z.of_nat n <= 2 ^ w -> NoDup (next_times n w s).
Proof.
  intros n w s Hw Hs Hn. apply NoDup_nth_error. intros i j Hi E.
  rewrite next_times_length in Hi. rewrite next_times_nth in E by assumption.
  assert (Hj : (j < n)%nat).
  { rewrite <- (next_times_length n w s). apply nth_error_Some. rewrite <- E. discriminate. }
  rewrite next_times_nth in E by assumption. injection E as E.
  assert (P : 0 < 2 ^ w) by lia.
  assert (D : (Z.of_nat i - Z.of_nat j) mod 2 ^ w = 0).
  { replace (Z.of_nat i - Z.of_nat j) with ((s + Z.of_nat i) - (s + Z.of_nat j)) by lia.
    rewrite Zminus_mod, E, Z.sub_diag. apply Z.mod_0_l. lia. }
  apply Z.mod_divide in D; [|lia]. destruct D as [q Hq].
  set (M := 2 ^ w) in *. clearbody M.
  assert (q = 0); [|subst q; lia].
  destruct (Z.lt_trichotomy q 0) as [Q|[Q|Q]]; [|exact Q|]; exfalso.
  - assert (q * M <= (-1) * M) by (apply Z.mul_le_mono_nonneg_r; lia). lia.
  - assert (1 * M <= q * M) by (apply Z.mul_le_mono_nonneg_r; lia). lia.
Qed.
