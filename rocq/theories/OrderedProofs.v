From Coq Require Import List Arith Lia Bool Sorting.Sorted Sorting.Permutation.
From Verif Require Import FlatSpec FlatProofs OrderedSpec OrderedModel.
Import ListNotations.
Set Implicit Arguments.

Section P.
Variables C K V : Type.
Variable less : C -> K -> K -> bool.
Variable c0 : C.
Variable dflt : V.
Hypothesis O : forall c, strict_weak_order (less c).
Notation st := (st C K V).
Notation entry := (entry K V).

Definition cell (h : nat -> option (K * V)) (i : nat) : list entry :=
  match h i with Some e => [{| hnd := i; key := fst e; val := snd e |}] | None => [] end.
Definition view (s : st) : list entry := flat_map (cell (heap s)) (ord s).
Definition lt (c : C) (h : nat -> option (K * V)) (i j : nat) : Prop :=
  forall e f, h i = Some e -> h j = Some f -> less c (fst e) (fst f) = true.
Record I (s : st) : Prop := {
  i_nodup : NoDup (ord s);
  i_perm : Permutation (srt s) (ord s);
  i_heap : forall i, In i (ord s) <-> heap s i <> None;
  i_next : forall i, In i (ord s) -> i < next s;
  i_sorted : StronglySorted (lt (cmp s) (heap s)) (srt s) }.

Lemma live s : I s -> forall i, In i (ord s) -> exists e, heap s i = Some e.
Proof. intros H i Hi. apply (i_heap H) in Hi. destruct (heap s i); eauto. congruence. Qed.

(** ---- lists of cells ---- *)
Definition full (F : nat -> list entry) (l : list nat) : Prop := forall i, In i l -> exists x, F i = [x] /\ hnd x = i.
Lemma full_cell h l : (forall i, In i l -> h i <> None) -> full (cell h) l.
Proof. intros H i Hi. unfold cell. specialize (H i Hi). destruct (h i) as [e|]; [|congruence]. eexists. split; reflexivity. Qed.
Lemma full_tl F i l : full F (i :: l) -> full F l. Proof. intros H j Hj. apply H. now right. Qed.
Lemma fm_hnd F l : full F l -> map (@hnd K V) (flat_map F l) = l.
Proof.
  induction l as [|i l IH]; intros H; cbn; auto. destruct (H i) as (x&E&Hx); [now left|]. rewrite E. cbn. rewrite Hx, IH; auto. eapply full_tl; eauto.
Qed.
Lemma fm_insert F l p n x : full F l -> F n = [x] -> flat_map F (list_insert l p n) = put_before (flat_map F l) p x.
Proof.
  intros H E. destruct p as [p|].
  2:{ cbn. destruct l; cbn; [now rewrite E|]. destruct (flat_map F (n0 :: l)) eqn:Q; cbn in Q; rewrite flat_map_app, app_assoc, Q; cbn; now rewrite E. }
  induction l as [|i l IH]; cbn; [now rewrite E|]. destruct (H i) as (y&Ey&Hy); [now left|]. cbn. rewrite Ey. cbn. rewrite Hy.
  destruct (i =? p); cbn; rewrite Ey. - now rewrite E. - cbn. rewrite IH; auto. eapply full_tl; eauto.
Qed.
Lemma fm_erase F l n : full F l -> flat_map F (list_erase l n) = drop (flat_map F l) n.
Proof.
  intros H. unfold list_erase, drop. induction l as [|i l IH]; cbn; auto. destruct (H i) as (y&Ey&Hy); [now left|]. rewrite Ey. cbn. rewrite Hy.
  destruct (negb (i =? n)); cbn; rewrite ?Ey; cbn; rewrite IH; auto; eapply full_tl; eauto.
Qed.
Lemma fm_ext (F G : nat -> list entry) l : (forall i, In i l -> F i = G i) -> flat_map F l = flat_map G l.
Proof. induction l as [|i l IH]; intros H; cbn; auto. rewrite H, IH; auto. - intros; apply H; now right. - now left. Qed.

Lemma in_list_insert l p n i : In i (list_insert l p n) <-> i = n \/ In i l.
Proof.
  induction l as [|y l IH]; cbn; [destruct p; cbn; intuition congruence|]. destruct p as [p|]; cbn.
  - destruct (y =? p); cbn; [intuition congruence|]. rewrite IH. intuition.
  - rewrite in_app_iff. cbn. intuition.
Qed.
Lemma perm_list_insert l p n : Permutation (list_insert l p n) (n :: l).
Proof.
  induction l as [|y l IH]; cbn. { destruct p; auto. }
  destruct p as [p|].
  - destruct (y =? p); auto. rewrite IH. apply perm_swap.
  - change (y :: l ++ [n]) with ((y :: l) ++ [n]). symmetry. apply Permutation_cons_append.
Qed.
Lemma nodup_list_insert l p n : NoDup l -> ~ In n l -> NoDup (list_insert l p n).
Proof. intros H N. eapply Permutation_NoDup; [symmetry; apply perm_list_insert|]. now constructor. Qed.
Lemma erase_notin l n : ~ In n l -> list_erase l n = l.
Proof.
  unfold list_erase. induction l as [|y l IH]; cbn; auto. intros H. destruct (y =? n) eqn:E; [apply Nat.eqb_eq in E; subst; tauto|]. cbn. rewrite IH; auto.
Qed.
Lemma erase_insert l p n : ~ In n l -> list_erase (list_insert l p n) n = l.
Proof.
  induction l as [|y l IH]; cbn; intros N. { destruct p; cbn; now rewrite Nat.eqb_refl. }
  assert (E : y =? n = false) by (apply Nat.eqb_neq; intros ->; tauto).
  destruct p as [p|].
  - destruct (y =? p); cbn; rewrite ?Nat.eqb_refl, ?E; cbn. + f_equal. apply erase_notin. tauto. + f_equal. apply IH. tauto.
  - unfold list_erase. cbn. rewrite E. cbn. f_equal. fold (list_erase (l ++ [n]) n). unfold list_erase. rewrite filter_app. cbn. rewrite Nat.eqb_refl. cbn. rewrite app_nil_r. apply erase_notin. tauto.
Qed.
Lemma in_erase l n i : In i (list_erase l n) <-> In i l /\ i <> n.
Proof. unfold list_erase. rewrite filter_In, negb_true_iff, Nat.eqb_neq. tauto. Qed.
Lemma nodup_erase l n : NoDup l -> NoDup (list_erase l n).
Proof. apply NoDup_filter. Qed.
Lemma perm_erase l l' n : Permutation l l' -> Permutation (list_erase l n) (list_erase l' n).
Proof.
  unfold list_erase. induction 1; cbn; auto.
  - destruct (negb (x =? n)); auto.
  - destruct (negb (x =? n)), (negb (y =? n)); auto. apply perm_swap.
  - etransitivity; eauto.
Qed.
Lemma SS_filter (X : Type) (R : X -> X -> Prop) f l : StronglySorted R l -> StronglySorted R (filter f l).
Proof.
  induction 1; cbn; [constructor|]. destruct (f a); auto. constructor; auto. apply Forall_forall. intros x Hx. apply filter_In in Hx. rewrite Forall_forall in H0. now apply H0.
Qed.
Lemma SS_impl (X : Type) (R R' : X -> X -> Prop) l : (forall x y, In x l -> In y l -> R x y -> R' x y) -> StronglySorted R l -> StronglySorted R' l.
Proof.
  intros H S. induction S as [|a l S IH F]; [constructor|]. constructor.
  - apply IH. intros x y Hx Hy. apply H; now right.
  - rewrite Forall_forall in *. intros y Hy. apply H; [now left|now right|auto].
Qed.

(** ---- the search ---- *)
Lemma in_srt s i : I s -> In i (srt s) <-> In i (ord s).
Proof. intros H. split; apply Permutation_in; [apply (i_perm H)|symmetry; apply (i_perm H)]. Qed.
Lemma hupd_same h i (x : option (K * V)) : hupd h i x i = x. Proof. unfold hupd. now rewrite Nat.eqb_refl. Qed.
Lemma hupd_other h i j (x : option (K * V)) : j <> i -> hupd h i x j = h j. Proof. unfold hupd. intros N. apply Nat.eqb_neq in N. now rewrite N. Qed.

Lemma split_lower_app (s : st) k : forall l a b, split_lower less s k l = (a, b) -> l = a ++ b /\ (forall i, In i a -> lt_key less s i k = true) /\
  match b with [] => True | i :: _ => lt_key less s i k = false end.
Proof.
  induction l as [|i l IH]; intros a b; cbn.
  - intros H. injection H as <- <-. repeat split; auto; try contradiction.
  - destruct (lt_key less s i k) eqn:E.
    + destruct (split_lower less s k l) as (a', b'). intros H. injection H as <- <-. destruct (IH a' b' eq_refl) as (->&A&B). repeat split; auto. intros j [<-|Hj]; auto.
    + intros H. injection H as <- <-. repeat split; auto; try contradiction.
Qed.
Lemma search s k a b : I s -> split_lower less s k (srt s) = (a, b) ->
  srt s = a ++ b /\ (forall i e, In i a -> heap s i = Some e -> less (cmp s) (fst e) k = true) /\
  ((match b with [] => True | i :: _ => key_lt less s k i = true end /\ (forall i e, In i b -> heap s i = Some e -> less (cmp s) k (fst e) = true)) \/
   (exists i b' e, b = i :: b' /\ heap s i = Some e /\ key_lt less s k i = false /\ same (less (cmp s)) k (fst e) = true)).
Proof.
  intros H S. destruct (split_lower_app _ _ _ S) as (E&A&B). split; auto. split.
  { intros i e Hi He. specialize (A i Hi). unfold lt_key in A. now rewrite He in A. }
  destruct b as [|i b]. { left. split; auto; try contradiction. }
  assert (Hi : In i (ord s)). { apply in_srt; auto. rewrite E. apply in_elt. }
  destruct (live H i Hi) as (e&He). unfold lt_key, key_lt in *. rewrite He in *.
  destruct (less (cmp s) k (fst e)) eqn:L.
  - left. split; auto. intros j f [<-|Hj] Hf; [congruence|]. eapply (tra (O (cmp s))); [exact L|].
    pose proof (i_sorted H) as SS. rewrite E in SS. apply SS_app in SS. destruct SS as (_&SS&_). inversion SS as [|? ? _ F]; subst. rewrite Forall_forall in F. apply (F j Hj); auto.
  - right. exists i, b, e. rewrite He. repeat split; auto. apply same_iff. auto.
Qed.

Lemma in_view s x : I s -> In x (view s) <-> heap s (hnd x) = Some (key x, val x).
Proof.
  intros H. unfold view. rewrite in_flat_map. split.
  - intros (i&_&Hx). unfold cell in Hx. destruct (heap s i) as [e|] eqn:E; [|contradiction]. destruct Hx as [<-|[]]. cbn. rewrite E. now destruct e.
  - intros E. exists (hnd x). split. + apply (i_heap H). congruence. + unfold cell. rewrite E. left. now destruct x.
Qed.
Lemma full_ord s : I s -> full (cell (heap s)) (ord s).
Proof. intros H. apply full_cell. intros i. apply (i_heap H). Qed.
Lemma view_hnd s : I s -> map (@hnd K V) (view s) = ord s.
Proof. intros H. apply fm_hnd. now apply full_ord. Qed.

Lemma lt_cases s i j : I s -> In i (ord s) -> In j (ord s) -> i = j \/ lt (cmp s) (heap s) i j \/ lt (cmp s) (heap s) j i.
Proof.
  intros H Hi Hj. apply (in_srt _ H) in Hi, Hj. apply In_nth_error in Hi, Hj. destruct Hi as (n&Hn), Hj as (m&Hm).
  pose proof (i_sorted H) as S. rewrite SS_nth in S. destruct (lt_eq_lt_dec n m) as [[L|L]|L].
  - right. left. eapply S; eauto.
  - subst. left. congruence.
  - right. right. eapply S; eauto.
Qed.
(** no two entries have the same key *)
Lemma same_unique s i j e f : I s -> heap s i = Some e -> heap s j = Some f -> same (less (cmp s)) (fst e) (fst f) = true -> i = j.
Proof.
  intros H He Hf S. assert (Hi : In i (ord s)) by (apply (i_heap H); congruence). assert (Hj : In j (ord s)) by (apply (i_heap H); congruence).
  destruct (lt_cases _ _ H Hi Hj) as [|[L|L]]; auto; apply same_iff in S; destruct S.
  - specialize (L e f He Hf). congruence.
  - specialize (L f e Hf He). congruence.
Qed.
Lemma stored_iff s k x : I s -> stored (less (cmp s)) (view s) k = Some x <-> In x (view s) /\ same (less (cmp s)) k (key x) = true.
Proof.
  intros H. unfold stored. split.
  - apply find_some.
  - intros (A&B). destruct (List.find _ (view s)) as [y|] eqn:E.
    + apply find_some in E. destruct E as (E1&E2). apply (in_view _ H) in A, E1. f_equal.
      assert (Q : hnd y = hnd x). { eapply same_unique; eauto. cbn. rewrite (same_sym (less (cmp s)) k) in E2. eapply (same_trans (O (cmp s))); eauto. }
      rewrite Q in E1. destruct x, y. cbn in *. congruence.
    + apply find_none with (x := x) in E; auto. congruence.
Qed.
Lemma stored_none s k : I s -> stored (less (cmp s)) (view s) k = None <-> forall i e, heap s i = Some e -> same (less (cmp s)) k (fst e) = false.
Proof.
  intros H. unfold stored. split.
  - intros N i e He. apply find_none with (x := {| hnd := i; key := fst e; val := snd e |}) in N; auto. apply in_view; auto. cbn. rewrite He. now destruct e.
  - intros N. destruct (List.find _ (view s)) as [y|] eqn:E; auto. apply find_some in E. destruct E as (E1&E2). apply (in_view _ H) in E1. apply N in E1. cbn in E1. congruence.
Qed.

Lemma find_ok s k : I s -> find less s k = option_map (@hnd K V) (stored (less (cmp s)) (view s) k).
Proof.
  intros H. unfold find. destruct (split_lower less s k (srt s)) as (a, b) eqn:S. cbn. destruct (@search _ _ _ _ H S) as (E&A&[(B1&B2)|(i&b'&e&->&He&B&Sm)]).
  - assert (N : stored (less (cmp s)) (view s) k = None).
    { apply stored_none; auto. intros i e He. assert (Hi : In i (srt s)) by (apply in_srt; auto; apply (i_heap H); congruence). rewrite E in Hi. apply in_app_or in Hi.
      destruct Hi as [Hi|Hi]; [apply not_same_more|apply not_same_less]; eauto. }
    rewrite N. destruct b as [|i b]; auto. rewrite B1. reflexivity.
  - rewrite B. assert (N : stored (less (cmp s)) (view s) k = Some {| hnd := i; key := fst e; val := snd e |}).
    { apply stored_iff; auto. split; auto. apply in_view; auto. cbn. rewrite He. now destruct e. }
    rewrite N. reflexivity.
Qed.

(** ---- operations ---- *)
Lemma fresh s : I s -> ~ In (next s) (ord s).
Proof. intros H X. apply (i_next H) in X. lia. Qed.

Lemma insert_at_ok s p a b e : I s -> srt s = a ++ b -> (forall i f, In i a -> heap s i = Some f -> less (cmp s) (fst f) (fst e) = true) ->
  (forall i f, In i b -> heap s i = Some f -> less (cmp s) (fst e) (fst f) = true) ->
  forall t s' r, insert_at t s p a b e = (s', r) ->
  I s' /\ cmp s' = cmp s /\ match r with
    | None => t = true /\ view s' = view s
    | Some i => t = false /\ ~ In i (ord s) /\ view s' = put_before (view s) p {| hnd := i; key := fst e; val := snd e |} end.
Proof.
  intros H E A B t s' r S. pose proof (fresh H) as F. unfold insert_at in S. destruct t; injection S as <- <-.
  - split.
    + split; cbn.
      * rewrite erase_insert by auto. apply (i_nodup H).
      * rewrite erase_insert by auto. apply (i_perm H).
      * rewrite erase_insert by auto. intros i. destruct (Nat.eq_dec i (next s)) as [->|N]; [rewrite hupd_same; tauto|]. rewrite !hupd_other by auto. apply (i_heap H).
      * rewrite erase_insert by auto. intros i Hi. apply (i_next H) in Hi. lia.
      * eapply SS_impl; [|apply (i_sorted H)]. intros x y Hx Hy. apply (in_srt _ H) in Hx, Hy. unfold lt. rewrite !hupd_other; auto; intros ->; auto.
    + split; auto. split; auto. unfold view. cbn. rewrite erase_insert by auto. apply fm_ext. intros i Hi. unfold cell. rewrite !hupd_other; auto; intros ->; auto.
  - assert (Q : forall i, In i (ord s) -> hupd (heap s) (next s) (Some e) i = heap s i) by (intros i Hi; apply hupd_other; intros ->; auto).
    split.
    + split; cbn.
      * apply nodup_list_insert; auto. apply (i_nodup H).
      * rewrite perm_list_insert. rewrite <- (i_perm H), E. symmetry. apply Permutation_middle.
      * intros i. rewrite in_list_insert. destruct (Nat.eq_dec i (next s)) as [->|N]; [rewrite hupd_same; split; [congruence|auto]|]. rewrite hupd_other by auto. rewrite <- (i_heap H). intuition.
      * intros i. rewrite in_list_insert. intros [->|Hi]; [lia|]. apply (i_next H) in Hi. lia.
      * pose proof (i_sorted H) as SS. rewrite E in SS. assert (M : forall i, In i (a ++ b) -> In i (ord s)) by (intros i; rewrite <- E; apply in_srt; auto).
        assert (SS' : StronglySorted (lt (cmp s) (hupd (heap s) (next s) (Some e))) (a ++ b)).
        { eapply SS_impl; [|exact SS]. intros x y Hx Hy L. unfold lt. now rewrite !Q by auto. }
        apply SS_app in SS'. destruct SS' as (S1&S2&S3). apply SS_app. split; auto. split.
        -- constructor; auto. apply Forall_forall. intros y Hy f g. rewrite hupd_same, Q by (apply M, in_or_app; auto). intros X Y. injection X as <-. eapply B; eauto.
        -- intros x y Hx [<-|Hy]; auto. intros f g. rewrite hupd_same, Q by (apply M, in_or_app; auto). intros X Y. injection Y as <-. eapply A; eauto.
    + split; auto. split; auto. split; auto. unfold view. cbn.
      rewrite (@fm_insert (cell (hupd (heap s) (next s) (Some e))) (ord s) p (next s) {| hnd := next s; key := fst e; val := snd e |}).
      * f_equal. apply fm_ext. intros i Hi. unfold cell. now rewrite Q.
      * apply full_cell. intros i Hi. rewrite Q by auto. now apply (i_heap H).
      * unfold cell. now rewrite hupd_same.
Qed.

Lemma do_insert_ok s p e t s' r : I s -> do_insert less t s p e = (s', r) ->
  I s' /\ cmp s' = cmp s /\
  match stored (less (cmp s)) (view s) (fst e) with
  | Some x => r = Some (hnd x, false) /\ s' = s
  | None => if t then r = None /\ view s' = view s
            else exists i, r = Some (i, true) /\ ~ In i (ord s) /\ view s' = put_before (view s) p {| hnd := i; key := fst e; val := snd e |}
  end.
Proof.
  intros H D. unfold do_insert in D. pose proof (find_ok (fst e) H) as FO. unfold find in FO.
  destruct (split_lower less s (fst e) (srt s)) as (a, b) eqn:S. cbn in FO.
  destruct (@search _ _ _ _ H S) as (E&A&[(B1&B2)|(i&b'&f&->&He&B&Sm)]).
  - assert (D' : (let '(s', r) := insert_at t s p a b e in (s', option_map (fun i => (i, true)) r)) = (s', r)). { destruct b as [|i b]; [exact D|]. now rewrite B1 in D. }
    assert (N : stored (less (cmp s)) (view s) (fst e) = None).
    { destruct (stored _ _ _); auto. destruct b as [|i b]; [discriminate|]. rewrite B1 in FO. discriminate. }
    clear D FO. rewrite N. destruct (insert_at t s p a b e) as (s1, r1) eqn:Q. injection D' as <- <-.
    destruct (@insert_at_ok _ p _ _ _ H E A B2 _ _ _ Q) as (I1&I2&I3). split; auto. split; auto. destruct r1 as [i|]; destruct I3 as (->&I3).
    + exists i. repeat split; auto. all: apply I3.
    + auto.
  - rewrite B in D, FO. injection D as <- <-. split; auto. split; auto. destruct (stored _ _ _) as [x|]; [|discriminate]. cbn in FO. injection FO as ->. auto.
Qed.

Lemma erase_it_ok s i : I s -> I (erase_it s i) /\ view (erase_it s i) = drop (view s) i.
Proof.
  intros H. assert (Q : forall j, In j (list_erase (ord s) i) -> hupd (heap s) i None j = heap s j) by (intros j Hj; apply in_erase in Hj; now apply hupd_other).
  split.
  - split; cbn.
    + apply nodup_erase, (i_nodup H).
    + apply perm_erase, (i_perm H).
    + intros j. rewrite in_erase. destruct (Nat.eq_dec j i) as [->|N]; [rewrite hupd_same; tauto|]. rewrite hupd_other by auto. rewrite (i_heap H). tauto.
    + intros j Hj. apply in_erase in Hj. now apply (i_next H).
    + apply SS_impl with (R := lt (cmp s) (heap s)); [|apply SS_filter, (i_sorted H)].
      intros x y Hx Hy L. apply in_erase in Hx, Hy. unfold lt. now rewrite !hupd_other by tauto.
  - unfold view. cbn. rewrite <- fm_erase by now apply full_ord. apply fm_ext. intros j Hj. unfold cell. now rewrite Q.
Qed.
Lemma clear_ok s : I (clear s) /\ view (clear s) = [].
Proof. split; auto. split; cbn; try constructor; try tauto; try congruence. Qed.
Lemma empty_ok c : I (empty K V c) /\ view (empty K V c) = [].
Proof. split; auto. split; cbn; try constructor; try tauto; try congruence. Qed.
Lemma write_ok s i v : I s -> In i (ord s) -> I (write s i v) /\ view (write s i v) = OrderedSpec.write (view s) i v.
Proof.
  intros H Hi. destruct (live H i Hi) as (e&He). split.
  - split; cbn; try apply H.
    + intros j. rewrite (i_heap H). destruct (Nat.eq_dec j i) as [->|N]; [rewrite hupd_same, He; cbn; split; congruence|]. now rewrite hupd_other by auto.
    + eapply SS_impl; [|apply (i_sorted H)]. intros x y _ _ L f g. rewrite He. cbn. unfold hupd. intros X Y.
      destruct (x =? i) eqn:Ex, (y =? i) eqn:Ey; try (apply Nat.eqb_eq in Ex; subst x); try (apply Nat.eqb_eq in Ey; subst y).
      * specialize (L e e He He). injection X as <-. injection Y as <-. exact L.
      * injection X as <-. apply (L e g He Y).
      * injection Y as <-. apply (L f e X He).
      * now apply L.
  - unfold view, OrderedSpec.write. cbn. rewrite He. cbn. clear Hi. induction (ord s) as [|j l IH]; cbn; auto. rewrite map_app, IH. f_equal. unfold cell, hupd.
    destruct (j =? i) eqn:E. + apply Nat.eqb_eq in E. subst j. rewrite He. cbn. now rewrite Nat.eqb_refl. + destruct (heap s j); cbn; auto. now rewrite E.
Qed.

(** ---- range erasure ---- *)
Lemma erase_mid p i t : NoDup (p ++ i :: t) -> list_erase (p ++ i :: t) i = p ++ t.
Proof.
  intros H. unfold list_erase. rewrite filter_app. cbn. rewrite Nat.eqb_refl. cbn. apply NoDup_remove_2 in H.
  fold (list_erase p i) (list_erase t i). rewrite !erase_notin; auto; intros X; apply H, in_or_app; auto.
Qed.
Lemma next_of_mid p i t : ~ In i p -> next_of (p ++ i :: t) i = hd_error t.
Proof.
  induction p as [|x p IH]; cbn; intros N. - now rewrite Nat.eqb_refl.
  - destruct (x =? i) eqn:E; [apply Nat.eqb_eq in E; subst; tauto|]. apply IH. tauto.
Qed.
Lemma erase_range_ok : forall fuel s p t last s', I s -> ord s = p ++ t -> erase_range fuel s (hd_error t) last = Some s' ->
  exists q r, t = q ++ r /\ last = hd_error r /\ I s' /\ cmp s' = cmp s /\ ord s' = p ++ r /\ (forall i, In i (p ++ r) -> heap s' i = heap s i).
Proof.
  induction fuel as [|fuel IH]; intros s p t last s' H E S; destruct t as [|a t]; cbn in S.
  - destruct last; [discriminate|]. injection S as <-. exists [], []. repeat split; auto; apply H.
  - destruct last as [b|]; [|discriminate]. destruct (a =? b) eqn:Q; [|discriminate]. apply Nat.eqb_eq in Q. subst b. injection S as <-. exists [], (a :: t). repeat split; auto; apply H.
  - destruct last; [discriminate|]. injection S as <-. exists [], []. repeat split; auto; apply H.
  - assert (D : last = Some a /\ s' = s \/ last <> Some a /\ erase_range fuel (erase_it s a) (next_of (ord s) a) last = Some s').
    { destruct last as [b|]; [|right; split; [discriminate|auto]]. destruct (a =? b) eqn:Q. - apply Nat.eqb_eq in Q. subst b. injection S as <-. auto. - apply Nat.eqb_neq in Q. right. split; auto. congruence. }
    destruct D as [(->&->)|(Hne&S')].
    + exists [], (a :: t). repeat split; auto; apply H.
    + pose proof (i_nodup H) as ND. rewrite E in ND. assert (Na : ~ In a p) by (intros X; apply NoDup_remove_2 in ND; apply ND, in_or_app; auto).
      rewrite E, (@next_of_mid _ _ _ Na) in S'. destruct (erase_it_ok a H) as (I1&_).
      destruct (IH (erase_it s a) p t last s' I1) as (q&r&->&Hl&I2&C2&O2&Hh); auto. { cbn. rewrite E. now apply erase_mid. }
      exists (a :: q), r. repeat split; try apply I2; auto. intros i Hi. rewrite Hh by auto. cbn. apply hupd_other. intros ->.
      apply NoDup_remove_2 in ND. apply ND. apply in_app_or in Hi. apply in_or_app. destruct Hi; auto. right. apply in_or_app. auto.
Qed.
Lemma erase_range_total : forall q fuel s p r, I s -> ord s = p ++ q ++ r -> length q <= fuel ->
  erase_range fuel s (hd_error (q ++ r)) (hd_error r) <> None.
Proof.
  induction q as [|a q IH]; intros fuel s p r H E L.
  - cbn [app]. destruct r as [|b r]; cbn [hd_error]; destruct fuel; cbn [erase_range]; rewrite ?Nat.eqb_refl; discriminate.
  - destruct fuel as [|fuel]; [cbn in L; lia|]. cbn [hd_error app]. pose proof (i_nodup H) as ND. rewrite E in ND.
    assert (Na : ~ In a p) by (intros X; apply NoDup_remove_2 in ND; apply ND, in_or_app; auto).
    assert (D : erase_range (S fuel) s (Some a) (hd_error r) = erase_range fuel (erase_it s a) (next_of (ord s) a) (hd_error r)).
    { cbn [erase_range]. destruct r as [|b r]; cbn [hd_error]; auto. destruct (a =? b) eqn:Q; auto. apply Nat.eqb_eq in Q. subst b. exfalso.
      apply NoDup_remove_2 in ND. apply ND. apply in_or_app. right. cbn. apply in_elt. }
    rewrite D, E. cbn [app]. rewrite (@next_of_mid _ _ _ Na). destruct (erase_it_ok a H) as (I1&_). apply (IH fuel _ p r I1).
    + cbn. rewrite E. now apply erase_mid.
    + cbn in L. lia.
Qed.
Lemma view_split s p q : ord s = p ++ q -> view s = flat_map (cell (heap s)) p ++ flat_map (cell (heap s)) q.
Proof. unfold view. intros ->. apply flat_map_app. Qed.
Lemma fm_hd F l : full F l -> option_map (@hnd K V) (hd_error (flat_map F l)) = hd_error l.
Proof. intros H. destruct l as [|i l]; auto. cbn. destruct (H i) as (x&E&Hx); [now left|]. rewrite E. cbn. now rewrite Hx. Qed.
Lemma full_sub F l l' : full F l -> (forall i, In i l' -> In i l) -> full F l'.
Proof. intros H S i Hi. apply H. auto. Qed.
Lemma erase_range_view fuel s a b s' : I s -> valid s a = true -> erase_range fuel s a b = Some s' ->
  I s' /\ cmp s' = cmp s /\ drop_range (view s) a b (view s').
Proof.
  intros H Va S. assert (P : exists p t, ord s = p ++ t /\ a = hd_error t).
  { destruct a as [i|]; [|exists (ord s), []; rewrite app_nil_r; auto]. cbn in Va. apply existsb_exists in Va. destruct Va as (j&Hj&Ej). apply Nat.eqb_eq in Ej. subst j.
    apply in_split in Hj. destruct Hj as (p&t&E). exists p, (i :: t). auto. }
  destruct P as (p&t&E&->). destruct (@erase_range_ok _ _ _ _ _ _ H E S) as (q&r&->&->&I2&C2&O2&Hh). split; auto. split; auto.
  pose proof (full_ord H) as F. rewrite E in F.
  replace (view s') with (flat_map (cell (heap s)) p ++ flat_map (cell (heap s)) r).
  2:{ rewrite (@view_split _ _ _ O2). f_equal; apply fm_ext; intros i Hi; unfold cell; rewrite Hh; auto; apply in_or_app; auto. }
  apply dr_mid with (q := flat_map (cell (heap s)) q).
  - rewrite (@view_split _ _ _ E), flat_map_app. reflexivity.
  - rewrite <- flat_map_app, fm_hd; auto. eapply full_sub; [exact F|]. intros. apply in_or_app. auto.
  - rewrite fm_hd; auto. eapply full_sub; [exact F|]. intros. apply in_or_app. right. apply in_or_app. auto.
Qed.

Lemma items_view s : items s = map (fun x => (key x, val x)) (view s).
Proof.
  unfold items, view. induction (ord s) as [|i l IH]; cbn; auto. rewrite map_app, IH. f_equal. unfold cell. destruct (heap s i) as [e|]; cbn; auto. now destruct e.
Qed.
End P.
