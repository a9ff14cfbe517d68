From Coq Require Import List Arith Lia Bool Sorting.Sorted.
From Verif Require Import FlatSpec FlatModel.
Import ListNotations.
Set Implicit Arguments.

Lemma SS_app (X : Type) (R : X -> X -> Prop) a b :
  StronglySorted R (a ++ b) <-> StronglySorted R a /\ StronglySorted R b /\ forall x y, In x a -> In y b -> R x y.
Proof.
  induction a as [|x a IH]; cbn.
  - split; [intros H; repeat split; auto; [constructor|contradiction]|tauto].
  - split.
    + intros H. inversion H as [|? ? H1 H2]; subst. apply IH in H1. destruct H1 as (A&B&C). rewrite Forall_forall in H2. repeat split; auto.
      * constructor; auto. apply Forall_forall. intros y Hy. apply H2. apply in_or_app. auto.
      * intros u y [<-|Hu] Hy; auto. apply H2. apply in_or_app. auto.
    + intros (A&B&C). inversion A as [|? ? A1 A2]; subst. constructor. * apply IH. auto. * apply Forall_forall. rewrite Forall_forall in A2. intros y Hy. apply in_app_or in Hy. destruct Hy; auto.
Qed.
Lemma SS_nth (X : Type) (R : X -> X -> Prop) l :
  StronglySorted R l <-> forall i j e f, i < j -> nth_error l i = Some e -> nth_error l j = Some f -> R e f.
Proof.
  induction l as [|x l IH].
  - split; [|constructor]. intros _ i j e f _ H. destruct i; discriminate.
  - split.
    + intros H. inversion H as [|? ? H1 H2]; subst. rewrite Forall_forall in H2. intros [|i] [|j] e f Hij He Hf; try lia.
      * cbn in He, Hf. injection He as <-. apply H2. eapply nth_error_In; eauto.
      * cbn in He, Hf. destruct IH as (IH&_). eapply (IH H1 i j); eauto. lia.
    + intros H. constructor.
      * apply IH. intros i j e f Hij He Hf. apply (H (S i) (S j)); auto. lia.
      * apply Forall_forall. intros y Hy. apply In_nth_error in Hy. destruct Hy as (n&Hn). apply (H 0 (S n)); auto. lia.
Qed.

Lemma nth_error_Some_lt (X : Type) (l : list X) i e : nth_error l i = Some e -> i < length l.
Proof. intros H. apply nth_error_Some. congruence. Qed.
Lemma nth_error_firstn (X : Type) (l : list X) : forall i n, i < n -> nth_error (firstn n l) i = nth_error l i.
Proof. induction l as [|x l IH]; intros [|i] [|n] H; cbn; auto; try lia. apply IH. lia. Qed.
Lemma nth_error_skipn (X : Type) (l : list X) : forall n i, nth_error (skipn n l) i = nth_error l (n + i).
Proof. induction l as [|x l IH]; intros [|n] i; cbn; auto. destruct i; auto. Qed.

Lemma bsearch_spec p : forall fuel first len, len <= fuel ->
  (forall i j, first <= i -> i <= j -> j < first + len -> p j = true -> p i = true) ->
  first <= bsearch p fuel first len <= first + len /\
  (forall i, first <= i < bsearch p fuel first len -> p i = true) /\
  (forall i, bsearch p fuel first len <= i < first + len -> p i = false).
Proof.
  induction fuel as [|fuel IH]; intros first len Hf M.
  - assert (len = 0) by lia. subst. cbn. repeat split; intros; lia.
  - destruct len as [|n]; [cbn; repeat split; intros; lia|]. set (len := S n) in *.
    assert (Hh : len / 2 < len) by (apply Nat.div_lt; unfold len; lia).
    assert (E : bsearch p (S fuel) first len = if p (first + len / 2) then bsearch p fuel (S (first + len / 2)) (len - len / 2 - 1) else bsearch p fuel first (len / 2)) by reflexivity.
    rewrite E. clear E. destruct (p (first + len / 2)) eqn:Ep.
    + destruct (IH (S (first + len / 2)) (len - len / 2 - 1)) as (A&B&C); [lia| |].
      { intros i j ? ? ? ?. apply (M i j); auto; lia. }
      repeat split; try lia.
      * intros i Hi. destruct (le_lt_dec i (first + len / 2)); [apply (M i (first + len / 2)); auto; lia|]. apply B. lia.
      * intros i Hi. apply C. lia.
    + destruct (IH first (len / 2)) as (A&B&C); [lia| |].
      { intros i j ? ? ? ?. apply (M i j); auto; lia. }
      repeat split; try lia.
      * intros i Hi. apply B. lia.
      * intros i Hi. destruct (le_lt_dec (first + len / 2) i); [|apply C; lia].
        destruct (p i) eqn:Ei; auto. rewrite (M (first + len / 2) i) in Ep; auto; lia.
Qed.

Section P.
Variables K V : Type.
Variable less : K -> K -> bool.
Variable dflt : V.
Hypothesis O : strict_weak_order less.
Notation cont := (cont K V).
Notation same := (same less).
Definition R (e f : K * V) : Prop := less (fst e) (fst f) = true.
Notation SS := (StronglySorted R).

Lemma irr x : less x x = false. Proof. apply (swo_irrefl O). Qed.
Lemma tra x y z : less x y = true -> less y z = true -> less x z = true. Proof. apply (swo_trans O). Qed.
Lemma inc x y z : less x y = false -> less y z = false -> less x z = false. Proof. apply (swo_incomp O). Qed.
Lemma asym x y : less x y = true -> less y x = false.
Proof. intros H. destruct (less y x) eqn:E; auto. pose proof (tra H E). rewrite irr in H0. discriminate. Qed.
Lemma same_refl x : same x x = true. Proof. unfold FlatSpec.same. now rewrite irr. Qed.
Lemma same_sym x y : same x y = same y x. Proof. unfold FlatSpec.same. apply andb_comm. Qed.
Lemma same_iff x y : same x y = true <-> less x y = false /\ less y x = false.
Proof. unfold FlatSpec.same. rewrite andb_true_iff, !negb_true_iff. tauto. Qed.
Lemma same_trans x y z : same x y = true -> same y z = true -> same x z = true.
Proof. rewrite !same_iff. intros (A&B) (C&D). split; eapply inc; eauto. Qed.
Lemma same_less_l x y z : same x y = true -> less x z = less y z.
Proof.
  rewrite same_iff. intros (A&B). destruct (less x z) eqn:E1, (less y z) eqn:E2; auto.
  - pose proof (inc A E2). congruence.
  - pose proof (inc B E1). congruence.
Qed.
Lemma same_less_r x y z : same x y = true -> less z x = less z y.
Proof.
  rewrite same_iff. intros (A&B). destruct (less z x) eqn:E1, (less z y) eqn:E2; auto.
  - pose proof (inc E2 B). congruence.
  - pose proof (inc E1 A). congruence.
Qed.
Lemma same_same_l x y z : same x y = true -> same x z = same y z.
Proof. intros H. unfold FlatSpec.same. now rewrite (@same_less_l x y z H), (@same_less_r x y z H). Qed.

Lemma sorted_SS (l : cont) : strictly_sorted less l <-> SS l.
Proof. symmetry. apply SS_nth. Qed.

Lemma lower_spec (l : cont) k : SS l -> exists a b, l = a ++ b /\ lower_bound less l k = length a /\
  (forall e, In e a -> less (fst e) k = true) /\ (forall e, In e b -> less (fst e) k = false).
Proof.
  intros S. destruct (@bsearch_spec (fun i => at_ l i (fun e => less (fst e) k)) (length l) 0 (length l) (le_n _)) as (A&B&C).
  { intros i j Hi Hij Hj. unfold at_. destruct (nth_error l j) as [f|] eqn:Ef; [|discriminate]. intros Hf.
    destruct (nth_error l i) as [e|] eqn:Ee; [|apply nth_error_None in Ee; lia].
    destruct (Nat.eq_dec i j) as [->|]; [congruence|]. eapply tra; [|exact Hf]. apply SS_nth with (i := i) (j := j) (e := e) (f := f) in S; auto. lia. }
  fold (lower_bound less l k) in *. set (r := lower_bound less l k) in *.
  exists (firstn r l), (skipn r l). rewrite firstn_skipn, firstn_length_le by lia. repeat split; auto.
  - intros e He. apply In_nth_error in He. destruct He as (i&He). assert (Hi : i < r). { apply nth_error_Some_lt in He. rewrite firstn_length in He. lia. }
    specialize (B i ltac:(lia)). unfold at_ in B. rewrite nth_error_firstn in He by lia. now rewrite He in B.
  - intros e He. apply In_nth_error in He. destruct He as (i&He). rewrite nth_error_skipn in He.
    assert (r + i < length l) by (apply nth_error_Some; congruence). specialize (C (r + i) ltac:(lia)). unfold at_ in C. now rewrite He in C.
Qed.

Lemma upper_spec (l : cont) k : SS l -> exists a b, l = a ++ b /\ upper_bound less l k = length a /\
  (forall e, In e a -> less k (fst e) = false) /\ (forall e, In e b -> less k (fst e) = true).
Proof.
  intros S. destruct (@bsearch_spec (fun i => at_ l i (fun e => negb (less k (fst e)))) (length l) 0 (length l) (le_n _)) as (A&B&C).
  { intros i j Hi Hij Hj. unfold at_. destruct (nth_error l j) as [f|] eqn:Ef; [|discriminate]. intros Hf.
    destruct (nth_error l i) as [e|] eqn:Ee; [|apply nth_error_None in Ee; lia].
    destruct (Nat.eq_dec i j) as [->|]; [congruence|]. apply negb_true_iff in Hf. apply negb_true_iff.
    apply SS_nth with (i := i) (j := j) (e := e) (f := f) in S; auto; [|lia].
    eapply inc; [exact Hf|]. now apply asym. }
  fold (upper_bound less l k) in *. set (r := upper_bound less l k) in *.
  exists (firstn r l), (skipn r l). rewrite firstn_skipn, firstn_length_le by lia. repeat split; auto.
  - intros e He. apply In_nth_error in He. destruct He as (i&He). assert (Hi : i < r). { apply nth_error_Some_lt in He. rewrite firstn_length in He. lia. }
    specialize (B i ltac:(lia)). unfold at_ in B. rewrite nth_error_firstn in He by lia. rewrite He in B. now apply negb_true_iff in B.
  - intros e He. apply In_nth_error in He. destruct He as (i&He). rewrite nth_error_skipn in He.
    assert (r + i < length l) by (apply nth_error_Some; congruence). specialize (C (r + i) ltac:(lia)). unfold at_ in C. rewrite He in C. now apply negb_false_iff in C.
Qed.

Lemma at_app (a b : cont) f : at_ (a ++ b) (length a) f = match b with [] => false | e :: _ => f e end.
Proof. unfold at_. rewrite nth_error_app2 by lia. rewrite Nat.sub_diag. destruct b; auto. Qed.

(** the three situations of a search: past all keys, in a gap, on the key *)
Lemma search (l : cont) k : SS l -> exists a b, l = a ++ b /\ lower_bound less l k = length a /\
  (forall e, In e a -> less (fst e) k = true) /\
  ((absent_at less l (length a) k = true /\ (forall e, In e b -> less k (fst e) = true) /\ find less l k = length l) \/
   (exists e b', b = e :: b' /\ absent_at less l (length a) k = false /\ same k (fst e) = true /\ (forall e, In e b' -> less k (fst e) = true) /\ find less l k = length a)).
Proof.
  intros S. destruct (lower_spec k S) as (a&b&->&Hl&Ha&Hb). exists a, b. repeat split; auto.
  unfold find, absent_at. rewrite Hl, !at_app. apply SS_app in S. destruct S as (_&Sb&_).
  destruct b as [|e b].
  - left. rewrite app_length. cbn. rewrite Nat.add_0_r, Nat.eqb_refl. repeat split; auto; try contradiction.
  - inversion Sb as [|? ? Sb1 Sb2]; subst. rewrite Forall_forall in Sb2.
    destruct (less k (fst e)) eqn:E.
    + left. rewrite orb_true_r. repeat split; auto. intros f [<-|Hf]; auto. eapply tra; [exact E|]. now apply Sb2.
    + right. exists e, b. rewrite orb_false_r. repeat split; auto.
      * rewrite app_length. cbn. apply Nat.eqb_neq. lia.
      * apply same_iff. split; auto. apply Hb. now left.
      * intros f Hf. assert (Sm : same k (fst e) = true). { apply same_iff. split; auto. apply Hb. now left. }
        rewrite (@same_less_l _ _ _ Sm). now apply Sb2.
Qed.

Lemma firstn_len (a b : cont) : firstn (length a) (a ++ b) = a.
Proof. rewrite firstn_app, Nat.sub_diag, firstn_all. cbn. apply app_nil_r. Qed.
Lemma skipn_len (a b : cont) : skipn (length a) (a ++ b) = b.
Proof. rewrite skipn_app, Nat.sub_diag, skipn_all. reflexivity. Qed.
Lemma skipn_len1 (a b : cont) e : skipn (S (length a)) (a ++ e :: b) = b.
Proof. rewrite skipn_app. replace (S (length a) - length a) with 1 by lia. rewrite skipn_all2 by lia. reflexivity. Qed.
Lemma vinsert_app (a b : cont) e : vinsert (a ++ b) (length a) e = a ++ e :: b.
Proof. unfold vinsert. now rewrite firstn_len, skipn_len. Qed.
Lemma verase_app (a b : cont) e : verase (a ++ e :: b) (length a) = a ++ b.
Proof. unfold verase. now rewrite firstn_len, skipn_len1. Qed.
Lemma vset_app (a b : cont) e v : vset (a ++ e :: b) (length a) v = a ++ (fst e, v) :: b.
Proof. unfold vset. rewrite nth_error_app2, Nat.sub_diag by lia. cbn [nth_error]. now rewrite firstn_len, skipn_len1. Qed.
Lemma nth_len (a b : cont) e : nth_error (a ++ e :: b) (length a) = Some e.
Proof. rewrite nth_error_app2, Nat.sub_diag by lia. reflexivity. Qed.

Notation fmap := (fmap K V).
Definition lists' (m : fmap) (l : cont) : Prop := SS l /\ forall k e, m k = Some e <-> In e l /\ same k (fst e) = true.
Lemma lists_iff m l : lists less m l <-> lists' m l.
Proof. unfold lists, lists'. now rewrite sorted_SS. Qed.

Lemma none_iff m l k : lists' m l -> m k = None <-> forall e, In e l -> same k (fst e) = false.
Proof.
  intros (_&H). split.
  - intros N e He. destruct (same k (fst e)) eqn:E; auto. assert (m k = Some e) by (apply H; auto). congruence.
  - intros N. destruct (m k) as [e|] eqn:E; auto. apply H in E. destruct E as (E1&E2). rewrite N in E2; auto. discriminate.
Qed.
Lemma not_same_less x y : less x y = true -> same x y = false.
Proof. unfold FlatSpec.same. intros ->. reflexivity. Qed.
Lemma not_same_more x y : less y x = true -> same x y = false.
Proof. unfold FlatSpec.same. intros ->. apply andb_false_r. Qed.

Lemma rep_add m a b k v : lists' m (a ++ b) -> (forall e, In e a -> less (fst e) k = true) -> (forall e, In e b -> less k (fst e) = true) ->
  lists' (madd less m k v) (a ++ (k, v) :: b).
Proof.
  intros (S&H) Ha Hb. apply SS_app in S. destruct S as (Sa&Sb&Sab). split.
  - apply SS_app. split; auto. split.
    + constructor; auto. apply Forall_forall. intros y Hy. now apply Hb.
    + intros x y Hx [<-|Hy]; [now apply Ha|auto].
  - intros x e. unfold madd. destruct (same k x) eqn:E.
    + split.
      * intros X. injection X as <-. split; [apply in_elt|]. cbn. now rewrite same_sym.
      * intros (X&Y). apply in_app_or in X. assert (Sk : same k (fst e) = true) by (eapply same_trans; eauto). destruct X as [X|[<-|X]]; auto.
        -- apply Ha in X. rewrite not_same_more in Sk; auto. discriminate.
        -- apply Hb in X. rewrite not_same_less in Sk; auto. discriminate.
    + rewrite H. split.
      * intros (X&Y). split; auto. apply in_app_or in X. apply in_or_app. destruct X; auto. right. now right.
      * intros (X&Y). split; auto. apply in_app_or in X. apply in_or_app. destruct X as [X|[<-|X]]; auto. cbn in Y. rewrite same_sym in Y. congruence.
Qed.

Lemma gap_none m a b k : lists' m (a ++ b) -> (forall e, In e a -> less (fst e) k = true) -> (forall e, In e b -> less k (fst e) = true) -> m k = None.
Proof.
  intros H Ha Hb. apply (none_iff k H). intros e He. apply in_app_or in He. destruct He as [He|He]; [apply not_same_more|apply not_same_less]; auto.
Qed.
Lemma hit_some m a e b k : lists' m (a ++ e :: b) -> same k (fst e) = true -> m k = Some e.
Proof. intros (_&H) E. apply H. split; auto. apply in_elt. Qed.

Lemma rep_mid_neq m a e b : lists' m (a ++ e :: b) -> forall x, In x a \/ In x b -> same (fst e) (fst x) = false.
Proof.
  intros (S&_) x Hx. apply SS_app in S. destruct S as (_&Sb&Sab). inversion Sb as [|? ? S1 S2]; subst. rewrite Forall_forall in S2.
  destruct Hx as [Hx|Hx]. - apply not_same_more. apply Sab; auto. now left. - apply not_same_less. now apply S2.
Qed.
Lemma rep_del m a e b k : lists' m (a ++ e :: b) -> same k (fst e) = true -> lists' (mdel less m k) (a ++ b).
Proof.
  intros HI E. pose proof (@rep_mid_neq _ _ _ _ HI) as N. destruct HI as (S&H). apply SS_app in S. destruct S as (Sa&Sb&Sab). inversion Sb as [|? ? S1 S2]; subst. split.
  - apply SS_app. repeat split; auto. intros x y Hx Hy. apply Sab; auto. now right.
  - intros x f. unfold mdel. destruct (same k x) eqn:Ex.
    + split; [discriminate|]. intros (X&Y). apply in_app_or in X. specialize (N f X). assert (same (fst e) (fst f) = true); [|congruence].
      rewrite same_sym in E. eapply same_trans; [exact E|]. eapply same_trans; eauto.
    + rewrite H. split; intros (X&Y); split; auto.
      * apply in_app_or in X. apply in_or_app. destruct X as [X|[<-|X]]; auto.
        exfalso. rewrite same_sym in Y. assert (same k x = true) by (eapply same_trans; eauto). congruence.
      * apply in_app_or in X. apply in_or_app. destruct X; auto. right. now right.
Qed.
Lemma del_none m l k : lists' m l -> m k = None -> lists' (mdel less m k) l.
Proof.
  intros (S&H) N. split; auto. intros x e. unfold mdel. destruct (same k x) eqn:E; auto.
  split; [discriminate|]. intros X. exfalso. assert (m k = Some e); [|congruence]. apply H. destruct X as (X&Y). split; auto. eapply same_trans; eauto.
Qed.
Lemma rep_set m a e b k v : lists' m (a ++ e :: b) -> same k (fst e) = true -> lists' (mset less m k v) (a ++ (fst e, v) :: b).
Proof.
  intros HI E. pose proof (@rep_mid_neq _ _ _ _ HI) as N. assert (HI' := HI). destruct HI as (S&H). apply SS_app in S. destruct S as (Sa&Sb&Sab). inversion Sb as [|? ? S1 S2]; subst. split.
  - apply SS_app. split; auto. split. + constructor; auto. + intros x y Hx [<-|Hy]; [apply (Sab x e); auto; now left|apply Sab; auto; now right].
  - intros x f. unfold mset. destruct (same k x) eqn:Ex.
    + assert (Mx : m x = Some e). { apply (@hit_some _ _ _ _ _ HI'). rewrite same_sym in Ex. eapply same_trans; eauto. }
      rewrite Mx. cbn. split.
      * intros X. injection X as <-. split; [apply in_elt|]. cbn. rewrite same_sym in Ex. eapply same_trans; eauto.
      * intros (X&Y). apply in_app_or in X. cbn in X.
        assert (Q : same (fst e) (fst f) = true). { rewrite same_sym in E. eapply same_trans; [exact E|]. eapply same_trans; eauto. }
        destruct X as [X|[<-|X]]; auto; rewrite (N f) in Q; auto; discriminate.
    + rewrite H. split; intros (X&Y); split; auto.
      * apply in_app_or in X. apply in_or_app. destruct X as [X|[<-|X]]; auto. 2: right; now right.
        exfalso. rewrite same_sym in Y. assert (same k x = true) by (eapply same_trans; eauto). congruence.
      * apply in_app_or in X. apply in_or_app. destruct X as [X|[<-|X]]; auto. 2: right; now right.
        exfalso. cbn in Y. rewrite same_sym in Y. assert (same k x = true) by (eapply same_trans; eauto). congruence.
Qed.

(** ---- operations ---- *)
Definition add_if (m : fmap) (k : K) (v : V) : fmap := match m k with None => madd less m k v | Some _ => m end.

Lemma insert_ok m l e : lists' m l -> forall l' r b, insert less l e = (l', r, b) ->
  lists' (add_if m (fst e) (snd e)) l' /\ (b = true <-> m (fst e) = None) /\ nth_error l' r = add_if m (fst e) (snd e) (fst e).
Proof.
  intros HI l' r b H. unfold insert in H. destruct (search (fst e) (proj1 HI)) as (a&b0&->&Hl&Ha&C). rewrite Hl in H.
  destruct C as [(C1&C2&C3)|(f&b'&->&C1&C2&C3&C4)]; rewrite C1 in H; injection H as <- <- <-.
  - pose proof (@gap_none _ _ _ _ HI Ha C2) as N. unfold add_if. rewrite N. rewrite vinsert_app, nth_len. destruct e as (k, v). cbn in *. split; [|split; [tauto|]].
    + apply (@rep_add _ _ _ _ v HI Ha C2).
    + unfold madd. now rewrite same_refl.
  - pose proof (@hit_some _ _ _ _ _ HI C2) as N. unfold add_if. rewrite N. rewrite nth_len. split; [exact HI|]. split; [split; discriminate|auto].
Qed.
Lemma index_ok m l k : lists' m l -> forall l' r, index less dflt l k = (l', r) ->
  lists' (add_if m k dflt) l' /\ nth_error l' r = add_if m k dflt k.
Proof.
  intros HI l' r H. unfold index in H. destruct (search k (proj1 HI)) as (a&b0&->&Hl&Ha&C). rewrite Hl in H.
  destruct C as [(C1&C2&C3)|(f&b'&->&C1&C2&C3&C4)]; rewrite C1 in H; injection H as <- <-.
  - pose proof (@gap_none _ _ _ _ HI Ha C2) as N. unfold add_if. rewrite N. rewrite vinsert_app, nth_len. split; [apply (@rep_add _ _ _ _ dflt HI Ha C2)|]. unfold madd. now rewrite same_refl.
  - pose proof (@hit_some _ _ _ _ _ HI C2) as N. unfold add_if. rewrite N. rewrite nth_len. auto.
Qed.
Lemma assign_ok m l k v : lists' m l -> lists' (mset less (add_if m k dflt) k v) (assign less dflt l k v).
Proof.
  intros HI. unfold assign. destruct (index less dflt l k) as (l', r) eqn:E. destruct (index_ok k HI E) as (A&B).
  assert (X : exists e, add_if m k dflt k = Some e). { unfold add_if. destruct (m k) eqn:M; [eauto|]. unfold madd. rewrite same_refl. eauto. }
  destruct X as (e&X). rewrite X in B. apply nth_error_split in B. destruct B as (a&b&->&<-). rewrite vset_app.
  apply rep_set; auto. now apply A in X.
Qed.
Lemma find_ok m l k : lists' m l -> match m k with
  | None => find less l k = length l
  | Some e => find less l k < length l /\ nth_error l (find less l k) = Some e end.
Proof.
  intros HI. destruct (search k (proj1 HI)) as (a&b0&->&Hl&Ha&C).
  destruct C as [(C1&C2&C3)|(f&b'&->&C1&C2&C3&C4)].
  - now rewrite (@gap_none _ _ _ _ HI Ha C2).
  - rewrite (@hit_some _ _ _ _ _ HI C2), C4, nth_len, app_length. cbn. split; auto. lia.
Qed.
Lemma erase_key_ok m l k : lists' m l -> forall l' n, erase_key less l k = (l', n) ->
  lists' (mdel less m k) l' /\ n = match m k with None => 0 | Some _ => 1 end.
Proof.
  intros HI l' n H. unfold erase_key in H. pose proof (find_ok k HI) as F. destruct (m k) as [e|] eqn:M.
  - destruct F as (F1&F2). destruct (find less l k =? length l) eqn:E; [apply Nat.eqb_eq in E; lia|]. injection H as <- <-. split; auto.
    apply nth_error_split in F2. destruct F2 as (a&b&->&F2). rewrite <- F2 in *. rewrite verase_app. eapply rep_del; eauto. now apply HI in M.
  - rewrite F, Nat.eqb_refl in H. injection H as <- <-. split; auto. now apply del_none.
Qed.
Lemma erase_pos_ok m l i e : lists' m l -> nth_error l i = Some e -> lists' (mdel less m (fst e)) (verase l i).
Proof.
  intros HI H. apply nth_error_split in H. destruct H as (a&b&->&<-). rewrite verase_app. eapply rep_del; eauto. apply same_refl.
Qed.
Definition del_all (m : fmap) (es : list (K * V)) : fmap := fold_left (fun m e => mdel less m (fst e)) es m.
Lemma erase_range_ok a c b : forall m, lists' m (a ++ c ++ b) -> lists' (del_all m c) (a ++ b).
Proof.
  induction c as [|e c IH]; intros m HI; cbn; auto. apply IH. eapply rep_del; [exact HI|apply same_refl].
Qed.

(** the hint never changes the result *)
Lemma hint_ok m l h e : lists' m l -> h <= length l -> insert_hint less l h e = (fst (fst (insert less l e)), snd (fst (insert less l e))).
Proof.
  intros HI Hh. unfold insert_hint. destruct (_ && _) eqn:C.
  2:{ destruct (insert less l e) as ((l', r), b). reflexivity. }
  apply andb_true_iff in C. destruct C as (C1&C2).
  assert (E : exists a b, l = a ++ b /\ length a = h). { exists (firstn h l), (skipn h l). rewrite firstn_skipn, firstn_length_le; auto. }
  destruct E as (a&b&->&<-). pose proof (proj1 HI) as S. apply SS_app in S. destruct S as (Sa&Sb&Sab).
  assert (Ha : forall x, In x a -> less (fst x) (fst e) = true).
  { intros x Hx. apply orb_true_iff in C1. destruct a as [|a0 a'] using rev_ind; [contradiction|]. clear IHa'.
    rewrite app_length in C1. cbn in C1. replace (length a' + 1 - 1) with (length a') in C1 by lia. destruct C1 as [C1|C1]; [apply Nat.eqb_eq in C1; lia|].
    rewrite <- app_assoc in C1. rewrite at_app in C1. cbn in C1. apply in_app_or in Hx. destruct Hx as [Hx|[<-|[]]]; auto.
    eapply tra; [|exact C1]. apply SS_app in Sa. apply Sa; auto. now left. }
  assert (Hb : forall x, In x b -> less (fst e) (fst x) = true).
  { intros x Hx. apply orb_true_iff in C2. destruct b as [|b0 b']; [contradiction|].
    rewrite app_length in C2. destruct C2 as [C2|C2]; [apply Nat.eqb_eq in C2; cbn in C2; lia|]. rewrite at_app in C2.
    destruct Hx as [<-|Hx]; auto. eapply tra; [exact C2|]. inversion Sb as [|? ? S1 S2]; subst. rewrite Forall_forall in S2. now apply S2. }
  destruct (search (fst e) (proj1 HI)) as (a1&b1&E&Hl&Ha1&D).
  assert (EL : length a1 = length a).
  { destruct (lt_eq_lt_dec (length a1) (length a)) as [[L|L]|L]; auto; exfalso.
    - (* the element at position |a1| is in a and in b1 *)
      destruct (nth_error a (length a1)) as [x|] eqn:Nx; [|apply nth_error_None in Nx; lia].
      assert (X1 : In x b1). { assert (nth_error (a1 ++ b1) (length a1) = Some x). { rewrite <- E, nth_error_app1 by auto. auto. } rewrite nth_error_app2, Nat.sub_diag in H by lia. eapply nth_error_In; eauto. }
      apply nth_error_In in Nx. apply Ha in Nx. destruct D as [(_&D&_)|(f&b'&->&_&D2&D3&_)].
      + apply D in X1. apply asym in X1. congruence.
      + destruct X1 as [<-|X1]; [apply same_iff in D2; destruct D2; congruence|apply D3 in X1; apply asym in X1; congruence].
    - destruct (nth_error a1 (length a)) as [x|] eqn:Nx; [|apply nth_error_None in Nx; lia].
      assert (X1 : In x b). { assert (nth_error (a ++ b) (length a) = Some x). { rewrite E, nth_error_app1 by auto. auto. } rewrite nth_error_app2, Nat.sub_diag in H by lia. eapply nth_error_In; eauto. }
      apply nth_error_In in Nx. apply Ha1 in Nx. apply Hb in X1. apply asym in X1. congruence. }
  unfold insert. rewrite Hl, EL. destruct D as [(D&_&_)|(f&b'&->&_&D2&D3&_)]; rewrite EL in *; [now rewrite D|].
  exfalso. assert (In f b). { assert (nth_error (a ++ b) (length a) = Some f) by (rewrite E, <- EL; apply nth_len). rewrite nth_error_app2, Nat.sub_diag in H by lia. eapply nth_error_In; eauto. }
  apply Hb in H. apply same_iff in D2. destruct D2. congruence.
Qed.
End P.
