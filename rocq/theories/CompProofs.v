(** * Proofs about comparers *)

From Coq Require Import ZArith List Bool Arith Lia Eqdep_dec.
From Verif Require Import CompModel CompSpec.
Import ListNotations.
Local Open Scope Z_scope.

Ltac zb := repeat match goal with
  | H : (_ <? _) = true |- _ => apply Z.ltb_lt in H
  | H : (_ <? _) = false |- _ => apply Z.ltb_ge in H
  | H : (_ =? _) = true |- _ => apply Z.eqb_eq in H
  | H : (_ =? _) = false |- _ => apply Z.eqb_neq in H
  | |- (_ <? _) = true => apply Z.ltb_lt
  | |- (_ <? _) = false => apply Z.ltb_ge
  | |- (_ =? _) = true => apply Z.eqb_eq
  | |- (_ =? _) = false => apply Z.eqb_neq
  end.

(** ** Consequences of three_way *)
Section TW.
  Context {A : Type} {c : A -> A -> Z} (H : three_way c).

  Lemma tw_pos x y : 0 < c x y <-> c y x < 0.
  Proof. pose proof (tw_flip _ H x y) as F. destruct (c x y), (c y x); cbn in F; lia. Qed.
  Lemma tw_neg x y : c x y < 0 <-> 0 < c y x.
  Proof. pose proof (tw_flip _ H x y) as F. destruct (c x y), (c y x); cbn in F; lia. Qed.
  Lemma tw_zero x y : c x y = 0 <-> c y x = 0.
  Proof. pose proof (tw_flip _ H x y) as F. destruct (c x y), (c y x); cbn in F; lia. Qed.
  Lemma tw_refl x : c x x = 0.
  Proof. pose proof (tw_flip _ H x x) as F. destruct (c x x); cbn in F; lia. Qed.
  Lemma tw_le x y : c x y <= 0 <-> 0 <= c y x.
  Proof. pose proof (tw_flip _ H x y) as F. destruct (c x y), (c y x); cbn in F; lia. Qed.

  Lemma tw_eq_trans x y z : c x y = 0 -> c y z = 0 -> c x z = 0.
  Proof.
    intros E F. pose proof (tw_trans _ H x y z). pose proof (tw_trans _ H z y x).
    pose proof (tw_zero x y). pose proof (tw_zero y z). pose proof (tw_le z x). lia.
  Qed.
  Lemma tw_lt_le x y z : c x y < 0 -> c y z <= 0 -> c x z < 0.
  Proof.
    intros E F. destruct (Z_lt_ge_dec (c x z) 0) as [|G]; [assumption|exfalso].
    assert (c z x <= 0) by (apply tw_le; lia).
    pose proof (tw_trans _ H y z x F H0). pose proof (tw_pos y x). lia.
  Qed.
  Lemma tw_le_lt x y z : c x y <= 0 -> c y z < 0 -> c x z < 0.
  Proof.
    intros E F. destruct (Z_lt_ge_dec (c x z) 0) as [|G]; [assumption|exfalso].
    assert (c z x <= 0) by (apply tw_le; lia).
    pose proof (tw_trans _ H z x y H0 E). pose proof (tw_pos z y). lia.
  Qed.

  Lemma cmp_to_less_sw : strict_weak (CmpToLess c).
  Proof.
    unfold CmpToLess. split.
    - intros x. zb. pose proof (tw_refl x). lia.
    - intros x y z E F. zb. apply tw_lt_le with y; lia.
    - intros x y z E1 E2 F1 F2. zb.
      pose proof (tw_le x y). pose proof (tw_le y z). pose proof (tw_neg y x). pose proof (tw_neg z y).
      assert (c x z = 0) by (apply tw_eq_trans with y; lia).
      pose proof (tw_zero x z). split; zb; lia.
  Qed.

  Lemma cmp_to_equals_eqv : equivalence (CmpToEquals c).
  Proof.
    unfold CmpToEquals. split.
    - intros x. zb. apply tw_refl.
    - intros x y E. zb. apply tw_zero; assumption.
    - intros x y z E F. zb. apply tw_eq_trans with y; assumption.
  Qed.

  Lemma cmp_agrees : agrees (CmpToLess c) (CmpToEquals c).
  Proof.
    unfold agrees, CmpToLess, CmpToEquals. intros x y. pose proof (tw_zero x y). pose proof (tw_neg x y).
    pose proof (tw_neg y x). split.
    - intros E. zb. split; zb; lia.
    - intros [E F]. zb. lia.
  Qed.

  Lemma cmp_greater x y : CmpToGreater c x y = CmpToLess c y x.
  Proof.
    unfold CmpToGreater, CmpToLess. rewrite Z.gtb_ltb. apply eq_true_iff_eq.
    rewrite !Z.ltb_lt. apply tw_pos.
  Qed.
End TW.

(** pulled back along a function *)
Lemma tw_image {A B} (c : B -> B -> Z) (f : A -> B) :
  three_way c -> three_way (fun x y => c (f x) (f y)).
Proof. intros [F T]. split; intros; [apply F|eapply T; eauto]. Qed.

Lemma tw_const {A} : three_way (fun _ _ : A => 0).
Proof. split; intros; cbn; lia. Qed.

(** first one, then another *)
Definition thenc {A} (c d : A -> A -> Z) (x y : A) : Z := if negb (c x y =? 0) then c x y else d x y.
Lemma tw_then {A} (c d : A -> A -> Z) : three_way c -> three_way d -> three_way (thenc c d).
Proof.
  intros Hc Hd. unfold thenc. split.
  - intros x y. pose proof (tw_zero Hc x y).
    destruct (c x y =? 0) eqn:E, (c y x =? 0) eqn:F; zb; cbn; try lia.
    + apply (tw_flip _ Hd).
    + apply (tw_flip _ Hc).
  - intros x y z.
    destruct (c x y =? 0) eqn:E, (c y z =? 0) eqn:F; zb; cbn; intros P Q.
    + rewrite (tw_eq_trans Hc x y z E F). cbn. eapply (tw_trans _ Hd); eauto.
    + assert (c x z < 0) by (apply (tw_le_lt Hc) with y; lia).
      destruct (c x z =? 0) eqn:G; zb; cbn; lia.
    + assert (c x z < 0) by (apply (tw_lt_le Hc) with y; lia).
      destruct (c x z =? 0) eqn:G; zb; cbn; lia.
    + assert (c x z < 0) by (apply (tw_lt_le Hc) with y; lia).
      destruct (c x z =? 0) eqn:G; zb; cbn; lia.
Qed.

Lemma tw_ext {A} (c d : A -> A -> Z) : (forall x y, c x y = d x y) -> three_way c -> three_way d.
Proof. intros E [F T]. split; intros; rewrite <- !E in *; eauto. Qed.

(** ** LessToCmp *)
Section SW.
  Context {A : Type} {lt : A -> A -> bool} (H : strict_weak lt).
  Lemma sw_asym x y : lt x y = true -> lt y x = false.
  Proof.
    intros E. destruct (lt y x) eqn:F; [|reflexivity].
    rewrite <- (sw_irrefl _ H x). symmetry. eapply (sw_trans _ H); eauto.
  Qed.
  (** not-less is transitive *)
  Lemma sw_negtrans x y z : lt y x = false -> lt z y = false -> lt z x = false.
  Proof.
    intros E F. destruct (lt z x) eqn:G; [exfalso|reflexivity].
    destruct (lt x y) eqn:E'.
    - pose proof (sw_trans _ H z x y G E'). congruence.
    - destruct (lt y z) eqn:F'.
      + pose proof (sw_trans _ H y z x F' G). congruence.
      + destruct (sw_incomp _ H x y z E' E F' F). congruence.
  Qed.
  Lemma less_to_cmp_neg x y : LessToCmp lt x y < 0 <-> lt x y = true.
  Proof. unfold LessToCmp. destruct (lt x y), (lt y x); split; intros; try lia; congruence. Qed.
  Lemma less_to_cmp_tw : three_way (LessToCmp lt).
  Proof.
    unfold LessToCmp. split.
    - intros x y. destruct (lt x y) eqn:E, (lt y x) eqn:F; cbn; try lia.
      rewrite (sw_asym x y E) in F. discriminate.
    - intros x y z P Q.
      destruct (lt y x) eqn:E; [destruct (lt x y) eqn:E'; [rewrite (sw_asym y x E) in E'; discriminate|cbn in P; lia]|].
      destruct (lt z y) eqn:F; [destruct (lt y z) eqn:F'; [rewrite (sw_asym z y F) in F'; discriminate|cbn in Q; lia]|].
      rewrite (sw_negtrans x y z E F). destruct (lt x z); lia.
  Qed.
  Lemma less_to_equals_eqv : equivalence (LessToEquals lt).
  Proof.
    unfold LessToEquals. split.
    - intros x. now rewrite (sw_irrefl _ H).
    - intros x y. rewrite !andb_true_iff. tauto.
    - intros x y z. rewrite !andb_true_iff, !negb_true_iff. intros [a b] [d e]. split; eapply sw_negtrans; eauto.
  Qed.
End SW.

Lemma less_to_equals_agrees {A} (lt : A -> A -> bool) : agrees lt (LessToEquals lt).
Proof. intros x y. unfold LessToEquals. rewrite andb_true_iff, !negb_true_iff. tauto. Qed.

Lemma less_to_equals_cmp {A} (lt : A -> A -> bool) x y :
  LessToEquals lt x y = CmpToEquals (LessToCmp lt) x y.
Proof. unfold LessToEquals, CmpToEquals, LessToCmp. destruct (lt x y), (lt y x); reflexivity. Qed.

Lemma less_of_less_to_cmp {A} (lt : A -> A -> bool) x y : CmpToLess (LessToCmp lt) x y = lt x y.
Proof. unfold CmpToLess, LessToCmp. destruct (lt x y), (lt y x); reflexivity. Qed.

(** ** Cmp, Less, Equals, Greater *)

(** What is demanded of a class before it may be compared. *)
Definition class_ok {A} (k : cls A) : Prop :=
  match k with HasCompare c => three_way c | HasLess lt eq => strict_weak lt /\ agrees lt eq end.

Lemma cmp_impl_tw {A} (k : cls A) : class_ok k -> three_way (cmp_impl k).
Proof. destruct k as [c|lt eq]; cbn; [tauto|]. intros [S _]. apply (less_to_cmp_tw S). Qed.

Lemma cmp_do_eq {A} (h : nat -> A) k : class_ok k -> forall a b, cmp_do h k a b = cmp_impl k (h a) (h b).
Proof.
  intros K a b. unfold cmp_do. destruct (Nat.eqb_spec a b) as [->|]; [|reflexivity].
  symmetry. apply tw_refl. now apply cmp_impl_tw.
Qed.

Lemma less_impl_eq {A} (k : cls A) : forall a b, less_impl k a b = (cmp_impl k a b <? 0).
Proof. destruct k; cbn; intros; [reflexivity|]. destruct (b a b1), (b b1 a); reflexivity. Qed.
Lemma equals_impl_eq {A} (k : cls A) : class_ok k -> forall a b, equals_impl k a b = (cmp_impl k a b =? 0).
Proof.
  destruct k as [c|lt eq]; cbn; intros K a b; [reflexivity|]. destruct K as [S G].
  apply eq_true_iff_eq. rewrite (G a b). destruct (lt a b) eqn:E, (lt b a) eqn:F; cbn; intuition congruence.
Qed.
Lemma greater_impl_eq {A} (k : cls A) : class_ok k -> forall a b, greater_impl k a b = (cmp_impl k a b >? 0).
Proof.
  destruct k as [c|lt eq]; cbn; intros K a b; [reflexivity|]. destruct K as [S G].
  destruct (lt a b) eqn:E, (lt b a) eqn:F; cbn; try reflexivity.
  rewrite (sw_asym S a b E) in F. discriminate.
Qed.

(** ordinary pointers of the same depth *)
Lemma base_tw {A} (h : nat -> A) k : class_ok k -> forall d,
  (forall x y, depth_ok d x -> depth_ok d y -> Z.sgn (Cmp h k x y) = - Z.sgn (Cmp h k y x)) /\
  (forall x y z, depth_ok d x -> depth_ok d y -> depth_ok d z -> Cmp h k x y <= 0 -> Cmp h k y z <= 0 -> Cmp h k x z <= 0).
Proof.
  intros K d. pose proof (cmp_impl_tw k K) as T. induction d as [|d [IF IT]]; split.
  - intros [a| |] [b| |]; cbn; try tauto. intros _ _. rewrite !(cmp_do_eq h k K). apply (tw_flip _ T).
  - intros [a| |] [b| |] [e| |]; cbn; try tauto. intros _ _ _. rewrite !(cmp_do_eq h k K). apply (tw_trans _ T).
  - intros [a| |p] [b| |q]; cbn; try tauto; try lia. apply IF.
  - intros [a| |p] [b| |q] [e| |r]; cbn; try tauto; try lia. apply IT.
Qed.

Lemma less_cmp {A} (h : nat -> A) k : class_ok k -> forall x y, Less h k x y = (Cmp h k x y <? 0).
Proof.
  intros K. induction x as [a| |p IH]; intros [b| |q]; cbn; try reflexivity; [|apply IH].
  unfold less_do, cmp_do. destruct (Nat.eqb a b); [reflexivity|]. apply less_impl_eq.
Qed.
Lemma equals_cmp {A} (h : nat -> A) k : class_ok k -> forall d x y, depth_ok d x -> depth_ok d y ->
  Equals h k x y = (Cmp h k x y =? 0).
Proof.
  intros K d x. revert d. induction x as [a| |p IH]; intros [|d] [b| |q]; cbn; try tauto.
  - intros _ _. unfold equals_do, cmp_do. destruct (Nat.eqb a b); [reflexivity|]. now apply equals_impl_eq.
  - apply (IH d).
Qed.
Lemma greater_cmp {A} (h : nat -> A) k : class_ok k -> forall x y, Greater h k x y = (Cmp h k x y >? 0).
Proof.
  intros K. induction x as [a| |p IH]; intros [b| |q]; cbn; try reflexivity; [|apply IH].
  unfold greater_do, cmp_do. destruct (Nat.eqb a b); [reflexivity|]. now apply greater_impl_eq.
Qed.

(** ** Tuples *)
Lemma tuple_tw {code} (el : code -> Type) (cf : forall t, el t -> el t -> Z) :
  (forall t, three_way (cf t)) -> forall ts, three_way (TupleCmp el cf ts).
Proof.
  intros H. induction ts as [|t ts IH]; [apply tw_const|].
  apply (tw_then (fun l r : tuple el (t :: ts) => cf t (fst l) (fst r)) (fun l r => TupleCmp el cf ts (snd l) (snd r)));
    now apply tw_image.
Qed.

Lemma tuple_equals_cmp {code} (el : code -> Type) (cf : forall t, el t -> el t -> Z) (ne : forall t, el t -> el t -> bool) :
  (forall t x y, ne t x y = negb (cf t x y =? 0)) ->
  forall ts (l r : tuple el ts), TupleEquals el ne ts l r = (TupleCmp el cf ts l r =? 0).
Proof.
  intros H. induction ts as [|t ts IH]; intros l r; cbn; [reflexivity|].
  rewrite H. destruct (cf t (fst l) (fst r) =? 0) eqn:E; cbn; [apply IH|]. now rewrite E.
Qed.

(** ** Collections *)
Lemma ranges_cons {A} (item : A -> A -> Z) x y l r :
  DoCompareRanges item (x :: l) (y :: r) = if negb (item x y =? 0) then item x y else DoCompareRanges item l r.
Proof. reflexivity. Qed.

Lemma ranges_tw {A} (item : A -> A -> Z) : three_way item -> three_way (DoCompareRanges item).
Proof.
  intros H. split.
  - induction x as [|a x IH]; intros [|b y]; try (cbn; lia).
    rewrite !ranges_cons. pose proof (tw_zero H a b).
    destruct (item a b =? 0) eqn:E, (item b a =? 0) eqn:F; zb; cbn -[DoCompareRanges]; try lia; [apply IH|apply (tw_flip _ H)].
  - induction x as [|a x IH]; intros [|b y] [|d z]; try (cbn; lia).
    rewrite !ranges_cons.
    destruct (item a b =? 0) eqn:E, (item b d =? 0) eqn:F; zb; cbn -[DoCompareRanges]; intros P Q.
    + rewrite (tw_eq_trans H a b d E F). cbn -[DoCompareRanges]. eapply IH; eauto.
    + assert (item a d < 0) by (apply (tw_le_lt H) with b; lia).
      destruct (item a d =? 0) eqn:G; zb; cbn -[DoCompareRanges]; lia.
    + assert (item a d < 0) by (apply (tw_lt_le H) with b; lia).
      destruct (item a d =? 0) eqn:G; zb; cbn -[DoCompareRanges]; lia.
    + assert (item a d < 0) by (apply (tw_lt_le H) with b; lia).
      destruct (item a d =? 0) eqn:G; zb; cbn -[DoCompareRanges]; lia.
Qed.

Lemma ranges_zero {A} (item : A -> A -> Z) l r : DoCompareRanges item l r = 0 <-> lex_equal item l r.
Proof.
  unfold lex_equal. revert r. induction l as [|a l IH]; intros [|b r].
  - split; [constructor|reflexivity].
  - cbn. split; [lia|intros F; inversion F].
  - cbn. split; [lia|intros F; inversion F].
  - rewrite ranges_cons. destruct (item a b =? 0) eqn:E; zb; cbn -[DoCompareRanges].
    + rewrite IH. split; [constructor; assumption|]. intros F; now inversion F.
    + split; [contradiction|]. intros F; now inversion F.
Qed.

Lemma ranges_neg {A} (item : A -> A -> Z) l r : DoCompareRanges item l r < 0 <-> lex_less item l r.
Proof.
  revert r. induction l as [|a l IH]; intros [|b r].
  - cbn. split; [lia|]. intros (n & _ & L & _ & M). destruct n; cbn in *; [contradiction|lia].
  - cbn. split; [intros _|lia]. exists 0%nat. repeat split; cbn; try lia.
  - cbn. split; [lia|]. intros (n & _ & _ & L & M). destruct n; cbn in *; [contradiction|lia].
  - rewrite ranges_cons. destruct (item a b =? 0) eqn:E; zb; cbn -[DoCompareRanges].
    + rewrite IH. split.
      * intros (n & P & L1 & L2 & M). exists (S n). split; [|cbn; split; [lia|split; [lia|exact M]]].
        intros [|i] x y Hi X Y; cbn in *; [congruence|]. apply (P i); auto; lia.
      * intros (n & P & L1 & L2 & M). destruct n as [|n]; [cbn in M; lia|].
        exists n. split; [|cbn in *; split; [lia|split; [lia|exact M]]].
        intros i x y Hi X Y. apply (P (S i)); cbn; auto; lia.
    + split.
      * intros L. exists 0%nat. split; [intros; lia|cbn; repeat split; try lia].
      * intros (n & P & L1 & L2 & M). destruct n as [|n]; [exact M|].
        exfalso. apply E. apply (P 0%nat); auto; lia.
Qed.

Lemma collection_tw {A} (h : nat -> list A) (item : A -> A -> Z) :
  three_way item -> forall l r, CollectionCmp h item l r = DoCompareRanges item (h l) (h r).
Proof.
  intros H l r. unfold CollectionCmp. destruct (Nat.eqb_spec l r) as [->|]; [|reflexivity].
  symmetry. apply (tw_refl (ranges_tw item H)).
Qed.

(** ** Member lists *)
Definition member_ok {C} (m : member C) : Prop := match m with Member T get c => three_way c end.
Lemma members_tw {C} (ms : list (member C)) : Forall member_ok ms -> three_way (MemberListCmp ms).
Proof.
  induction 1 as [|m ms Hm _ IH]; [apply tw_const|].
  apply (tw_then (CompareMember m) (MemberListCmp ms)); [|exact IH].
  destruct m as [T get c]. apply (tw_image c get Hm).
Qed.

Lemma members_zero {C} (ms : list (member C)) l r :
  MemberListCmp ms l r = 0 <-> Forall (fun m => CompareMember m l r = 0) ms.
Proof.
  induction ms as [|m ms IH]; cbn; [split; auto|].
  destruct (CompareMember m l r =? 0) eqn:E; zb; cbn.
  - rewrite IH. split; [now constructor|]. intros F; now inversion F.
  - split; [contradiction|]. intros F; now inversion F.
Qed.

Lemma members_first {C} (ms1 : list (member C)) m ms2 l r :
  Forall (fun m => CompareMember m l r = 0) ms1 -> CompareMember m l r <> 0 ->
  MemberListCmp (ms1 ++ m :: ms2) l r = CompareMember m l r.
Proof.
  induction 1 as [|m' ms1 E _ IH]; intros N; cbn.
  - destruct (CompareMember m l r =? 0) eqn:E; zb; cbn; [contradiction|reflexivity].
  - rewrite E. cbn. auto.
Qed.

(** ** Comparable *)
Section ComparableProofs.
  Context {el : nat -> Type} (before : nat -> nat -> bool) (do_cmp : forall t, el t -> el t -> Z).
  Hypothesis Hb_irr : forall t, before t t = false.
  Hypothesis Hb_tr : forall a b d, before a b = true -> before b d = true -> before a d = true.
  Hypothesis Hb_tot : forall a b, a <> b -> before a b = true \/ before b a = true.
  Hypothesis Hc : forall t, three_way (do_cmp t).

  (** the comparison of two objects as values *)
  Definition obj_cmp (x y : {t : nat & el t}) : Z :=
    match Nat.eq_dec (projT1 y) (projT1 x) with
    | right _ => if before (projT1 x) (projT1 y) then -1 else 1
    | left e => do_cmp (projT1 x) (projT2 x) (cast e (projT2 y))
    end.

  Lemma cast_id {P : nat -> Type} {a : nat} (e : a = a) (x : P a) : cast e x = x.
  Proof. now rewrite (UIP_dec Nat.eq_dec e eq_refl). Qed.

  Lemma obj_same t a b : obj_cmp (existT _ t a) (existT _ t b) = do_cmp t a b.
  Proof. unfold obj_cmp. cbn [projT1 projT2]. destruct (Nat.eq_dec t t) as [e|n]; [|congruence]. rewrite (UIP_dec Nat.eq_dec e eq_refl). reflexivity. Qed.
  Lemma obj_diff t u a b : t <> u -> obj_cmp (existT _ t a) (existT _ u b) = if before t u then -1 else 1.
  Proof. intros N. unfold obj_cmp. cbn [projT1 projT2]. destruct (Nat.eq_dec u t); [congruence|reflexivity]. Qed.

  Lemma before_asym a b : before a b = true -> before b a = false.
  Proof.
    intros E. destruct (before b a) eqn:F; [|reflexivity]. pose proof (Hb_tr a b a E F). now rewrite Hb_irr in H.
  Qed.

  Lemma obj_tw : three_way obj_cmp.
  Proof.
    split.
    - intros [t a] [u b]. destruct (Nat.eq_dec t u) as [<-|N].
      + rewrite !obj_same. apply (tw_flip _ (Hc t)).
      + rewrite !obj_diff by congruence. destruct (Hb_tot t u N) as [E|E]; rewrite E, (before_asym _ _ E); reflexivity.
    - intros [t a] [u b] [v d].
      destruct (Nat.eq_dec t u) as [->|N]; destruct (Nat.eq_dec u v) as [<-|M].
      + rewrite !obj_same. apply (tw_trans _ (Hc u)).
      + rewrite !(obj_diff u v) by auto. tauto.
      + rewrite !(obj_diff t u) by auto. tauto.
      + rewrite (obj_diff t u), (obj_diff u v) by auto.
        destruct (before t u) eqn:E; [|lia]. destruct (before u v) eqn:F; [|lia]. intros _ _.
        pose proof (Hb_tr _ _ _ E F) as G. destruct (Nat.eq_dec t v) as [<-|].
        * rewrite Hb_irr in G. discriminate.
        * rewrite obj_diff, G by auto. lia.
  Qed.

  Lemma comparable_eq h l r : ComparableCompare before do_cmp h l r = obj_cmp (h l) (h r).
  Proof.
    unfold ComparableCompare. destruct (Nat.eqb_spec l r) as [->|]; [|reflexivity].
    symmetry. apply (tw_refl obj_tw).
  Qed.
End ComparableProofs.

(** ** optional *)
Lemma opt_tw {A} (c : A -> A -> Z) : three_way c -> three_way (opt_Compare c).
Proof.
  intros H. split.
  - intros [x|] [y|]; cbn; try lia. apply (tw_flip _ H).
  - intros [x|] [y|] [z|]; cbn; try lia. apply (tw_trans _ H).
Qed.
Lemma opt_lt_sw {A} (lt : A -> A -> bool) : strict_weak lt -> strict_weak (opt_lt lt).
Proof.
  intros H. split.
  - intros [x|]; cbn; [apply (sw_irrefl _ H)|reflexivity].
  - intros [x|] [y|] [z|]; cbn; try congruence. apply (sw_trans _ H).
  - intros [x|] [y|] [z|]; cbn; try (intros; split; congruence). apply (sw_incomp _ H).
Qed.
Lemma opt_lt_compare {A} (c : A -> A -> Z) (lt : A -> A -> bool) :
  (forall x y, lt x y = (c x y <? 0)) -> forall l r, opt_lt lt l r = (opt_Compare c l r <? 0).
Proof. intros H [x|] [y|]; cbn; auto. Qed.
Lemma opt_eq_compare {A} (c : A -> A -> Z) (eq : A -> A -> bool) :
  (forall x y, eq x y = (c x y =? 0)) -> forall l r, opt_eq eq l r = (opt_Compare c l r =? 0).
Proof. intros H [x|] [y|]; cbn; auto. Qed.
Lemma optcmp_compare {A} (c : A -> A -> Z) l r : OptionalCmp c l r = opt_Compare c l r.
Proof. destruct l, r; reflexivity. Qed.

(** ** variant *)
Section VariantProofs.
  Context {el : nat -> Type} (lt eq : forall t, el t -> el t -> bool).
  Hypothesis Hlt : forall t, strict_weak (lt t).
  Hypothesis Heq : forall t, agrees (lt t) (eq t).

  Lemma var_lt_same t a b : var_lt lt (existT _ t a) (existT _ t b) = lt t a b.
  Proof. unfold var_lt, which. cbn [projT1 projT2]. destruct (Nat.eq_dec t t) as [e|n]; [|congruence]. rewrite (UIP_dec Nat.eq_dec e eq_refl). reflexivity. Qed.
  Lemma var_lt_diff t u a b : t <> u -> var_lt lt (existT _ t a) (existT _ u b) = Nat.ltb t u.
  Proof. intros N. unfold var_lt, which. cbn [projT1 projT2]. destruct (Nat.eq_dec u t); [congruence|reflexivity]. Qed.
  Lemma var_eq_same t a b : var_eq eq (existT _ t a) (existT _ t b) = eq t a b.
  Proof. unfold var_eq, which. cbn [projT1 projT2]. destruct (Nat.eq_dec t t) as [e|n]; [|congruence]. rewrite (UIP_dec Nat.eq_dec e eq_refl). reflexivity. Qed.
  Lemma var_eq_diff t u a b : t <> u -> var_eq eq (existT _ t a) (existT _ u b) = false.
  Proof. intros N. unfold var_eq, which. cbn [projT1 projT2]. destruct (Nat.eq_dec u t); [congruence|reflexivity]. Qed.

  Lemma var_agrees : agrees (var_lt lt) (var_eq eq).
  Proof.
    intros [t a] [u b]. destruct (Nat.eq_dec t u) as [<-|N].
    - rewrite var_eq_same, !var_lt_same. apply Heq.
    - rewrite var_eq_diff, !var_lt_diff by congruence. rewrite !Nat.ltb_ge. split; [discriminate|lia].
  Qed.

  Lemma var_sw : strict_weak (var_lt lt).
  Proof.
    split.
    - intros [t a]. rewrite var_lt_same. apply (sw_irrefl _ (Hlt t)).
    - intros [t a] [u b] [v d].
      destruct (Nat.eq_dec t u) as [->|N]; destruct (Nat.eq_dec u v) as [<-|M].
      + rewrite !var_lt_same. apply (sw_trans _ (Hlt u)).
      + rewrite !(var_lt_diff u v) by auto. tauto.
      + rewrite !(var_lt_diff t u) by auto. tauto.
      + rewrite (var_lt_diff t u), (var_lt_diff u v) by auto. rewrite !Nat.ltb_lt. intros P Q.
        rewrite var_lt_diff by lia. apply Nat.ltb_lt. lia.
    - intros [t a] [u b] [v d].
      destruct (Nat.eq_dec t u) as [<-|N].
      + destruct (Nat.eq_dec t v) as [<-|M].
        * rewrite !var_lt_same. apply (sw_incomp _ (Hlt t)).
        * rewrite !(var_lt_diff t v), !(var_lt_diff v t) by congruence. tauto.
      + rewrite (var_lt_diff t u), (var_lt_diff u t) by congruence. rewrite !Nat.ltb_ge. lia.
  Qed.
End VariantProofs.

(** ** Agreement alone makes an equality an equivalence *)
Lemma agrees_eqv {A} (lt eq : A -> A -> bool) : strict_weak lt -> agrees lt eq -> equivalence eq.
Proof.
  intros S G. split.
  - intros x. apply G. rewrite (sw_irrefl _ S). tauto.
  - intros x y E. apply G in E. apply G. tauto.
  - intros x y z E F. apply G in E. apply G in F. apply G. destruct E as [E1 E2], F as [F1 F2].
    split; eapply (sw_negtrans S); eauto.
Qed.

(** ** Case insensitive strings *)
Lemma lexico_tw {A} (lt : A -> A -> bool) :
  strict_weak lt -> forall l r, lexicographical_compare lt l r = (DoCompareRanges (LessToCmp lt) l r <? 0).
Proof.
  intros S. induction l as [|a l IH]; intros [|b r]; try reflexivity.
  rewrite ranges_cons. unfold LessToCmp at 1 2. cbn [lexicographical_compare].
  destruct (lt a b) eqn:E, (lt b a) eqn:F; cbn -[DoCompareRanges]; auto.
Qed.
Lemma ci_sw : strict_weak ci_less.
Proof. unfold ci_less. split; intros; zb; try (split; zb); lia. Qed.

Lemma ci_equals_ranges l r : CaseInsensitiveEquals l r = (DoCompareRanges (LessToCmp ci_less) l r =? 0).
Proof.
  unfold CaseInsensitiveEquals. revert r. induction l as [|a l IH]; intros [|b r]; try reflexivity.
  rewrite ranges_cons. cbn [length Nat.eqb equal3]. unfold LessToCmp at 1 2. unfold ci_less at 1 2 3 4. unfold ci_equal at 1.
  destruct (Z.compare_spec (tolower a) (tolower b)) as [E|E|E].
  - rewrite E, Z.ltb_irrefl, Z.eqb_refl. cbn -[DoCompareRanges]. apply IH.
  - replace (tolower a <? tolower b) with true by (symmetry; zb; lia).
    replace (tolower a =? tolower b) with false by (symmetry; zb; lia). cbn. now rewrite andb_false_r.
  - replace (tolower a <? tolower b) with false by (symmetry; zb; lia).
    replace (tolower b <? tolower a) with true by (symmetry; zb; lia).
    replace (tolower a =? tolower b) with false by (symmetry; zb; lia). cbn. now rewrite andb_false_r.
Qed.

Lemma tolower_same a b : -128 <= a <= 127 -> -128 <= b <= 127 -> (tolower a = tolower b <-> same_letter a b).
Proof.
  intros Ra Rb. unfold tolower, same_letter.
  destruct (Z.leb_spec 65 a), (Z.leb_spec a 90), (Z.leb_spec 65 b), (Z.leb_spec b 90); cbn; lia.
Qed.
