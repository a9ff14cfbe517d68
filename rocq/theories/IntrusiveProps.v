(** C41: an IntrusiveList is the sequence of what was pushed and not erased. *)
From Coq Require Import List Arith Bool Lia.
From Verif Require Import Conc IntrusiveModel.
Import ListNotations.
Set Implicit Arguments.

(** The specification: each root has a sequence of elements. [isroot] tells list roots from elements. *)
Definition spec1 (L : nat -> list nat) (o : op) : nat -> list nat :=
  match o with
  | Push r v => fun u => if u =? r then L u ++ [v] else L u
  | Erase v => fun u => remove Nat.eq_dec v (L u)
  end.
(** push_back needs an element that is in no list; erase may be called on any element, in a list or not *)
Definition allowed (isroot : nat -> bool) (L : nat -> list nat) (o : op) : Prop :=
  match o with
  | Push r v => isroot r = true /\ isroot v = false /\ forall u, ~ In v (L u)
  | Erase v => isroot v = false
  end.
Inductive prog (isroot : nat -> bool) : mem -> (nat -> list nat) -> Prop :=
| prog_init : prog isroot init (fun _ => [])
| prog_step m L o : prog isroot m L -> allowed isroot L o -> prog isroot (exec1 m o) (spec1 L o).

Fixpoint seg (f : nat -> nat) (x : nat) (l : list nat) (y : nat) : Prop :=
  match l with [] => f x = y | a :: l => f x = a /\ seg f a l y end.
Lemma seg_app f l1 : forall x a l2 y, seg f x (l1 ++ a :: l2) y <-> seg f x l1 a /\ seg f a l2 y.
Proof. induction l1 as [|b l1 IH]; intros; cbn [app seg]; [tauto|]. rewrite IH. tauto. Qed.
Lemma seg_frame f g l : forall x y, (forall u, u = x \/ In u l -> g u = f u) -> seg f x l y -> seg g x l y.
Proof.
  induction l as [|a l IH]; intros x y H; cbn [seg].
  - intros <-. apply H. auto.
  - intros [<- Hs]. split; [apply H; auto|]. apply IH; auto. intros u [->|Hu]; apply H; cbn; auto.
Qed.
Lemma seg_walk f l : forall x r n, seg f x l r -> ~ In r l -> length l <= n -> walk f n (f x) r = Some l.
Proof.
  induction l as [|a l IH]; intros x r n; cbn [seg length].
  - intros -> _ _. destruct n; cbn; now rewrite Nat.eqb_refl.
  - intros [-> Hs] Hn Hl. destruct n; [lia|]. cbn [walk]. assert (Ha : a <> r) by (intros ->; apply Hn; cbn; auto).
    apply Nat.eqb_neq in Ha. rewrite Ha. rewrite (IH a r n); auto; [|lia]. intros G; apply Hn; cbn; auto.
Qed.

Record Inv (isroot : nat -> bool) (m : mem) (L : nat -> list nat) : Prop := {
  i_n : forall r, isroot r = true -> seg (nxt m) r (L r) r;
  i_p : forall r, isroot r = true -> seg (prv m) r (rev (L r)) r;
  i_el : forall r v, In v (L r) -> isroot v = false;
  i_nd : forall r, NoDup (L r);
  i_dj : forall r r' v, In v (L r) -> In v (L r') -> r = r';
  i_w : exists w : nat -> option nat, forall v r, w v = Some r <-> In v (L r);
  i_nr : forall r, isroot r = false -> L r = [];
  i_un : forall v, isroot v = false -> (forall u, ~ In v (L u)) -> nxt m v = v /\ prv m v = v }.

Section P.
Variable isroot : nat -> bool.
Notation Inv := (Inv isroot).

Lemma Inv_init : Inv init (fun _ => []).
Proof.
  constructor; cbn; auto; try contradiction; [constructor|]. exists (fun _ => None). intros v r. split; [discriminate|contradiction].
Qed.

Lemma root_notin m L r u : Inv m L -> isroot r = true -> ~ In r (L u).
Proof. intros H Hr Hi. pose proof (i_el H _ _ Hi). congruence. Qed.

Lemma last_link m L r : Inv m L -> isroot r = true -> (L r = [] /\ prv m r = r) \/ exists l0, L r = l0 ++ [prv m r].
Proof.
  intros H Hr. pose proof (i_p H _ Hr) as P. destruct (rev (L r)) as [|z t] eqn:E.
  - left. cbn in P. split; auto. now rewrite <- (rev_involutive (L r)), E.
  - right. cbn in P. destruct P as [-> _]. exists (rev t). rewrite <- (rev_involutive (L r)), E. reflexivity.
Qed.

Lemma push_inv m L r v : Inv m L -> allowed isroot L (Push r v) -> Inv (push_back m r v) (spec1 L (Push r v)).
Proof.
  intros H [Hr [Hv Hf]]. assert (Hrv : r <> v) by congruence.
  assert (Hp : prv m r <> v).
  { destruct (last_link H Hr) as [[_ ->]|[l0 E]]; auto. intros Ev. apply (Hf r). rewrite E, Ev. apply in_app_iff. right. cbn. auto. }
  assert (EN : forall u, nxt (push_back m r v) u = if u =? prv m r then v else if u =? v then r else nxt m u).
  { intros u. unfold push_back, insert_before. cbn [prv nxt]. unfold fupd. rewrite !Nat.eqb_refl. destruct (u =? prv m r); auto. }
  assert (EP : forall u, prv (push_back m r v) u = if u =? r then v else if u =? v then prv m r else prv m u).
  { intros u. unfold push_back, insert_before. cbn [prv nxt]. unfold fupd. rewrite !Nat.eqb_refl. replace (v =? prv m r) with false by (symmetry; apply Nat.eqb_neq; auto).
    destruct (u =? r); auto. }
  assert (Hpr : forall u, u <> r -> isroot u = true -> u <> prv m r /\ ~ In (prv m r) (L u)).
  { intros u Hu Hur. destruct (last_link H Hr) as [[E1 ->]|[l0 E1]]; [split; [auto|apply (root_notin _ H Hr)]|].
    assert (Hi : In (prv m r) (L r)) by (rewrite E1; apply in_app_iff; right; cbn; auto). split.
    - intros ->. pose proof (i_el H _ _ Hi). congruence.
    - intros Hi'. apply Hu. eapply (i_dj H); eauto. }
  constructor.
  - intros u Hu. cbn [spec1]. destruct (Nat.eqb_spec u r) as [->|Hur].
    + apply seg_app. cbn [seg]. split.
      * destruct (last_link H Hr) as [[-> E]|[l0 E]].
        -- cbn [seg]. rewrite EN, E, Nat.eqb_refl. auto.
        -- rewrite E. pose proof (i_n H _ Hr) as S. rewrite E in S. apply seg_app in S. destruct S as [S1 S2]. apply seg_app. split.
           ++ eapply seg_frame; [|exact S1]. intros x Hx. rewrite EN.
              assert (x <> prv m r). { destruct Hx as [->|Hx].
                - intros Ex. apply (root_notin r H Hr). rewrite E, <- Ex. apply in_app_iff. right. cbn. auto.
                - intros ->. pose proof (i_nd H r) as ND. rewrite E in ND. apply NoDup_remove_2 in ND. rewrite app_nil_r in ND. auto. }
              assert (x <> v). { destruct Hx as [->|Hx]; auto. intros ->. apply (Hf r). rewrite E. apply in_app_iff. auto. }
              apply Nat.eqb_neq in H0, H1. now rewrite H0, H1.
           ++ cbn [seg]. now rewrite EN, Nat.eqb_refl.
      * rewrite EN. replace (v =? prv m r) with false by (symmetry; apply Nat.eqb_neq; auto). now rewrite Nat.eqb_refl.
    + eapply seg_frame; [|exact (i_n H _ Hu)]. intros x Hx. rewrite EN. destruct (Hpr u Hur Hu) as [A C].
      assert (x <> prv m r) by (destruct Hx as [->|Hx]; auto; intros ->; auto).
      assert (x <> v). { destruct Hx as [->|Hx]; [congruence|]. intros ->. now apply (Hf u). }
      apply Nat.eqb_neq in H0, H1. now rewrite H0, H1.
  - intros u Hu. cbn [spec1]. destruct (Nat.eqb_spec u r) as [->|Hur].
    + rewrite rev_app_distr. cbn [rev app seg]. split; [now rewrite EP, Nat.eqb_refl|].
      assert (Hvr : (v =? r) = false) by (apply Nat.eqb_neq; auto).
      pose proof (i_p H _ Hr) as P. destruct (rev (L r)) as [|z t] eqn:E; cbn [seg] in *.
      * rewrite EP, Hvr, Nat.eqb_refl. auto.
      * destruct P as [P1 P2]. split; [rewrite EP, Hvr, Nat.eqb_refl; auto|]. eapply seg_frame; [|exact P2]. intros x Hx.
        assert (Hx' : In x (L r)) by (apply in_rev; rewrite E; cbn; destruct Hx; auto).
        rewrite EP. assert (x <> r) by (intros ->; now apply (root_notin r H Hr)). assert (x <> v) by (intros ->; now apply (Hf r)).
        apply Nat.eqb_neq in H0, H1. now rewrite H0, H1.
    + eapply seg_frame; [|exact (i_p H _ Hu)]. intros x Hx. rewrite EP.
      assert (x <> r). { destruct Hx as [->|Hx]; auto. apply in_rev in Hx. intros ->. now apply (root_notin u H Hr). }
      assert (x <> v). { destruct Hx as [->|Hx]; [congruence|]. apply in_rev in Hx. intros ->. now apply (Hf u). }
      apply Nat.eqb_neq in H0, H1. now rewrite H0, H1.
  - intros u x. cbn [spec1]. destruct (u =? r); [|apply (i_el H)]. rewrite in_app_iff. intros [Hx|[<-|[]]]; auto. eapply (i_el H); eauto.
  - intros u. cbn [spec1]. destruct (u =? r); [|apply (i_nd H)]. rewrite <- (rev_involutive (L u ++ [v])). apply NoDup_rev. rewrite rev_app_distr. cbn. constructor.
    + rewrite <- in_rev. auto.
    + apply NoDup_rev, (i_nd H).
  - intros u u' x. cbn [spec1]. destruct (Nat.eqb_spec u r), (Nat.eqb_spec u' r); rewrite ?in_app_iff; cbn; intros A C.
    + congruence.
    + destruct A as [A|[<-|[]]]; [subst; eapply (i_dj H); eauto|]. exfalso. now apply (Hf u').
    + destruct C as [C|[<-|[]]]; [subst; eapply (i_dj H); eauto|]. exfalso. now apply (Hf u).
    + eapply (i_dj H); eauto.
  - destruct (i_w H) as [w Hw]. exists (fupd w v (Some r)). intros x u. cbn [spec1]. destruct (Nat.eq_dec x v) as [->|Hx].
    + rewrite fupd_same. destruct (Nat.eqb_spec u r) as [->|Hu].
      * split; auto. intros _. apply in_app_iff. cbn. auto.
      * split; [congruence|]. intros Hi. exfalso. now apply (Hf u).
    + rewrite fupd_other by auto. rewrite Hw. destruct (u =? r); [|tauto]. rewrite in_app_iff. cbn. intuition congruence.
  - intros u Hu. cbn [spec1]. destruct (Nat.eqb_spec u r) as [->|]; [congruence|]. now apply (i_nr H).
  - intros x Hx Hn. cbn [spec1] in Hn. assert (x <> v). { intros ->. apply (Hn r). rewrite Nat.eqb_refl. apply in_app_iff. cbn. auto. }
    assert (Hn' : forall u, ~ In x (L u)). { intros u Hi. apply (Hn u). destruct (u =? r); auto. apply in_app_iff. auto. }
    destruct (i_un H _ Hx Hn') as [A C]. rewrite EN, EP. assert (x <> r) by congruence.
    assert (x <> prv m r). { destruct (last_link H Hr) as [[_ ->]|[l0 E]]; auto. intros E'. apply (Hn' r). rewrite E, E'. apply in_app_iff. cbn. auto. }
    apply Nat.eqb_neq in H0, H1, H2. now rewrite H0, H1, H2.
Qed.

Lemma remove_notin v (l : list nat) : ~ In v l -> remove Nat.eq_dec v l = l.
Proof. apply notin_remove. Qed.
Lemma remove_mid v (l1 l2 : list nat) : ~ In v l1 -> ~ In v l2 -> remove Nat.eq_dec v (l1 ++ v :: l2) = l1 ++ l2.
Proof. intros H1 H2. rewrite remove_app, (remove_notin _ _ H1). cbn. destruct (Nat.eq_dec v v); [|congruence]. now rewrite (remove_notin _ _ H2). Qed.
Lemma seg_first f x l y : seg f x l y -> f x = hd y l.
Proof. destruct l; cbn; tauto. Qed.
Lemma last_cons (l : list nat) : forall a x, last (a :: l) x = last l a.
Proof.
  induction l as [|c l IH]; intros; [reflexivity|]. change (last (a :: c :: l) x) with (last (c :: l) x). now rewrite !IH.
Qed.
Lemma last_in (l : list nat) x : In (last l x) (x :: l).
Proof.
  revert x. induction l as [|a l IH]; intros x; [cbn; auto|]. rewrite last_cons. right. apply IH.
Qed.
Lemma seg_skip f g x l1 v l2 y : seg f x (l1 ++ v :: l2) y -> ~ In x l1 -> NoDup l1 -> 
  (forall u, u <> last l1 x -> u = x \/ In u l1 \/ In u l2 -> g u = f u) -> (g (last l1 x) = f v) ->
  ~ In x l2 -> (forall u, In u l1 -> ~ In u l2) -> NoDup l2 -> seg g x (l1 ++ l2) y.
Proof.
  revert x. induction l1 as [|a l1 IH]; intros x Hs Hx Nd Hg Hl Hx2 Hd Nd2; cbn [app] in *.
  - cbn [seg] in Hs. destruct Hs as [Hs1 Hs2]. cbn [last] in *. destruct l2 as [|b l2]; cbn [seg] in *; [congruence|]. destruct Hs2 as [Hb Hs2]. split; [congruence|].
    eapply seg_frame; [|exact Hs2]. intros u Hu. apply Hg; [|right; right; cbn; destruct Hu; auto]. intros ->. apply Hx2. cbn. destruct Hu; auto.
  - cbn [seg] in Hs. destruct Hs as [Hs1 Hs2]. assert (El : last (a :: l1) x = last l1 a) by apply last_cons.
    inversion Nd; subst. split.
    + rewrite Hg; auto. intros E. rewrite El in E. assert (In x (f x :: l1)) by (rewrite E at 1; apply last_in). auto.
    + apply IH; auto.
      * intros u Hu Hin. apply Hg; [rewrite El; auto|]. cbn. destruct Hin as [->|[|]]; auto.
      * now rewrite <- El.
      * apply Hd. cbn. auto.
      * intros u Hu. apply Hd. cbn. auto.
Qed.

Lemma last_rev (l : list nat) x : last (rev l) x = hd x l.
Proof. destruct l as [|a l]; [reflexivity|]. cbn [rev hd]. apply last_last. Qed.

Lemma erase_inv m L v : Inv m L -> isroot v = false -> Inv (erase m v) (spec1 L (Erase v)).
Proof.
  intros H Hv. unfold erase.
  assert (EN : forall u, nxt (unlink m v) u = if u =? v then v else if u =? prv m v then nxt m v else nxt m u).
  { intros u. unfold unlink. cbn [prv nxt]. unfold fupd. destruct (Nat.eqb_spec u v); auto. destruct (Nat.eqb_spec v (nxt m v)); auto. }
  assert (EP : forall u, prv (unlink m v) u = if u =? v then v else if u =? nxt m v then prv m v else prv m u).
  { intros u. unfold unlink. cbn [prv nxt]. unfold fupd. destruct (Nat.eqb_spec u v); auto. }
  cbn [spec1]. destruct (i_w H) as [w Hw]. destruct (w v) as [r|] eqn:Ew.
  - (* in the list of r *)
    apply Hw in Ew. rename Ew into Hin. assert (Hr : isroot r = true) by (destruct (isroot r) eqn:E; auto; rewrite (i_nr H _ E) in Hin; contradiction).
    assert (Hoth : forall u, u <> r -> ~ In v (L u)) by (intros u Hu Hi; apply Hu; eapply (i_dj H); eauto).
    destruct (in_split _ _ Hin) as [l1 [l2 E]]. pose proof (i_nd H r) as ND. rewrite E in ND.
    assert (N1 : ~ In v l1 /\ ~ In v l2) by (apply NoDup_remove_2 in ND; rewrite in_app_iff in ND; tauto). destruct N1 as [N1 N2].
    assert (ND' := NoDup_remove_1 _ _ _ ND).
    assert (NDp : NoDup l1 /\ NoDup l2 /\ forall u, In u l1 -> ~ In u l2).
    { clear -ND'. induction l1 as [|a l1 IH]; cbn in *; [repeat split; auto; constructor|]. inversion ND'; subst. destruct (IH H2) as [A [C D]]. rewrite in_app_iff in H1.
      repeat split; auto; [constructor; tauto|]. intros u [->|Hu]; auto. }
    destruct NDp as [ND1 [ND2 NDd]].
    assert (R0 : ~ In r (L r)) by (apply (root_notin r H Hr)).
    assert (R1 : ~ In r l1) by (intros G; apply R0; rewrite E; apply in_app_iff; auto).
    assert (R2 : ~ In r l2) by (intros G; apply R0; rewrite E; apply in_app_iff; cbn; auto).
    pose proof (i_n H _ Hr) as Sn. rewrite E in Sn. pose proof (i_p H _ Hr) as Sp. rewrite E, rev_app_distr in Sp. cbn [rev] in Sp. rewrite <- app_assoc in Sp. cbn [app] in Sp.
    assert (Hnv : nxt m v = hd r l2) by (apply seg_app in Sn; destruct Sn as [_ Sn]; now apply seg_first in Sn).
    assert (Hpv : prv m v = last l1 r).
    { apply seg_app in Sp. destruct Sp as [_ Sp]. apply seg_first in Sp. rewrite Sp. rewrite <- (rev_involutive l1) at 2. now rewrite last_rev. }
    assert (Hrem : remove Nat.eq_dec v (L r) = l1 ++ l2) by (rewrite E; now apply remove_mid).
    assert (Hrv : r <> v) by congruence.
    assert (Hpl : In (prv m v) (r :: l1)) by (rewrite Hpv; apply last_in).
    assert (Hnl : In (nxt m v) (r :: l2)) by (rewrite Hnv; destruct l2; cbn; auto).
    constructor.
    + intros u Hu. destruct (Nat.eq_dec u r) as [->|Hur].
      * rewrite Hrem. eapply seg_skip; eauto.
        -- intros x Hx Hix. rewrite EN. assert (x <> v) by (destruct Hix as [->|[|]]; auto; intros ->; auto). rewrite <- Hpv in Hx.
           apply Nat.eqb_neq in Hx, H0. now rewrite Hx, H0.
        -- rewrite EN, <- Hpv, Nat.eqb_refl. destruct (Nat.eqb_spec (prv m v) v) as [Ev|]; auto. rewrite Ev in Hpl. destruct Hpl; [congruence|contradiction].
      * rewrite (remove_notin _ _ (Hoth u Hur)). eapply seg_frame; [|exact (i_n H _ Hu)]. intros x Hx. rewrite EN.
        assert (x <> v). { destruct Hx as [->|Hx]; [congruence|]. intros ->. now apply (Hoth u). }
        assert (x <> prv m v). { intros Ex. rewrite <- Ex in Hpl. destruct Hpl as [->|Hpl].
          - destruct Hx as [->|Hx]; auto. now apply (root_notin u H Hr).
          - assert (In x (L r)) by (rewrite E; apply in_app_iff; auto). destruct Hx as [->|Hx]; [pose proof (i_el H _ _ H1); congruence|]. apply Hur. eapply (i_dj H); eauto. }
        apply Nat.eqb_neq in H0, H1. now rewrite H0, H1.
    + intros u Hu. destruct (Nat.eq_dec u r) as [->|Hur].
      * rewrite Hrem, rev_app_distr. eapply seg_skip; eauto; rewrite <- ?in_rev; auto; try (apply NoDup_rev; auto).
        -- intros x Hx Hix. rewrite last_rev, <- Hnv in Hx. rewrite <- !in_rev in Hix. rewrite EP. assert (x <> v) by (destruct Hix as [->|[|]]; auto; intros ->; auto).
           apply Nat.eqb_neq in Hx, H0. now rewrite Hx, H0.
        -- rewrite last_rev, EP, <- Hnv, Nat.eqb_refl. destruct (Nat.eqb_spec (nxt m v) v) as [Ev|]; auto. rewrite Ev in Hnl. destruct Hnl; [congruence|contradiction].
        -- intros x. rewrite <- !in_rev. intros A C. now apply (NDd x).
      * rewrite (remove_notin _ _ (Hoth u Hur)). eapply seg_frame; [|exact (i_p H _ Hu)]. intros x Hx. rewrite EP. rewrite <- in_rev in Hx.
        assert (x <> v). { destruct Hx as [->|Hx]; [congruence|]. intros ->. now apply (Hoth u). }
        assert (x <> nxt m v). { intros Ex. rewrite <- Ex in Hnl. destruct Hnl as [->|Hnl].
          - destruct Hx as [->|Hx]; auto. now apply (root_notin u H Hr).
          - assert (In x (L r)) by (rewrite E; apply in_app_iff; cbn; auto). destruct Hx as [->|Hx]; [pose proof (i_el H _ _ H1); congruence|]. apply Hur. eapply (i_dj H); eauto. }
        apply Nat.eqb_neq in H0, H1. now rewrite H0, H1.
    + intros u x Hx. apply in_remove in Hx. eapply (i_el H). apply Hx.
    + intros u. destruct (Nat.eq_dec u r) as [->|Hur]; [now rewrite Hrem|]. rewrite (remove_notin _ _ (Hoth u Hur)). apply (i_nd H).
    + intros u u' x A C. apply in_remove in A. apply in_remove in C. eapply (i_dj H); [apply A|apply C].
    + exists (fupd w v None). intros x u. destruct (Nat.eq_dec x v) as [->|Hx].
      * rewrite fupd_same. split; [discriminate|]. intros Hi. apply in_remove in Hi. tauto.
      * rewrite fupd_other by auto. rewrite Hw. split; [intros; apply in_in_remove; auto|intros Hi; apply in_remove in Hi; tauto].
    + intros u Hu. rewrite (i_nr H _ Hu). reflexivity.
    + intros x Hx Hn. rewrite EN, EP. destruct (Nat.eqb_spec x v) as [->|Hxv]; auto.
      assert (Hn' : forall u, ~ In x (L u)). { intros u Hi. apply (Hn u). apply in_in_remove; auto. }
      assert (x <> prv m v). { intros Ex. rewrite <- Ex in Hpl. destruct Hpl as [<-|Hi]; [congruence|]. apply (Hn' r). rewrite E. apply in_app_iff. auto. }
      assert (x <> nxt m v). { intros Ex. rewrite <- Ex in Hnl. destruct Hnl as [<-|Hi]; [congruence|]. apply (Hn' r). rewrite E. apply in_app_iff. cbn. auto. }
      apply Nat.eqb_neq in H0, H1. rewrite H0, H1. now apply (i_un H).
  - (* in no list *)
    assert (Hn : forall u, ~ In v (L u)) by (intros u Hi; apply Hw in Hi; congruence).
    destruct (i_un H _ Hv Hn) as [A C]. 
    assert (EN' : forall u, nxt (unlink m v) u = nxt m u). { intros u. rewrite EN, A, C. destruct (Nat.eqb_spec u v); congruence. }
    assert (EP' : forall u, prv (unlink m v) u = prv m u). { intros u. rewrite EP, A, C. destruct (Nat.eqb_spec u v); congruence. }
    assert (EL : forall u, remove Nat.eq_dec v (L u) = L u) by (intros u; apply remove_notin, Hn).
    constructor.
    + intros u Hu. rewrite EL. eapply seg_frame; [|exact (i_n H _ Hu)]. auto.
    + intros u Hu. rewrite EL. eapply seg_frame; [|exact (i_p H _ Hu)]. auto.
    + intros u x. rewrite EL. apply (i_el H).
    + intros u. rewrite EL. apply (i_nd H).
    + intros u u' x. rewrite !EL. apply (i_dj H).
    + exists w. intros x u. rewrite EL. apply Hw.
    + intros u. rewrite EL. apply (i_nr H).
    + intros x Hx Hnx. rewrite EN', EP'. apply (i_un H); auto. intros u Hi. apply (Hnx u). now rewrite EL.
Qed.

Lemma prog_inv m L : prog isroot m L -> Inv m L.
Proof. induction 1; [apply Inv_init|]. destruct o; [now apply push_inv|now apply erase_inv]. Qed.

(** After any program that pushes only elements that are in no list, every list iterates, forwards and backwards, over exactly
    the elements pushed to it and not erased, in order of pushing; empty() agrees; iteration takes exactly that many steps. *)
Theorem C41_list_is_the_sequence m L r : prog isroot m L -> isroot r = true ->
  (forall n, length (L r) <= n -> forward m r n = Some (L r) /\ backward m r n = Some (rev (L r))) /\ (empty m r = true <-> L r = []).
Proof.
  intros H Hr. apply prog_inv in H. pose proof (root_notin r H Hr) as R. split.
  - intros n Hn. split; unfold forward, backward.
    + apply seg_walk; auto. now apply (i_n H).
    + apply seg_walk; [now apply (i_p H)|now rewrite <- in_rev|now rewrite rev_length].
  - unfold empty, unlinked. rewrite Nat.eqb_eq. pose proof (i_n H _ Hr) as S. destruct (L r) as [|a l] eqn:E; cbn in S; [tauto|]. destruct S as [S _]. rewrite S. split; [|discriminate].
    intros ->. exfalso. apply R. cbn. auto.
Qed.
(** Erasing (say, while iterating) does not disturb the rest: a saved iterator to another element still walks over what
    remains after it. *)
Theorem C41_iterators_survive_erase m L r l1 a l2 v : prog isroot m L -> isroot r = true -> isroot v = false -> L r = l1 ++ a :: l2 -> v <> a ->
  forall n, length l2 < n -> walk (nxt (erase m v)) n a r = Some (a :: remove Nat.eq_dec v l2).
Proof.
  intros H Hr Hv E Ha n Hn. assert (P : prog isroot (exec1 m (Erase v)) (spec1 L (Erase v))) by (constructor; auto).
  apply prog_inv in P. cbn [exec1] in P. pose proof (i_n P _ Hr) as S. pose proof (root_notin r P Hr) as R. cbn [spec1] in S, R. rewrite E in S, R.
  rewrite remove_app in S, R. cbn [remove] in S, R. destruct (Nat.eq_dec v a) as [|_]; [congruence|]. apply seg_app in S. destruct S as [_ S].
  rewrite in_app_iff in R. destruct n; [lia|]. cbn [walk]. destruct (Nat.eqb_spec a r) as [->|_]; [exfalso; apply R; cbn; auto|].
  rewrite (@seg_walk _ _ a r n S); auto.
  - intros G. apply R. cbn. auto.
  - assert (forall l, length (remove Nat.eq_dec v l) <= length l). { clear. induction l as [|x l IH]; cbn; auto. destruct (Nat.eq_dec v x); cbn; lia. } specialize (H0 l2). lia.
Qed.
End P.

(** Pushing an element that is already in a list is not checked and breaks it: pushing the first of two again loses the second ... *)
Theorem C41_push_of_a_linked_element_refuted : let m := fold_left exec1 [Push 0 1; Push 0 2; Push 0 1] init in
  forward m 0 5 = Some [1] /\ backward m 0 5 <> Some [1].
Proof. vm_compute. split; [reflexivity|discriminate]. Qed.
(** ... and pushing an element of one list to another makes iterating the first never end. *)
Theorem C41_push_to_a_second_list_refuted : let m := fold_left exec1 [Push 0 2; Push 1 2] init in forall n, forward m 0 n = None.
Proof.
  intros m. assert (E : nxt m 0 = 2 /\ nxt m 2 = 1 /\ nxt m 1 = 2) by (vm_compute; auto). destruct E as [E0 [E2 E1]].
  assert (G : forall n, walk (nxt m) n 2 0 = None /\ walk (nxt m) n 1 0 = None).
  { induction n as [|n [IH1 IH2]]; [split; reflexivity|]. cbn [walk Nat.eqb]. rewrite E2, E1, IH1, IH2. auto. }
  intros n. unfold forward. rewrite E0. apply G.
Qed.

Definition two_roots (n : nat) : bool := n <? 2.
Example C41_nonvacuous : exists m L, prog two_roots m L /\ L 0 = [2;4] /\ L 1 = [5;3].
Proof.
  assert (G : forall m L o, prog two_roots m L -> allowed two_roots L o -> prog two_roots (exec1 m o) (spec1 L o)) by (intros; now constructor).
  eexists _, _. split.
  - refine (G _ _ (Push 1 3) (G _ _ (Erase 3) (G _ _ (Push 0 4) (G _ _ (Push 1 5) (G _ _ (Push 0 3) (G _ _ (Push 0 2) (prog_init _) _) _) _) _) _) _).
    all: try reflexivity. all: split; [reflexivity|split; [reflexivity|]]; intros u; destruct u as [|[|u]]; cbn; intuition discriminate.
  - split; reflexivity.
Qed.

Print Assumptions C41_list_is_the_sequence.
Print Assumptions C41_iterators_survive_erase.
Print Assumptions C41_push_of_a_linked_element_refuted.
Print Assumptions C41_push_to_a_second_list_refuted.
