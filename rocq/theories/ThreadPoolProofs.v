(** Invariants of the thread pool: control ([K]) and accounting ([C]). *)
From Coq Require Import List Arith Bool Lia.
From Verif Require Import Conc ThreadPoolModel ThreadPoolSpec.
Import ListNotations.
Set Implicit Arguments.

Arguments cnt : simpl never.
(** ** lists *)
Lemma upd_length A (l : list A) i x : length (upd l i x) = length l.
Proof. revert i. induction l; intros [|i]; cbn; auto. Qed.
Lemma nth_upd_eq A (l : list A) i x y : nth_error l i = Some y -> nth_error (upd l i x) i = Some x.
Proof. revert i. induction l; intros [|i]; cbn; try discriminate; eauto. Qed.
Lemma nth_upd_neq A (l : list A) i j x : i <> j -> nth_error (upd l i x) j = nth_error l j.
Proof. revert i j. induction l; intros [|i] [|j] H; cbn; auto; congruence. Qed.
Lemma nth_upd_inv A (l : list A) i j x y : nth_error (upd l i x) j = Some y -> (i = j /\ x = y) \/ (i <> j /\ nth_error l j = Some y).
Proof.
  intros H. destruct (Nat.eq_dec i j) as [->|N]; [left|right; rewrite nth_upd_neq in H; auto]. split; auto.
  destruct (nth_error l j) as [z|] eqn:E; [rewrite (nth_upd_eq _ _ _ E) in H; congruence|].
  apply nth_error_None in E. assert (L : j < length (upd l j x)) by (apply nth_error_Some; congruence). rewrite upd_length in L. lia.
Qed.
Lemma nth_drop A (l : list A) k x : In x (drop_nth l k) -> In x l.
Proof. unfold drop_nth. rewrite in_app_iff. intros [H|H]; [rewrite <- (firstn_skipn k l)|rewrite <- (firstn_skipn (S k) l)]; apply in_or_app; auto. Qed.

Lemma cnt_app t a b : cnt t (a ++ b) = cnt t a + cnt t b.
Proof. apply count_occ_app. Qed.
Lemma cnt_upd A (f : A -> list nat) l j x y t : nth_error l j = Some x -> cnt t (flat_map f (upd l j y)) + cnt t (f x) = cnt t (flat_map f l) + cnt t (f y).
Proof.
  revert j. induction l as [|z l IH]; intros [|j] H; cbn in H; try discriminate.
  - injection H as ->. cbn. rewrite !cnt_app. lia.
  - cbn. rewrite !cnt_app. specialize (IH _ H). lia.
Qed.
Lemma cnt_drop l k t a b : nth_error l k = Some (a, b) -> cnt t (map fst (drop_nth l k)) + cnt t [a : nat] = cnt t (map fst (l : list (nat * bool))).
Proof.
  unfold drop_nth. revert k. induction l as [|z l IH]; intros [|k] H; cbn [nth_error] in H; try discriminate.
  - injection H as ->. cbn [firstn skipn app map fst]. change (a :: map fst l) with ([a] ++ map fst l). rewrite cnt_app. lia.
  - specialize (IH _ H). change (cnt t ([fst z] ++ map fst (firstn k l ++ skipn (S k) l)) + cnt t [a] = cnt t ([fst z] ++ map fst l)). rewrite !cnt_app. lia.
Qed.
Lemma map_fst_sig (l : list (nat * bool)) : map fst (map (fun p => (fst p, true)) l) = map fst l.
Proof. induction l; cbn; congruence. Qed.
Lemma sig_no_false (l : list (nat * bool)) t : ~ In (t, false) (map (fun p => (fst p, true)) l).
Proof. intros H. apply in_map_iff in H. destruct H as [x [E _]]. discriminate. Qed.

Lemma strip_len l : length (strip l) <= length l.
Proof. induction l as [|o r IH]; cbn; auto. destruct (strip r) eqn:E; destruct o; cbn in *; lia. Qed.
Lemma strip_nth l j w : nth_error (strip l) j = Some (Some w) <-> nth_error l j = Some (Some w).
Proof.
  revert j. induction l as [|o r IH]; intros j; [tauto|]. cbn [strip]. destruct (strip r) eqn:E; destruct o as [w0|].
  - destruct j; [tauto|]. apply IH.
  - destruct j; cbn; [split; discriminate|]. rewrite <- IH. destruct j; cbn; tauto.
  - destruct j; [tauto|]. apply IH.
  - destruct j; [tauto|]. apply IH.
Qed.
Lemma strip_full l : (forall k, k < length l -> exists w, nth_error l k = Some (Some w)) -> strip l = l.
Proof.
  induction l as [|o r IH]; intros H; auto. cbn [strip]. rewrite IH by (intros k Hk; apply (H (S k)); cbn; lia).
  destruct (H 0 ltac:(cbn; lia)) as [w E]. cbn in E. injection E as ->. destruct r; auto.
Qed.
Lemma strip_flat (f : option worker -> list nat) l : f None = [] -> flat_map f (strip l) = flat_map f l.
Proof. intros Hf. induction l as [|o r IH]; auto. cbn [strip flat_map]. rewrite <- IH. destruct (strip r), o; cbn [flat_map]; rewrite ?Hf; auto. Qed.

Section P.
  Variable maxT : nat.
  Variable itmo : bool.
  Hypothesis Hmax : maxT <> 0.
  Notation step := (step maxT itmo).
  Notation mloop := (mloop itmo).
  Notation wloop := (wloop itmo).

  (** ** control *)
  Definition busy (w : worker) : Prop := wt w <> None \/ wpc w = WH1.
  Definition wok (w : worker) : Prop :=
    (wt w <> None -> comp w = false) /\
    match wpc w with
    | WStart => wt w <> None
    | WRun t => wt w = Some t
    | WH1 | WH2 => comp w = false
    | WSleep _ sig => (wt w = None -> comp w = true) /\ (wt w <> None -> sig = true)
    | WGone => wcan w = true
    end.
  Definition mok (s : st) : Prop :=
    match mpc s with
    | MNone => mt s = None /\ ws s = []
    | MStart => mt s <> None
    | MRun t => mt s = Some t
    | MSleep _ sig => sig = false -> mt s = None
    | MReap _ => True
    | MJoin j => exists w, nth_error (ws s) j = Some (Some w) /\ wcan w = true /\ wt w = None /\ comp w = true
    | MGone => can s = true
    end.
  Definition occupied (s : st) (n : nat) : Prop := forall k, k < n -> exists w, nth_error (ws s) k = Some (Some w) /\ busy w.
  Record K (s : st) : Prop := {
    k_len : length (ws s) + 1 <= maxT;
    k_w : forall j w, nth_error (ws s) j = Some (Some w) -> wok w;
    k_m : mok s;
    k_c : forall j w, nth_error (ws s) j = Some (Some w) -> wcan w = true -> (can s = true /\ (mpc s = MNone \/ mpc s = MGone)) \/ (mpc s = MJoin j /\ wt w = None /\ comp w = true);
    k_scan : forall t b j, scan s = Some (t, b, j) -> match mpc s with MReap _ => False | MJoin _ => False | _ => True end /\ can s = false /\ mt s <> None /\ j <= length (ws s) /\ occupied s j;
    k_wcn : waiters s <> [] -> can s = false;
    k_wait : forall t, In (t, false) (waiters s) -> mt s <> None /\ maxT <= length (ws s) + 1 /\ occupied s (length (ws s)) }.

  Lemma K_emit s e : K s -> K (emit s e).
  Proof. intros []. constructor; auto. Qed.
  Lemma K_emits l : forall s, K s -> K (emits s l).
  Proof. induction l; cbn; auto. intros. apply IHl. now apply K_emit. Qed.
  Lemma K_nid s : K s -> K (w_nid s).
  Proof. intros []. constructor; auto. Qed.
  Ltac simp := cbn [mt mpc ws scan waiters can nid lg w_wt w_mt w_mpc w_scan w_waiters w_can w_nid emit sigall] in *.
  Lemma K_sig s : K s -> K (sigall s).
  Proof.
    intros []. constructor; auto.
    - intros H. apply k_wcn0. simp. intros E. rewrite E in H. now apply H.
    - intros t H. now apply sig_no_false in H.
  Qed.
  Lemma K_drop s k : K s -> K (w_waiters s (drop_nth (waiters s) k)).
  Proof.
    intros []. constructor; auto; simp.
    - intros H. apply k_wcn0. intros E. rewrite E in H. apply H. destruct k; auto.
    - intros t H. apply nth_drop in H. eauto.
  Qed.
  Lemma free_inv s : free s = true -> scan s = None /\ match mpc s with MReap _ => False | MJoin _ => False | _ => True end.
  Proof. unfold free. intros H. apply andb_prop in H. destruct H as [A B]. destruct (scan s); [discriminate|]. split; auto. destruct (mpc s); auto; discriminate. Qed.

  Lemma wloop_same w : wt (fst (wloop w)) = wt w /\ comp (fst (wloop w)) = comp w /\ wcan (fst (wloop w)) = wcan w.
  Proof. unfold ThreadPoolModel.wloop. destruct (wcan w) eqn:Ec; [cbn; auto|]. destruct (wt w) eqn:Ew; [cbn; auto|]. destruct (comp w) eqn:Eo; cbn; auto. Qed.
  Lemma wloop_ok w : (wt w <> None -> comp w = false) -> wok (fst (wloop w)).
  Proof.
    intros H. unfold ThreadPoolModel.wloop. destruct (wcan w) eqn:Ec; [split; auto|]. destruct (wt w) eqn:Ew; [split; cbn; auto; now rewrite Ew|].
    destruct (comp w) eqn:Eo; split; cbn; try congruence; auto.
  Qed.
  Lemma wloop_busy w : wcan w = false -> comp w = false -> busy (fst (wloop w)).
  Proof. intros Hc Ho. unfold ThreadPoolModel.wloop, busy. rewrite Hc, Ho. destruct (wt w) eqn:E; cbn; [left; congruence|auto]. Qed.

  (** one worker moves *)
  Lemma K_upd s j w w' : K s -> nth_error (ws s) j = Some (Some w) -> wok w' -> wcan w' = wcan w ->
    (wcan w = true -> wt w = None -> comp w = true -> wt w' = None /\ comp w' = true) ->
    (busy w -> busy w' \/ (scan s = None /\ forall t, ~ In (t, false) (waiters s))) ->
    K (w_wt s (upd (ws s) j (Some w'))).
  Proof.
    intros [] Hn Ho Hc Hcc Hb.
    assert (Occ : forall n, n <= length (ws s) -> busy w' \/ ~ busy w -> occupied s n -> occupied (w_wt s (upd (ws s) j (Some w'))) n).
    { intros n Hl Hbb O k Hk. simp. destruct (Nat.eq_dec j k) as [->|N].
      - destruct (O k Hk) as [w1 [E B]]. rewrite Hn in E. injection E as <-. exists w'. split; [apply (nth_upd_eq _ _ _ Hn)|tauto].
      - rewrite nth_upd_neq by auto. eauto. }
    assert (Dec : busy w \/ ~ busy w).
    { unfold busy. destruct (wt w); [left; left; discriminate|]. destruct (wpc w) eqn:E; auto; right; intros [X|X]; congruence. }
    constructor; simp; auto.
    - now rewrite upd_length.
    - intros i x H. apply nth_upd_inv in H. destruct H as [[_ H]|[_ H]]; eauto. injection H as <-. auto.
    - unfold mok in *. simp. destruct (mpc s); auto.
      + destruct k_m0 as [A B]. split; auto. rewrite B in Hn. destruct j; discriminate.
      + destruct k_m0 as [x [A [B [C D]]]]. destruct (Nat.eq_dec j j0) as [->|N].
        * rewrite Hn in A. injection A as <-. exists w'. destruct (Hcc B C D). rewrite (nth_upd_eq _ _ _ Hn), Hc. auto.
        * exists x. rewrite nth_upd_neq by auto. auto.
    - intros i x H Hx. apply nth_upd_inv in H. destruct H as [[-> H]|[N H]]; eauto. injection H as <-. rewrite Hc in Hx.
      destruct (k_c0 _ _ Hn Hx) as [A|[A [B C]]]; auto.
    - intros t b i H. destruct (k_scan0 _ _ _ H) as [A [B [C [D E]]]]. repeat (split; auto); [now rewrite upd_length|].
      apply Occ; auto. destruct Dec as [Y|Y]; auto. destruct (Hb Y) as [Z|[Z _]]; auto. congruence.
    - intros t H. destruct (k_wait0 _ H) as [A [B C]]. rewrite upd_length. repeat (split; auto). apply Occ; auto.
      destruct Dec as [Y|Y]; auto. destruct (Hb Y) as [Z|[_ Z]]; auto. exfalso. eapply Z; eauto.
  Qed.

  Lemma K_mloop s : K s -> scan s = None -> (mt s = None -> mpc s <> MNone) ->
    match mpc s with MJoin _ => False | MNone => False | MGone => False | _ => True end -> K (mloop s).
  Proof.
    intros HK Hs Hm Hp. assert (Hc : can s = false -> forall j w, nth_error (ws s) j = Some (Some w) -> wcan w = true -> False).
    { intros Ec j w H Hw. destruct (k_c HK _ H Hw) as [[A _]|[A [B C]]]; [congruence|]. rewrite A in Hp. contradiction. }
    unfold ThreadPoolModel.mloop. destruct (can s) eqn:Ec; [|destruct (mt s) eqn:Em]; constructor; simp; rewrite ?Ec; try exact (k_len HK); try exact (k_w HK); try (intros; congruence); try exact (k_wait HK).
    - exact Ec.
    - intros j w H Hw. left. auto.
    - intros H. rewrite <- Ec. apply (k_wcn HK H).
    - exact Em.
    - intros j w H Hw. destruct (Hc eq_refl _ _ H Hw).
    - intros _. exact Em.
    - intros j w H Hw. destruct (Hc eq_refl _ _ H Hw).
    - intros t H. now apply sig_no_false in H.
  Qed.
  Lemma K_strip s : K s -> scan s = None -> match mpc s with MJoin _ => False | _ => True end -> K (w_wt s (strip (ws s))).
  Proof.
    intros [] Hs Hp. constructor; simp; auto.
    - pose proof (strip_len (ws s)). lia.
    - intros j w H. apply (proj1 (strip_nth _ _ _)) in H. eauto.
    - unfold mok in *. simp. destruct (mpc s); auto; [destruct k_m0 as [A B]; rewrite B; auto|contradiction].
    - intros j w H. apply (proj1 (strip_nth _ _ _)) in H. eauto.
    - intros. congruence.
    - intros t H. destruct (k_wait0 _ H) as [A [B C]]. rewrite strip_full.
      + split; [auto|]. split; [auto|]. intros k Hk. simp. destruct (C k Hk) as [w [E F]]. exists w. split; auto.
      + intros k Hk. destruct (C k Hk) as [w [E F]]. eauto.
  Qed.
  (** a task for the main thread *)
  Lemma K_begin s t b : K s -> free s = true -> can s = false -> K (begin_try maxT s t b).
  Proof.
    intros HK Hf Hc. destruct (free_inv _ Hf) as [Hs Hp]. unfold begin_try. cbn [mt emit]. destruct (mt s) eqn:Em.
    - destruct HK. constructor; simp; auto.
      intros t0 b0 j H. injection H as <- <- <-. rewrite Em. repeat (split; auto); try discriminate; try lia. intros k Hk. lia.
    - apply K_emit. destruct HK. constructor; simp; auto.
      + unfold mok in *. simp. destruct (mpc s); auto; try discriminate; try contradiction; congruence.
      + intros j w H Hw. destruct (k_c0 _ _ H Hw) as [[A _]|[A _]]; [congruence|rewrite A in Hp; contradiction].
      + intros. congruence.
      + intros t0 H. destruct (k_wait0 _ H) as [A _]. congruence.
  Qed.
  Lemma occupied_app s l n : n <= length (ws s) -> occupied s n -> occupied (w_wt s (ws s ++ l)) n.
  Proof. intros Hl O k Hk. destruct (O k Hk) as [w [A B]]. exists w. split; auto. simp. rewrite nth_error_app1; auto. lia. Qed.

  Lemma K_step s a s' : K s -> step s a = Some s' -> K s'.
  Proof.
    intros HK H. destruct a as [wait| |k|k|to| |j to| |j]; cbn [ThreadPoolModel.step] in H.
    - destruct (free s) eqn:Ef; [|discriminate]. destruct (can s) eqn:Ec; [discriminate|]. injection H as <-. apply K_begin; auto. now apply K_nid.
    - destruct (scan s) as [[[t b] j]|] eqn:Es; [|discriminate]. pose proof HK as HK0. destruct HK. destruct (k_scan0 _ _ _ Es) as [A [B [C [D E]]]].
      destruct (nth_error (ws s) j) as [[w|]|] eqn:En.
      + destruct (wt w) eqn:Ew; injection H as <-.
        * constructor; simp; auto. intros t0 b0 i H. injection H as <- <- <-. repeat (split; auto).
          -- apply nth_error_Some. congruence.
          -- intros k Hk. destruct (Nat.eq_dec k j) as [->|N]; [|apply E; lia]. exists w. split; auto. left. congruence.
        * apply K_emit. assert (X : K (w_wt s (upd (ws s) j (Some (add_task w t))))).
          { apply K_upd with w; auto.
            - destruct (k_w0 _ _ En) as [O1 O2]. split; cbn; auto. destruct (wpc w); cbn; auto; try congruence; [split; congruence].
            - intros Hw. destruct (k_c0 _ _ En Hw) as [[Y _]|[Y _]]; [congruence|rewrite Y in A; contradiction].
            - intros _. left. left. discriminate. }
          destruct X. constructor; simp; auto. intros. discriminate.
      + injection H as <-. apply K_emit. constructor; simp; auto.
        * now rewrite upd_length.
        * intros i x H. apply nth_upd_inv in H. destruct H as [[_ H]|[_ H]]; eauto. injection H as <-. split; cbn; auto. discriminate.
        * unfold mok in *. simp. destruct (mpc s); auto; [|contradiction]. destruct k_m0 as [Y Z]. rewrite Z in En. destruct j; discriminate.
        * intros i x H Hw. apply nth_upd_inv in H. destruct H as [[_ H]|[_ H]]; eauto. injection H as <-. discriminate.
        * intros. discriminate.
        * intros t0 H. destruct (k_wait0 _ H) as [Y [Z W]]. destruct (W j) as [w [Q _]]; [apply nth_error_Some; congruence|congruence].
      + destruct (Nat.leb_spec maxT (length (ws s) + 1)) as [L|L].
        * assert (J : j = length (ws s)) by (apply nth_error_None in En; lia). subst j. destruct b; injection H as <-; apply K_emit; constructor; simp; auto; try discriminate.
        * injection H as <-. apply K_emit. constructor; simp; auto.
          -- rewrite app_length. cbn. lia.
          -- intros i x H. destruct (Nat.lt_ge_cases i (length (ws s))) as [L'|L']; [rewrite nth_error_app1 in H by auto; eauto|].
             rewrite nth_error_app2 in H by auto. destruct (i - length (ws s)) as [|[|?]]; cbn in H; try discriminate. injection H as <-. split; cbn; auto. discriminate.
          -- unfold mok in *. simp. destruct (mpc s); auto; [|contradiction]. exfalso. destruct k_m0. auto.
          -- intros i x H Hw. destruct (Nat.lt_ge_cases i (length (ws s))) as [L'|L']; [rewrite nth_error_app1 in H by auto; eauto|].
             rewrite nth_error_app2 in H by auto. destruct (i - length (ws s)) as [|[|?]]; cbn in H; try discriminate. injection H as <-. discriminate.
          -- intros. discriminate.
          -- intros t0 H. destruct (k_wait0 _ H) as [Y [Z W]]. lia.
    - destruct (free s) eqn:Ef; [|discriminate]. destruct (nth_error (waiters s) k) as [[t b]|] eqn:En; [|discriminate]. injection H as <-.
      assert (Ec : can s = false) by (apply (k_wcn HK); destruct (waiters s); [destruct k|]; discriminate). apply K_begin; auto. now apply K_drop.
    - destruct (free s) eqn:Ef; [|discriminate]. destruct (nth_error (waiters s) k) as [[t b]|] eqn:En; [|discriminate]. injection H as <-. apply K_emit. now apply K_drop.
    - destruct (free s) eqn:Ef; [|discriminate]. destruct (free_inv _ Ef) as [Hs Hp]. destruct (mpc s) as [| |t|timed sig|i|i|] eqn:Em; try discriminate.
      + injection H as <-. apply K_mloop; auto; rewrite Em; auto; discriminate.
      + injection H as <-. pose proof (k_m HK) as M. unfold mok in M. rewrite Em in M.
        set (s1 := emit (w_mt s None) (EFinish t)).
        (* the region ends in the broadcast: waiters are signalled before the mutex is released *)
        unfold ThreadPoolModel.mloop. change (can s1) with (can s). change (mt s1) with (@None nat).
        destruct (can s) eqn:Ec; constructor; unfold s1; simp; rewrite ?Ec; try exact (k_len HK); try exact (k_w HK); try (intros; congruence).
        * exact Ec.
        * intros j w H Hw. left. auto.
        * intros H. rewrite <- Ec. apply (k_wcn HK H).
        * intros t0 H. exfalso. assert (can s = false) by (apply (k_wcn HK); intros E; rewrite E in H; destruct H). congruence.
        * intros _. reflexivity.
        * intros j w H Hw. destruct (k_c HK _ H Hw) as [[Y _]|[Y _]]; congruence.
        * intros t0 H. now apply sig_no_false in H.
      + destruct timed; [destruct to|].
        * injection H as <-. destruct HK. constructor; simp; auto; try (intros; congruence).
          -- intros j w H Hw. destruct (k_c0 _ _ H Hw) as [[Y [Z|Z]]|[Y _]]; congruence.
        * injection H as <-. apply K_mloop; simp; auto; rewrite ?Em; auto; try discriminate. apply K_strip; auto. now rewrite Em.
        * injection H as <-. apply K_mloop; simp; auto; rewrite ?Em; auto; discriminate.
    - destruct (mpc s) as [| |t|timed sig|i|i|] eqn:Em; try discriminate.
      + assert (Hs : scan s = None) by (destruct (scan s) as [[[t b] j]|] eqn:E; auto; destruct (k_scan HK E) as [A _]; rewrite Em in A; contradiction).
        destruct (nth_error (ws s) i) as [[w|]|] eqn:En.
        * destruct (is_idle w) eqn:Ei; injection H as <-.
          -- unfold is_idle in Ei. apply andb_prop in Ei. destruct Ei as [Ei _]. apply andb_prop in Ei. destruct Ei as [E1 E2]. destruct (wt w) eqn:Ew; [discriminate|].
             destruct HK. constructor; simp; auto.
             ++ now rewrite upd_length.
             ++ intros j x H. apply nth_upd_inv in H. destruct H as [[_ H]|[_ H]]; eauto. injection H as <-. destruct (k_w0 _ _ En) as [O1 O2]. split; cbn; rewrite ?Ew in *; [congruence|]. destruct (wpc w); auto.
             ++ unfold mok. simp. eexists. rewrite (nth_upd_eq _ _ _ En). split; [reflexivity|]. cbn. auto.
             ++ intros j x H Hx. apply nth_upd_inv in H. destruct H as [[-> H]|[N H]].
                ** injection H as <-. cbn. auto.
                ** destruct (k_c0 _ _ H Hx) as [[Y [Z|Z]]|[Y _]]; congruence.
             ++ intros. congruence.
             ++ intros t H. destruct (k_wait0 _ H) as [A [B C]]. exfalso. destruct (C i) as [x [D E]]; [apply nth_error_Some; congruence|].
                rewrite En in D. injection D as <-. destruct E as [E|E]; [congruence|]. destruct (k_w0 _ _ En) as [O1 O2]. rewrite E in O2. congruence.
          -- destruct HK. constructor; simp; auto; try (intros; congruence); try exact I. intros j x H Hx. destruct (k_c0 _ _ H Hx) as [[Y [Z|Z]]|[Y _]]; congruence.
        * injection H as <-. destruct HK. constructor; simp; auto; try (intros; congruence); try exact I. intros j x H Hx. destruct (k_c0 _ _ H Hx) as [[Y [Z|Z]]|[Y _]]; congruence.
        * injection H as <-. apply K_mloop; simp; auto; rewrite ?Em; auto; try discriminate. apply K_strip; auto. now rewrite Em.
      + assert (Hs : scan s = None) by (destruct (scan s) as [[[t b] j]|] eqn:E; auto; destruct (k_scan HK E) as [A _]; rewrite Em in A; contradiction).
        destruct (nth_error (ws s) i) as [[w|]|] eqn:En; try discriminate. destruct (wpc w) eqn:Ep; try discriminate. injection H as <-.
        pose proof (k_m HK) as M. unfold mok in M. rewrite Em in M. destruct M as [x [M1 [M2 [M3 M4]]]]. rewrite En in M1. injection M1 as <-.
        destruct HK. constructor; simp; auto; try exact I.
        * now rewrite upd_length.
        * intros j x H. apply nth_upd_inv in H. destruct H as [[_ H]|[_ H]]; eauto. discriminate.
        * intros j x H Hx. apply nth_upd_inv in H. destruct H as [[_ H]|[N H]]; [discriminate|]. destruct (k_c0 _ _ H Hx) as [[Y [Z|Z]]|[Y _]]; congruence.
        * intros. congruence.
        * intros t H. destruct (k_wait0 _ H) as [A [B C]]. exfalso. destruct (C i) as [x [D E]]; [apply nth_error_Some; congruence|].
          rewrite En in D. injection D as <-. destruct E as [E|E]; congruence.
    - destruct (nth_error (ws s) j) as [[w|]|] eqn:En; try discriminate. pose proof (k_w HK _ En) as [O1 O2].
      assert (NW : wcan w = true -> wt w <> None -> scan s = None /\ (forall t, ~ In (t, false) (waiters s))).
      { intros Hw Hn. destruct (k_c HK _ En Hw) as [[Y Z]|[Y [Z _]]]; [|congruence]. split.
        - destruct (scan s) as [[[t b] i]|] eqn:E; auto. destruct (k_scan HK E) as [_ [A _]]. congruence.
        - intros t Hi. assert (can s = false) by (apply (k_wcn HK); intros E; rewrite E in Hi; destruct Hi). congruence. }
      destruct (wpc w) as [|t| | |timed sig|] eqn:Ep.
      + injection H as <-. apply K_emits. destruct (wloop_same w) as [S1 [S2 S3]]. apply K_upd with w; auto; rewrite ?S1, ?S2; auto; [now apply wloop_ok|]. intros _. left. left. now rewrite S1.
      + injection H as <-. set (w' := {| wt := None; comp := comp w; idle := idle w; wcan := wcan w; wpc := WRun t |}). apply K_emits. apply K_emit.
        assert (Wn : wt w <> None) by congruence. destruct (wloop_same w') as [S1 [S2 S3]]. apply K_upd with w; auto; rewrite ?S1, ?S2; auto.
        * apply wloop_ok. cbn. congruence.
        * intros _. destruct (wcan w) eqn:Ewc; [right; auto|left]. apply wloop_busy; cbn; auto.
      + destruct (free s) eqn:Ef; [|discriminate]. injection H as <-. destruct (free_inv _ Ef) as [Hs Hp].
        change (sigall (w_wt s (upd (ws s) j (Some (v_pc w WH2))))) with (w_wt (sigall s) (upd (ws (sigall s)) j (Some (v_pc w WH2)))).
        apply K_upd with w; auto; cbn; auto; [now apply K_sig|split; auto|]. intros _. right. split; auto. intros t0 H. now apply sig_no_false in H.
      + destruct (wt w) eqn:Ew.
        * injection H as <-. apply K_emits. destruct (wloop_same w) as [S1 [S2 S3]]. apply K_upd with w; auto; rewrite ?S1, ?S2; auto; [apply wloop_ok; congruence|]. intros _. left. left. rewrite S1. congruence.
        * injection H as <-. apply K_upd with w; auto; cbn; auto.
          -- split; cbn; rewrite ?Ew; [congruence|]. split; auto; congruence.
          -- unfold busy. rewrite Ew, Ep. intros [X|X]; congruence.
      + injection H as <-. apply K_emits. match goal with |- context [wloop ?x] => set (w' := x) end. destruct (wloop_same w') as [S1 [S2 S3]]. apply K_upd with w; auto; rewrite ?S1, ?S2; auto; [now apply wloop_ok|].
        intros [X|X]; [|congruence]. left. left. now rewrite S1.
      + discriminate.
    - destruct (scan s) eqn:Es; [discriminate|]. destruct (waiters s) eqn:Ew; [|discriminate]. injection H as <-. destruct HK. constructor; simp; auto; try (intros; congruence).
      + unfold mok in *. simp. destruct (mpc s); auto.
      + intros j x H Hx. destruct (k_c0 _ _ H Hx) as [[Y Z]|Y]; auto.
    - destruct (can s) eqn:Ec; [|discriminate]. assert (Hm : mpc s = MNone \/ mpc s = MGone) by (destruct (mpc s); auto; discriminate).
      destruct (match mpc s with MNone | MGone => true | _ => false end); [|discriminate]. destruct (nth_error (ws s) j) as [[w|]|] eqn:En; try discriminate. injection H as <-.
      assert (W : waiters s = []) by (destruct (waiters s) eqn:E; auto; assert (can s = false) by (apply (k_wcn HK); rewrite E; discriminate); congruence).
      assert (Sc : scan s = None) by (destruct (scan s) as [[[t b] i]|] eqn:E; auto; destruct (k_scan HK E) as [_ [A _]]; congruence).
      destruct HK. constructor; simp; auto; rewrite ?W; try (intros; congruence).
      + now rewrite upd_length.
      + intros i x H. apply nth_upd_inv in H. destruct H as [[_ H]|[_ H]]; eauto. injection H as <-. destruct (k_w0 _ _ En) as [O1 O2]. split; cbn; auto. destruct (wpc w); auto.
      + unfold mok in *. simp. destruct Hm as [E|E]; rewrite E in *; auto. destruct k_m0 as [_ Z]. rewrite Z in En. destruct j; discriminate.
      + intros t []. 
  Qed.
  Lemma K_init : K init.
  Proof.
    constructor; cbn; auto; try lia; try congruence; try contradiction; intros; destruct j; discriminate.
  Qed.

  (** ** accounting *)
  Definition olist (o : option nat) : list nat := match o with Some t => [t] | None => [] end.
  Definition wh (o : option worker) : list nat := match o with Some w => olist (wt w) | None => [] end.
  Definition wr (o : option worker) : list nat := match o with Some w => match wpc w with WRun t => [t] | _ => [] end | None => [] end.
  Definition held (s : st) : list nat := olist (mt s) ++ flat_map wh (ws s).
  Definition running (s : st) : list nat := match mpc s with MRun t => [t] | _ => [] end ++ flat_map wr (ws s).
  Definition pending (s : st) : list nat := match scan s with Some (t, _, _) => [t] | None => [] end ++ map fst (waiters s).
  Record C (s : st) : Prop := {
    c_held : forall t, cnt t (accepted (lg s)) = cnt t (held s) + cnt t (finished (lg s));
    c_len : length (accepted (lg s)) = length (held s) + length (finished (lg s));
    c_run : forall t, cnt t (started (lg s)) = cnt t (running s) + cnt t (finished (lg s));
    c_pend : forall t, cnt t (accepted (lg s)) + cnt t (refused (lg s)) + cnt t (pending s) = if t <? nid s then 1 else 0 }.
  Lemma acc_app a b : accepted (a ++ b) = accepted a ++ accepted b. Proof. apply flat_map_app. Qed.
  Lemma ref_app a b : refused (a ++ b) = refused a ++ refused b. Proof. apply flat_map_app. Qed.
  Lemma sta_app a b : started (a ++ b) = started a ++ started b. Proof. apply flat_map_app. Qed.
  Lemma fin_app a b : finished (a ++ b) = finished a ++ finished b. Proof. apply flat_map_app. Qed.
  Lemma cnt_nil t : cnt t [] = 0. Proof. reflexivity. Qed.
  Lemma len_upd A (f : A -> list nat) l j x y : nth_error l j = Some x -> length (flat_map f (upd l j y)) + length (f x) = length (flat_map f l) + length (f y).
  Proof.
    revert j. induction l as [|z l IH]; intros [|j] H; cbn in H; try discriminate.
    - injection H as ->. cbn. rewrite !app_length. lia.
    - cbn. rewrite !app_length. specialize (IH _ H). lia.
  Qed.
  Lemma emits_lg l : forall s, lg (emits s l) = lg s ++ l.
  Proof. induction l as [|e l IH]; intros s; cbn; [now rewrite app_nil_r|]. unfold emits in IH. rewrite IH. cbn. now rewrite <- app_assoc. Qed.
  Lemma emits_same l : forall s, let s' := emits s l in mt s' = mt s /\ mpc s' = mpc s /\ ws s' = ws s /\ scan s' = scan s /\ waiters s' = waiters s /\ can s' = can s /\ nid s' = nid s.
  Proof. induction l as [|e l IH]; intros s; cbn; [auto 10|]. specialize (IH (emit s e)). cbn in IH. exact IH. Qed.

  Lemma cnt_one u t : cnt u [t] = if Nat.eq_dec t u then 1 else 0. Proof. reflexivity. Qed.
  Lemma cnt_cons u t l : cnt u (t :: l) = cnt u [t] + cnt u l.
  Proof. change (t :: l) with ([t] ++ l). apply cnt_app. Qed.
  Ltac cc := repeat match goal with
    | |- context [cnt ?u (?t :: ?l)] => lazymatch l with nil => fail | _ => rewrite (cnt_cons u t l) end
    | H : context [cnt ?u (?t :: ?l)] |- _ => lazymatch l with nil => fail | _ => rewrite (cnt_cons u t l) in H end end.
  (** the shape of every change *)
  Lemma C_change s s' es : C s -> lg s' = lg s ++ es ->
    (forall t, cnt t (held s') + cnt t (finished es) = cnt t (held s) + cnt t (accepted es)) ->
    length (held s') + length (finished es) = length (held s) + length (accepted es) ->
    (forall t, cnt t (running s') + cnt t (finished es) = cnt t (running s) + cnt t (started es)) ->
    (forall t, cnt t (accepted es) + cnt t (refused es) + cnt t (pending s') + (if t <? nid s then 1 else 0) = cnt t (pending s) + (if t <? nid s' then 1 else 0)) -> C s'.
  Proof.
    intros [] El H1 H2 H3 H4. constructor; rewrite El, ?acc_app, ?ref_app, ?sta_app, ?fin_app.
    - intros t. rewrite !cnt_app. specialize (c_held0 t). specialize (H1 t). lia.
    - rewrite !app_length. lia.
    - intros t. rewrite !cnt_app. specialize (c_run0 t). specialize (H3 t). lia.
    - intros t. rewrite !cnt_app. specialize (c_pend0 t). specialize (H4 t). lia.
  Qed.
  Lemma wloop_ev w : wr (Some (fst (wloop w))) = started (snd (wloop w)) /\ accepted (snd (wloop w)) = [] /\ refused (snd (wloop w)) = [] /\ finished (snd (wloop w)) = [].
  Proof. unfold ThreadPoolModel.wloop. destruct (wcan w); [cbn; auto|]. destruct (wt w) eqn:E; [cbn; auto|]. destruct (comp w); cbn; auto. Qed.
  Definition mr (s : st) : list nat := match mpc s with MRun t => [t] | _ => [] end.
  Lemma C_mloop s s0 es : C s -> lg s0 = lg s ++ es ->
    (forall t, cnt t (held s0) + cnt t (finished es) = cnt t (held s) + cnt t (accepted es)) ->
    length (held s0) + length (finished es) = length (held s) + length (accepted es) ->
    (forall t, cnt t (flat_map wr (ws s0)) + cnt t (finished es) = cnt t (running s) + cnt t (started es)) ->
    (forall t, cnt t (accepted es) + cnt t (refused es) + cnt t (pending s0) + (if t <? nid s then 1 else 0) = cnt t (pending s) + (if t <? nid s0 then 1 else 0)) -> C (mloop s0).
  Proof.
    intros Hc El H1 H2 H3 H4. unfold ThreadPoolModel.mloop. destruct (can s0); [|destruct (mt s0) eqn:Em].
    - apply C_change with s es; auto.
    - apply C_change with s (es ++ [EStart n]); auto.
      + simp. now rewrite El, app_assoc.
      + intros t. rewrite acc_app, fin_app, !app_nil_r. exact (H1 t).
      + rewrite acc_app, fin_app, !app_nil_r. exact H2.
      + intros t. rewrite sta_app, fin_app. unfold running in *. simp. specialize (H3 t). rewrite !cnt_app in *. cbn [started finished flat_map app]. rewrite !cnt_nil. cc. rewrite ?cnt_nil. lia.
      + intros t. rewrite acc_app, ref_app, !app_nil_r. exact (H4 t).
    - apply C_change with s es; auto. intros t. specialize (H4 t). unfold pending in *. simp. rewrite map_fst_sig. exact H4.
  Qed.
  Ltac nolog := cbn [accepted refused started finished flat_map app length] in *; cc; rewrite ?cnt_nil.
  Lemma C_begin s t b s0 : C s0 -> mt s = mt s0 -> ws s = ws s0 -> mpc s = mpc s0 -> lg s = lg s0 -> scan s = None ->
    (forall u, cnt u (map fst (waiters s)) + cnt u [t] + (if u <? nid s0 then 1 else 0) = cnt u (pending s0) + (if u <? nid s then 1 else 0)) ->
    match mpc s with MRun _ => mt s <> None | _ => True end -> C (begin_try maxT s t b).
  Proof.
    intros Hc E1 E2 E3 E4 Hs Hp Hm. unfold begin_try. cbn [mt emit]. destruct (mt s) as [n|] eqn:Em.
    - apply C_change with s0 [ETry t (full maxT s)]; auto; unfold held, running, pending; simp; rewrite ?Em, ?E2, ?E3, ?E4, <- ?E1; auto.
      intros u. specialize (Hp u). nolog. rewrite ?cnt_app, ?cnt_nil. unfold pending in Hp. rewrite ?cnt_app, ?cnt_nil in *. lia.
    - apply C_change with s0 [ETry t (full maxT s); EAccept t]; auto; unfold held, running, pending; simp; rewrite ?Em, ?E2, ?E4, <- ?E1; auto.
      + now rewrite <- app_assoc.
      + intros u. nolog. rewrite ?cnt_app, ?cnt_nil. cbn [olist app]. lia.
      + nolog. cbn [olist app length]. lia.
      + intros u. nolog. rewrite <- E3. destruct (mpc s); auto.
      + intros u. specialize (Hp u). nolog. rewrite Hs. nolog. rewrite ?cnt_nil. unfold pending in Hp. rewrite ?cnt_app, ?cnt_nil in *. lia.
  Qed.
  Lemma C_step s a s' : K s -> C s -> step s a = Some s' -> C s'.
  Proof.
    intros HK HC H. destruct a as [wait| |k|k|to| |j to| |j]; cbn [ThreadPoolModel.step] in H.
    - destruct (free s) eqn:Ef; [|discriminate]. destruct (can s) eqn:Ec; [discriminate|]. injection H as <-. destruct (free_inv _ Ef) as [Hs Hp].
      apply C_begin with s; auto.
      + intros u. unfold pending. rewrite Hs. simp. cbn [app]. rewrite cnt_one. destruct (Nat.eq_dec (nid s) u), (Nat.ltb_spec u (nid s)), (Nat.ltb_spec u (S (nid s))); lia.
      + pose proof (k_m HK) as M. unfold mok in M. simp. destruct (mpc s); auto; congruence.
    - destruct (scan s) as [[[t b] j]|] eqn:Es; [|discriminate].
      destruct (nth_error (ws s) j) as [[w|]|] eqn:En.
      + destruct (wt w) eqn:Ew; injection H as <-.
        * apply C_change with s []; auto; unfold held, running, pending; simp; rewrite ?app_nil_r, ?Es; auto.
        * apply C_change with s [EAccept t]; auto; unfold held, running, pending; simp; rewrite ?Es; auto.
          -- intros u. nolog. pose proof (cnt_upd wh _ _ (Some (add_task w t)) u En) as X. cbn [wh olist add_task wt] in X. rewrite Ew in X. rewrite ?cnt_app. cbn [olist] in X. rewrite ?cnt_nil in *. lia.
          -- nolog. pose proof (len_upd wh _ _ (Some (add_task w t)) En) as X. cbn [wh olist add_task wt length] in X. rewrite Ew in X. cbn [olist length] in X. rewrite !app_length. lia.
          -- intros u. nolog. pose proof (cnt_upd wr _ _ (Some (add_task w t)) u En) as X. cbn [wr add_task wpc] in X. rewrite ?cnt_app. rewrite ?cnt_nil.
             replace (match match wpc w with WSleep b0 _ => WSleep b0 true | p => p end with WRun t0 => [t0] | _ => [] end) with (match wpc w with WRun t0 => [t0] | _ => [] end) in X by (destruct (wpc w); auto). lia.
          -- intros u. nolog. rewrite ?cnt_nil, ?cnt_app. rewrite ?cnt_app. lia.
      + injection H as <-. apply C_change with s [EAccept t]; auto; unfold held, running, pending; simp; rewrite ?Es; auto.
        * intros u. nolog. pose proof (cnt_upd wh _ _ (Some (new_worker t)) u En) as X. cbn [wh olist new_worker wt] in X. rewrite ?cnt_app. rewrite ?cnt_nil in *. lia.
        * nolog. pose proof (len_upd wh _ _ (Some (new_worker t)) En) as X. cbn [wh olist new_worker wt length] in X. rewrite !app_length. lia.
        * intros u. nolog. pose proof (cnt_upd wr _ _ (Some (new_worker t)) u En) as X. cbn [wr new_worker wpc] in X. rewrite ?cnt_app, ?cnt_nil in *. lia.
        * intros u. nolog. rewrite ?cnt_nil. rewrite ?cnt_app. lia.
      + destruct (Nat.leb_spec maxT (length (ws s) + 1)) as [L|L]; [destruct b|]; injection H as <-.
        * apply C_change with s [EBlock t]; auto; unfold held, running, pending; simp; rewrite ?Es; auto.
          intros u. nolog. rewrite ?cnt_nil, map_app, ?cnt_app. rewrite ?cnt_app. cbn [map fst]. lia.
        * apply C_change with s [EReject t]; auto; unfold held, running, pending; simp; rewrite ?Es; auto.
          intros u. nolog. rewrite ?cnt_nil. rewrite ?cnt_app. lia.
        * apply C_change with s [EAccept t]; auto; unfold held, running, pending; simp; rewrite ?Es; auto.
          -- intros u. nolog. rewrite flat_map_app, ?cnt_app. cbn [flat_map wh olist new_worker wt app]. rewrite ?cnt_nil. lia.
          -- nolog. rewrite flat_map_app, !app_length. cbn. lia.
          -- intros u. nolog. rewrite flat_map_app, ?cnt_app. cbn [flat_map wr new_worker wpc app]. rewrite ?cnt_nil. lia.
          -- intros u. nolog. rewrite ?cnt_nil. rewrite ?cnt_app. lia.
    - destruct (free s) eqn:Ef; [|discriminate]. destruct (free_inv _ Ef) as [Hs Hp]. destruct (nth_error (waiters s) k) as [[t b]|] eqn:En; [|discriminate]. injection H as <-.
      apply C_begin with s; auto.
      + intros u. unfold pending. rewrite Hs. simp. cbn [app]. rewrite <- (cnt_drop _ _ u En). lia.
      + pose proof (k_m HK) as M. unfold mok in M. simp. destruct (mpc s); auto; congruence.
    - destruct (free s) eqn:Ef; [|discriminate]. destruct (nth_error (waiters s) k) as [[t b]|] eqn:En; [|discriminate]. injection H as <-.
      apply C_change with s [ECancelled t]; auto; unfold held, running, pending; simp; auto.
      intros u. nolog. rewrite ?cnt_nil, ?cnt_app. rewrite <- (cnt_drop _ _ u En). lia.
    - destruct (free s) eqn:Ef; [|discriminate]. pose proof (k_m HK) as M. unfold mok in M. destruct (mpc s) as [| |t|timed sig|i|i|] eqn:Em; try discriminate.
      + injection H as <-. apply C_mloop with s []; auto; rewrite ?app_nil_r; auto. intros t. unfold running. rewrite Em. reflexivity.
      + injection H as <-. apply C_mloop with s [EFinish t]; auto; unfold held, running, pending; simp; rewrite ?M, ?Em; auto.
        * intros u. nolog. rewrite ?cnt_app. cbn [olist]. rewrite ?cnt_nil. lia.
        * nolog. cbn [olist]. rewrite !app_length. cbn. lia.
        * intros u. nolog. rewrite ?cnt_app, ?cnt_nil. lia.
      + destruct timed; [destruct to|]; injection H as <-.
        * apply C_change with s []; auto; unfold held, running, pending; simp; rewrite ?app_nil_r, ?Em; auto.
        * apply C_mloop with s []; auto; unfold held, running, pending; simp; rewrite ?app_nil_r, ?strip_flat, ?Em; auto.
        * apply C_mloop with s []; auto; unfold held, running, pending; simp; rewrite ?app_nil_r, ?Em; auto.
    - pose proof (k_m HK) as M. unfold mok in M. destruct (mpc s) as [| |t|timed sig|i|i|] eqn:Em; try discriminate.
      + destruct (nth_error (ws s) i) as [[w|]|] eqn:En.
        * destruct (is_idle w) eqn:Ei; injection H as <-; apply C_change with s []; auto; unfold held, running, pending; simp; rewrite ?app_nil_r, ?Em; auto.
          -- intros u. match goal with |- context [upd _ _ ?x] => pose proof (cnt_upd wh _ _ x u En) as X end. cbn [wh wt] in X. rewrite ?cnt_app. nolog. lia.
          -- match goal with |- context [upd _ _ ?x] => pose proof (len_upd wh _ _ x En) as X end. cbn [wh wt] in X. rewrite !app_length. nolog. lia.
          -- intros u. match goal with |- context [upd _ _ ?x] => pose proof (cnt_upd wr _ _ x u En) as X end. cbn [wr wpc] in X. rewrite ?cnt_app. nolog. lia.
        * injection H as <-; apply C_change with s []; auto; unfold held, running, pending; simp; rewrite ?app_nil_r, ?Em; auto.
        * injection H as <-. apply C_mloop with s []; auto; unfold held, running, pending; simp; rewrite ?app_nil_r, ?strip_flat, ?Em; auto.
      + destruct (nth_error (ws s) i) as [[w|]|] eqn:En; try discriminate. destruct (wpc w) eqn:Ep; try discriminate. injection H as <-.
        destruct M as [x [M1 [M2 [M3 M4]]]]. injection M1 as <-.
        apply C_change with s []; auto; unfold held, running, pending; simp; rewrite ?app_nil_r, ?Em; auto.
        * intros u. pose proof (cnt_upd wh _ _ None u En) as X. cbn [wh] in X. rewrite M3 in X. rewrite ?cnt_app. nolog. cbn [olist] in X. lia.
        * pose proof (len_upd wh _ _ None En) as X. cbn [wh] in X. rewrite M3 in X. rewrite !app_length. cbn [olist length] in X. nolog. lia.
        * intros u. pose proof (cnt_upd wr _ _ None u En) as X. cbn [wr] in X. rewrite Ep in X. rewrite ?cnt_app. nolog. lia.
    - destruct (nth_error (ws s) j) as [[w|]|] eqn:En; try discriminate. destruct (k_w HK _ En) as [O1 O2].
      assert (G : forall w' es, wt w' = wt w \/ (exists t, es = [EFinish t] /\ wt w = Some t /\ wt w' = None) ->
        (forall u, cnt u (wr (Some w)) = cnt u (finished es)) -> accepted es = [] -> refused es = [] -> started es = [] -> (wt w' = wt w -> finished es = []) ->
        C (emits (emits (w_wt s (upd (ws s) j (Some (fst (wloop w'))))) es) (snd (wloop w')))).
      { intros w' es Hw Hr A1 A2 A3 A4. destruct (wloop_ev w') as [W1 [W2 [W3 W4]]]. destruct (wloop_same w') as [S1 _].
        set (s1 := w_wt s (upd (ws s) j (Some (fst (wloop w'))))).
        destruct (emits_same es s1) as [B1 [B2 [B3 [B4 [B5 [B6 B7]]]]]]. destruct (emits_same (snd (wloop w')) (emits s1 es)) as [D1 [D2 [D3 [D4 [D5 [D6 D7]]]]]].
        apply C_change with s (es ++ snd (wloop w')); auto; unfold held, running, pending; rewrite ?D1, ?D2, ?D3, ?D4, ?D5, ?D6, ?D7, ?B1, ?B2, ?B3, ?B4, ?B5, ?B6, ?B7; unfold s1; simp.
        - rewrite emits_lg, emits_lg, app_assoc. reflexivity.
        - intros u. rewrite acc_app, fin_app, A1, W2, W4, ?cnt_app, ?cnt_nil. pose proof (cnt_upd wh _ _ (Some (fst (wloop w'))) u En) as X. cbn [wh] in X. rewrite S1 in X.
          destruct Hw as [Hw|[t [-> [Hw1 Hw2]]]]; [rewrite Hw in X; rewrite A4 by auto; rewrite ?cnt_nil; lia|]. rewrite Hw1, Hw2 in X. cbn [olist] in X. nolog. rewrite ?cnt_nil in *. lia.
        - rewrite acc_app, fin_app, A1, W2, W4, !app_length. nolog. pose proof (len_upd wh _ _ (Some (fst (wloop w'))) En) as X. cbn [wh] in X. rewrite S1 in X.
          destruct Hw as [Hw|[t [-> [Hw1 Hw2]]]]; [rewrite Hw in X; rewrite A4 by auto; nolog; lia|]. rewrite Hw1, Hw2 in X. cbn [olist length] in X. nolog. lia.
        - intros u. rewrite sta_app, fin_app, A3, W4, ?cnt_app, ?cnt_nil. pose proof (cnt_upd wr _ _ (Some (fst (wloop w'))) u En) as X. rewrite W1, (Hr u) in X. lia.
        - intros u. rewrite acc_app, ref_app, A1, A2, W2, W3. nolog. rewrite ?cnt_nil. lia. }
      destruct (wpc w) as [|t| | |timed sig|] eqn:Ep.
      + injection H as <-. apply (G w []); auto. intros u. cbn [wr]. rewrite Ep. reflexivity.
      + injection H as <-. match goal with |- context [wloop ?x] => apply (G x [EFinish t]) end; auto.
        * right. exists t. auto.
        * intros u. cbn [wr]. rewrite Ep. reflexivity.
        * cbn. congruence.
      + destruct (free s) eqn:Ef; [|discriminate]. injection H as <-. apply C_change with s []; auto; unfold held, running, pending; simp; rewrite ?app_nil_r, ?map_fst_sig; auto.
        * intros u. pose proof (cnt_upd wh _ _ (Some (v_pc w WH2)) u En) as X. cbn [wh v_pc wt] in X. rewrite ?cnt_app. nolog. lia.
        * pose proof (len_upd wh _ _ (Some (v_pc w WH2)) En) as X. cbn [wh v_pc wt] in X. rewrite !app_length. nolog. lia.
        * intros u. pose proof (cnt_upd wr _ _ (Some (v_pc w WH2)) u En) as X. cbn [wr v_pc wpc] in X. rewrite Ep in X. rewrite ?cnt_app. nolog. lia.
      + destruct (wt w) eqn:Ew; injection H as <-.
        * apply (G w []); auto. intros u. cbn [wr]. rewrite Ep. reflexivity.
        * apply C_change with s []; auto; unfold held, running, pending; simp; rewrite ?app_nil_r; auto.
          -- intros u. pose proof (cnt_upd wh _ _ (Some (go_sleep itmo w)) u En) as X. cbn [wh go_sleep wt] in X. rewrite ?cnt_app. nolog. lia.
          -- pose proof (len_upd wh _ _ (Some (go_sleep itmo w)) En) as X. cbn [wh go_sleep wt] in X. rewrite !app_length. nolog. lia.
          -- intros u. pose proof (cnt_upd wr _ _ (Some (go_sleep itmo w)) u En) as X. cbn [wr go_sleep wpc] in X. rewrite Ep in X. rewrite ?cnt_app. nolog. lia.
      + injection H as <-. match goal with |- context [wloop ?x] => apply (G x []) end; auto. intros u. cbn [wr]. rewrite Ep. reflexivity.
      + discriminate.
    - destruct (scan s) eqn:Es; [discriminate|]. destruct (waiters s) eqn:Ew; [|discriminate]. injection H as <-. apply C_change with s []; auto; unfold held, running, pending; simp; rewrite ?app_nil_r, ?Es, ?Ew; auto.
    - destruct (can s && _); [|discriminate]. destruct (nth_error (ws s) j) as [[w|]|] eqn:En; try discriminate. injection H as <-.
      apply C_change with s []; auto; unfold held, running, pending; simp; rewrite ?app_nil_r; auto.
      + intros u. match goal with |- context [upd _ _ ?x] => pose proof (cnt_upd wh _ _ x u En) as X end. cbn [wh wt] in X. rewrite ?cnt_app. nolog. lia.
      + match goal with |- context [upd _ _ ?x] => pose proof (len_upd wh _ _ x En) as X end. cbn [wh wt] in X. rewrite !app_length. nolog. lia.
      + intros u. match goal with |- context [upd _ _ ?x] => pose proof (cnt_upd wr _ _ x u En) as X end. cbn [wr wpc] in X. rewrite ?cnt_app. nolog. lia.
  Qed.
  Lemma C_init : C init.
  Proof. constructor; cbn; auto. Qed.
End P.
