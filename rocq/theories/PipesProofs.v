(** Proofs about the pipes. *)
From Verif Require Import Base Conc PipesModel PipesSpec.

Definition writing (p : bpc) : bool := match p with WWait _ | WWoken _ => true | _ => false end.

Lemma reads_app a b : reads (a ++ b) = reads a ++ reads b.
Proof. unfold reads. rewrite map_app, concat_app. reflexivity. Qed.
Lemma writes_app a b : writes (a ++ b) = writes a ++ writes b.
Proof. unfold writes. rewrite map_app, concat_app. reflexivity. Qed.

(** * No lost wake-up for readers, with any writers *)
Definition inv_full (s : bst) : Prop := b_data s <> None -> forall t n, b_pc s t <> RWait n.

Lemma wake_full_no pc t n : wake_full pc t <> RWait n.
Proof. unfold wake_full. destruct (pc t); discriminate. Qed.
Lemma wake_empty_no pc t d : wake_empty pc t <> WWait d.
Proof. unfold wake_empty. destruct (pc t); discriminate. Qed.
Lemma wake_empty_rwait pc t n : wake_empty pc t = RWait n -> pc t = RWait n.
Proof. unfold wake_empty. destruct (pc t); congruence. Qed.

Lemma inv_full_step s l s' : inv_full s -> b_step s l = Some s' -> inv_full s'.
Proof.
  intros I H.
  assert (RD : forall t n, inv_full (b_read s t n)).
  { intros t n. unfold b_read. destruct (b_data s) as [d | ] eqn:E.
    - intros D u m. cbn [b_data b_pc] in *. unfold fupd. destruct (u =? t); [discriminate | ].
      destruct (Nat.min n (length d) =? length d); [congruence | ]. apply I. congruence.
    - intros D. cbn in D. congruence. }
  destruct l as [t n | t d | t | t | t]; cbn [b_step] in H; destruct (b_pc s t) eqn:E; try discriminate; injection H as <-; auto.
  - unfold b_write_loop. cbn [b_data b_pc b_log]. intros _ u m. cbn [b_pc]. unfold fupd. destruct (u =? t); [discriminate | apply wake_full_no].
  - unfold b_write_loop. destruct (b_data s) eqn:Ed; intros D u m; cbn [b_pc b_data] in *; [ | congruence].
    unfold fupd. destruct (u =? t); [discriminate | ]. apply I. congruence.
  - intros D u m. cbn [b_pc b_data] in *. unfold fupd. destruct (u =? t); [discriminate | ]. apply I. exact D.
  - intros D u m. cbn [b_pc b_data] in *. unfold fupd. destruct (u =? t); [discriminate | ]. apply I. exact D.
  - intros D u m. cbn [b_pc b_data] in *. unfold fupd. destruct (u =? t); [discriminate | ]. apply I. exact D.
  - intros D u m. cbn [b_pc b_data] in *. unfold fupd. destruct (u =? t); [discriminate | ]. apply I. exact D.
  - intros D. cbn in D. congruence.
  - intros D. cbn in D. congruence.
Qed.

(** * One writer *)
Definition only_writer (w : nat) (ls : list blab) : Prop := forall t d, In (LWrite t d) ls -> t = w.

Definition inv1 (w : nat) (s : bst) : Prop :=
  (forall t, t <> w -> writing (b_pc s t) = false) /\
  (forall d, b_pc s w = WWait d -> b_data s <> None) /\
  exists ps a, Forall2 part ps (writes (b_log s)) /\ reads (b_log s) = concat ps ++ a /\
  match b_pc s w with
  | WWait d | WWoken d => exists r, d = a ++ r /\ (b_data s = Some r \/ (b_data s = None /\ r = []))
  | _ => b_data s = None /\ a = []
  end.

Lemma writing_wake_empty pc t : writing (wake_empty pc t) = writing (pc t).
Proof. unfold wake_empty. destruct (pc t); reflexivity. Qed.
Lemma writing_wake_full pc t : writing (wake_full pc t) = writing (pc t).
Proof. unfold wake_full. destruct (pc t); reflexivity. Qed.

Lemma inv1_read w s t n : inv1 w s -> writing (b_pc s t) = false -> inv1 w (b_read s t n).
Proof.
  intros (I1 & I2 & ps & a & Fp & Rd & M) Wt. unfold b_read.
  destruct (b_data s) as [d | ] eqn:Ed.
  - (* somebody is writing *)
    destruct (writing (b_pc s w)) eqn:Ww.
    2:{ destruct (b_pc s w); try discriminate; destruct M as [M _]; congruence. }
    assert (Hne : w <> t) by (intros ->; congruence).
    assert (Hd : exists dd, (b_pc s w = WWait dd \/ b_pc s w = WWoken dd) /\ dd = a ++ d).
    { destruct (b_pc s w) as [ | | | dd | dd]; try discriminate; exists dd;
        destruct M as (r & Er & [Q | [Q _]]); try congruence; injection Q as <-; auto. }
    destruct Hd as (dd & Hpc & Edd).
    set (size := Nat.min n (length d)) in *.
    split; [ | split].
    + intros u Hu. cbn [b_pc]. unfold fupd. destruct (u =? t); [reflexivity | ].
      destruct (size =? length d); [rewrite writing_wake_empty | ]; apply I1; exact Hu.
    + intros d0. cbn [b_pc b_data]. rewrite fupd_other by exact Hne.
      destruct (size =? length d); [intros Hx; exfalso; exact (wake_empty_no _ _ _ Hx) | ]. intros _. discriminate.
    + exists ps, (a ++ firstn size d). cbn [b_pc b_data b_log]. rewrite writes_app, reads_app.
      change (writes [EvRead t n (firstn size d)]) with (@nil (list byte * bool)). rewrite app_nil_r.
      split; [exact Fp | ]. split.
      { rewrite Rd. unfold reads. cbn [map concat]. rewrite app_nil_r, app_assoc. reflexivity. }
      rewrite fupd_other by exact Hne.
      destruct (Nat.eqb_spec size (length d)) as [Ez | Nz].
      * assert (Hp : wake_empty (b_pc s) w = WWoken dd) by (unfold wake_empty; destruct Hpc as [-> | ->]; reflexivity).
        rewrite Hp. exists []. rewrite Ez, firstn_all, app_nil_r. split; [exact Edd | right; auto].
      * assert (Q : exists r, dd = (a ++ firstn size d) ++ r /\ (Some (skipn size d) = Some r \/ Some (skipn size d) = None /\ r = [])).
        { exists (skipn size d). split; [ | left; reflexivity]. rewrite <- app_assoc, firstn_skipn. exact Edd. }
        destruct Hpc as [-> | ->]; exact Q.
  - split; [ | split].
    + intros u Hu. cbn [b_pc]. unfold fupd. destruct (u =? t); [reflexivity | apply I1; exact Hu].
    + intros d0. cbn [b_pc b_data]. unfold fupd. destruct (Nat.eqb_spec w t); [discriminate | ]. intros X. specialize (I2 _ X). congruence.
    + exists ps, a. cbn [b_pc b_data b_log]. split; [exact Fp | ]. split; [exact Rd | ].
      unfold fupd. destruct (Nat.eqb_spec w t) as [-> | _]; [ | exact M].
      destruct (b_pc s t); try discriminate; destruct M; split; auto.
Qed.

Lemma inv1_step w s l s' : (forall t d, l = LWrite t d -> t = w) -> inv1 w s -> b_step s l = Some s' -> inv1 w s'.
Proof.
  intros Hw I H. pose proof I as (I1 & I2 & ps & a & Fp & Rd & M).
  destruct l as [t n | t d | t | t | t]; cbn [b_step] in H; destruct (b_pc s t) eqn:E; try discriminate; injection H as <-.
  - apply inv1_read; [exact I | rewrite E; reflexivity].
  - specialize (Hw _ _ eq_refl). subst t. rewrite E in M. destruct M as [Md Ma]. subst a. rewrite app_nil_r in Rd.
    unfold b_write_loop. cbn [b_data b_pc b_log]. split; [ | split].
    + intros u Hu. cbn [b_pc]. rewrite fupd_other by exact Hu. rewrite writing_wake_full. apply I1. exact Hu.
    + intros d0 _. cbn. discriminate.
    + exists ps, []. cbn [b_pc b_data b_log]. rewrite app_nil_r. split; [exact Fp | ]. split; [exact Rd | ].
      rewrite fupd_same. exists d. auto.
  - apply inv1_read; [exact I | rewrite E; reflexivity].
  - assert (Etw : t = w). { destruct (Nat.eq_dec t w); [assumption | ]. specialize (I1 t n). rewrite E in I1. discriminate. }
    subst t. rewrite E in M. destruct M as (r & Er & D). unfold b_write_loop.
    destruct (b_data s) as [x | ] eqn:Ed.
    + destruct D as [D | [D _]]; [ | discriminate]. injection D as ->. split; [ | split].
      * intros u Hu. cbn [b_pc]. rewrite fupd_other by exact Hu. apply I1. exact Hu.
      * intros d0 _. cbn. discriminate.
      * exists ps, a. cbn [b_pc b_data b_log]. split; [exact Fp | ]. split; [exact Rd | ]. rewrite fupd_same. exists r. auto.
    + destruct D as [D | [_ Dr]]; [discriminate | ]. subst r. rewrite app_nil_r in Er. subst d. split; [ | split].
      * intros u Hu. cbn [b_pc]. rewrite fupd_other by exact Hu. apply I1. exact Hu.
      * intros d0. cbn [b_pc]. rewrite fupd_same. discriminate.
      * exists (ps ++ [a]), []. cbn [b_pc b_data b_log]. rewrite writes_app, reads_app. split; [ | split].
        { apply Forall2_app; [exact Fp | ]. constructor; [reflexivity | constructor]. }
        { rewrite Rd. rewrite concat_app. cbn [concat]. rewrite !app_nil_r. reflexivity. }
        { rewrite fupd_same. auto. }
  - split; [ | split].
    + intros u Hu. cbn [b_pc]. unfold fupd. destruct (u =? t); [reflexivity | apply I1; exact Hu].
    + intros d0. cbn [b_pc b_data]. unfold fupd. destruct (w =? t); [discriminate | apply I2].
    + exists ps, a. cbn [b_pc b_data b_log]. split; [exact Fp | ]. split; [exact Rd | ].
      unfold fupd. destruct (Nat.eqb_spec w t) as [-> | _]; [rewrite E in M | ]; exact M.
  - assert (Etw : t = w). { destruct (Nat.eq_dec t w); [assumption | ]. specialize (I1 t n). rewrite E in I1. discriminate. }
    subst t. rewrite E in M. split; [ | split].
    + intros u Hu. cbn [b_pc]. rewrite fupd_other by exact Hu. apply I1. exact Hu.
    + intros d0. cbn [b_pc]. rewrite fupd_same. discriminate.
    + exists ps, a. cbn [b_pc b_data b_log]. split; [exact Fp | ]. split; [exact Rd | ]. rewrite fupd_same. exact M.
  - split; [ | split].
    + intros u Hu. cbn [b_pc]. unfold fupd. destruct (u =? t); [reflexivity | apply I1; exact Hu].
    + intros d0. cbn [b_pc b_data]. unfold fupd. destruct (w =? t); [discriminate | apply I2].
    + exists ps, a. cbn [b_pc b_data b_log]. rewrite writes_app, reads_app. cbn. rewrite !app_nil_r.
      split; [exact Fp | ]. split; [exact Rd | ].
      unfold fupd. destruct (Nat.eqb_spec w t) as [-> | _]; [rewrite E in M | ]; exact M.
  - split; [ | split].
    + intros u Hu. cbn [b_pc]. unfold fupd. destruct (u =? t); [reflexivity | apply I1; exact Hu].
    + intros d0. cbn [b_pc b_data]. unfold fupd. destruct (w =? t); [discriminate | apply I2].
    + exists ps, a. cbn [b_pc b_data b_log]. rewrite writes_app, reads_app. cbn. rewrite !app_nil_r.
      split; [exact Fp | ]. split; [exact Rd | ].
      unfold fupd. destruct (Nat.eqb_spec w t) as [-> | _]; [rewrite E in M | ]; exact M.
  - assert (Etw : t = w). { destruct (Nat.eq_dec t w); [assumption | ]. specialize (I1 t n). rewrite E in I1. discriminate. }
    subst t. rewrite E in M. destruct M as (r & Er & D). split; [ | split].
    + intros u Hu. cbn [b_pc]. rewrite fupd_other by exact Hu. apply I1. exact Hu.
    + intros d0. cbn [b_pc]. rewrite fupd_same. discriminate.
    + exists (ps ++ [a]), []. cbn [b_pc b_data b_log]. rewrite writes_app, reads_app. split; [ | split].
      { apply Forall2_app; [exact Fp | ]. constructor; [exists r; exact Er | constructor]. }
      { rewrite Rd. rewrite concat_app. cbn [concat]. rewrite !app_nil_r. reflexivity. }
      { rewrite fupd_same. auto. }
  - assert (Etw : t = w). { destruct (Nat.eq_dec t w); [assumption | ]. specialize (I1 t n). rewrite E in I1. discriminate. }
    subst t. rewrite E in M. destruct M as (r & Er & D). split; [ | split].
    + intros u Hu. cbn [b_pc]. rewrite fupd_other by exact Hu. apply I1. exact Hu.
    + intros d0. cbn [b_pc]. rewrite fupd_same. discriminate.
    + exists (ps ++ [a]), []. cbn [b_pc b_data b_log]. rewrite writes_app, reads_app. split; [ | split].
      { apply Forall2_app; [exact Fp | ]. constructor; [exists r; exact Er | constructor]. }
      { rewrite Rd. rewrite concat_app. cbn [concat]. rewrite !app_nil_r. reflexivity. }
      { rewrite fupd_same. auto. }
Qed.

Lemma inv1_run w ls : only_writer w ls -> forall s s', steps b_step s ls s' -> inv1 w s -> inv1 w s'.
Proof.
  intros O s s' H. induction H; intros I; [exact I | ].
  apply IHsteps; [intros t d Hin; apply (O t d); right; exact Hin | ].
  eapply inv1_step; [ | exact I | exact H]. intros t d ->. apply (O t d). left. reflexivity.
Qed.

Lemma inv1_init w : inv1 w b_init.
Proof.
  split; [reflexivity | ]. split; [discriminate | ]. exists [], []. split; [constructor | ]. split; [reflexivity | ]. cbn. auto.
Qed.

Lemma inv_full_run ls : forall s s', steps b_step s ls s' -> inv_full s -> inv_full s'.
Proof. intros s s' H I. eapply (steps_inv (step := b_step) inv_full); eauto. intros; eapply inv_full_step; eauto. Qed.

(** * SynchronizedPipe *)
Definition swriting (p : spc) : option (list byte * nat) := match p with SWriting d k _ => Some (d, k) | _ => None end.

Definition sinv (s : sst) : Prop :=
  (sy_free s = true -> forall t, swriting (sy_pc s t) = None /\ forall d, sy_pc s t <> SWait d) /\
  (sy_free s = false -> exists t d k, swriting (sy_pc s t) = Some (d, k) /\ forall u, u <> t -> swriting (sy_pc s u) = None) /\
  exists ps, Forall2 part ps (swrites (sy_log s)) /\
    ((sy_free s = true -> sy_out s = concat ps) /\
     (forall t d k, swriting (sy_pc s t) = Some (d, k) -> k <= length d /\ sy_out s = concat ps ++ firstn k d)).

Lemma swriting_wake pc t : swriting (wake_cv pc t) = swriting (pc t).
Proof. unfold wake_cv. destruct (pc t); reflexivity. Qed.
Lemma wake_cv_no pc t d : wake_cv pc t <> SWait d.
Proof. unfold wake_cv. destruct (pc t); discriminate. Qed.
Lemma swrites_app a b : swrites (a ++ b) = swrites a ++ swrites b.
Proof. apply map_app. Qed.

Lemma free_case s : sy_free s = true \/ sy_free s = false.
Proof. destruct (sy_free s); auto. Qed.

Lemma sinv_free_of_writing s t d k : sinv s -> swriting (sy_pc s t) = Some (d, k) -> sy_free s = false.
Proof. intros (A & _) H. destruct (free_case s) as [F | F]; [ | exact F]. destruct (A F t). congruence. Qed.

Lemma sinv_unique s t d k : sinv s -> swriting (sy_pc s t) = Some (d, k) -> forall u, u <> t -> swriting (sy_pc s u) = None.
Proof.
  intros I H u Hu. pose proof (sinv_free_of_writing _ _ _ _ I H) as F. destruct I as (_ & B & _).
  destruct (B F) as (t1 & d1 & k1 & E1 & Un). destruct (Nat.eq_dec t t1) as [<- | N]; [apply Un; exact Hu | ].
  specialize (Un t N). congruence.
Qed.

Lemma sinv_enter s t d : sinv s -> swriting (sy_pc s t) = None -> sinv (sy_enter s t d).
Proof.
  intros I Hn. pose proof I as (A & B & ps & Fp & C1 & C2). unfold sy_enter. destruct (sy_free s) eqn:F.
  - specialize (A eq_refl). split; [discriminate | ]. split.
    + intros _. exists t, d, 0. cbn [sy_pc]. rewrite fupd_same. split; [reflexivity | ].
      intros u Hu. rewrite fupd_other by exact Hu. apply A.
    + exists ps. cbn [sy_log sy_out sy_free sy_pc]. split; [exact Fp | ]. split; [discriminate | ].
      intros u d0 k0. unfold fupd. destruct (Nat.eqb_spec u t) as [-> | Nu].
      * cbn. intros E. injection E as <- <-. split; [lia | ]. cbn [firstn]. rewrite app_nil_r. auto.
      * intros E. destruct (A u). congruence.
  - split; [discriminate | ]. split.
    + intros _. destruct (B eq_refl) as (t1 & d1 & k1 & E1 & Un). exists t1, d1, k1. cbn [sy_pc].
      assert (t1 <> t) by congruence. rewrite fupd_other by assumption. split; [exact E1 | ].
      intros u Hu. unfold fupd. destruct (u =? t); [reflexivity | apply Un; exact Hu].
    + exists ps. cbn [sy_log sy_out sy_free sy_pc]. split; [exact Fp | ]. split; [discriminate | ].
      intros u d0 k0. unfold fupd. destruct (u =? t); [discriminate | apply C2].
Qed.

Lemma sinv_leave s t d k e b : sinv s -> swriting (sy_pc s t) = Some (d, k) ->
  swrites [e] = [(d, b)] -> (b = true -> k = length d) ->
  forall n, n <= length d - k -> (b = true -> n = 0) ->
  sinv (sy_leave (mkSy (sy_free s) (sy_pc s) (sy_log s) (sy_out s ++ firstn n (skipn k d))) t e).
Proof.
  intros I H He Hb n Hn Hbn. pose proof (sinv_unique _ _ _ _ I H) as Un. pose proof I as (A & B & ps & Fp & C1 & C2).
  destruct (C2 _ _ _ H) as [Hk Ho]. unfold sy_leave. cbn [sy_pc sy_log sy_out].
  split; [ | split].
  - intros _ u. cbn [sy_pc]. unfold fupd. destruct (Nat.eqb_spec u t); [split; [reflexivity | discriminate] | ].
    rewrite swriting_wake. split; [apply Un; assumption | intros d0; apply wake_cv_no].
  - discriminate.
  - exists (ps ++ [firstn (k + n) d]). cbn [sy_log sy_out sy_free sy_pc]. rewrite swrites_app, He. split; [ | split].
    + apply Forall2_app; [exact Fp | ]. constructor; [ | constructor]. unfold part. cbn [fst snd]. destruct b.
      * rewrite Hb, Hbn by reflexivity. rewrite Nat.add_0_r. apply firstn_all.
      * exists (skipn (k + n) d). symmetry. apply firstn_skipn.
    + intros _. rewrite Ho, concat_app. cbn [concat]. rewrite app_nil_r, <- app_assoc. f_equal.
      symmetry. clear. revert d. induction k; intros [ | x d]; cbn; auto. * destruct n; reflexivity. * f_equal. apply IHk.
    + intros u d0 k0. unfold fupd. destruct (Nat.eqb_spec u t); [discriminate | ]. rewrite swriting_wake. intros E.
      rewrite Un in E by assumption. discriminate.
Qed.

Lemma sinv_same s t p log' : sinv s -> swriting (sy_pc s t) = None -> swriting p = None ->
  (forall d, p = SWait d -> False) ->
  (exists x, Forall2 part x (swrites log') /\ forall ps, Forall2 part ps (swrites (sy_log s)) -> exists q, Forall2 part q (swrites log') /\ concat q = concat ps) ->
  sinv (mkSy (sy_free s) (fupd (sy_pc s) t p) log' (sy_out s)).
Proof.
  intros I Hn Hp Hw (x & _ & Hl). pose proof I as (A & B & ps & Fp & C1 & C2). split; [ | split]; cbn [sy_free sy_pc sy_log sy_out].
  - intros F u. unfold fupd. destruct (u =? t); [split; [exact Hp | intros d E; exact (Hw _ E)] | apply A; exact F].
  - intros F. destruct (B F) as (t1 & d1 & k1 & E1 & Un). exists t1, d1, k1.
    assert (t1 <> t) by congruence. rewrite fupd_other by assumption. split; [exact E1 | ].
    intros u Hu. unfold fupd. destruct (u =? t); [exact Hp | apply Un; exact Hu].
  - destruct (Hl ps Fp) as (q & Fq & Eq). exists q. split; [exact Fq | ]. rewrite Eq. split; [exact C1 | ].
    intros u d k. unfold fupd. destruct (u =? t); [congruence | apply C2].
Qed.

Lemma sinv_step s l s' : sinv s -> s_step s l = Some s' -> sinv s'.
Proof.
  intros I H. destruct l as [t d | t | t | t | t n | t n | t c]; cbn [s_step] in H; destruct (sy_pc s t) as [ | d0 | d0 | d0 k0 la] eqn:E; try discriminate.
  - injection H as <-. apply sinv_enter; [exact I | rewrite E; reflexivity].
  - injection H as <-. apply sinv_enter; [exact I | rewrite E; reflexivity].
  - injection H as <-. destruct I as (A & B & ps & Fp & C) eqn:EI. apply sinv_same; auto.
    + rewrite E. reflexivity.
    + discriminate.
    + exists ps. split; [exact Fp | ]. intros q Fq. exists q. auto.
  - injection H as <-. pose proof I as (A & B & ps & Fp & C). apply sinv_same; auto.
    + rewrite E. reflexivity.
    + discriminate.
    + exists (ps ++ [[]]). rewrite swrites_app. split; [apply Forall2_app; [exact Fp | constructor; [exists d0; reflexivity | constructor]] | ].
      intros q Fq. exists (q ++ [[]]). split; [apply Forall2_app; [exact Fq | constructor; [exists d0; reflexivity | constructor]] | ].
      rewrite concat_app. cbn. rewrite app_nil_r. reflexivity.
  - injection H as <-. pose proof I as (A & B & ps & Fp & C). apply sinv_same; auto.
    + rewrite E. reflexivity.
    + discriminate.
    + exists (ps ++ [[]]). rewrite swrites_app. split; [apply Forall2_app; [exact Fp | constructor; [exists d0; reflexivity | constructor]] | ].
      intros q Fq. exists (q ++ [[]]). split; [apply Forall2_app; [exact Fq | constructor; [exists d0; reflexivity | constructor]] | ].
      rewrite concat_app. cbn. rewrite app_nil_r. reflexivity.
  - destruct ((k0 <? length d0) && (match la with Some 0 => false | _ => true end) && (n <=? length d0 - k0)) eqn:G; [ | discriminate].
    apply andb_true_iff in G. destruct G as [G1 G2]. apply Nat.leb_le in G2. injection H as <-.
    assert (Hs : swriting (sy_pc s t) = Some (d0, k0)) by (rewrite E; reflexivity).
    pose proof (sinv_unique _ _ _ _ I Hs) as Un. pose proof (sinv_free_of_writing _ _ _ _ I Hs) as F.
    destruct I as (A & B & ps & Fp & C1 & C2). destruct (C2 _ _ _ Hs) as [Hk Ho].
    split; [ | split]; cbn [sy_free sy_pc sy_log sy_out].
    + congruence.
    + intros _. exists t, d0, (k0 + n). rewrite fupd_same. split; [reflexivity | ]. intros u Hu. rewrite fupd_other by exact Hu. auto.
    + exists ps. split; [exact Fp | ]. split; [congruence | ]. intros u d k. unfold fupd. destruct (Nat.eqb_spec u t).
      * cbn. intros X. injection X as <- <-. split; [lia | ]. rewrite Ho, <- app_assoc. f_equal.
        symmetry. clear. revert d0. induction k0; intros [ | x d0]; cbn; auto. -- destruct n; reflexivity. -- f_equal. apply IHk0.
      * intros X. rewrite Un in X by assumption. discriminate.
  - destruct ((k0 <? length d0) && (match la with Some 0 => false | _ => true end) && (n <=? length d0 - k0)) eqn:G; [ | discriminate].
    apply andb_true_iff in G. destruct G as [G1 G2]. apply Nat.leb_le in G2. injection H as <-.
    eapply sinv_leave with (b := false); [exact I | rewrite E; reflexivity | reflexivity | discriminate | exact G2 | discriminate].
  - assert (Hs : swriting (sy_pc s t) = Some (d0, k0)) by (rewrite E; reflexivity).
    assert (Lv : forall e b, swrites [e] = [(d0, b)] -> (b = true -> k0 = length d0) -> sinv (sy_leave s t e)).
    { intros e b He Hb. pose proof (sinv_leave s t d0 k0 e b I Hs He Hb 0 ltac:(lia) ltac:(auto)) as Q.
      cbn [firstn] in Q. rewrite app_nil_r in Q. destruct s; exact Q. }
    destruct c; [injection H as <-; apply (Lv _ false); [reflexivity | discriminate] | ].
    destruct ((k0 <? length d0) && (match la with Some 0 => false | _ => true end)); [discriminate | ].
    destruct (Nat.eqb_spec k0 (length d0)); injection H as <-; [apply (Lv _ true); auto | apply (Lv _ false); [reflexivity | discriminate]].
Qed.

Lemma sinv_init : sinv sy_init.
Proof.
  split; [intros _ t; split; [reflexivity | discriminate] | ]. split; [discriminate | ].
  exists []. split; [constructor | ]. split; [reflexivity | ]. intros t d k H. discriminate.
Qed.
Lemma sinv_run ls : forall s s', steps s_step s ls s' -> sinv s -> sinv s'.
Proof. intros s s' H I. eapply (steps_inv (step := s_step) sinv); eauto. intros; eapply sinv_step; eauto. Qed.
