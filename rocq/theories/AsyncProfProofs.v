From Coq Require Import List Bool ZArith Lia.
From Verif Require Import Conc AsyncProfModel AsyncProfSpec.
Import ListNotations.
Local Open Scope Z_scope.

Section P.
Variable T : Z.
Hypothesis Tpos : 0 < T.
Notation stp := (step T).

Lemma due_of_snoc h e s : due_of T (h ++ [e]) s = next_due T s (due_of T h s) e.
Proof. unfold due_of. now rewrite fold_left_app. Qed.

Fixpoint dues (l : list entry) (s : nat) : option Z :=
  match l with [] => None | x :: r => if Nat.eqb (sid x) s then Some (due x) else dues r s end.

Fixpoint sorted (l : list entry) : Prop :=
  match l with [] => True | x :: r => (forall y, In y r -> due x <= due y) /\ sorted r end.

Lemma dues_In l s u : dues l s = Some u -> exists x, In x l /\ sid x = s /\ due x = u.
Proof.
  induction l as [|x l IH]; cbn; [discriminate|]. destruct (Nat.eqb_spec (sid x) s).
  - intros [= <-]. exists x; auto.
  - intros H. destruct (IH H) as (y & ? & ?). exists y; auto.
Qed.
Lemma In_dues l x : NoDup (map sid l) -> In x l -> dues l (sid x) = Some (due x).
Proof.
  induction l as [|y l IH]; cbn; [tauto|]. intros Hn [->|H].
  - now rewrite Nat.eqb_refl.
  - inversion Hn; subst. destruct (Nat.eqb_spec (sid y) (sid x)).
    + exfalso. apply H2. rewrite e. now apply in_map.
    + auto.
Qed.
Lemma dues_None l s : ~ In s (map sid l) -> dues l s = None.
Proof.
  induction l as [|y l IH]; cbn; auto. intros H. destruct (Nat.eqb_spec (sid y) s); [tauto|]. apply IH; tauto.
Qed.
Lemma dues_app l x s : dues (l ++ [x]) s = match dues l s with Some u => Some u | None => if Nat.eqb (sid x) s then Some (due x) else None end.
Proof. induction l as [|y l IH]; cbn; auto. destruct (Nat.eqb (sid y) s); auto. Qed.
Lemma erase_In s l x : In x (erase s l) -> In x l.
Proof. induction l as [|y l IH]; cbn; auto. destruct (Nat.eqb (sid y) s); cbn; tauto. Qed.
Lemma erase_sids s l : NoDup (map sid l) -> NoDup (map sid (erase s l)).
Proof.
  induction l as [|y l IH]; cbn; auto. inversion 1; subst. destruct (Nat.eqb (sid y) s); cbn; auto.
  constructor; auto. intros Hi. apply H2. apply in_map_iff in Hi as (z & <- & Hz). apply in_map. eauto using erase_In.
Qed.
Lemma erase_sorted s l : sorted l -> sorted (erase s l).
Proof.
  induction l as [|y l IH]; cbn; auto. intros (H1 & H2). destruct (Nat.eqb (sid y) s); cbn; auto.
  split; auto. intros z Hz. apply H1. eauto using erase_In.
Qed.
Lemma erase_dues s l u : NoDup (map sid l) -> dues (erase s l) u = if Nat.eqb s u then None else dues l u.
Proof.
  induction l as [|y l IH]; cbn; intros Hn; [now destruct (Nat.eqb s u)|]. inversion Hn; subst.
  destruct (Nat.eqb_spec (sid y) s).
  - subst. destruct (Nat.eqb_spec (sid y) u); auto. subst. now apply dues_None.
  - cbn. rewrite IH by auto. destruct (Nat.eqb_spec (sid y) u); auto. destruct (Nat.eqb_spec s u); auto. congruence.
Qed.
Lemma sorted_app l x : sorted l -> (forall y, In y l -> due y <= due x) -> sorted (l ++ [x]).
Proof.
  induction l as [|y l IH]; cbn; intros Hs H; [split; auto; tauto|]. destruct Hs as (H1 & H2). split; [|auto].
  intros z Hz. apply in_app_iff in Hz as [Hz|[<-|[]]]; auto.
Qed.
Lemma listed_In s l : listed s l = true <-> In s (map sid l).
Proof.
  induction l as [|y l IH]; cbn; [split; [discriminate|tauto]|]. rewrite orb_true_iff, IH.
  destruct (Nat.eqb_spec (sid y) s); intuition congruence.
Qed.

Definition thr_ok (m : st) : Prop :=
  match thr m with
  | Idle => sessions m = []
  | Asleep r e w => r <= e /\ e <= clock m /\ stopping m = false /\
      match sessions m with x :: _ => w = due x + (e - r) | [] => False end
  | Finished => stopping m = true
  | _ => True
  end.

Definition pend (w : thread) (h : list (nat * Z)) : list (nat * Z) :=
  match w with Reporting s e => [(s, e)] | Died => match rev h with p :: _ => [p] | [] => [] end | _ => [] end.

Record inv (m : st) : Prop := mk_inv {
  i_sorted : sorted (sessions m);
  i_nodup : NoDup (map sid (sessions m));
  i_fresh : forall x, In x (sessions m) -> (sid x < next m)%nat;
  i_due : forall x, In x (sessions m) -> due x <= clock m + T /\ born x + T <= due x;
  i_dues : forall s, dues (sessions m) s = due_of T (hist m) s;
  i_start : forall x, In x (sessions m) -> exists ta, In (Started (sid x) (born x) ta) (hist m);
  i_known : forall s b ta, In (Started s b ta) (hist m) -> (s < next m)%nat;
  i_samp : forall s a b e, In (Sampled s a b e) (hist m) -> b <= clock m /\ (s < next m)%nat /\
            forall x, In x (sessions m) -> sid x = s -> b + T <= due x;
  i_ended : forall s, In (Ended s) (hist m) -> (s < next m)%nat /\ ~ In s (map sid (sessions m));
  i_thr : thr_ok m;
  i_stop : stopping m = true -> sessions m = [];
  i_rep : samples (hist m) = reports (hist m) ++ pend (thr m) (samples (hist m));
  i_died : thr m = Died -> samples (hist m) <> []
}.

Lemma samples_app a b : samples (a ++ b) = samples a ++ samples b.
Proof. induction a as [|[]]; cbn; rewrite ?IHa; auto. Qed.
Lemma reports_app a b : reports (a ++ b) = reports a ++ reports b.
Proof. induction a as [|[]]; cbn; rewrite ?IHa; auto. Qed.

Lemma init_inv t : inv (init t).
Proof. split; cbn; auto; try tauto; try (intros; contradiction); try discriminate. constructor. Qed.

Lemma in_snoc {A} (x : A) l y : In x (l ++ [y]) <-> In x l \/ y = x.
Proof. rewrite in_app_iff; cbn; tauto. Qed.

Lemma map_snoc l x : map sid (l ++ [x]) = map sid l ++ [sid x].
Proof. now rewrite map_app. Qed.
Lemma nodup_snoc (l : list nat) x : NoDup l -> ~ In x l -> NoDup (l ++ [x]).
Proof.
  intros H Hx.
  induction l as [|y l IH]; cbn in *; [repeat constructor; auto|].
  inversion H; subst. constructor; [|apply IH; tauto].
  rewrite in_app_iff; cbn. intuition.
Qed.

Lemma broadcast_cases w : broadcast w = w /\ ~ asleep w \/ broadcast w = Woken /\ asleep w.
Proof. destruct w; cbn; auto. Qed.

Lemma rep_broadcast w (b : bool) h : pend (if b then broadcast w else w) h = pend w h.
Proof. destruct b, w; auto. Qed.

Lemma step_inv m a m' : inv m -> stp m a = Some m' -> inv m'.
Proof.
  intros [Hs Hn Hf Hd Hu Hb Hk Hp He Ht Hst Hr Hdi]. destruct a; cbn [step].
  - (* Tick *) destruct (Z.leb_spec (clock m) t); [|discriminate]. intros [= <-]. split; cbn; auto.
    + intros x Hx. specialize (Hd x Hx). lia.
    + intros s a b e Hi. destruct (Hp s a b e Hi) as (? & ? & ?). split; [lia|auto].
    + unfold thr_ok in *; cbn. destruct (thr m); auto. destruct Ht as (? & ? & ? & ?). repeat split; auto; lia.
  - (* Begin *) destruct (Z.leb_spec b (clock m)); [|discriminate]. destruct (stopping m) eqn:Es; [discriminate|].
    cbn [andb negb]. intros [= <-]. set (x := mk_entry (next m) b (clock m + T) throwing).
    assert (Hnew : ~ In (next m) (map sid (sessions m))).
    { intros Hi. apply in_map_iff in Hi as (y & Hy & Hi). specialize (Hf y Hi). lia. }
    split; cbn [sessions clock next thr stopping hist].
    + apply sorted_app; auto. intros y Hy. specialize (Hd y Hy). cbn. lia.
    + rewrite map_snoc. apply nodup_snoc; auto.
    + intros y Hy. apply in_snoc in Hy as [Hy|<-]; [specialize (Hf y Hy); lia|cbn; lia].
    + intros y Hy. apply in_snoc in Hy as [Hy|<-]; [auto|cbn; lia].
    + intros s. rewrite due_of_snoc, dues_app, Hu. cbn [next_due sid x].
      destruct (Nat.eqb_spec (next m) s); [|now destruct (due_of T (hist m) s)].
      subst s. rewrite <- Hu, dues_None by auto. reflexivity.
    + intros y Hy. apply in_snoc in Hy as [Hy|<-].
      * destruct (Hb y Hy) as (ta & ?). exists ta. apply in_snoc; auto.
      * exists (clock m). apply in_snoc; auto.
    + intros s b' ta Hi. apply in_snoc in Hi as [Hi|[= <- <- <-]]; [specialize (Hk _ _ _ Hi); lia|lia].
    + intros s a' b' e Hi. apply in_snoc in Hi as [Hi|Hi]; [|discriminate].
      destruct (Hp _ _ _ _ Hi) as (? & ? & H2). repeat split; auto.
      intros y Hy Hy'. apply in_snoc in Hy as [Hy|<-]; [auto|cbn in Hy'; lia].
    + intros s Hi. apply in_snoc in Hi as [Hi|Hi]; [|discriminate].
      destruct (He s Hi). split; [lia|]. rewrite map_snoc, in_snoc. cbn. intuition lia.
    + unfold thr_ok in *; cbn [thr sessions stopping clock].
      destruct (sessions m) as [|y l] eqn:El; cbn [app is_first].
      * cbn [sid x]. rewrite Nat.eqb_refl. destruct (thr m); cbn; auto; congruence.
      * replace (Nat.eqb (sid y) (next m)) with false
          by (symmetry; apply Nat.eqb_neq; specialize (Hf y (or_introl eq_refl)); lia).
        destruct (thr m); auto; try discriminate; try congruence; try tauto.
    + intros ?; discriminate.
    + rewrite samples_app, reports_app, rep_broadcast. cbn [samples reports]. now rewrite !app_nil_r.
    + intros H0. rewrite samples_app; cbn; rewrite app_nil_r. apply Hdi.
      destruct (is_first _ _); auto. destruct (thr m); auto; discriminate.
  - (* End *) destruct (listed s (sessions m)) eqn:El; [|discriminate]. intros [= <-]. apply listed_In in El.
    split; cbn [sessions clock next thr stopping hist].
    + now apply erase_sorted.
    + now apply erase_sids.
    + eauto using erase_In.
    + eauto using erase_In.
    + intros u. rewrite erase_dues, due_of_snoc by auto. cbn [next_due]. destruct (Nat.eqb s u); auto.
    + intros y Hy. destruct (Hb y (erase_In _ _ _ Hy)) as (ta & ?). exists ta. apply in_snoc; auto.
    + intros u b ta Hi. apply in_snoc in Hi as [Hi|Hi]; [eauto|discriminate].
    + intros u a b e Hi. apply in_snoc in Hi as [Hi|Hi]; [|discriminate].
      destruct (Hp _ _ _ _ Hi) as (? & ? & ?). repeat split; eauto using erase_In.
    + intros u Hi. apply in_snoc in Hi as [Hi|[= <-]].
      * destruct (He u Hi) as (? & H1). split; auto. intros H2. apply H1. apply in_map_iff in H2 as (y & <- & Hy).
        apply in_map. eauto using erase_In.
      * split. { apply in_map_iff in El as (y & <- & Hy). auto. }
        intros H2. apply in_map_iff in H2 as (y & Hy1 & Hy2).
        pose proof (In_dues _ _ (erase_sids s _ Hn) Hy2) as H3. rewrite erase_dues, Hy1, Nat.eqb_refl in H3 by auto. discriminate.
    + unfold thr_ok in *; cbn [thr sessions stopping clock].
      destruct (sessions m) as [|y l] eqn:E1; [cbn in El; contradiction|]. cbn [is_first erase].
      destruct (Nat.eqb (sid y) s); destruct (thr m); cbn; auto; discriminate.
    + intros H0. specialize (Hst H0). rewrite Hst in El. cbn in El. contradiction.
    + rewrite samples_app, reports_app, rep_broadcast. cbn [samples reports]. now rewrite !app_nil_r.
    + intros H0. rewrite samples_app; cbn; rewrite app_nil_r. apply Hdi.
      destruct (is_first _ _); auto. destruct (thr m); auto; discriminate.
  - (* Stop *) destruct (sessions m) eqn:El; [|discriminate]. intros [= <-].
    split; cbn [sessions clock next thr stopping hist]; auto.
    unfold thr_ok in *; cbn. rewrite El in Ht. destruct (thr m); auto; tauto.
  - (* Wake *)
    assert (G : thr m <> Died -> (match thr m with Reporting _ _ => False | _ => True end) ->
      inv (mk_st (clock m) (sessions m) (next m) Ready (stopping m) (hist m))).
    { intros H0 H1. split; cbn [sessions clock next thr stopping hist]; auto.
      - exact I.
      - destruct (thr m); auto; try contradiction; congruence.
      - discriminate. }
    destruct (thr m) eqn:E; try discriminate.
    + destruct (stopping m); [|discriminate]. intros [= <-]. apply G; auto; discriminate.
    + destruct (wake <=? clock m); [|discriminate]. intros [= <-]. apply G; auto; discriminate.
    + intros [= <-]. apply G; auto; discriminate.
  - (* Spurious *)
    assert (G : (match thr m with Idle | Asleep _ _ _ => True | _ => False end) ->
      inv (mk_st (clock m) (sessions m) (next m) Ready (stopping m) (hist m))).
    { intros H1. split; cbn [sessions clock next thr stopping hist]; auto.
      - exact I.
      - destruct (thr m); auto; contradiction.
      - discriminate. }
    destruct (thr m) eqn:E; try discriminate; intros [= <-]; apply G; auto.
  - (* Check *) destruct (thr m) eqn:E; try discriminate.
    destruct (Z.leb_spec (clock m) t); [|discriminate].
    destruct (stopping m) eqn:Es.
    { intros [= <-]. split; cbn [sessions clock next thr stopping hist]; auto; [reflexivity|discriminate]. }
    destruct (sessions m) as [|x l] eqn:El.
    { intros [= <-]. split; cbn [sessions clock next thr stopping hist]; auto; try (rewrite El; auto); [reflexivity|discriminate]. }
    destruct (Z.ltb_spec (clock m) (due x)).
    { intros [= <-]. split; cbn [sessions clock next thr stopping hist]; auto.
      - intros y Hy. specialize (Hd y Hy). lia.
      - intros s a b e Hi. destruct (Hp _ _ _ _ Hi) as (? & ? & ?). repeat split; auto. lia.
      - unfold thr_ok; cbn. repeat split; auto; lia.
      - discriminate. }
    set (x' := mk_entry (sid x) (born x) (t + T) (bad x)).
    assert (G : forall w, (w = Died \/ w = Reporting (sid x) (clock m - born x)) ->
      inv (mk_st t (l ++ [x']) (next m) w (stopping m) (hist m ++ [Sampled (sid x) (clock m) t (clock m - born x)]))).
    { intros w Hw. inversion Hn; subst. destruct Hs as (Hs1 & Hs2).
      split; cbn [sessions clock next thr stopping hist].
      - apply sorted_app; auto. intros y Hy. specialize (Hd y (or_intror Hy)). cbn. lia.
      - rewrite map_snoc. apply nodup_snoc; auto.
      - intros y Hy. apply in_snoc in Hy as [Hy|<-]; [apply Hf; cbn; auto|apply (Hf x); cbn; auto].
      - pose proof (Hd x (or_introl eq_refl)).
        intros y Hy. apply in_snoc in Hy as [Hy|<-]; [specialize (Hd y (or_intror Hy)); lia|cbn; lia].
      - intros s. rewrite due_of_snoc, <- Hu, dues_app. cbn [next_due dues sid due x'].
        destruct (Nat.eqb_spec (sid x) s); [|now destruct (dues l s)].
        subst s. rewrite dues_None by auto. reflexivity.
      - intros y Hy. apply in_snoc in Hy as [Hy|<-].
        + destruct (Hb y (or_intror Hy)) as (ta & ?). exists ta. apply in_snoc; auto.
        + destruct (Hb x (or_introl eq_refl)) as (ta & ?). exists ta. apply in_snoc; auto.
      - intros s b' ta Hi. apply in_snoc in Hi as [Hi|Hi]; [eauto|discriminate].
      - intros s a' b' e Hi. apply in_snoc in Hi as [Hi|[= <- <- <- <-]].
        + destruct (Hp _ _ _ _ Hi) as (? & ? & H6). repeat split; auto; [lia|].
          intros y Hy Hy'. apply in_snoc in Hy as [Hy|<-]; [apply H6; cbn; auto|cbn; lia].
        + repeat split; [lia|apply (Hf x); cbn; auto|].
          intros y Hy Hy'. apply in_snoc in Hy as [Hy|<-]; [|cbn; lia].
          exfalso. apply H3. rewrite <- Hy'. now apply in_map.
      - intros s Hi. apply in_snoc in Hi as [Hi|Hi]; [|discriminate].
        destruct (He s Hi) as (? & H6). split; auto. rewrite map_snoc, in_snoc. cbn in *. tauto.
      - destruct Hw as [-> | ->]; exact I.
      - rewrite Es; discriminate.
      - rewrite samples_app, reports_app. cbn [samples reports app]. rewrite app_nil_r.
        cbn [pend] in Hr. rewrite app_nil_r in Hr. rewrite <- Hr.
        destruct Hw as [-> | ->]; cbn [pend]; [rewrite rev_app_distr; cbn|]; reflexivity.
      - intros _. rewrite samples_app; cbn. destruct (samples (hist m)); discriminate. }
    rewrite Es in G. destruct (bad x); intros [= <-]; apply G; auto.
  - (* Report *) destruct (thr m) as [| | | |s e| |] eqn:E; try discriminate. intros [= <-].
    split; cbn [sessions clock next thr stopping hist]; auto.
    + intros u. rewrite due_of_snoc. cbn. auto.
    + intros y Hy. destruct (Hb y Hy) as (ta & ?). exists ta. apply in_snoc; auto.
    + intros u b ta Hi. apply in_snoc in Hi as [Hi|Hi]; [eauto|discriminate].
    + intros u a b e' Hi. apply in_snoc in Hi as [Hi|Hi]; [eauto|discriminate].
    + intros u Hi. apply in_snoc in Hi as [Hi|Hi]; [auto|discriminate].
    + exact I.
    + rewrite samples_app, reports_app. cbn. rewrite !app_nil_r. exact Hr.
    + discriminate.
Qed.

Lemma reach_inv t ls m : steps stp (init t) ls m -> inv m.
Proof. apply steps_inv; [intros; eapply step_inv; eauto|apply init_inv]. Qed.

(* every step adds at most one event *)
Lemma step_hist m a m' : stp m a = Some m' -> hist m' = hist m \/ exists e, hist m' = hist m ++ [e].
Proof.
  destruct a; cbn [step];
  repeat (match goal with |- context[match ?x with _ => _ end] => destruct x end); try discriminate; intros [= <-]; cbn; eauto.
Qed.

Lemma hist_split t ls m : steps stp (init t) ls m -> forall h1 e h2, hist m = h1 ++ e :: h2 ->
  exists l1 a l2 m1 m2, steps stp (init t) l1 m1 /\ stp m1 a = Some m2 /\ steps stp m2 l2 m /\ hist m1 = h1 /\ hist m2 = h1 ++ [e].
Proof.
  intros H. assert (G : forall m0 ls m, steps stp m0 ls m -> forall h1 e h2, hist m = h1 ++ e :: h2 -> (length (hist m0) <= length h1)%nat ->
    exists l1 a l2 m1 m2, steps stp m0 l1 m1 /\ stp m1 a = Some m2 /\ steps stp m2 l2 m /\ hist m1 = h1 /\ hist m2 = h1 ++ [e]).
  { clear. induction 1 as [m|m a m1 ls m2 Hs Hss IH]; intros h1 e h2 Hh Hl.
    - rewrite Hh, app_length in Hl; cbn in Hl; lia.
    - destruct (Nat.le_gt_cases (length (hist m1)) (length h1)) as [Hle|Hgt].
      + destruct (IH _ _ _ Hh Hle) as (l1 & b & l2 & n1 & n2 & H1 & H2 & H3 & H4 & H5).
        exists (a :: l1), b, l2, n1, n2. repeat split; auto. econstructor; eauto.
      + assert (Hpre : exists h, hist m2 = hist m1 ++ h).
        { clear -Hss. induction Hss as [|m a m1 ls m2 Hs Hss IH]; [exists []; now rewrite app_nil_r|].
          destruct IH as (h & IH). rewrite IH. destruct (step_hist _ _ _ Hs) as [F | (e & F)]; rewrite F; eauto. exists (e :: h). now rewrite <- app_assoc. }
        destruct Hpre as (h & Hh2).
        destruct (step_hist _ _ _ Hs) as [He|(e' & He)]; [rewrite He in Hgt; lia|].
        rewrite He in *. rewrite app_length in Hgt; cbn in Hgt.
        assert (hist m = h1 /\ e' = e) as (<- & ->).
        { rewrite Hh2 in Hh. rewrite <- app_assoc in Hh. cbn in Hh.
          assert (El : length (hist m) = length h1) by lia.
          clear -Hh El. revert h1 Hh El. induction (hist m) as [|z r IH]; intros [|z1 h1]; cbn; try discriminate.
          - intros [= ? ?]; auto.
          - intros [= -> F] [= El]. destruct (IH _ F El) as (-> & ->). auto. }
        exists [], a, ls, m, m1. repeat split; auto. constructor. }
  intros h1 e h2 Hh. apply (G _ _ _ H _ _ _ Hh). cbn; lia.
Qed.

(* the step that found a session overdue *)
Lemma sampled_step m a m' s b u e : stp m a = Some m' -> hist m' = hist m ++ [Sampled s b u e] ->
  exists x r, sessions m = x :: r /\ sid x = s /\ due x <= b /\ b = clock m /\ b <= u /\ u = clock m' /\ e = b - born x.
Proof.
  destruct a; cbn [step].
  1-7: repeat (match goal with |- context[match ?x with _ => _ end] => destruct x eqn:? end); try discriminate; intros [= <-]; cbn;
    intros F; try (apply (f_equal (@length _)) in F; rewrite ?app_length in F; cbn in F; lia);
    try (apply app_inv_head in F; discriminate).
  - apply app_inv_head in F. injection F as <- <- <- <-. do 2 eexists. split; [reflexivity|].
    repeat match goal with H : (_ <? _) = _ |- _ => apply Z.ltb_ge in H | H : (_ <=? _) = _ |- _ => apply Z.leb_le in H end.
    repeat split; auto; lia.
  - apply app_inv_head in F. injection F as <- <- <- <-. do 2 eexists. split; [reflexivity|].
    repeat match goal with H : (_ <? _) = _ |- _ => apply Z.ltb_ge in H | H : (_ <=? _) = _ |- _ => apply Z.leb_le in H end.
    repeat split; auto; lia.
  - destruct (thr m); try discriminate. intros [= <-]. cbn. intros F. apply app_inv_head in F; discriminate.
Qed.

Lemma fresh_len (l : list entry) n : NoDup (map sid l) -> (forall x, In x l -> (sid x < n)%nat) -> (length l <= n)%nat.
Proof.
  intros H1 H2. rewrite <- (map_length sid l), <- (seq_length n 0). apply NoDup_incl_length; auto.
  intros s Hi. apply in_map_iff in Hi as (x & <- & Hx). apply in_seq. specialize (H2 x Hx). lia.
Qed.
Lemma started_snoc h e : started (h ++ [e]) = (started h + match e with Started _ _ _ => 1 | _ => 0 end)%nat.
Proof. unfold started. rewrite filter_app, app_length. destruct e; auto. Qed.
Lemma next_started t ls m : steps stp (init t) ls m -> next m = started (hist m).
Proof.
  apply (@steps_inv st label stp (fun m => next m = started (hist m))); [|reflexivity].
  intros m0 a m1 H. destruct a; cbn [step];
  repeat (match goal with |- context[match ?x with _ => _ end] => destruct x eqn:? end); try discriminate; intros [= <-]; cbn [next hist];
  rewrite ?started_snoc; cbn; lia.
Qed.

Definition fine (m : st) : Prop := (forall x, In x (sessions m) -> bad x = false) /\ thr m <> Died.
Lemma fine_step m a m' : match a with Begin _ true => False | _ => True end -> fine m -> stp m a = Some m' -> fine m'.
Proof.
  intros Ha (H1 & H2). unfold fine. destruct a; cbn [step].
  - destruct (_ <=? _); [|discriminate]. intros [= <-]; auto.
  - destruct (_ && _); [|discriminate]. intros [= <-]; cbn [sessions thr]. split.
    + intros x Hx. apply in_snoc in Hx as [Hx|<-]; auto. cbn. destruct throwing; tauto.
    + destruct (is_first _ _); auto. destruct (thr m); cbn; congruence.
  - destruct (listed _ _); [|discriminate]. intros [= <-]; cbn. split; [eauto using erase_In|].
    destruct (is_first _ _); auto. destruct (thr m); cbn; congruence.
  - destruct (sessions m); [|discriminate]. intros [= <-]; cbn; auto.
  - destruct (thr m); try discriminate; [destruct (stopping m)|destruct (_ <=? _)|]; try discriminate; intros [= <-]; cbn; split; auto; discriminate.
  - destruct (thr m); try discriminate; intros [= <-]; cbn; split; auto; discriminate.
  - destruct (thr m); try discriminate. destruct (_ <=? _); [|discriminate].
    destruct (stopping m); [intros [= <-]; cbn; split; auto; discriminate|].
    destruct (sessions m) as [|x r]; [intros [= <-]; cbn; split; auto; discriminate|].
    destruct (_ <? _); [intros [= <-]; cbn; split; auto; discriminate|].
    rewrite (H1 x) by (cbn; auto). intros [= <-]; cbn [sessions thr]. split; [|discriminate].
    intros y Hy. apply in_snoc in Hy as [Hy|<-]; cbn; auto; apply H1; cbn; auto.
  - destruct (thr m); try discriminate; intros [= <-]; cbn; split; auto; discriminate.
Qed.
Lemma fine_reach t ls m : (forall b, ~ In (Begin b true) ls) -> steps stp (init t) ls m -> fine m.
Proof.
  intros H. assert (G : fine (init t)) by (split; [cbn; tauto|discriminate]). revert G. generalize (init t) as m0.
  intros m0 G Hs. induction Hs; auto. apply IHHs; [intros b Hi; apply (H b); cbn; auto|].
  eapply fine_step; eauto. destruct l as [|b [] | | | | | |]; auto. apply (H b). cbn; auto.
Qed.

Lemma run_to : forall n pre x post m, length pre = n -> inv m -> fine m -> thr m = Ready -> stopping m = false ->
  sessions m = pre ++ x :: post -> due x <= clock m ->
  exists ls m' e new, steps stp m ls m' /\ Forall of_thread ls /\ length ls = (2 * (n + 1))%nat /\ clock m' = clock m /\
    hist m' = hist m ++ new ++ [Reported (sid x) e] /\ In (Sampled (sid x) (clock m) (clock m) e) new.
Proof.
  induction n as [|n IH]; intros pre x post m Hl Hi Hf Ht Hst Hs Hd.
  - destruct pre; [|discriminate]. cbn in Hs.
    assert (Hb : bad x = false) by (apply Hf; rewrite Hs; cbn; auto).
    set (m1 := mk_st (clock m) (post ++ [mk_entry (sid x) (born x) (clock m + T) (bad x)]) (next m) (Reporting (sid x) (clock m - born x)) (stopping m)
      (hist m ++ [Sampled (sid x) (clock m) (clock m) (clock m - born x)])).
    assert (E1 : stp m (Check (clock m)) = Some m1).
    { cbn [step]. rewrite Ht, Z.leb_refl, Hst, Hs. replace (clock m <? due x) with false by (symmetry; apply Z.ltb_ge; lia).
      unfold m1. rewrite Hb, Hst. reflexivity. }
    set (m2 := mk_st (clock m) (sessions m1) (next m) Ready (stopping m) (hist m1 ++ [Reported (sid x) (clock m - born x)])).
    assert (E2 : stp m1 Report = Some m2) by reflexivity.
    exists [Check (clock m); Report], m2, (clock m - born x), [Sampled (sid x) (clock m) (clock m) (clock m - born x)]. repeat split.
    + eapply steps_cons; [exact E1|]. eapply steps_cons; [exact E2|]. constructor.
    + repeat constructor.
    + cbn. now rewrite <- app_assoc.
    + cbn; auto.
  - destruct pre as [|y pre]; [discriminate|]. cbn in Hs, Hl. injection Hl as Hl.
    assert (Hb : bad y = false) by (apply Hf; rewrite Hs; cbn; auto).
    assert (Hy : due y <= due x). { pose proof (i_sorted _ Hi) as S0. rewrite Hs in S0. apply S0. apply in_app_iff; cbn; auto. }
    set (m1 := mk_st (clock m) ((pre ++ x :: post) ++ [mk_entry (sid y) (born y) (clock m + T) (bad y)]) (next m) (Reporting (sid y) (clock m - born y)) (stopping m)
      (hist m ++ [Sampled (sid y) (clock m) (clock m) (clock m - born y)])).
    assert (E1 : stp m (Check (clock m)) = Some m1).
    { cbn [step]. rewrite Ht, Z.leb_refl, Hst, Hs. replace (clock m <? due y) with false by (symmetry; apply Z.ltb_ge; lia).
      unfold m1. rewrite Hb, Hst. reflexivity. }
    set (m2 := mk_st (clock m) (sessions m1) (next m) Ready (stopping m) (hist m1 ++ [Reported (sid y) (clock m - born y)])).
    assert (E2 : stp m1 Report = Some m2) by reflexivity.
    assert (F1 : fine m1) by (eapply fine_step; [|exact Hf|exact E1]; exact I).
    assert (F2 : fine m2) by (eapply fine_step; [|exact F1|exact E2]; exact I).
    destruct (IH pre x (post ++ [mk_entry (sid y) (born y) (clock m + T) (bad y)]) m2) as (ls & m' & e & new & R1 & R2 & R3 & R4 & R5 & R6); auto.
    + eapply step_inv; [|exact E2]. eapply step_inv; [|exact E1]. exact Hi.
    + cbn. now rewrite <- app_assoc.
    + exists (Check (clock m) :: Report :: ls), m', e.
      exists ([Sampled (sid y) (clock m) (clock m) (clock m - born y); Reported (sid y) (clock m - born y)] ++ new).
      repeat split.
      * eapply steps_cons; [exact E1|]. eapply steps_cons; [exact E2|]. exact R1.
      * repeat constructor; auto.
      * cbn. rewrite R3. lia.
      * rewrite R4. reflexivity.
      * rewrite R5. cbn [hist m2 m1]. now rewrite <- !app_assoc.
      * apply in_app_iff. right. exact R6.
Qed.

(* every step but that of an ended thread leads to Ready at once *)
Lemma overdue t ls m s u : (forall b, ~ In (Begin b true) ls) -> steps stp (init t) ls m ->
  due_of T (hist m) s = Some u -> u + slack (thr m) <= clock m ->
  exists ls' m' e new, steps stp m ls' m' /\ Forall of_thread ls' /\ (length ls' <= 2 * started (hist m) + 1)%nat /\ clock m' = clock m /\
    hist m' = hist m ++ new ++ [Reported s e] /\ In (Sampled s (clock m) (clock m) e) new.
Proof.
  intros Hn Hs Hd Hu. pose proof (reach_inv _ _ _ Hs) as Hi. pose proof (fine_reach _ _ _ Hn Hs) as Hf.
  rewrite <- (i_dues _ Hi) in Hd. destruct (dues_In _ _ _ Hd) as (x & Hx & Hx1 & Hx2).
  assert (Hlen : (length (sessions m) <= started (hist m))%nat).
  { rewrite <- (next_started _ _ _ Hs). apply fresh_len; [apply (i_nodup _ Hi)|apply (i_fresh _ Hi)]. }
  assert (Hsl : 0 <= slack (thr m)).
  { pose proof (i_thr _ Hi) as Ht. unfold thr_ok in Ht. destruct (thr m); cbn; try lia. }
  assert (Hst : stopping m = false).
  { destruct (stopping m) eqn:E; auto. rewrite (i_stop _ Hi E) in Hx. contradiction. }
  destruct (in_split _ _ Hx) as (pre & post & Hp).
  assert (Hpl : (length pre + 1 <= length (sessions m))%nat) by (rewrite Hp, app_length; cbn; lia).
  assert (G : forall a m1 extra, stp m a = Some m1 -> of_thread a -> thr m1 = Ready -> stopping m1 = false ->
    sessions m1 = sessions m -> clock m1 = clock m -> hist m1 = hist m ++ extra ->
    exists ls' m' e new, steps stp m ls' m' /\ Forall of_thread ls' /\ (length ls' <= 2 * started (hist m) + 1)%nat /\ clock m' = clock m /\
    hist m' = hist m ++ new ++ [Reported s e] /\ In (Sampled s (clock m) (clock m) e) new).
  { intros a m1 extra E1 Ha H1 H2 H3 H4 H5.
    destruct (run_to (length pre) pre x post m1) as (ls' & m' & e & new & R1 & R2 & R3 & R4 & R5 & R6); auto; try congruence; try lia.
    - eapply step_inv; eauto.
    - eapply fine_step; [|exact Hf|exact E1]. destruct a; auto; contradiction.
    - exists (a :: ls'), m', e, (extra ++ new). rewrite Hx1, H4 in *. repeat split; auto.
      + econstructor; eauto.
      + cbn. lia.
      + rewrite R5, H5. now rewrite <- !app_assoc.
      + apply in_app_iff; auto. }
  pose proof (i_thr _ Hi) as Ht. unfold thr_ok in Ht. destruct (thr m) as [| |r e w| |s' elapsed| |] eqn:E.
  - destruct (run_to (length pre) pre x post m) as (ls' & m' & e & new & R1 & R2 & R3 & R4 & R5 & R6); auto; try lia.
    exists ls', m', e, new. rewrite Hx1 in *. repeat split; auto. lia.
  - rewrite Ht in Hx. contradiction.
  - cbn [slack] in *. destruct Ht as (T1 & T2 & T3 & T4).
    assert (Hw : w <= clock m).
    { destruct (sessions m) as [|y l] eqn:El; [contradiction|]. subst w. assert (due y <= due x).
      { pose proof (i_sorted _ Hi) as S0. rewrite El in S0. destruct Hx as [->|Hx]; [lia|]. now apply S0. } lia. }
    eapply (G Wake _ []); [|exact I|..]; [cbn [step]; rewrite E; replace (w <=? clock m) with true by (symmetry; apply Z.leb_le; lia); reflexivity|..]; auto.
    now rewrite app_nil_r.
  - eapply (G Wake _ []); [|exact I|..]; [cbn [step]; rewrite E; reflexivity|..]; auto. now rewrite app_nil_r.
  - eapply (G Report _ [Reported s' elapsed]); [|exact I|..]; [cbn [step]; rewrite E; reflexivity|..]; auto.
  - destruct Hf; congruence.
  - congruence.
Qed.

Lemma stops t ls m : steps stp (init t) ls m -> stopping m = true -> thr m <> Died ->
  exists ls' m', steps stp m ls' m' /\ Forall of_thread ls' /\ (length ls' <= 2)%nat /\ clock m' = clock m /\ thr m' = Finished.
Proof.
  intros Hs Hst Hd. pose proof (reach_inv _ _ _ Hs) as Hi.
  assert (G : forall m1, thr m1 = Ready -> stopping m1 = true -> exists m', stp m1 (Check (clock m1)) = Some m' /\ clock m' = clock m1 /\ thr m' = Finished).
  { intros m1 H1 H2. eexists. cbn [step]. rewrite H1, H2, Z.leb_refl. repeat split. }
  assert (G2 : forall a m1, stp m a = Some m1 -> of_thread a -> thr m1 = Ready -> stopping m1 = true -> clock m1 = clock m ->
    exists ls' m', steps stp m ls' m' /\ Forall of_thread ls' /\ (length ls' <= 2)%nat /\ clock m' = clock m /\ thr m' = Finished).
  { intros a m1 E1 Ha H1 H2 H3. destruct (G m1 H1 H2) as (m' & E2 & ? & ?). exists [a; Check (clock m1)], m'.
    repeat split; auto; try congruence. econstructor; eauto. econstructor; eauto. constructor. repeat constructor; auto. }
  pose proof (i_thr _ Hi) as Ht. unfold thr_ok in Ht. destruct (thr m) as [| |r e w| |s' elapsed| |] eqn:E.
  - destruct (G m E Hst) as (m' & E2 & ? & ?). exists [Check (clock m)], m'. repeat split; auto. econstructor; [exact E2|constructor].
  - eapply (G2 Wake); [|exact I|..]; [cbn [step]; rewrite E, Hst; reflexivity|..]; auto.
  - destruct Ht as (? & ? & ? & ?). congruence.
  - eapply (G2 Wake); [|exact I|..]; [cbn [step]; rewrite E; reflexivity|..]; auto.
  - eapply (G2 Report); [|exact I|..]; [cbn [step]; rewrite E; reflexivity|..]; auto.
  - congruence.
  - exists [], m. repeat split; auto; constructor.
Qed.

Lemma dead_stays m ls m' : thr m = Died -> steps stp m ls m' -> thr m' = Died /\ samples (hist m') = samples (hist m) /\ reports (hist m') = reports (hist m).
Proof.
  intros H Hs. induction Hs as [|m a m1 ls m2 E Hs IH]; auto.
  assert (thr m1 = Died /\ samples (hist m1) = samples (hist m) /\ reports (hist m1) = reports (hist m)) as (H1 & H2 & H3).
  { revert E. destruct a; cbn [step]; rewrite ?H; try discriminate.
    - destruct (_ <=? _); [|discriminate]. intros [= <-]; auto.
    - destruct (_ && _); [|discriminate]. intros [= <-]; cbn. rewrite samples_app, reports_app; cbn; rewrite !app_nil_r. destruct (is_first _ _); auto.
    - destruct (listed _ _); [|discriminate]. intros [= <-]; cbn. rewrite samples_app, reports_app; cbn; rewrite !app_nil_r. destruct (is_first _ _); auto.
    - destruct (sessions m); [|discriminate]. intros [= <-]; auto. }
  destruct (IH H1) as (? & ? & ?). repeat split; congruence.
Qed.
End P.
