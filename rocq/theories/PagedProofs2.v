From Coq Require Import List Arith ZArith Bool Lia.
From Verif Require Import Conc FlatProofs PagedModel PagedSpec PagedProofs.
Import ListNotations.
Set Implicit Arguments.

(** the Push in progress: its data and what it has committed so far *)
Definition ostep (o : option (list nat * list nat)) (e : ev) :=
  match e with
  | EPushBegin d => Some (d, [])
  | EPushed bs => match o with Some (d, w) => Some (d, w ++ bs) | None => None end
  | EPushOk | EPushFail => None
  | _ => o
  end.
Definition open_push (l : list ev) := fold_left ostep l None.
Lemma open_snoc l e : open_push (l ++ [e]) = ostep (open_push l) e.
Proof. unfold open_push. now rewrite fold_left_app. Qed.

Definition evok (l : list ev) (e : ev) : Prop :=
  match e with
  | EReadBegin pos => popped l <= pos
  | ERead pos bs o =>
      o = (length (pushed l) <? pos + length bs) /\ (o = false -> bs = firstn (length bs) (skipn pos (pushed l))) /\
      (o = true -> In EPushFail l \/ open_push l <> None)
  | EPushBegin d => open_push l = None
  | EPushOk => exists d, open_push l = Some (d, d)
  | EPushFail => exists d w r, open_push l = Some (d, w) /\ d = w ++ r
  | EPushed bs => exists d w r, open_push l = Some (d, w) /\ d = w ++ bs ++ r
  | EBroken => ~ calm l
  | _ => True
  end.
Definition hist (l : list ev) : Prop := forall l1 e l2, l = l1 ++ e :: l2 -> evok l1 e.
Lemma hist_snoc l e : hist l -> evok l e -> hist (l ++ [e]).
Proof.
  intros H He l1 e' l2 Heq. destruct l2 as [|x l2] using rev_ind.
  - apply app_inj_tail in Heq. destruct Heq as [<- <-]. exact He.
  - assert (E : l ++ [e] = (l1 ++ e' :: l2) ++ [x]) by (rewrite Heq, <- app_assoc; reflexivity).
    apply app_inj_tail in E. destruct E as [E _]. eapply H; eauto.
Qed.
Lemma pushed_snoc l e : pushed (l ++ [e]) = pushed l ++ match e with EPushed bs => bs | _ => [] end.
Proof. unfold pushed. rewrite flat_map_app. cbn. now rewrite app_nil_r. Qed.
Lemma delivered_snoc l e : delivered (l ++ [e]) = delivered l ++ match e with ERead _ bs _ => bs | _ => [] end.
Proof. unfold delivered. rewrite flat_map_app. cbn. now rewrite app_nil_r. Qed.
Lemma popped_snoc l e : popped (l ++ [e]) = popped l + match e with EPop n _ _ => n | _ => 0 end.
Proof. unfold popped. rewrite map_app. unfold list_sum. rewrite fold_right_app. cbn. induction (map _ l) as [|x m IH]; cbn in *; lia. Qed.
Lemma calm_snoc l e : calm (l ++ [e]) <-> calm l /\ calm_ev e.
Proof. unfold calm. rewrite Forall_app. split; intros [A C]; split; auto. now inversion C. Qed.
Lemma plain_snoc ck l e : plain ck (l ++ [e]) <-> plain ck l /\ plain_ev ck e.
Proof. unfold plain. rewrite Forall_app. split; intros [A C]; split; auto. now inversion C. Qed.

Lemma slice_eq (l : list nat) (T : list nat) o g n : (forall j, j < n -> nth_error l (o + j) = nth_error T (g + j)) -> firstn n (skipn o l) = firstn n (skipn g T).
Proof.
  revert o g. induction n as [|n IH]; intros o g H; [reflexivity|].
  pose proof (H 0 ltac:(lia)) as H0. rewrite !Nat.add_0_r in H0.
  rewrite <- (Nat.add_0_r o), <- (Nat.add_0_r g) in H0. rewrite <- !nth_error_skipn in H0.
  assert (E : forall (m : list nat) i, skipn (S i) m = tl (skipn i m)) by (induction m as [|y m IHm]; intros [|i]; auto; apply IHm).
  specialize (IH (S o) (S g)). rewrite !E in IH.
  destruct (skipn o l) eqn:E1, (skipn g T) eqn:E2; cbn in H0; try discriminate; auto. injection H0 as ->. cbn [firstn]. f_equal.
  cbn [tl] in IH. apply IH. intros j Hj. specialize (H (S j) ltac:(lia)). now rewrite !Nat.add_succ_r in H.
Qed.

Lemma fail_dec l : {In EPushFail l} + {~ In EPushFail l}.
Proof.
  induction l as [|e l [IH|IH]]; [right; auto|left; cbn; auto|]. destruct e; try (left; cbn; auto; fail); right; intros [|]; auto; discriminate.
Defined.

Section P.
Variables ps ck : nat.
Hypothesis Hps : 0 < ps.
Hypothesis Hck : 0 < ck.
Notation step := (step ps ck).
Notation Inv := (Inv ps).

Definition pending (s : st) : option (list nat) :=
  match wr s with
  | WIdle => None
  | WTail _ d | WTailDone d => Some d
  | WPages rest new _ => Some (concat (map (heap s) new) ++ rest)
  end.
Definition opensync (s : st) : Prop :=
  match pending s with
  | None => open_push (glog s) = None
  | Some r => exists w, open_push (glog s) = Some (w ++ r, w)
  end.
Definition slack (s : st) : nat := match wr s with WTailDone d => min (tail s) (length d) | _ => 0 end.
Definition tight (B : nat) (s : st) : Prop :=
  (forall i p, nth_error (pgs s) i = Some p -> (B + i) * ps + length (heap s p) <= length (gS s) + slack s) /\
  match wr s with
  | WPages rest new tl => forall i p, nth_error new i = Some p -> i * ps + length (heap s p) <= length (concat (map (heap s) new))
  | _ => True
  end.
Definition calmI (s : st) : Prop :=
  gbase s + cur s <= length (gS s) /\
  match rd s with
  | RIdle => True
  | RPage p o c g => g = gbase s + c
  | RGot c n g => g = gbase s + c /\ g + n <= length (gS s)
  end.

Record Inv2 (B : nat) (s : st) : Prop := {
  j_inv : Inv B s;
  j_gS : gS s = pushed (glog s);
  j_pop : gbase s + start s = popped (glog s);
  j_hist : hist (glog s);
  j_open : opensync s;
  j_tight : ~ In EPushFail (glog s) -> tight B s;
  j_calm : calm (glog s) -> calmI s }.

Lemma Inv2_init : Inv2 0 init.
Proof.
  constructor; auto.
  - eapply Inv_init; eauto.
  - intros l1 e l2 H. destruct l1; discriminate.
  - reflexivity.
  - intros _. split; [intros [|]; discriminate|exact I].
  - intros _. split; cbn; auto.
Qed.

Ltac proj := cbn [heap pgs nextp start cur tail rd wr gS gbase glog] in *.
Lemma nofail_snoc l e : ~ In EPushFail (l ++ [e]) -> ~ In EPushFail l.
Proof. intros H G. apply H, in_app_iff. auto. Qed.

Lemma unread_pos B s : Inv B s -> gbase s + cur s <= length (gS s) -> (unread ps s <? zn ck)%Z = false -> cur s / ps < length (pgs s).
Proof.
  intros HI Hc H. apply Z.ltb_ge in H. unfold unread, zn in H. pose proof (i_len HI).
  rewrite w64_le in H by lia. apply Nat.div_lt_upper_bound; lia.
Qed.

Lemma inv2_step B s a s' : Inv2 B s -> step s a = Some s' -> exists B', Inv2 B' s'.
Proof.
  intros HJ H. destruct (@inv_step ps ck Hps Hck _ _ _ _ (j_inv HJ) H) as [B' [HI' HB]].
  assert (HI := j_inv HJ).
  destruct a as [|n|cn|d|k| |k| |n|n]; cbn [PagedModel.step] in H.
  - (* ARead *)
    destruct HB as [->|[? ?]]; [|discriminate]. exists B.
    destruct (rd s) eqn:Er; try discriminate.
    destruct (unread ps s <? zn ck)%Z eqn:Eu; [injection H as <-; auto|].
    destruct (nth_error (pgs s) (cur s / ps)) as [p|] eqn:Ep; injection H as <-; destruct HJ; constructor; proj; auto; unfold log.
    + rewrite pushed_snoc, app_nil_r. auto.
    + rewrite popped_snoc, Nat.add_0_r. auto.
    + apply hist_snoc; auto. cbn [evok]. pose proof (i_cs HI). lia.
    + unfold opensync, pending in *. proj. rewrite open_snoc. auto.
    + intros Hf. apply nofail_snoc in Hf. specialize (j_tight0 Hf). exact j_tight0.
    + intros Hc. apply calm_snoc in Hc. destruct Hc as [Hc _]. specialize (j_calm0 Hc). unfold calmI in *. proj. destruct j_calm0. auto.
    + rewrite pushed_snoc, app_nil_r. auto.
    + rewrite popped_snoc, Nat.add_0_r. auto.
    + apply hist_snoc; auto. cbn [evok]. intros Hc. destruct (j_calm0 Hc) as [C1 _].
      pose proof (unread_pos HI C1 Eu). apply nth_error_None in Ep. lia.
    + unfold opensync, pending in *. proj. rewrite open_snoc. auto.
    + intros Hf. apply nofail_snoc in Hf. specialize (j_tight0 Hf). exact j_tight0.
    + intros Hc. apply calm_snoc in Hc. destruct Hc as [Hc _]. specialize (j_calm0 Hc). unfold calmI in *. proj. destruct j_calm0. auto.
  - (* APage *)
    destruct HB as [->|[? ?]]; [|discriminate]. exists B.
    destruct (rd s) as [|p o c g|] eqn:Er; try discriminate.
    destruct (o + n <=? length (heap s p)) eqn:El; [|discriminate]. apply Nat.leb_le in El. injection H as <-.
    pose proof (i_rd HI) as R. unfold rpok in R. rewrite Er in R. destruct R as [Ho [k [Hg R]]].
    assert (P : pageok ps (heap s) (gS s) k p).
    { destruct R as [[i [A ->]]|[_ [_ [_ [_ P]]]]]; [exact (i_pages HI _ A)|exact P]. }
    assert (Hlen : length (firstn n (skipn o (heap s p))) = n) by (rewrite firstn_length, skipn_length; lia).
    destruct HJ; constructor; proj; auto; unfold log.
    + rewrite pushed_snoc, app_nil_r. auto.
    + rewrite popped_snoc, Nat.add_0_r. auto.
    + apply hist_snoc; auto. cbn [evok]. rewrite Hlen. rewrite <- j_gS0. split; auto. split.
      * intros Hov. apply Nat.ltb_ge in Hov. apply slice_eq. intros j Hj. destruct P as [P1 P2]. rewrite P2 by lia. f_equal. lia.
      * intros Hov. apply Nat.ltb_lt in Hov.
        destruct (fail_dec (glog s)) as [Hin|Hnin]; [auto|]. right. destruct (j_tight0 Hnin) as [T1 T2].
        intros Hop. destruct R as [[i [A ->]]|[_ [_ [_ [R P']]]]].
        -- specialize (T1 _ _ A). unfold slack in T1. unfold opensync, pending in j_open0.
           destruct (wr s) eqn:Ew; try (destruct j_open0; congruence); try lia.
        -- destruct P as [P1 _]. lia.
    + unfold opensync, pending in *. proj. rewrite open_snoc. auto.
    + intros Hf. apply nofail_snoc in Hf. specialize (j_tight0 Hf). exact j_tight0.
    + intros Hc. apply calm_snoc in Hc. destruct Hc as [Hc Hov]. cbn [calm_ev] in Hov. apply Nat.ltb_ge in Hov.
      specialize (j_calm0 Hc). unfold calmI in *. proj. rewrite Er in j_calm0. destruct j_calm0. auto.
  - (* AReadEnd *)
    destruct HB as [->|[? ?]]; [|discriminate]. exists B.
    destruct (rd s) as [| |c n g] eqn:Er; try discriminate. injection H as <-.
    destruct HJ; constructor; proj; auto; unfold log.
    + rewrite pushed_snoc. destruct cn; rewrite app_nil_r; auto.
    + rewrite popped_snoc. destruct cn; rewrite Nat.add_0_r; auto.
    + apply hist_snoc; auto. destruct cn; exact I.
    + unfold opensync, pending in *. proj. rewrite open_snoc. destruct cn; auto.
    + intros Hf. apply nofail_snoc in Hf. specialize (j_tight0 Hf). exact j_tight0.
    + intros Hc. apply calm_snoc in Hc. destruct Hc as [Hc _]. specialize (j_calm0 Hc). unfold calmI in *. proj. rewrite Er in j_calm0.
      destruct j_calm0 as [A [C D]]. split; auto. destruct cn; auto. destruct (cur s =? c) eqn:E; auto. apply Nat.eqb_eq in E. lia.
  - (* APush *)
    destruct HB as [->|[? ?]]; [|discriminate]. exists B.
    destruct (wr s) eqn:Ew; try discriminate.
    assert (Ho : open_push (glog s) = None) by (pose proof (j_open HJ) as X; unfold opensync, pending in X; rewrite Ew in X; exact X).
    destruct (tail s =? 0) eqn:Et.
    + injection H as <-. destruct HJ; constructor; proj; auto; unfold log.
      * rewrite pushed_snoc, app_nil_r. auto.
      * rewrite popped_snoc, Nat.add_0_r. auto.
      * apply hist_snoc; auto.
      * unfold opensync, pending. proj. rewrite open_snoc. exists []. reflexivity.
      * intros Hf. apply nofail_snoc in Hf. specialize (j_tight0 Hf). unfold tight, slack in *. proj. rewrite Ew in j_tight0. split; [apply j_tight0|].
        intros [|]; discriminate.
      * intros Hc. apply calm_snoc in Hc. destruct Hc as [Hc _]. exact (j_calm0 Hc).
    + apply Nat.eqb_neq in Et. assert (Ht : 0 < length (pgs s)) by (apply (i_tail0 HI); lia).
      destruct (rev (pgs s)) as [|p r] eqn:Erv.
      { apply (f_equal (@length nat)) in Erv. rewrite rev_length in Erv. cbn in Erv. lia. }
      injection H as <-. destruct HJ; constructor; proj; auto; unfold log.
      * rewrite pushed_snoc, app_nil_r. auto.
      * rewrite popped_snoc, Nat.add_0_r. auto.
      * apply hist_snoc; auto.
      * unfold opensync, pending. proj. rewrite open_snoc. exists []. reflexivity.
      * intros Hf. apply nofail_snoc in Hf. specialize (j_tight0 Hf). unfold tight, slack in *. proj. rewrite Ew in j_tight0. exact j_tight0.
      * intros Hc. apply calm_snoc in Hc. destruct Hc as [Hc _]. exact (j_calm0 Hc).
  - (* AWriteTail *)
    destruct HB as [->|[? ?]]; [|discriminate]. exists B.
    destruct (wr s) as [|p d| |] eqn:Ew; try discriminate. set (n := min (tail s) (length d)) in *.
    destruct (k <=? n) eqn:Ek; [|discriminate]. apply Nat.leb_le in Ek. injection H as <-.
    pose proof (i_wr HI) as W. unfold wrok in W. rewrite Ew in W. destruct W as [Ht Hp].
    pose proof (pages_last_len Hps Hck HI Ht Hp) as Hl. pose proof (i_tail HI). pose proof (i_len HI) as Hlen. pose proof (i_tail0 HI Ht). pose proof (i_base HI) as Hb.
    pose proof (j_open HJ) as Hop. unfold opensync, pending in Hop. rewrite Ew in Hop. destruct Hop as [w Hop].
    destruct (k =? n) eqn:Ekn; destruct HJ; constructor; proj; auto; unfold log in *.
    + unfold opensync, pending. proj. eauto.
    + intros Hf. destruct (j_tight0 Hf) as [T1 _]. unfold slack in T1. rewrite Ew in T1. apply Nat.eqb_eq in Ekn. unfold tight, slack. proj. split; [|exact I].
      fold n. intros i q Hi. specialize (T1 _ _ Hi). destruct (Nat.eq_dec q p) as [->|Hq].
      * assert (i = length (pgs s) - 1) as -> by (eapply NoDup_nth_inj; eauto; apply HI).
        rewrite fupd_same, write_at_len by auto. rewrite firstn_length.
        assert ((B + (length (pgs s) - 1)) * ps = B * ps + ps * length (pgs s) - ps) by nia. nia.
      * rewrite fupd_other by auto. lia.
    + rewrite pushed_snoc, app_nil_r. auto.
    + rewrite popped_snoc, Nat.add_0_r. auto.
    + apply hist_snoc; auto. cbn [evok]. eauto.
    + unfold opensync, pending. proj. rewrite open_snoc. reflexivity.
    + intros Hf. exfalso. apply Hf, in_app_iff. right. cbn. auto.
    + intros Hc. apply calm_snoc in Hc. destruct Hc as [Hc _]. exact (j_calm0 Hc).
  - (* ACommitTail *)
    destruct HB as [->|[? ?]]; [|discriminate]. exists B.
    destruct (wr s) as [| |d|] eqn:Ew; try discriminate. set (n := min (tail s) (length d)) in *. injection H as <-.
    pose proof (j_open HJ) as Hop. unfold opensync, pending in Hop. rewrite Ew in Hop. destruct Hop as [w Hop].
    assert (Hfl : length (firstn n d) = n) by (rewrite firstn_length; lia).
    destruct HJ; constructor; proj; auto; unfold log in *.
    + rewrite pushed_snoc. congruence.
    + rewrite popped_snoc, Nat.add_0_r. auto.
    + apply hist_snoc; auto. cbn [evok]. exists (w ++ d), w, (skipn n d). split; auto. now rewrite firstn_skipn.
    + unfold opensync, pending. proj. rewrite open_snoc, Hop. cbn [ostep map concat app]. exists (w ++ firstn n d). now rewrite <- app_assoc, firstn_skipn.
    + intros Hf. apply nofail_snoc in Hf. destruct (j_tight0 Hf) as [T1 _]. unfold slack in T1. rewrite Ew in T1. fold n in T1.
      unfold tight, slack. proj. split; [|intros [|]; discriminate]. intros i p Hi. rewrite app_length. specialize (T1 _ _ Hi). lia.
    + intros Hc. apply calm_snoc in Hc. destruct Hc as [Hc _]. destruct (j_calm0 Hc) as [A C]. unfold calmI. proj. rewrite app_length. split; [lia|].
      destruct (rd s); auto. destruct C. split; auto. lia.
  - (* AWritePage *)
    destruct HB as [->|[? ?]]; [|discriminate]. exists B.
    destruct (wr s) as [| | |rest0 new tl] eqn:Ew; try discriminate. destruct rest0 as [|x rest']; [discriminate|].
    set (rest := x :: rest') in *. set (n := min ps (length rest)) in *.
    destruct (k <=? n) eqn:Ek; [|discriminate]. apply Nat.leb_le in Ek. injection H as <-.
    pose proof (i_wr HI) as W. unfold wrok in W. rewrite Ew in W. destruct W as [W1 [W2 [W3 [W4 W5]]]].
    assert (Hpe : forall p, In p (pgs s) -> fupd (heap s) (nextp s) (firstn k rest) p = heap s p).
    { intros p Hp. apply fupd_other. pose proof (i_ids HI p Hp). lia. }
    assert (Hne : forall p, In p new -> fupd (heap s) (nextp s) (firstn k rest) p = heap s p).
    { intros p Hp. apply fupd_other. pose proof (W1 p Hp). lia. }
    pose proof (j_open HJ) as Hop. unfold opensync, pending in Hop. rewrite Ew in Hop. destruct Hop as [w Hop].
    destruct (k =? n) eqn:Ekn; destruct HJ; constructor; proj; auto; unfold log in *.
    + apply Nat.eqb_eq in Ekn. subst k. unfold opensync, pending. proj. exists w. rewrite Hop. rewrite map_app, concat_app. cbn [map concat].
      rewrite app_nil_r, fupd_same, (@concat_ext (heap s) _ _ Hne). rewrite <- (app_assoc (concat _)), firstn_skipn. reflexivity.
    + intros Hf. destruct (j_tight0 Hf) as [T1 T2]. unfold slack in T1. rewrite Ew in T1, T2. apply Nat.eqb_eq in Ekn. subst k. unfold tight, slack. proj. split.
      * intros i p Hi. rewrite Hpe by (eapply nth_error_In; eauto). auto.
      * intros i p Hi. rewrite map_app, concat_app. cbn [map concat]. rewrite app_nil_r, fupd_same, (@concat_ext (heap s) _ _ Hne), app_length.
        destruct (W5 ltac:(discriminate)) as [Htl Htl2].
        assert (HW : length (concat (map (heap s) new)) = ps * length new).
        { destruct new; [cbn; lia|]. destruct (W4 ltac:(discriminate)) as [_ [Hx _]]. specialize (Htl2 ltac:(discriminate)). lia. }
        destruct (le_lt_dec (length new) i) as [Hx|Hx].
        -- rewrite nth_error_app2 in Hi by auto. destruct (i - length new) as [|m] eqn:Em; [|destruct m; discriminate]. cbn in Hi. injection Hi as <-.
           rewrite fupd_same. nia.
        -- rewrite nth_error_app1 in Hi by auto. rewrite Hne by (eapply nth_error_In; eauto). specialize (T2 _ _ Hi). lia.
    + rewrite pushed_snoc, app_nil_r. auto.
    + rewrite popped_snoc, Nat.add_0_r. auto.
    + apply hist_snoc; auto. cbn [evok]. eauto.
    + unfold opensync, pending. proj. rewrite open_snoc. reflexivity.
    + intros Hf. exfalso. apply Hf, in_app_iff. right. cbn. auto.
    + intros Hc. apply calm_snoc in Hc. destruct Hc as [Hc _]. exact (j_calm0 Hc).
  - (* ACommitPages *)
    destruct HB as [->|[? ?]]; [|discriminate]. exists B.
    destruct (wr s) as [| | |rest0 new tl] eqn:Ew; try discriminate. destruct rest0 as [|x rest']; [|discriminate].
    pose proof (i_wr HI) as W. unfold wrok in W. rewrite Ew in W. destruct W as [W1 [W2 [W3 [W4 W5]]]].
    pose proof (j_open HJ) as Hop. unfold opensync, pending in Hop. rewrite Ew, app_nil_r in Hop. destruct Hop as [w Hop].
    assert (Hnx : new = [] \/ new <> []) by (destruct new; [left|right]; congruence). destruct Hnx as [->|Hnx].
    + injection H as <-. cbn [map concat] in Hop. rewrite app_nil_r in Hop. destruct HJ; constructor; proj; auto; unfold log.
      * rewrite pushed_snoc, app_nil_r. auto.
      * rewrite popped_snoc, Nat.add_0_r. auto.
      * apply hist_snoc; auto. cbn [evok]. eauto.
      * unfold opensync, pending. proj. rewrite open_snoc. reflexivity.
      * intros Hf. apply nofail_snoc in Hf. specialize (j_tight0 Hf). unfold tight, slack in *. proj. rewrite Ew in j_tight0. split; [apply j_tight0|exact I].
      * intros Hc. apply calm_snoc in Hc. destruct Hc as [Hc _]. exact (j_calm0 Hc).
    + assert (H' : Some {| heap := heap s; pgs := pgs s ++ new; nextp := nextp s; start := start s; cur := cur s; tail := tl; rd := rd s; wr := WIdle;
                         gS := gS s ++ concat (map (heap s) new); gbase := gbase s; glog := (log s (EPushed (concat (map (heap s) new)))) ++ [EPushOk] |} = Some s')
        by (destruct new; [congruence|exact H]).
      clear H. injection H' as <-. destruct (W4 Hnx) as [Ht [HW Htl]]. set (W := concat (map (heap s) new)) in *.
      pose proof (i_len HI) as Hlen. pose proof (i_base HI) as Hb.
      destruct HJ; constructor; proj; auto; unfold log.
      * rewrite !pushed_snoc, app_nil_r. congruence.
      * rewrite !popped_snoc, !Nat.add_0_r. auto.
      * apply hist_snoc; [apply hist_snoc; auto|].
        -- cbn [evok]. exists (w ++ W), w, []. split; auto. now rewrite app_nil_r.
        -- cbn [evok]. rewrite open_snoc, Hop. cbn [ostep]. eauto.
      * unfold opensync, pending. proj. rewrite open_snoc. reflexivity.
      * intros Hf. apply nofail_snoc, nofail_snoc in Hf. destruct (j_tight0 Hf) as [T1 T2]. unfold slack in T1. rewrite Ew in T1, T2. fold W in T2.
        unfold tight, slack. proj. split; [|exact I]. intros i p Hi. rewrite app_length. destruct (le_lt_dec (length (pgs s)) i) as [Hx|Hx].
        -- rewrite nth_error_app2 in Hi by auto. specialize (T2 _ _ Hi). nia.
        -- rewrite nth_error_app1 in Hi by auto. specialize (T1 _ _ Hi). lia.
      * intros Hc. apply calm_snoc in Hc. destruct Hc as [Hc _]. apply calm_snoc in Hc. destruct Hc as [Hc _].
        destruct (j_calm0 Hc) as [A C]. unfold calmI. proj. rewrite app_length. split; [lia|].
        destruct (rd s); auto. destruct C. split; auto. lia.
  - (* APop *)
    destruct (storage_size ps s <? zn n)%Z eqn:Es; [injection H as <-; eauto|].
    destruct (negb (n mod ck =? 0)); [injection H as <-; eauto|]. cbn [orb] in H. injection H as <-.
    set (k := (start s + n) / ps) in *. exists B'.
    pose proof (storage_le Hps Hck n HI Es) as Hn.
    pose proof (Nat.div_mod (start s + n) ps ltac:(lia)) as Hdm. fold k in Hdm.
    pose proof (Nat.mod_upper_bound (start s + n) ps ltac:(lia)).
    pose proof (i_base HI) as Hb. pose proof (i_base HI') as Hb'. pose proof (i_len HI) as Hlen. proj.
    assert (B' = B + k) as -> by nia.
    destruct HJ; constructor; proj; auto; unfold log in *.
    + rewrite pushed_snoc, app_nil_r. auto.
    + rewrite popped_snoc. nia.
    + apply hist_snoc; auto. exact I.
    + unfold opensync, pending in *. proj. rewrite open_snoc. auto.
    + intros Hf. apply nofail_snoc in Hf. destruct (j_tight0 Hf) as [T1 T2]. unfold tight, slack in *. proj. split; [|exact T2].
      intros i p Hi. apply skipn_nth in Hi. specialize (T1 _ _ Hi). lia.
    + intros Hc. apply calm_snoc in Hc. destruct Hc as [Hc Hd]. cbn [calm_ev] in Hd. destruct (j_calm0 Hc) as [A C]. unfold calmI. proj.
      split; [nia|]. unfold rd_active in Hd. destruct (rd s); auto; rewrite andb_true_r in Hd; apply Nat.ltb_ge in Hd; replace k with 0 by lia; rewrite ?Nat.add_0_r; auto.
  - (* ASeek *)
    destruct (storage_size ps s <? zn n)%Z eqn:Es; [injection H as <-; eauto|].
    destruct (negb (n mod ck =? 0)); [injection H as <-; eauto|]. cbn [orb] in H. injection H as <-.
    destruct HB as [->|[? ?]]; [|discriminate]. exists B. pose proof (storage_le Hps Hck n HI Es) as Hn. pose proof (i_len HI) as Hlen.
    destruct HJ; constructor; proj; auto; unfold log in *.
    + rewrite pushed_snoc, app_nil_r. auto.
    + rewrite popped_snoc, Nat.add_0_r. auto.
    + apply hist_snoc; auto. exact I.
    + unfold opensync, pending in *. proj. rewrite open_snoc. auto.
    + intros Hf. apply nofail_snoc in Hf. exact (j_tight0 Hf).
    + intros Hc. apply calm_snoc in Hc. destruct Hc as [Hc Hd]. destruct (j_calm0 Hc) as [A C]. unfold calmI. proj. split; [lia|exact C].
Qed.

Definition reach (s : st) : Prop := exists acts, steps step init acts s.
Lemma reach_inv s : reach s -> exists B, Inv2 B s.
Proof.
  intros [acts H]. apply (@steps_inv _ _ step (fun s => exists B, Inv2 B s)) in H; auto.
  - intros s0 a s1 [B HB] Hs. eapply inv2_step; eauto.
  - exists 0. apply Inv2_init.
Qed.

(** exactly once *)
Definition onceI (s : st) : Prop :=
  match rd s with
  | RIdle => delivered (glog s) = firstn (gbase s + cur s) (gS s)
  | RPage p o c g => c = cur s /\ delivered (glog s) = firstn (gbase s + cur s) (gS s)
  | RGot c n g => c = cur s /\ n mod ck = 0 /\ delivered (glog s) = firstn (gbase s + cur s + n) (gS s)
  end.
Definition good (l : list ev) := calm l /\ plain ck l.
Lemma good_snoc l e : good (l ++ [e]) <-> good l /\ calm_ev e /\ plain_ev ck e.
Proof. unfold good. rewrite calm_snoc, plain_snoc. tauto. Qed.
Lemma onceI_eq s s' : rd s' = rd s -> cur s' = cur s -> gbase s' = gbase s -> gS s' = gS s -> delivered (glog s') = delivered (glog s) -> onceI s -> onceI s'.
Proof. unfold onceI. intros -> -> -> -> ->. auto. Qed.
Lemma onceI_app s s' T : rd s' = rd s -> cur s' = cur s -> gbase s' = gbase s -> gS s' = gS s ++ T -> delivered (glog s') = delivered (glog s) -> calmI s -> onceI s -> onceI s'.
Proof.
  unfold onceI, calmI. intros -> -> -> -> -> [A C] H.
  destruct (rd s) as [|p o c g|c n g].
  - rewrite firstn_app. replace (gbase s + cur s - length (gS s)) with 0 by lia. cbn. now rewrite app_nil_r.
  - rewrite firstn_app. replace (gbase s + cur s - length (gS s)) with 0 by lia. cbn. now rewrite app_nil_r.
  - destruct H as [-> [H1 H2]]. rewrite firstn_app. replace (gbase s + cur s + n - length (gS s)) with 0 by lia. cbn. now rewrite app_nil_r.
Qed.
Lemma onceI_step B s a s' : Inv2 B s -> (good (glog s) -> onceI s) -> step s a = Some s' -> good (glog s') -> onceI s'.
Proof.
  intros HJ HO H HG. destruct (@inv2_step _ _ _ _ HJ H) as [B' HJ'].
  destruct a as [|n|cn|d|k| |k| |n|n]; cbn [PagedModel.step] in H.
  - destruct (rd s) eqn:Er; try discriminate.
    destruct (unread ps s <? zn ck)%Z eqn:Eu; [injection H as <-; auto|].
    destruct (nth_error (pgs s) (cur s / ps)) as [p|] eqn:Ep; injection H as <-; unfold log in *; proj; apply good_snoc in HG; destruct HG as [HG _]; specialize (HO HG);
      unfold onceI in *; proj; rewrite Er in HO; rewrite delivered_snoc, app_nil_r; auto.
  - destruct (rd s) as [|p o c g|] eqn:Er; try discriminate.
    destruct (o + n <=? length (heap s p)) eqn:El; [|discriminate]. apply Nat.leb_le in El.
    injection H as <-. pose proof (j_hist HJ') as Hh. unfold log in *. proj. apply good_snoc in HG. destruct HG as [HG [Hov Hm]]. cbn [calm_ev plain_ev] in Hov, Hm.
    assert (Hlen : length (firstn n (skipn o (heap s p))) = n) by (rewrite firstn_length, skipn_length; lia).
    specialize (Hh (glog s) _ [] eq_refl). cbn [evok] in Hh. destruct Hh as [_ [Hh _]]. specialize (Hh Hov). rewrite Hlen in Hh, Hm.
    specialize (HO HG). destruct (j_calm HJ (proj1 HG)) as [A C]. rewrite Er in C. apply Nat.ltb_ge in Hov.
    unfold onceI in *. proj. rewrite Er in HO. destruct HO as [-> HO]. split; auto. split; auto.
    rewrite delivered_snoc, HO, Hh. rewrite <- (j_gS HJ), C.
    rewrite <- (firstn_skipn (gbase s + cur s) (firstn (gbase s + cur s + n) (gS s))). rewrite firstn_firstn, Nat.min_l by lia. f_equal.
    rewrite firstn_skipn_comm. reflexivity.
  - destruct (rd s) as [| |c n g] eqn:Er; try discriminate. injection H as <-. unfold log in *. proj. apply good_snoc in HG. destruct HG as [HG [_ Hp]].
    destruct cn; [contradiction|]. specialize (HO HG). unfold onceI in *. proj. rewrite Er in HO. destruct HO as [-> [Hm HO]].
    rewrite Nat.eqb_refl, Hm, Nat.sub_0_r, delivered_snoc, app_nil_r. rewrite Nat.add_assoc. exact HO.
  - destruct (wr s) eqn:Ew; try discriminate.
    destruct (tail s =? 0); [|destruct (rev (pgs s))]; injection H as <-; unfold log in *; proj; apply good_snoc in HG; destruct HG as [HG _]; specialize (HO HG);
      (eapply onceI_eq; [..|exact HO]; proj; auto; now rewrite delivered_snoc, app_nil_r).
  - destruct (wr s) as [|p d| |] eqn:Ew; try discriminate. destruct (k <=? min (tail s) (length d)); [|discriminate]. injection H as <-. unfold log in *. proj.
    destruct (k =? min (tail s) (length d)).
    + eapply onceI_eq; [..|exact (HO HG)]; auto.
    + apply good_snoc in HG. destruct HG as [HG _]. eapply onceI_eq; [..|exact (HO HG)]; proj; auto. now rewrite delivered_snoc, app_nil_r.
  - destruct (wr s) as [| |d|] eqn:Ew; try discriminate. injection H as <-. unfold log in *. proj. apply good_snoc in HG. destruct HG as [HG _].
    eapply onceI_app; [..|exact (j_calm HJ (proj1 HG))|exact (HO HG)]; proj; auto. now rewrite delivered_snoc, app_nil_r.
  - destruct (wr s) as [| | |rest0 new tl] eqn:Ew; try discriminate. destruct rest0 as [|x rest']; [discriminate|].
    set (n := min ps (length (x :: rest'))) in *. destruct (k <=? n); [|discriminate]. injection H as <-. unfold log in *. proj.
    destruct (k =? n).
    + eapply onceI_eq; [..|exact (HO HG)]; auto.
    + apply good_snoc in HG. destruct HG as [HG _]. eapply onceI_eq; [..|exact (HO HG)]; proj; auto. now rewrite delivered_snoc, app_nil_r.
  - destruct (wr s) as [| | |rest0 new tl] eqn:Ew; try discriminate. destruct rest0 as [|x rest']; [|discriminate].
    destruct new as [|q new]; injection H as <-; unfold log in *; proj; apply good_snoc in HG; destruct HG as [HG _].
    + eapply onceI_eq; [..|exact (HO HG)]; proj; auto. now rewrite delivered_snoc, app_nil_r.
    + apply good_snoc in HG. destruct HG as [HG _].
      eapply onceI_app; [..|exact (j_calm HJ (proj1 HG))|exact (HO HG)]; proj; auto. now rewrite !delivered_snoc, !app_nil_r.
  - destruct (storage_size ps s <? zn n)%Z eqn:Es; [injection H as <-; auto|].
    destruct (negb (n mod ck =? 0)); [injection H as <-; auto|]. cbn [orb] in H. injection H as <-. unfold log in *. proj. apply good_snoc in HG. destruct HG as [HG [Hd Hs]].
    cbn [calm_ev plain_ev] in Hd, Hs. specialize (HO HG). apply Nat.ltb_ge in Hs.
    pose proof (Nat.div_mod (start s + n) ps ltac:(lia)) as Hdm. set (k := (start s + n) / ps) in *.
    assert (Hc : gbase s + k * ps + (max (start s + n) (cur s) - k * ps) = gbase s + cur s) by nia.
    unfold onceI in *. unfold rd_active in Hd. proj. rewrite delivered_snoc, app_nil_r, Hc.
    destruct (rd s); auto; rewrite andb_true_r in Hd; apply Nat.ltb_ge in Hd; replace k with 0 by lia; replace (max (start s + n) (cur s) - 0 * ps) with (cur s) by lia; auto.
  - destruct (storage_size ps s <? zn n)%Z eqn:Es; [injection H as <-; auto|].
    destruct (negb (n mod ck =? 0)); [injection H as <-; auto|]. cbn [orb] in H. injection H as <-. unfold log in *. proj. apply good_snoc in HG. destruct HG as [_ [_ []]].
Qed.

Lemma reach_once s : reach s -> good (glog s) -> onceI s.
Proof.
  intros [acts H].
  assert (X : (exists B, Inv2 B s) /\ (good (glog s) -> onceI s)); [|apply X].
  apply (@steps_inv _ _ step (fun s => (exists B, Inv2 B s) /\ (good (glog s) -> onceI s))) in H; auto.
  - intros s0 a s1 [[B HB] HO] Hs. split; [eapply inv2_step; eauto|]. eapply onceI_step; eauto.
  - split; [exists 0; apply Inv2_init|]. intros _. reflexivity.
Qed.
End P.
