(** Copy-on-write cells: a pinned snapshot never changes. *)
From Coq Require Import List Bool Arith Lia Permutation.
From Verif Require Import Base CowModel.
Import ListNotations.
Set Implicit Arguments.

Lemma setnth_length A n (x : A) l : length (setnth n x l) = length l.
Proof. revert n; induction l; intros [|n]; cbn; auto. Qed.
Lemma setnth_nth_same A n (x d : A) l : n < length l -> nth n (setnth n x l) d = x.
Proof. revert n; induction l; intros [|n]; cbn; intros; try lia; auto. apply IHl. lia. Qed.
Lemma setnth_nth_other A n m (x d : A) l : n <> m -> nth m (setnth n x l) d = nth m l d.
Proof. revert n m; induction l; intros [|n] [|m]; cbn; intros; try lia; auto. Qed.
Lemma setnth_err_same A n (x : A) l : n < length l -> nth_error (setnth n x l) n = Some x.
Proof. revert n; induction l; intros [|n]; cbn; intros; try lia; auto. apply IHl. lia. Qed.
Lemma setnth_err_other A n m (x : A) l : n <> m -> nth_error (setnth n x l) m = nth_error l m.
Proof. revert n m; induction l; intros [|n] [|m]; cbn; intros; try lia; auto. Qed.

Section Cow.
  Variable M : Type.
  Variable emp : M.
  Notation hp := (hp M).
  Notation rd := (rd emp).
  Notation val := (val emp).

  Record wf (h : hp) (cs : list cell) : Prop := {
    w_ptr : forall c, In c cs -> c_ptr c < length (mem h);
    w_nd : NoDup (map c_ptr cs);
    w_hold : forall i p b, nth_error (hold h) i = Some (p, b) -> p < length (mem h);
    w_wk : forall c i, In c cs -> c_wk c = Some i -> exists b, nth_error (hold h) i = Some (c_ptr c, b);
    w_live : forall c i p, In c cs -> nth_error (hold h) i = Some (p, true) -> p = c_ptr c -> c_wk c = Some i }.
  Arguments w_ptr {h cs} _ _ _.
  Arguments w_hold {h cs} _ _ _ _ _.
  Arguments w_wk {h cs} _ _ _ _ _.
  Arguments w_live {h cs} _ _ _ _ _ _ _.

  (** every live snapshot stays live and unchanged *)
  Definition frame (h h' : hp) : Prop := forall i p, nth_error (hold h) i = Some (p, true) ->
    nth_error (hold h') i = Some (p, true) /\ rd h' p = rd h p.

  Lemma frame_refl h : frame h h.
  Proof. intros i p H. auto. Qed.
  Lemma frame_trans h1 h2 h3 : frame h1 h2 -> frame h2 h3 -> frame h1 h3.
  Proof.
    intros A B i p H. destruct (A i p H) as [H1 E1]. destruct (B i p H1) as [H2 E2].
    split; congruence.
  Qed.

  Lemma wf_perm h cs cs' : Permutation cs cs' -> wf h cs -> wf h cs'.
  Proof.
    intros P W. pose proof (Permutation_sym P) as P'. destruct W. constructor; eauto using Permutation_in.
    - eapply Permutation_NoDup; [apply Permutation_map; eauto|auto].
  Qed.

  Lemma wf_tail h c cs : wf h (c :: cs) -> wf h cs.
  Proof.
    intros W. destruct W. constructor; intros; eauto using in_cons.
    cbn in w_nd0. now inversion w_nd0.
  Qed.

  (** [same_vals h h' cs]: cells keep their contents *)
  Definition same (h h' : hp) (cs : list cell) : Prop := forall c, In c cs -> val h' c = val h c.

  Lemma same_trans h1 h2 h3 cs : same h1 h2 cs -> same h2 h3 cs -> same h1 h3 cs.
  Proof. intros A B c H. rewrite (B c H). now apply A. Qed.

  Lemma rd_app h m p : p < length (mem h) -> rd (mk_hp (mem h ++ [m]) (hold h)) p = rd h p.
  Proof. intros H. unfold CowModel.rd; cbn. now apply app_nth1. Qed.

  Lemma new_cell_ok h cs m c' h' : wf h cs -> new_cell h m = (c', h') ->
    wf h' (c' :: cs) /\ val h' c' = m /\ same h h' cs /\ frame h h'.
  Proof.
    intros W [= <- <-]. split; [|split; [|split]].
    - constructor; cbn.
      + intros c [<-|H]; cbn; rewrite app_length; cbn; [lia|]. apply (w_ptr W) in H. lia.
      + constructor; [|apply W]. intros H. apply in_map_iff in H as (c & E & H).
        apply (w_ptr W) in H. lia.
      + intros i p b H. apply (w_hold W) in H. rewrite app_length; cbn; lia.
      + intros c i [<-|H]; cbn; [easy|]. now apply (w_wk W).
      + intros c i p [<-|H] Hi; cbn.
        * intros ->. apply (w_hold W) in Hi. lia.
        * now apply (w_live W).
    - unfold CowModel.val, CowModel.rd; cbn. rewrite app_nth2, Nat.sub_diag by lia. reflexivity.
    - intros c H. apply (w_ptr W) in H. now apply rd_app.
    - intros i p H. split; auto. apply rd_app. now apply (w_hold W) in H.
  Qed.

  Lemma get_holder_ok h c cs i c' h' : wf h (c :: cs) -> get_holder h c = (i, c', h') ->
    wf h' (c' :: cs) /\ mem h' = mem h /\ c_ptr c' = c_ptr c /\ frame h h'
    /\ nth_error (hold h') i = Some (c_ptr c, true).
  Proof.
    intros W. unfold get_holder. destruct (lock h c) as [j|] eqn:L.
    - intros [= <- <- <-]. refine (conj W (conj eq_refl (conj eq_refl (conj (@frame_refl _) _)))).
      unfold lock in L. destruct (c_wk c) as [k|] eqn:E; [|discriminate].
      destruct (w_wk W c k) as [b Hb]; [now left|auto|].
      rewrite Hb in L. destruct b; [|discriminate]. injection L as <-. auto.
    - intros [= <- <- <-]. cbn. repeat split; cbn; auto.
      + intros c0 [<-|H]; cbn; [|apply (w_ptr W); now right].
        apply (w_ptr W c). now left.
      + apply W.
      + intros k p b H. destruct (Nat.lt_ge_cases k (length (hold h))).
        * rewrite nth_error_app1 in H by auto. now apply (w_hold W) in H.
        * rewrite nth_error_app2 in H by auto. destruct (k - length (hold h)) as [|[|]]; try discriminate.
          injection H as <- <-. apply (w_ptr W c). now left.
      + intros c0 k [<-|H]; cbn.
        * intros [= <-]. exists true. now rewrite nth_error_app2, Nat.sub_diag by lia.
        * intros E. destruct (w_wk W c0 k) as [b Hb]; [now right|auto|].
          exists b. rewrite nth_error_app1; auto. apply nth_error_Some. congruence.
      + intros c0 k p H Hk E. subst p.
        destruct (Nat.lt_ge_cases k (length (hold h))) as [Hl|Hl].
        * rewrite nth_error_app1 in Hk by auto. destruct H as [<-|H]; cbn in *.
          -- assert (c_wk c = Some k) as F by (apply (w_live W c) in Hk; auto; now left).
             unfold lock in L. rewrite F, Hk in L. discriminate.
          -- eapply (w_live W); eauto. now right.
        * rewrite nth_error_app2 in Hk by auto. destruct (k - length (hold h)) as [|[|]] eqn:D; try discriminate.
          injection Hk as Hk. destruct H as [<-|H]; cbn.
          -- f_equal. lia.
          -- exfalso. pose proof (w_nd W) as N. cbn in N. inversion N; subst. apply H2.
             rewrite Hk. now apply in_map.
      + rewrite nth_error_app1; auto. apply nth_error_Some. congruence.
      + now rewrite nth_error_app2, Nat.sub_diag by lia.
  Qed.

  Lemma cow_ok h c cs src b c' h' : wf h (c :: cs) -> cow emp h c src = (b, c', h') ->
    wf h' (c' :: cs) /\ same h h' cs /\ frame h h' /\ lock h' c' = None
    /\ val h' c' = if b then match src with Some m => m | None => emp end else val h c.
  Proof.
    intros W. unfold cow. destruct (lock h c) as [j|] eqn:L.
    - destruct (new_cell h _) as [c1 h1] eqn:N. intros [= <- <- <-].
      destruct (new_cell_ok (wf_tail W) N) as (W1 & V & S & F). refine (conj W1 (conj S (conj F (conj _ V)))).
      injection N as <- <-. reflexivity.
    - intros [= <- <- <-]. refine (conj W (conj _ (conj (@frame_refl _) (conj L eq_refl)))). now intros ? ?.
  Qed.

  (** writing through a cell nobody pins *)
  Lemma wr_ok h c cs m : wf h (c :: cs) -> lock h c = None ->
    let h' := wr h (c_ptr c) m in
    wf h' (c :: cs) /\ val h' c = m /\ same h h' cs /\ frame h h'.
  Proof.
    intros W L. cbn. split; [|split; [|split]].
    - constructor; cbn; try rewrite setnth_length; apply W.
    - unfold CowModel.val, CowModel.rd; cbn. apply setnth_nth_same. apply (w_ptr W). now left.
    - intros c0 H. unfold CowModel.val, CowModel.rd; cbn. apply setnth_nth_other.
      pose proof (w_nd W) as N. cbn in N. inversion N; subst. intros E. apply H2. rewrite E. now apply in_map.
    - intros i p H. split; auto. unfold CowModel.rd; cbn. apply setnth_nth_other. intros <-.
      assert (F : c_wk c = Some i) by (apply (w_live W c) in H; auto; now left).
      unfold lock in L. now rewrite F, H in L.
  Qed.

  Lemma modify_ok h c cs f c' h' : wf h (c :: cs) -> modify emp h c f = (c', h') ->
    wf h' (c' :: cs) /\ val h' c' = f (val h c) /\ same h h' cs /\ frame h h'.
  Proof.
    intros W. unfold modify. destruct (cow emp h c _) as [[b c1] h1] eqn:C. intros [= <- <-].
    destruct (cow_ok _ W C) as (W1 & S1 & F1 & L1 & V1).
    assert (V : val h1 c1 = val h c) by now destruct b.
    destruct (wr_ok (f (val h1 c1)) W1 L1) as (W2 & V2 & S2 & F2).
    refine (conj W2 (conj _ (conj (same_trans S1 S2) (frame_trans F1 F2)))). now rewrite V2, V.
  Qed.

  Lemma assign_ok h c cs src c' h' : wf h (c :: cs) -> assign emp h c src = (c', h') ->
    wf h' (c' :: cs) /\ val h' c' = match src with Some m => m | None => emp end
    /\ same h h' cs /\ frame h h'.
  Proof.
    intros W. unfold assign. destruct (cow emp h c src) as [[b c1] h1] eqn:C.
    destruct (cow_ok _ W C) as (W1 & S1 & F1 & L1 & V1). destruct b; intros [= <- <-].
    - exact (conj W1 (conj V1 (conj S1 F1))).
    - destruct (wr_ok (match src with Some m => m | None => emp end) W1 L1) as (W2 & V2 & S2 & F2).
      exact (conj W2 (conj V2 (conj (same_trans S1 S2) (frame_trans F1 F2)))).
  Qed.

  Lemma drop_ok (h : hp) cs j : wf h cs -> wf (drop_holder h j) cs /\ mem (drop_holder h j) = mem h.
  Proof.
    intros W. unfold drop_holder. destruct (nth_error (hold h) j) as [[p b]|] eqn:E; [|auto].
    cbn. split; auto.
    assert (Lj : j < length (hold h)) by (apply nth_error_Some; congruence).
    assert (G : forall i q c, nth_error (setnth j (p, false) (hold h)) i = Some (q, c) ->
             exists c', nth_error (hold h) i = Some (q, c') /\ (c = true -> c' = true)).
    { intros i q c. destruct (Nat.eq_dec j i) as [<-|N].
      - rewrite setnth_err_same by auto. intros [= <- <-]. exists b. split; auto. easy.
      - rewrite setnth_err_other by auto. eauto. }
    constructor; cbn; try apply W.
    - intros i q c H. destruct (G _ _ _ H) as (c' & H' & _). now apply (w_hold W) in H'.
    - intros c i Hc Hi. destruct (w_wk W _ _ Hc Hi) as [b' Hb].
      destruct (Nat.eq_dec j i) as [<-|N].
      + exists false. rewrite setnth_err_same by auto. congruence.
      + exists b'. now rewrite setnth_err_other.
    - intros c i q Hc Hi Hq. destruct (G _ _ _ Hi) as (c' & H' & T). rewrite T in H' by auto.
      eapply (w_live W); eauto.
  Qed.

  Lemma drop_frame (h : hp) j i p : i <> j -> nth_error (hold h) i = Some (p, true) ->
    nth_error (hold (drop_holder h j)) i = Some (p, true).
  Proof.
    intros N H. unfold drop_holder. destruct (nth_error (hold h) j) as [[q b]|]; auto.
    cbn. now rewrite setnth_err_other by auto.
  Qed.

  Lemma frame_hval h h' i : frame h h' -> halive h i -> halive h' i /\ hval emp h' i = hval emp h i.
  Proof.
    intros F [p H]. destruct (F i p H) as [H1 E]. split; [eexists; eauto|].
    unfold hval. now rewrite H, H1.
  Qed.
End Cow.
