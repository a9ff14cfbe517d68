From Coq Require Import List Arith ZArith Bool Lia.
From Verif Require Import Conc FlatProofs PagedModel PagedSpec.
Import ListNotations.
Set Implicit Arguments.

Lemma w64_le z : (0 <= z)%Z -> (w64 z <= z)%Z.
Proof. intros H. unfold w64. apply Z.mod_le; [assumption|reflexivity]. Qed.
Lemma w64_nn z : (0 <= w64 z)%Z.
Proof. unfold w64. apply Z.mod_pos_bound. reflexivity. Qed.

Lemma write_at_len (l d : list nat) off : off <= length l -> length (write_at l off d) = max (length l) (off + length d).
Proof. intros H. unfold write_at. rewrite !app_length, firstn_length, skipn_length. lia. Qed.
Lemma write_at_lo (l d : list nat) off j : off <= length l -> j < off -> nth_error (write_at l off d) j = nth_error l j.
Proof. intros H Hj. unfold write_at. rewrite nth_error_app1 by (rewrite firstn_length; lia). now apply nth_error_firstn. Qed.
Lemma write_at_mid (l d : list nat) off j : off <= length l -> j < length d -> nth_error (write_at l off d) (off + j) = nth_error d j.
Proof.
  intros H Hj. unfold write_at. rewrite nth_error_app2; rewrite firstn_length; [|lia].
  replace (off + j - min off (length l)) with j by lia. now apply nth_error_app1.
Qed.

Section P.
Variables ps ck : nat.
Hypothesis Hps : 0 < ps.
Hypothesis Hck : 0 < ck.
Notation step := (step ps ck).

Definition pageok (h : nat -> list nat) (S : list nat) (k p : nat) : Prop :=
  length (h p) <= ps /\ forall j, j < ps -> k * ps + j < length S -> nth_error (h p) j = nth_error S (k * ps + j).
Definition pages h S B l := forall i p, nth_error l i = Some p -> pageok h S (B + i) p.

Definition rdok (B : nat) (s : st) (p k : nat) : Prop :=
  (exists i, nth_error (pgs s) i = Some p /\ k = B + i) \/
  (p < nextp s /\ ~ In p (pgs s) /\ (forall rest new tl, wr s = WPages rest new tl -> ~ In p new) /\ k * ps + ps <= length (gS s) /\ pageok (heap s) (gS s) k p).

Definition wrok (s : st) : Prop :=
  match wr s with
  | WIdle => True
  | WTail p d => 0 < tail s /\ nth_error (pgs s) (length (pgs s) - 1) = Some p
  | WTailDone d => 0 < tail s /\ exists p, nth_error (pgs s) (length (pgs s) - 1) = Some p /\
      forall j, j < min (tail s) (length d) -> nth_error (heap s p) (ps - tail s + j) = nth_error d j
  | WPages rest new tl =>
      (forall p, In p new -> p < nextp s /\ ~ In p (pgs s)) /\ NoDup new /\
      let W := concat (map (heap s) new) in
      pages (heap s) W 0 new /\
      (new <> [] -> tail s = 0 /\ length W + tl = ps * length new /\ tl < ps) /\
      (rest <> [] -> tail s = 0 /\ (new <> [] -> tl = 0))
  end.

Definition rpok (B : nat) (s : st) : Prop :=
  match rd s with
  | RPage p o c g => o < ps /\ exists k, g = k * ps + o /\ rdok B s p k
  | _ => True
  end.

Record Inv (B : nat) (s : st) : Prop := {
  i_base : gbase s = B * ps;
  i_len : length (gS s) + tail s = gbase s + ps * length (pgs s);
  i_tail : tail s < ps;
  i_tail0 : 0 < tail s -> 0 < length (pgs s);
  i_start : start s + tail s <= ps * length (pgs s);
  i_cs : start s <= cur s;
  i_nd : NoDup (pgs s);
  i_ids : forall p, In p (pgs s) -> p < nextp s;
  i_pages : pages (heap s) (gS s) B (pgs s);
  i_wr : wrok s;
  i_rd : rpok B s }.

Lemma pages_ext h h' S B l : (forall p, In p l -> h' p = h p) -> pages h S B l -> pages h' S B l.
Proof. intros H P i p Hi. specialize (P i p Hi). unfold pageok in *. rewrite H; auto. eapply nth_error_In; eauto. Qed.
Lemma concat_ext (h h' : nat -> list nat) l : (forall p, In p l -> h' p = h p) -> concat (map h' l) = concat (map h l).
Proof. intros H. f_equal. apply map_ext_in. exact H. Qed.

Lemma Inv_init : Inv 0 init.
Proof.
  constructor; cbn; try lia; auto.
  - constructor.
  - intros i p H. destruct i; discriminate.
Qed.

Lemma storage_le B s n : Inv B s -> (storage_size ps s <? zn n)%Z = false -> start s + tail s + n <= ps * length (pgs s).
Proof.
  intros HI H. apply Z.ltb_ge in H. unfold storage_size, zn in H. pose proof (i_start HI).
  rewrite w64_le in H; lia.
Qed.

Lemma pageok_write h S k p d off : off <= length (h p) -> off + length d <= ps -> length S <= k * ps + off ->
  pageok h S k p -> pageok (fupd h p (write_at (h p) off d)) S k p.
Proof.
  intros H1 H2 H3 [P1 P2]. split.
  - rewrite fupd_same, write_at_len; lia.
  - intros j Hj Hs. rewrite fupd_same, write_at_lo; [|lia|lia]. auto.
Qed.

Lemma pages_last_len B s p : Inv B s -> 0 < tail s -> nth_error (pgs s) (length (pgs s) - 1) = Some p -> ps - tail s <= length (heap s p).
Proof.
  intros HI Ht Hp. pose proof (i_len HI). pose proof (i_tail HI). pose proof (i_tail0 HI Ht). pose proof (i_base HI).
  destruct (i_pages HI _ Hp) as [_ P].
  destruct (Nat.eq_dec (ps - tail s) 0); [lia|].
  specialize (P (ps - tail s - 1)). assert (nth_error (heap s p) (ps - tail s - 1) <> None); [|apply nth_error_Some in H3; lia].
  rewrite P; [|lia|].
  - apply nth_error_Some. replace (B + (length (pgs s) - 1)) with (B + length (pgs s) - 1) by lia.
    assert ((B + length (pgs s) - 1) * ps = B * ps + ps * length (pgs s) - ps) by nia. nia.
  - assert ((B + (length (pgs s) - 1)) * ps = B * ps + ps * length (pgs s) - ps) by nia. nia.
Qed.

Lemma skipn_nth (X : Type) (l : list X) k i x : nth_error (skipn k l) i = Some x -> nth_error l (k + i) = Some x.
Proof. now rewrite nth_error_skipn. Qed.

Lemma NoDup_nth_inj (l : list nat) i j p : NoDup l -> nth_error l i = Some p -> nth_error l j = Some p -> i = j.
Proof. intros H A C. eapply (proj1 (NoDup_nth_error l) H); [eapply nth_error_Some_lt; eauto|congruence]. Qed.

Lemma In_skipn (X : Type) (l : list X) k x : In x (skipn k l) -> In x l.
Proof. intros H. rewrite <- (firstn_skipn k l). apply in_app_iff. auto. Qed.
Lemma NoDup_skipn (X : Type) (l : list X) k : NoDup l -> NoDup (skipn k l).
Proof. revert l. induction k as [|k IH]; intros [|x l] H; cbn; auto. apply IH. now inversion H. Qed.
Lemma NoDup_app_mk (l1 l2 : list nat) : NoDup l1 -> NoDup l2 -> (forall x, In x l2 -> ~ In x l1) -> NoDup (l1 ++ l2).
Proof.
  intros H1 H2 H. induction l1 as [|x l1 IH]; cbn; auto. inversion H1; subst. constructor.
  - rewrite in_app_iff. intros [|]; [auto|]. apply (H x); cbn; auto.
  - apply IH; auto. intros y Hy Hn. apply (H y); cbn; auto.
Qed.

(** the only thing a change of offsets touches *)
Lemma inv_pop B s n : Inv B s -> start s + tail s + n <= ps * length (pgs s) ->
  let k := (start s + n) / ps in
  Inv (B + k) {| heap := heap s; pgs := skipn k (pgs s); nextp := nextp s; start := start s + n - k * ps;
                 cur := max (start s + n) (cur s) - k * ps; tail := tail s; rd := rd s; wr := wr s;
                 gS := gS s; gbase := gbase s + k * ps; glog := log s (EPop n (cur s <? start s + n) ((0 <? k) && rd_active s)) |}.
Proof.
  intros HI Hn k. pose proof (Nat.div_mod (start s + n) ps ltac:(lia)) as Hdm. fold k in Hdm.
  pose proof (Nat.mod_upper_bound (start s + n) ps ltac:(lia)).
  assert (Hk : k <= length (pgs s)) by nia.
  assert (Hk' : 0 < tail s -> k < length (pgs s)) by (intros; nia).
  pose proof (i_len HI). pose proof (i_base HI). pose proof (i_tail HI).
  constructor; cbn [heap pgs nextp start cur tail rd wr gS gbase glog]; try rewrite skipn_length.
  - nia.
  - nia.
  - lia.
  - intros H4. specialize (Hk' H4). lia.
  - nia.
  - lia.
  - apply NoDup_skipn, HI.
  - intros p Hp. apply (i_ids HI). eapply In_skipn; eauto.
  - intros i p Hi. apply skipn_nth in Hi. rewrite <- Nat.add_assoc. exact (i_pages HI _ Hi).
  - pose proof (i_wr HI) as Hw. unfold wrok in *. cbn [heap pgs nextp start cur tail rd wr gS gbase glog].
    destruct (wr s) as [|p d|d|rest new tl]; auto.
    + destruct Hw as [W1 W2]. split; auto. specialize (Hk' W1). rewrite nth_error_skipn, skipn_length.
      now replace (k + (length (pgs s) - k - 1)) with (length (pgs s) - 1) by lia.
    + destruct Hw as [W1 [p [W2 W3]]]. split; auto. exists p. split; auto. specialize (Hk' W1). rewrite nth_error_skipn, skipn_length.
      now replace (k + (length (pgs s) - k - 1)) with (length (pgs s) - 1) by lia.
    + destruct Hw as [W1 W2]. split; auto. intros p Hp. destruct (W1 p Hp) as [A C]. split; auto. intros Hin. apply C. eapply In_skipn; eauto.
  - pose proof (i_rd HI) as Hr. unfold rpok in *. cbn [rd]. destruct (rd s) as [|p o c g|]; auto.
    destruct Hr as [R1 [k0 [R2 R3]]]. split; auto. exists k0. split; auto.
    unfold rdok in *. cbn [heap pgs nextp wr gS]. destruct R3 as [[i [A C]]|[A [C [D E]]]].
    + destruct (le_lt_dec k i) as [Hki|Hki].
      * left. exists (i - k). split; [|lia]. rewrite nth_error_skipn. now replace (k + (i - k)) with i by lia.
      * right. split; [apply (i_ids HI); eapply nth_error_In; eauto|]. split; [|split; [|split]].
        -- intros Hin. apply In_nth_error in Hin. destruct Hin as [j Hj]. apply skipn_nth in Hj.
           pose proof (@NoDup_nth_inj _ _ _ _ (i_nd HI) A Hj). lia.
        -- intros rest new tl Hw Hin. pose proof (i_wr HI) as W. unfold wrok in W. rewrite Hw in W. destruct W as [W _].
           apply (W _ Hin). eapply nth_error_In; eauto.
        -- subst k0. nia.
        -- subst k0. exact (i_pages HI _ A).
    + right. split; auto. split; [|split; auto]. intros Hin. apply C. eapply In_skipn; eauto.
Qed.

Lemma pageok_app h S T k p : k * ps + ps <= length S -> pageok h S k p -> pageok h (S ++ T) k p.
Proof.
  intros H [P1 P2]. split; auto. intros j Hj _. rewrite nth_error_app1 by lia. apply P2; lia.
Qed.

Lemma inv_step B s a s' : Inv B s -> step s a = Some s' -> exists B', Inv B' s' /\ (B' = B \/ exists n, a = APop n).
Proof.
  intros HI H. destruct a as [|n|cn|d|k| |k| |n|n]; cbn [PagedModel.step] in H.
  - (* ARead *)
    destruct (rd s) eqn:Er; try discriminate.
    destruct (unread ps s <? zn ck)%Z; [injection H as <-; eauto|].
    destruct (nth_error (pgs s) (cur s / ps)) as [p|] eqn:Ep; injection H as <-; exists B; (split; [|auto]); destruct HI; constructor; cbn [heap pgs nextp start cur tail rd wr gS gbase glog]; auto.
    + unfold rpok. cbn [rd]. split; [apply Nat.mod_upper_bound; lia|]. exists (B + cur s / ps). split.
      * pose proof (Nat.div_mod (cur s) ps ltac:(lia)). nia.
      * left. eauto.
    + exact I.
  - (* APage *)
    destruct (rd s) as [|p o c g|] eqn:Er; try discriminate.
    destruct (o + n <=? length (heap s p)); [|discriminate]. injection H as <-. exists B. split; [|auto].
    destruct HI; constructor; cbn [heap pgs nextp start cur tail rd wr gS gbase glog]; auto. exact I.
  - destruct (rd s) as [| |c n g] eqn:Er; try discriminate. injection H as <-. exists B. split; [|auto].
    destruct HI; constructor; cbn [heap pgs nextp start cur tail rd wr gS gbase glog]; auto; [|exact I].
    destruct cn; auto. destruct (cur s =? c); lia.
  - (* APush *)
    destruct (wr s) eqn:Ew; try discriminate. exists B. split; [|auto].
    destruct (tail s =? 0) eqn:Et.
    + injection H as <-. apply Nat.eqb_eq in Et. destruct HI; constructor; cbn [heap pgs nextp start cur tail rd wr gS gbase glog]; auto.
      * unfold wrok. cbn. split; [contradiction|]. split; [constructor|]. split; [intros i p Hp; destruct i; discriminate|].
        split; [congruence|]. intros _. split; [auto|congruence].
      * unfold rpok in *. cbn [rd]. destruct (rd s); auto. destruct i_rd0 as [R1 [k [R2 R3]]]. split; auto. exists k. split; auto.
        unfold rdok in *. cbn [heap pgs nextp wr gS]. destruct R3 as [R3|[A [C [D E]]]]; auto. right. split; auto. split; auto. split; auto.
        intros rest new tl Hw. injection Hw as <- <- <-. auto.
    + apply Nat.eqb_neq in Et. destruct (rev (pgs s)) as [|p r] eqn:Erv; injection H as <-; destruct HI; constructor; cbn [heap pgs nextp start cur tail rd wr gS gbase glog]; auto.
      * exact I.
      * unfold rpok in *. cbn [rd]. destruct (rd s); auto. destruct i_rd0 as [R1 [k [R2 R3]]]. split; auto. exists k. split; auto.
        unfold rdok in *. cbn [heap pgs nextp wr gS]. destruct R3 as [R3|[A [C [D E]]]]; auto. right. split; auto. split; auto. split; auto. discriminate.
      * unfold wrok. cbn [wr tail pgs]. split; [lia|]. assert (E : pgs s = rev r ++ [p]) by (rewrite <- (rev_involutive (pgs s)), Erv; reflexivity).
        rewrite E, app_length. cbn [length]. rewrite nth_error_app2 by lia. now replace (length (rev r) + 1 - 1 - length (rev r)) with 0 by lia.
      * unfold rpok in *. cbn [rd]. destruct (rd s); auto. destruct i_rd0 as [R1 [k [R2 R3]]]. split; auto. exists k. split; auto.
        unfold rdok in *. cbn [heap pgs nextp wr gS]. destruct R3 as [R3|[A [C [D E]]]]; auto. right. split; auto. split; auto. split; auto. discriminate.
  - (* AWriteTail *)
    destruct (wr s) as [|p d| |] eqn:Ew; try discriminate. set (n := min (tail s) (length d)) in *.
    destruct (k <=? n) eqn:Ek; [|discriminate]. apply Nat.leb_le in Ek. injection H as <-. exists B. split; [|auto].
    pose proof (i_wr HI) as W. unfold wrok in W. rewrite Ew in W. destruct W as [Ht Hp].
    pose proof (pages_last_len HI Ht Hp) as Hl. pose proof (i_tail HI). pose proof (i_len HI) as Hlen. pose proof (i_tail0 HI Ht).
    pose proof (i_base HI) as Hb.
    assert (Hfl : length (firstn k d) = k) by (rewrite firstn_length; lia).
    assert (Hcap : length (gS s) <= (B + (length (pgs s) - 1)) * ps + (ps - tail s)).
    { assert ((B + (length (pgs s) - 1)) * ps = B * ps + ps * length (pgs s) - ps) by nia. nia. }
    constructor; cbn [heap pgs nextp start cur tail rd wr gS gbase glog]; try apply HI; auto.
    + intros i q Hi. pose proof (i_pages HI _ Hi) as P. destruct (Nat.eq_dec q p) as [->|Hq].
      * assert (i = length (pgs s) - 1) as -> by (eapply NoDup_nth_inj; eauto; apply HI).
        apply pageok_write; auto; lia.
      * unfold pageok. rewrite fupd_other by auto. exact P.
    + unfold wrok. cbn [wr tail pgs heap]. destruct (k =? n) eqn:Ekn; [|exact I]. apply Nat.eqb_eq in Ekn. split; auto. exists p. split; auto.
      intros j Hj. rewrite fupd_same, write_at_mid; [|auto|lia]. fold n in Hj. apply nth_error_firstn. lia.
    + pose proof (i_rd HI) as R. unfold rpok in *. cbn [rd]. destruct (rd s) as [|q o c g|]; auto. destruct R as [R1 [k0 [R2 R3]]]. split; auto. exists k0. split; auto.
      unfold rdok in *. cbn [heap pgs nextp wr gS]. destruct R3 as [R3|[A [C [D [E F]]]]]; auto. right. split; auto. split; auto. split; [|split; auto].
      * intros rest new tl. destruct (k =? n); discriminate.
      * unfold pageok. rewrite fupd_other; auto. intros ->. apply C. eapply nth_error_In; eauto.
  - (* ACommitTail *)
    destruct (wr s) as [| |d|] eqn:Ew; try discriminate. set (n := min (tail s) (length d)) in *. injection H as <-. exists B. split; [|auto].
    pose proof (i_wr HI) as W. unfold wrok in W. rewrite Ew in W. destruct W as [Ht [p [Hp Hd]]]. fold n in Hd.
    pose proof (i_tail HI). pose proof (i_len HI) as Hlen. pose proof (i_tail0 HI Ht). pose proof (i_base HI) as Hb. pose proof (i_start HI).
    assert (Hfl : length (firstn n d) = n) by (rewrite firstn_length; lia).
    assert (Hpg : pages (heap s) (gS s ++ firstn n d) B (pgs s)).
    { intros i q Hi. pose proof (i_pages HI _ Hi) as P. destruct (Nat.eq_dec i (length (pgs s) - 1)) as [->|Hne].
      - assert (q = p) as -> by congruence. destruct P as [P1 P2]. split; auto. intros j Hj Hs. rewrite app_length, Hfl in Hs.
        assert (Hkb : (B + (length (pgs s) - 1)) * ps = B * ps + ps * length (pgs s) - ps) by nia.
        destruct (le_lt_dec (length (gS s)) ((B + (length (pgs s) - 1)) * ps + j)) as [Hx|Hx].
        + rewrite nth_error_app2 by exact Hx.
          replace ((B + (length (pgs s) - 1)) * ps + j - length (gS s)) with (j - (ps - tail s)) by nia.
          rewrite nth_error_firstn by nia. rewrite <- Hd by nia. f_equal. nia.
        + rewrite nth_error_app1 by exact Hx. auto.
      - apply pageok_app; auto. apply nth_error_Some_lt in Hi. nia. }
    constructor; cbn [heap pgs nextp start cur tail rd wr gS gbase glog]; try apply HI; auto; try (rewrite ?app_length; lia).
    + unfold wrok. cbn [wr tail pgs heap nextp map concat]. split; [contradiction|]. split; [constructor|]. split; [intros i q Hi; destruct i; discriminate|].
      split; [congruence|]. intros Hne. split; [|congruence]. destruct (le_lt_dec (length d) n); [|lia].
      rewrite skipn_all2 in Hne by auto. congruence.
    + pose proof (i_rd HI) as R. unfold rpok in *. cbn [rd]. destruct (rd s) as [|q o c g|]; auto. destruct R as [R1 [k0 [R2 R3]]]. split; auto. exists k0. split; auto.
      unfold rdok in *. cbn [heap pgs nextp wr gS]. destruct R3 as [R3|[A [C [D [E F]]]]]; auto. right. split; auto. split; auto. split; [|split].
      * intros rest new tl Hw. injection Hw as <- <- <-. auto.
      * rewrite app_length. lia.
      * now apply pageok_app.
  - (* AWritePage *)
    destruct (wr s) as [| | |rest0 new tl] eqn:Ew; try discriminate. destruct rest0 as [|x rest']; [discriminate|].
    set (rest := x :: rest') in *. set (n := min ps (length rest)) in *.
    destruct (k <=? n) eqn:Ek; [|discriminate]. apply Nat.leb_le in Ek. injection H as <-. exists B. split; [|auto].
    pose proof (i_wr HI) as W. unfold wrok in W. rewrite Ew in W. destruct W as [W1 [W2 [W3 [W4 W5]]]].
    assert (Hpe : forall p, In p (pgs s) -> fupd (heap s) (nextp s) (firstn k rest) p = heap s p).
    { intros p Hp. apply fupd_other. pose proof (i_ids HI p Hp). lia. }
    assert (Hne : forall p, In p new -> fupd (heap s) (nextp s) (firstn k rest) p = heap s p).
    { intros p Hp. apply fupd_other. pose proof (W1 p Hp). lia. }
    constructor; cbn [heap pgs nextp start cur tail rd wr gS gbase glog]; try apply HI; auto.
    + intros p Hp. pose proof (i_ids HI p Hp). lia.
    + eapply pages_ext; [exact Hpe|apply HI].
    + unfold wrok. cbn [wr tail pgs heap nextp]. destruct (k =? n) eqn:Ekn; [|exact I]. apply Nat.eqb_eq in Ekn. subst k.
      destruct (W5 ltac:(discriminate)) as [Ht Htl].
      assert (HW : length (concat (map (heap s) new)) = ps * length new).
      { destruct new; [cbn; lia|]. destruct (W4 ltac:(discriminate)) as [_ [Hx _]]. specialize (Htl ltac:(discriminate)). lia. }
      assert (Hfl : length (firstn n rest) = n) by (rewrite firstn_length; lia).
      assert (Hn0 : 0 < n) by (unfold n, rest; cbn [length]; lia).
      split; [|split; [|split; [|split]]].
      * intros p Hp. apply in_app_iff in Hp. destruct Hp as [Hp|[<-|[]]]; [destruct (W1 p Hp); split; [lia|auto]|].
        split; [lia|]. intros Hin. pose proof (i_ids HI _ Hin). lia.
      * apply NoDup_app_mk; auto; [repeat constructor; auto|]. intros y [<-|[]] Hin. destruct (W1 _ Hin). lia.
      * rewrite map_app, concat_app. cbn [map concat]. rewrite app_nil_r, fupd_same, (@concat_ext (heap s) _ _ Hne).
        intros i p Hi. destruct (le_lt_dec (length new) i) as [Hx|Hx].
        -- rewrite nth_error_app2 in Hi by auto. destruct (i - length new) as [|m] eqn:Em; [|destruct m; discriminate]. cbn in Hi. injection Hi as <-.
           unfold pageok. rewrite fupd_same. split; [lia|]. intros j Hj Hs. rewrite app_length in Hs. rewrite nth_error_app2 by nia.
           f_equal. nia.
        -- rewrite nth_error_app1 in Hi by auto. apply pageok_app; [nia|].
           specialize (W3 _ _ Hi). unfold pageok in *. rewrite Hne; auto. eapply nth_error_In; eauto.
      * intros _. split; auto. rewrite map_app, concat_app, !app_length. cbn [map concat length]. rewrite app_nil_r, fupd_same, (@concat_ext (heap s) _ _ Hne). nia.
      * intros Hr. split; auto. intros _. destruct (le_lt_dec (length rest) ps); [|lia].
        rewrite skipn_all2 in Hr by lia. congruence.
    + pose proof (i_rd HI) as R. unfold rpok in *. cbn [rd]. destruct (rd s) as [|q o c g|]; auto. destruct R as [R1 [k0 [R2 R3]]]. split; auto. exists k0. split; auto.
      unfold rdok in *. cbn [heap pgs nextp wr gS]. destruct R3 as [R3|[A [C [D [E F]]]]]; auto. right. split; [lia|]. split; auto. split; [|split; auto].
      * intros r' nw tl' Hw. destruct (k =? n); [|discriminate]. injection Hw as <- <- <-. rewrite in_app_iff. intros [Hi|[Hi|[]]]; [|lia].
        eapply D; eauto.
      * unfold pageok. rewrite fupd_other; auto. lia.
  - (* ACommitPages *)
    destruct (wr s) as [| | |rest0 new tl] eqn:Ew; try discriminate. destruct rest0 as [|x rest']; [|discriminate].
    exists B. split; [|auto].
    pose proof (i_wr HI) as W. unfold wrok in W. rewrite Ew in W. destruct W as [W1 [W2 [W3 [W4 W5]]]].
    assert (Hnx : new = [] \/ new <> []) by (destruct new; [left|right]; congruence). destruct Hnx as [->|Hnx].
    + injection H as <-. destruct HI; constructor; cbn [heap pgs nextp start cur tail rd wr gS gbase glog]; auto; [exact I|].
      unfold rpok in *. cbn [rd]. destruct (rd s); auto. destruct i_rd0 as [R1 [k [R2 R3]]]. split; auto. exists k. split; auto.
      unfold rdok in *. cbn [heap pgs nextp wr gS]. destruct R3 as [R3|[A [C [D E]]]]; auto. right. split; auto. split; auto. split; auto. discriminate.
    + assert (H' : Some {| heap := heap s; pgs := pgs s ++ new; nextp := nextp s; start := start s; cur := cur s; tail := tl; rd := rd s; wr := WIdle;
                         gS := gS s ++ concat (map (heap s) new); gbase := gbase s; glog := (log s (EPushed (concat (map (heap s) new)))) ++ [EPushOk] |} = Some s')
        by (destruct new; [congruence|exact H]).
      clear H. injection H' as <-. destruct (W4 Hnx) as [Ht [HW Htl]]. set (W := concat (map (heap s) new)) in *.
      pose proof (i_len HI) as Hlen. pose proof (i_base HI) as Hb.
      assert (Hln : 0 < length new) by (destruct new; [congruence|cbn; lia]).
      constructor; cbn [heap pgs nextp start cur tail rd wr gS gbase glog]; try apply HI; auto; try (rewrite ?app_length; nia).
      * pose proof (i_start HI). rewrite app_length. nia.
      * apply NoDup_app_mk; auto; [apply HI|]. intros p Hp. apply W1. auto.
      * intros p Hp. apply in_app_iff in Hp. destruct Hp as [Hp|Hp]; [apply HI; auto|apply W1; auto].
      * intros i p Hi. destruct (le_lt_dec (length (pgs s)) i) as [Hx|Hx].
        -- rewrite nth_error_app2 in Hi by auto. destruct (W3 _ _ Hi) as [P1 P2]. split; auto. intros j Hj Hs. rewrite app_length in Hs.
           rewrite nth_error_app2 by nia. rewrite P2; [f_equal; nia|auto|nia].
        -- rewrite nth_error_app1 in Hi by auto. apply pageok_app; [nia|]. exact (i_pages HI _ Hi).
      * exact I.
      * pose proof (i_rd HI) as R. unfold rpok in *. cbn [rd]. destruct (rd s) as [|q o c g|]; auto. destruct R as [R1 [k0 [R2 R3]]]. split; auto. exists k0. split; auto.
        unfold rdok in *. cbn [heap pgs nextp wr gS]. destruct R3 as [[i [R3 R4]]|[A [C [D [E F]]]]].
        -- left. exists i. split; auto. rewrite nth_error_app1; auto. eapply nth_error_Some_lt; eauto.
        -- right. split; auto. split; [|split; [|split]].
           ++ rewrite in_app_iff. intros [|]; auto. eapply D; eauto.
           ++ discriminate.
           ++ rewrite app_length. lia.
           ++ now apply pageok_app.
  - (* APop *)
    destruct (storage_size ps s <? zn n)%Z eqn:Es; [injection H as <-; eauto|].
    destruct (negb (n mod ck =? 0)); [injection H as <-; eauto|]. cbn [orb] in H. injection H as <-.
    exists (B + (start s + n) / ps). split; [|right; eauto]. apply inv_pop; auto. eapply storage_le; eauto.
  - (* ASeek *)
    destruct (storage_size ps s <? zn n)%Z eqn:Es; [injection H as <-; eauto|].
    destruct (negb (n mod ck =? 0)); [injection H as <-; eauto|]. cbn [orb] in H. injection H as <-.
    exists B. split; [|auto]. destruct HI; constructor; cbn [heap pgs nextp start cur tail rd wr gS gbase glog]; auto. lia.
Qed.
End P.
