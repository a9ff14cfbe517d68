From Coq Require Import List Arith Lia Bool Sorting.Sorted.
From Verif Require Import FlatProofs AhoSpec AhoModel.
Import ListNotations.
Set Implicit Arguments.
Local Opaque A.

(** ---- suffixes ---- *)
Definition suf (s w : bytes) : Prop := exists p, w = p ++ s.
Definition psuf (s w : bytes) : Prop := suf s w /\ length s < length w.
Lemma suf_refl w : suf w w. Proof. now exists []. Qed.
Lemma suf_nil w : suf [] w. Proof. exists w. now rewrite app_nil_r. Qed.
Lemma suf_trans a b c : suf a b -> suf b c -> suf a c.
Proof. intros (p&->) (q&->). exists (q ++ p). now rewrite app_assoc. Qed.
Lemma suf_len a b : suf a b -> length a <= length b.
Proof. intros (p&->). rewrite app_length. lia. Qed.
Lemma suf_eq a b : suf a b -> length b <= length a -> a = b.
Proof. intros (p&->). rewrite app_length. destruct p; cbn; [auto|lia]. Qed.
Lemma suf_total a b w : suf a w -> suf b w -> length a <= length b -> suf a b.
Proof.
  intros (p&Hp) (q&Hq) L. subst w. revert q Hq. induction p as [|x p IH]; intros q Hq.
  - cbn in Hq. subst a. rewrite app_length in L. destruct q; [apply suf_refl|cbn in L; lia].
  - destruct q as [|y q]. + cbn in Hq. subst b. exists (x :: p). reflexivity. + cbn in Hq. injection Hq as <- Hq. eauto.
Qed.
Lemma suf_snoc s w c : suf s (w ++ [c]) <-> s = [] \/ exists s', s = s' ++ [c] /\ suf s' w.
Proof.
  split.
  - intros (p&E). destruct s as [|x s] using rev_ind; auto. clear IHs. right. exists s. rewrite app_assoc in E. apply app_inj_tail in E. destruct E as (->&->). split; auto. now exists p.
  - intros [->|(s'&->&(p&->))]; [apply suf_nil|]. exists p. now rewrite app_assoc.
Qed.
Lemma suf_app s w c : suf s w -> suf (s ++ [c]) (w ++ [c]).
Proof. intros (p&->). exists p. now rewrite app_assoc. Qed.

Record trie (nx : nat -> nat -> option nat) (sz : nat) (W : nat -> bytes) : Prop := {
  t_pos : 0 < sz;
  t_root : W 0 = [];
  t_inj : forall n m, n < sz -> m < sz -> W n = W m -> n = m;
  t_next : forall n c m, nx n c = Some m -> n < sz /\ m < sz /\ W m = W n ++ [c] /\ c < A;
  t_par : forall m, m < sz -> m <> 0 -> exists n c, nx n c = Some m;
  t_depth : forall n, n < sz -> length (W n) <= n }.

Section T.
Variables (nx : nat -> nat -> option nat) (sz : nat) (W : nat -> bytes).
Hypothesis T : trie nx sz W.

Lemma W_nil n : n < sz -> W n = [] -> n = 0.
Proof. intros Hn E. apply (t_inj T); auto. apply (t_pos T). now rewrite (t_root T). Qed.
Lemma W_snoc m w c : m < sz -> W m = w ++ [c] -> exists n, n < sz /\ W n = w /\ nx n c = Some m.
Proof.
  intros Hm E. destruct (Nat.eq_dec m 0) as [->|N]. { rewrite (t_root T) in E. destruct w; discriminate. }
  destruct (t_par T Hm N) as (n&c'&Hn). pose proof (t_next T _ _ Hn) as (A1&A2&A3&A4). rewrite E in A3. apply app_inj_tail in A3. destruct A3 as (->&->). eauto.
Qed.
Lemma next_det n c m n' c' : nx n c = Some m -> nx n' c' = Some m -> n = n' /\ c = c'.
Proof.
  intros H H'. apply (t_next T) in H, H'. destruct H as (H1&H2&H3&H4), H' as (H1'&H2'&H3'&H4'). rewrite H3 in H3'. apply app_inj_tail in H3'. destruct H3' as (E&->).
  split; auto. apply (t_inj T); auto.
Qed.
Lemma next_nz n c m : nx n c = Some m -> m <> 0.
Proof. intros H ->. apply (t_next T) in H. destruct H as (_&_&H&_). rewrite (t_root T) in H. destruct (W n); discriminate. Qed.

Definition lsuf (n : nat) (w : bytes) : Prop := n < sz /\ suf (W n) w /\ forall m, m < sz -> suf (W m) w -> suf (W m) (W n).
Definition okf (fl : nat -> option nat) (n : nat) : Prop := exists f, fl n = Some f /\
  (n <> 0 -> f < sz /\ psuf (W f) (W n) /\ forall m, m < sz -> psuf (W m) (W n) -> suf (W m) (W f)).
Lemma okf_ext fl fl' n : fl n = fl' n -> okf fl n -> okf fl' n.
Proof. intros E (f&H1&H2). exists f. rewrite <- E. auto. Qed.

Notation nx' := (root_next nx).
Lemma nx'_root c : c < A -> nx' 0 c = match nx 0 c with Some m => Some m | None => Some 0 end.
Proof. intros H. unfold root_next, upd. rewrite Nat.eqb_refl. apply Nat.ltb_lt in H. now rewrite H. Qed.
Lemma nx'_other n c : n <> 0 -> nx' n c = nx n c.
Proof. intros H. unfold root_next, upd. apply Nat.eqb_neq in H. now rewrite H. Qed.

Lemma lsuf_step n c m : nx n c = Some m -> lsuf m (W n ++ [c]).
Proof.
  intros H. apply (t_next T) in H. destruct H as (H1&H2&H3&H4). split; auto. rewrite H3. split; [apply suf_refl|auto].
Qed.

Lemma go_ok fl c : c < A -> forall fuel n, n < sz -> length (W n) <= fuel -> (forall m, m < sz -> length (W m) <= length (W n) -> okf fl m) ->
  exists r, go fuel nx' fl n c = Some r /\ lsuf r (W n ++ [c]).
Proof.
  intros Hc. induction fuel as [|fuel IH]; intros n Hn L OK.
  - assert (n = 0). { apply W_nil; auto. destruct (W n); auto. cbn in L. lia. } subst n. cbn [go]. rewrite nx'_root by auto. destruct (nx 0 c) as [m|] eqn:E.
    + exists m. split; auto. now apply lsuf_step.
    + exists 0. split; auto. split; auto. split; [rewrite (t_root T); apply suf_nil|]. intros m Hm S. rewrite (t_root T) in S |- *. cbn in S.
      change [c] with ([] ++ [c]) in S. apply suf_snoc in S. destruct S as [->|(s'&E'&S)]; [apply suf_refl|]. exfalso. apply suf_len in S. destruct s'; [|cbn in S; lia].
      destruct (W_snoc _ _ Hm E') as (n&N1&N2&N3). apply W_nil in N2; auto. congruence.
  - cbn [go]. destruct (Nat.eq_dec n 0) as [->|N].
    + rewrite nx'_root by auto. destruct (nx 0 c) as [m|] eqn:E.
      * exists m. split; auto. now apply lsuf_step.
      * exists 0. split; auto. split; auto. split; [rewrite (t_root T); apply suf_nil|]. intros m Hm S. rewrite (t_root T) in S |- *. cbn in S.
        change [c] with ([] ++ [c]) in S. apply suf_snoc in S. destruct S as [->|(s'&E'&S)]; [apply suf_refl|]. exfalso. apply suf_len in S. destruct s'; [|cbn in S; lia].
        destruct (W_snoc _ _ Hm E') as (n&N1&N2&N3). apply W_nil in N2; auto. congruence.
    + rewrite nx'_other by auto. destruct (nx n c) as [m|] eqn:E. { exists m. split; auto. now apply lsuf_step. }
      destruct (OK n Hn (le_n _)) as (f&Ff&F). destruct (F N) as (F1&(F2&F3)&F4). rewrite Ff.
      destruct (IH f) as (r&Hr&(R1&R2&R3)); auto; [lia| |].
      { intros m Hm Lm. apply OK; auto. lia. }
      exists r. split; auto. split; auto. split.
      * eapply suf_trans; [exact R2|]. now apply suf_app.
      * intros m Hm S. apply R3; auto. apply suf_snoc in S. destruct S as [->|(s'&E'&S)]; [apply suf_nil|].
        destruct (W_snoc _ _ Hm E') as (k&K1&K2&K3). rewrite E'. apply suf_app. rewrite <- K2. apply F4; auto. rewrite K2. split; auto.
        destruct (Nat.eq_dec (length s') (length (W n))) as [Q|Q]; [|apply suf_len in S; lia]. exfalso.
        apply suf_eq in S; [|lia]. assert (k = n) by (apply (t_inj T); auto; congruence). congruence.
Qed.

Definition kids (n : nat) (cs : list nat) : list nat := flat_map (fun c => match nx n c with Some m => [m] | None => [] end) cs.
Lemma nodup_app (a b : list nat) : NoDup a -> NoDup b -> (forall x, In x b -> ~ In x a) -> NoDup (a ++ b).
Proof.
  induction a as [|x a IH]; cbn; intros Ha Hb D; auto. inversion Ha; subst. constructor.
  - rewrite in_app_iff. intros [X|X]; auto. apply (D x X). now left.
  - apply IH; auto. intros y Hy X. apply (D y Hy). now right.
Qed.
Lemma in_kids n cs m : In m (kids n cs) <-> exists c, In c cs /\ nx n c = Some m.
Proof.
  unfold kids. rewrite in_flat_map. split; intros (c&Hc&H); exists c; split; auto.
  - destruct (nx n c); [|contradiction]. destruct H as [->|[]]. auto.
  - rewrite H. now left.
Qed.
Lemma kids_nodup n cs : NoDup cs -> NoDup (kids n cs).
Proof.
  induction 1 as [|c cs H ND IH]; cbn; [constructor|]. destruct (nx n c) as [m|] eqn:E; auto. cbn. constructor; auto.
  intros X. apply in_kids in X. destruct X as (c'&Hc'&E'). destruct (next_det E E') as (_&->). contradiction.
Qed.

Lemma child_ok fl n c m f r : n < sz -> n <> 0 -> nx n c = Some m -> fl n = Some f -> okf fl n -> lsuf r (W f ++ [c]) ->
  forall fl', fl' m = Some r -> okf fl' m.
Proof.
  intros Hn N E Ff (f'&Ff'&F) (R1&R2&R3) fl' Em. rewrite Ff in Ff'. injection Ff' as <-. destruct (F N) as (F1&(F2&F3)&F4).
  exists r. split; auto. intros _. destruct (t_next T _ _ E) as (_&Hm&Wm&_). rewrite Wm. split; auto. split.
  - split. + eapply suf_trans; [exact R2|]. now apply suf_app. + apply suf_len in R2. rewrite app_length in *. cbn in *. lia.
  - intros k Hk (S&L). apply R3; auto. apply suf_snoc in S. destruct S as [->|(s'&E'&S)]; [apply suf_nil|].
    destruct (W_snoc _ _ Hk E') as (j&J1&J2&J3). rewrite E'. apply suf_app. rewrite <- J2. apply F4; auto. rewrite J2. split; auto.
    rewrite E', !app_length in L. cbn in L. lia.
Qed.

Lemma visit_ok n : n < sz -> n <> 0 -> forall cs fl q, NoDup cs -> (forall c, In c cs -> c < A) -> (forall m, m < sz -> length (W m) <= length (W n) -> okf fl m) ->
  exists fl', visit nx' sz n cs fl q = Some (fl', q ++ kids n cs) /\ (forall m, In m (kids n cs) -> okf fl' m) /\ (forall m, ~ In m (kids n cs) -> fl' m = fl m).
Proof.
  intros Hn N. induction cs as [|c cs IH]; intros fl q ND CA OK; cbn [visit kids flat_map].
  - exists fl. rewrite app_nil_r. repeat split; auto. contradiction.
  - inversion ND as [|? ? ND1 ND2]; subst. rewrite nx'_other by auto. destruct (nx n c) as [m|] eqn:E.
    2:{ destruct (IH fl q ND2) as (fl'&V1&V2&V3); auto. { intros c' Hc'. apply CA. now right. } exists fl'. repeat split; auto. }
    destruct (OK n Hn (le_n _)) as (f&Ff&F). rewrite Ff. destruct (F N) as (F1&(F2&F3)&F4).
    destruct (@go_ok fl c (CA c (or_introl eq_refl)) sz f F1) as (r&Hr&Lr).
    { pose proof (t_depth T F1). lia. } { intros k Hk Lk. apply OK; auto. lia. }
    rewrite Hr. destruct (t_next T _ _ E) as (_&Hm&Wm&_).
    assert (Up : forall k, k < sz -> length (W k) <= length (W n) -> upd fl m (Some r) k = fl k).
    { intros k Hk Lk. unfold upd. destruct (k =? m) eqn:Q; auto. apply Nat.eqb_eq in Q. subst k. rewrite Wm, app_length in Lk. cbn in Lk. lia. }
    destruct (IH (upd fl m (Some r)) (q ++ [m]) ND2) as (fl'&V1&V2&V3).
    { intros c' Hc'. apply CA. now right. }
    { intros k Hk Lk. eapply okf_ext; [symmetry; apply Up; auto|auto]. }
    exists fl'. rewrite V1, <- app_assoc. split; [reflexivity|].
    assert (Nm : ~ In m (kids n cs)). { intros X. apply in_kids in X. destruct X as (c'&Hc'&E'). destruct (next_det E E') as (_&->). contradiction. }
    split.
    + intros k [<-|Hk]; auto. eapply (@child_ok fl n c m f r); eauto. rewrite V3 by auto. unfold upd. now rewrite Nat.eqb_refl.
    + intros k Hk. rewrite V3 by (intros X; apply Hk; now right). unfold upd. destruct (k =? m) eqn:Q; auto. apply Nat.eqb_eq in Q. subst. exfalso. apply Hk. now left.
Qed.

Record B (fl : nat -> option nat) (P Q : list nat) : Prop := {
  b_nd : NoDup (P ++ Q);
  b_in : forall x, In x (P ++ Q) -> x < sz /\ x <> 0;
  b_kids : forall x c m, x = 0 \/ In x P -> nx x c = Some m -> In m (P ++ Q);
  b_par : forall m, In m (P ++ Q) -> exists x c, (x = 0 \/ In x P) /\ nx x c = Some m;
  b_ok : forall x, x = 0 \/ In x (P ++ Q) -> okf fl x;
  b_lvl : exists d Q1 Q2, Q = Q1 ++ Q2 /\ (forall x, In x Q1 -> length (W x) = d) /\ (forall x, In x Q2 -> length (W x) = S d) }.

Lemma below fl P q Q : B fl P (q :: Q) -> forall d x, x < sz -> length (W x) <= d -> d <= length (W q) -> x = 0 \/ In x (P ++ q :: Q).
Proof.
  intros HB. induction d as [|d IH]; intros x Hx L D.
  - left. apply W_nil; auto. destruct (W x); auto. cbn in L. lia.
  - destruct (Nat.eq_dec x 0) as [|N]; auto. right. destruct (t_par T Hx N) as (p&c&E). destruct (t_next T _ _ E) as (Hp&_&Wx&_).
    apply (@b_kids _ _ _ HB p c); auto. assert (Lp : length (W p) <= d) by (rewrite Wx, app_length in L; cbn in L; lia).
    destruct (IH p Hp Lp ltac:(lia)) as [|Hi]; auto. apply in_app_or in Hi. destruct Hi as [|Hi]; auto. exfalso.
    destruct (b_lvl HB) as (e&Q1&Q2&EQ&L1&L2). assert (length (W q) <= length (W p)); [|lia].
    destruct Q1 as [|q1 Q1]; cbn in EQ.
    + rewrite (L2 q), (L2 p); auto; rewrite <- EQ; auto. now left.
    + injection EQ as -> EQ. rewrite (L1 q1) by now left. destruct Hi as [->|Hi]; [rewrite (L1 p) by (now left); auto|]. rewrite EQ in Hi. apply in_app_or in Hi.
      destruct Hi as [Hi|Hi]; [rewrite (L1 p); auto; now right|rewrite (L2 p); auto].
Qed.

Lemma all_reached fl P : B fl P [] -> forall d x, x < sz -> length (W x) <= d -> x = 0 \/ In x P.
Proof.
  intros HB. induction d as [|d IH]; intros x Hx L.
  - left. apply W_nil; auto. destruct (W x); auto. cbn in L. lia.
  - destruct (Nat.eq_dec x 0) as [|N]; auto. right. destruct (t_par T Hx N) as (p&c&E). destruct (t_next T _ _ E) as (Hp&_&Wx&_).
    rewrite <- (app_nil_r P). apply (@b_kids _ _ _ HB p c); auto. apply IH; auto. rewrite Wx, app_length in L. cbn in L. lia.
Qed.

Lemma alpha c : In c (seq 0 A) <-> c < A. Proof. rewrite in_seq. lia. Qed.

Lemma bfs_ok : forall fuel fl P Q, B fl P Q -> sz - length P <= fuel -> exists fl', bfs fuel nx' sz fl Q = Some fl' /\ forall n, n < sz -> okf fl' n.
Proof.
  induction fuel as [|fuel IH]; intros fl P Q HB L.
  - destruct Q as [|q Q].
    + exists fl. split; auto. intros n Hn. apply (b_ok HB). rewrite app_nil_r. eapply all_reached; eauto.
    + exfalso. assert (length (P ++ q :: Q) <= length (seq 0 sz)). { apply NoDup_incl_length; [apply (b_nd HB)|]. intros x Hx. apply (b_in HB) in Hx. apply in_seq. lia. }
      rewrite app_length, seq_length in H. cbn in H. lia.
  - destruct Q as [|q Q].
    + exists fl. split; auto. intros n Hn. apply (b_ok HB). rewrite app_nil_r. eapply all_reached; eauto.
    + cbn [bfs]. destruct (b_in HB q (in_elt _ _ _)) as (Hq&Nq).
      destruct (@visit_ok q Hq Nq (seq 0 A) fl Q (seq_NoDup _ _)) as (fl'&V1&V2&V3).
      { intros c Hc. now apply alpha. }
      { intros m Hm Lm. apply (b_ok HB). eapply below; eauto. }
      rewrite V1. apply (IH fl' (P ++ [q])).
      2:{ rewrite app_length. cbn. lia. }
      assert (Kin : forall m, In m (kids q (seq 0 A)) <-> exists c, nx q c = Some m).
      { intros m. rewrite in_kids. split; [intros (c&_&E); eauto|]. intros (c&E). exists c. split; auto. apply alpha. apply (t_next T) in E. tauto. }
      assert (Knew : forall m, In m (kids q (seq 0 A)) -> ~ In m (P ++ q :: Q)).
      { intros m Hm X. apply Kin in Hm. destruct Hm as (c&E). apply (b_par HB) in X. destruct X as (x&c'&Hx&E'). destruct (next_det E E') as (->&_).
        destruct Hx as [|Hx]; [congruence|]. pose proof (b_nd HB) as ND. apply NoDup_remove_2 in ND. apply ND. apply in_or_app. auto. }
      assert (Enorm : (P ++ [q]) ++ Q ++ kids q (seq 0 A) = (P ++ q :: Q) ++ kids q (seq 0 A)) by (rewrite <- !app_assoc; reflexivity).
      split.
      * rewrite Enorm. apply nodup_app; [apply (b_nd HB)|apply kids_nodup, seq_NoDup|exact Knew].
      * rewrite Enorm. intros x Hx. apply in_app_or in Hx. destruct Hx as [Hx|Hx]; [now apply (b_in HB)|]. apply Kin in Hx. destruct Hx as (c&E). split; [apply (t_next T) in E; tauto|eapply next_nz; eauto].
      * rewrite Enorm. intros x c m Hx E. apply in_or_app. destruct Hx as [->|Hx]; [left; eapply (b_kids HB); eauto|]. apply in_app_or in Hx. destruct Hx as [Hx|[<-|[]]]; [left; eapply (b_kids HB); eauto|].
        right. apply Kin. eauto.
      * rewrite Enorm. intros m Hm. apply in_app_or in Hm. destruct Hm as [Hm|Hm].
        -- apply (b_par HB) in Hm. destruct Hm as (x&c&Hx&E). exists x, c. split; auto. destruct Hx; auto. right. apply in_or_app. auto.
        -- apply Kin in Hm. destruct Hm as (c&E). exists q, c. split; auto. right. apply in_or_app. right. now left.
      * rewrite Enorm. intros x Hx. assert (D : In x (kids q (seq 0 A)) \/ ~ In x (kids q (seq 0 A))) by (destruct (in_dec Nat.eq_dec x (kids q (seq 0 A))); auto).
        destruct D as [D|D]; auto. eapply okf_ext; [symmetry; apply V3; auto|]. apply (b_ok HB). destruct Hx as [|Hx]; auto. apply in_app_or in Hx. destruct Hx; auto. contradiction.
      * destruct (b_lvl HB) as (d&Q1&Q2&EQ&L1&L2). destruct Q1 as [|q1 Q1]; cbn in EQ.
        -- exists (S d), Q, (kids q (seq 0 A)). split; auto. split. ++ intros x Hx. apply L2. rewrite <- EQ. now right.
           ++ intros x Hx. apply Kin in Hx. destruct Hx as (c&E). apply (t_next T) in E. destruct E as (_&_&->&_). rewrite app_length. cbn. rewrite (L2 q); [lia|]. rewrite <- EQ. now left.
        -- injection EQ as -> ->. exists d, Q1, (Q2 ++ kids q1 (seq 0 A)). rewrite app_assoc. split; auto. split. ++ intros x Hx. apply L1. now right.
           ++ intros x Hx. apply in_app_or in Hx. destruct Hx as [Hx|Hx]; auto. apply Kin in Hx. destruct Hx as (c&E). apply (t_next T) in E. destruct E as (_&_&->&_). rewrite app_length. cbn. rewrite (L1 q1); [lia|]. now left.
Qed.
End T.
