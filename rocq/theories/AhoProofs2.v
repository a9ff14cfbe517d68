From Coq Require Import List Arith Lia Bool Sorting.Sorted.
From Verif Require Import FlatProofs AhoSpec AhoModel AhoProofs.
Import ListNotations.
Set Implicit Arguments.
Local Opaque A.

(** ---- Build ---- *)
Section T.
Variables (nx : nat -> nat -> option nat) (sz : nat) (W : nat -> bytes).
Hypothesis T : trie nx sz W.

Lemma root_queue_kids : root_queue nx = kids nx 0 (seq 0 A).
Proof.
  unfold root_queue, kids. apply flat_map_ext. intros c. destruct (nx 0 c) as [m|] eqn:E; auto. pose proof (next_nz T _ _ E) as N. apply Nat.eqb_neq in N. now rewrite N.
Qed.
Lemma fold_upd l : forall (fl : nat -> option nat) m, fold_left (fun fl m => upd fl m (Some 0)) l fl m = if in_dec Nat.eq_dec m l then Some 0 else fl m.
Proof.
  induction l as [|x l IH]; intros fl m; cbn [fold_left]; auto. rewrite IH. unfold upd. destruct (in_dec Nat.eq_dec m l) as [i|n], (in_dec Nat.eq_dec m (x :: l)) as [i'|n']; auto.
  - exfalso. apply n'. now right.
  - destruct i' as [->|i']; [now rewrite Nat.eqb_refl|contradiction].
  - destruct (m =? x) eqn:E; auto. apply Nat.eqb_eq in E. subst. exfalso. apply n'. now left.
Qed.
Lemma root_kid m : In m (kids nx 0 (seq 0 A)) -> exists c, c < A /\ W m = [c] /\ nx 0 c = Some m /\ m < sz.
Proof.
  intros H. apply in_kids in H. destruct H as (c&Hc&E). exists c. destruct (t_next T _ _ E) as (_&Hm&Wm&Hc'). rewrite (t_root T) in Wm. auto.
Qed.
Lemma init_B fl : B nx sz W (root_fail nx fl) [] (root_queue nx).
Proof.
  rewrite root_queue_kids. split; cbn [app].
  - apply (kids_nodup T). apply seq_NoDup.
  - intros x Hx. destruct (root_kid _ Hx) as (c&_&_&E&L). split; auto. eapply (next_nz T); eauto.
  - intros x c m [->|[]] E. apply in_kids. exists c. split; auto. apply alpha. now destruct (t_next T _ _ E) as (_&_&_&?).
  - intros m Hm. destruct (root_kid _ Hm) as (c&_&_&E&L). eauto.
  - intros x Hx. exists 0. unfold root_fail. rewrite root_queue_kids, fold_upd. destruct (in_dec Nat.eq_dec x (kids nx 0 (seq 0 A))) as [i|n].
    + split; auto. intros _. destruct (root_kid _ i) as (c&_&Wx&_). rewrite Wx, (t_root T). split; [apply (t_pos T)|]. split; [split; [apply suf_nil|cbn; lia]|].
      intros m Hm (S&L). cbn in L. destruct (W m); [apply suf_nil|cbn in L; lia].
    + destruct Hx as [->|]; [|contradiction]. cbn. split; auto. congruence.
  - exists 1, (kids nx 0 (seq 0 A)), []. rewrite app_nil_r. split; auto. split; [|contradiction]. intros x Hx. destruct (root_kid _ Hx) as (c&_&->&_). reflexivity.
Qed.
Lemma build_fail fl : exists fl', bfs sz (root_next nx) sz (root_fail nx fl) (root_queue nx) = Some fl' /\ forall n, n < sz -> okf sz W fl' n.
Proof. apply (@bfs_ok nx sz W T sz _ [] _ (init_B fl)). cbn. lia. Qed.
End T.

(** ---- Add ---- *)
Lemma trie_grow nx sz W n c : trie nx sz W -> n < sz -> c < A -> nx n c = None ->
  trie (upd nx n (upd (nx n) c (Some sz))) (S sz) (fun k => if k =? sz then W n ++ [c] else W k).
Proof.
  intros T Hn Hc E.
  assert (NT : forall m, m < sz -> W m <> W n ++ [c]). { intros m Hm X. destruct (W_snoc T _ _ Hm X) as (k&K1&K2&K3). apply (t_inj T) in K2; auto. congruence. }
  assert (Q : forall m, m < sz -> (m =? sz) = false) by (intros m Hm; apply Nat.eqb_neq; lia).
  split.
  - lia.
  - rewrite Q by apply (t_pos T). apply (t_root T).
  - intros a b Ha Hb. destruct (a =? sz) eqn:Ea, (b =? sz) eqn:Eb; rewrite ?Nat.eqb_eq, ?Nat.eqb_neq in *.
    + intros _. congruence.
    + intros X. exfalso. apply (NT b); [lia|auto].
    + intros X. exfalso. apply (NT a); [lia|auto].
    + intros X. apply (t_inj T); auto; lia.
  - intros a x m H. unfold upd in H. destruct (a =? n) eqn:Ea; [apply Nat.eqb_eq in Ea; subst a|].
    + destruct (x =? c) eqn:Ex; [apply Nat.eqb_eq in Ex; subst x; injection H as <-|].
      * rewrite Nat.eqb_refl, Q by auto. repeat split; auto; lia.
      * apply (t_next T) in H. destruct H as (H1&H2&H3&H4). rewrite !Q by auto. repeat split; auto; lia.
    + apply (t_next T) in H. destruct H as (H1&H2&H3&H4). rewrite !Q by auto. repeat split; auto; lia.
  - intros m Hm N. destruct (Nat.eq_dec m sz) as [->|Nm].
    + exists n, c. unfold upd. now rewrite !Nat.eqb_refl.
    + destruct (@t_par _ _ _ T m ltac:(lia) N) as (a&x&H). exists a, x. unfold upd. destruct (a =? n) eqn:Ea; auto. apply Nat.eqb_eq in Ea. subst a. destruct (x =? c) eqn:Ex; auto. apply Nat.eqb_eq in Ex. congruence.
  - intros a Ha. destruct (a =? sz) eqn:Ea. + apply Nat.eqb_eq in Ea. subst a. rewrite app_length. cbn. pose proof (t_depth T Hn). lia. + apply Nat.eqb_neq in Ea. apply (t_depth T). lia.
Qed.
Lemma add_path_ok p : forall nx sz W n nx' sz' n', is_bytes p -> trie nx sz W -> n < sz -> add_path nx sz n p = (nx', sz', n') ->
  exists W', trie nx' sz' W' /\ (forall k, k < sz -> W' k = W k) /\ sz <= sz' /\ n' < sz' /\ W' n' = W n ++ p.
Proof.
  induction p as [|c p IH]; intros nx sz W n nx' sz' n' HB T Hn H; cbn in H.
  - injection H as <- <- <-. exists W. rewrite app_nil_r. auto.
  - inversion HB as [|? ? Hc HB']; subst. destruct (nx n c) as [m|] eqn:E.
    + pose proof (t_next T _ _ E) as (_&Hm&Wm&_). destruct (IH _ _ W m _ _ _ HB' T Hm H) as (W'&T'&A1&A2&A3&A4). exists W'. rewrite Wm, <- app_assoc in A4. auto.
    + pose proof (trie_grow T Hn Hc E) as T1. destruct (IH _ _ _ sz _ _ _ HB' T1 ltac:(lia) H) as (W'&T'&A1&A2&A3&A4). exists W'. split; auto.
      rewrite Nat.eqb_refl, <- app_assoc in A4. repeat split; auto; try lia. intros k Hk. rewrite A1 by lia. assert (X : (k =? sz) = false) by (apply Nat.eqb_neq; lia). now rewrite X.
Qed.

Record Inv (s : st) (W : nat -> bytes) : Prop := {
  v_trie : trie (next s) (size s) W;
  v_pat : forall n i, n < size s -> pat s n = Some i <-> last_index (patterns s) i (W n);
  v_out : forall n, size s <= n -> pat s n = None;
  v_node : forall p, In p (patterns s) -> exists n, n < size s /\ W n = p }.

Lemma last_snoc ps p i q : last_index (ps ++ [p]) i q <-> (q = p /\ i = length ps) \/ (q <> p /\ last_index ps i q).
Proof.
  unfold last_index. split.
  - intros (H&N). destruct (lt_eq_lt_dec i (length ps)) as [[L|L]|L].
    + right. rewrite nth_error_app1 in H by auto. split.
      * intros ->. apply (N (length ps) L). rewrite nth_error_app2, Nat.sub_diag by lia. reflexivity.
      * split; auto. intros j Lj X. apply (N j Lj). rewrite nth_error_app1; auto. eapply nth_error_Some_lt; eauto.
    + left. subst i. rewrite nth_error_app2, Nat.sub_diag in H by lia. cbn in H. injection H as ->. auto.
    + exfalso. rewrite nth_error_app2 in H by lia. destruct (i - length ps) as [|[|k]] eqn:Q; [lia|discriminate H|destruct k; discriminate H].
  - intros [(->&->)|(N&H&L)].
    + split. * rewrite nth_error_app2, Nat.sub_diag by lia. reflexivity. * intros j Lj X. rewrite nth_error_app2 in X by lia. destruct (j - length ps) as [|[|k]] eqn:Q; [lia|discriminate X|destruct k; discriminate X].
    + split. * rewrite nth_error_app1; auto. eapply nth_error_Some_lt; eauto.
      * intros j Lj X. destruct (le_lt_dec (length ps) j) as [Q|Q].
        -- rewrite nth_error_app2 in X by lia. destruct (j - length ps) as [|k]; [|destruct k; discriminate X]. cbn in X. congruence.
        -- rewrite nth_error_app1 in X by auto. now apply (L j).
Qed.

Lemma init_inv : Inv init (fun _ => []).
Proof.
  split; cbn.
  - split; auto; try discriminate; intros; cbn; lia.
  - intros n i _. split; [discriminate|]. intros (H&_). destruct i; discriminate.
  - auto.
  - contradiction.
Qed.
Lemma add_inv s W p s' i : Inv s W -> is_bytes p -> add s p = Some (s', i) ->
  exists W', Inv s' W' /\ patterns s' = patterns s ++ [p] /\ i = length (patterns s) /\ built s' = false.
Proof.
  intros HI HB H. unfold add in H. destruct (built s); [discriminate|]. destruct (add_path (next s) (size s) 0 p) as ((nx, sz), n) eqn:E. injection H as <- <-.
  destruct (add_path_ok HB (v_trie HI) (t_pos (v_trie HI)) E) as (W'&T'&A1&A2&A3&A4). rewrite (t_root (v_trie HI)) in A4. cbn in A4.
  exists W'. split; auto. split; cbn.
  - exact T'.
  - intros k j Hk. rewrite last_snoc. unfold upd. destruct (k =? n) eqn:Ek.
    + apply Nat.eqb_eq in Ek. subst k. rewrite A4. split. * intros X. injection X as <-. auto. * intros [(_&->)|(X&_)]; [reflexivity|exfalso; now apply X].
    + apply Nat.eqb_neq in Ek. assert (Nw : W' k <> p). { rewrite <- A4. intros X. apply Ek. apply (t_inj T'); auto. }
      destruct (le_lt_dec (size s) k) as [L|L].
      * rewrite (v_out HI) by auto. split; [discriminate|]. intros [(X&_)|(_&X)]; [congruence|]. exfalso. destruct X as (X&_). apply nth_error_In in X. apply (v_node HI) in X. destruct X as (m&Hm&X).
        rewrite <- A1 in X by auto. apply (t_inj T') in X; auto; lia.
      * rewrite A1 in * by auto. rewrite (v_pat HI) by auto. intuition congruence.
  - intros k Hk. unfold upd. destruct (k =? n) eqn:Ek; [apply Nat.eqb_eq in Ek; lia|]. apply (v_out HI). lia.
  - intros q Hq. apply in_app_or in Hq. destruct Hq as [Hq|[<-|[]]]. + apply (v_node HI) in Hq. destruct Hq as (m&Hm&X). exists m. split; [lia|]. now rewrite A1. + exists n. auto.
Qed.
Lemma adds_inv ps : forall s W, Inv s W -> built s = false -> Forall is_bytes ps -> exists s' W', adds s ps = Some s' /\ Inv s' W' /\ patterns s' = patterns s ++ ps /\ built s' = false.
Proof.
  induction ps as [|p ps IH]; intros s W HI Hb F; cbn.
  - exists s, W. rewrite app_nil_r. auto.
  - inversion F as [|? ? F1 F2]; subst. destruct (add s p) as [(s1, i)|] eqn:E.
    + destruct (add_inv HI F1 E) as (W1&I1&P1&_&B1). destruct (IH s1 W1 I1 B1 F2) as (s2&W2&S2&I2&P2&B2). exists s2, W2. rewrite P2, P1, <- app_assoc. auto.
    + unfold add in E. rewrite Hb in E. destruct (add_path _ _ _ _) as ((?, ?), ?). discriminate.
Qed.

(** ---- the automaton ---- *)
Record Aut (s : st) (nx : nat -> nat -> option nat) (W : nat -> bytes) : Prop := {
  a_trie : trie nx (size s) W;
  a_next : next s = root_next nx;
  a_fail : forall n, n < size s -> okf (size s) W (fail s) n;
  a_pat : forall n i, n < size s -> pat s n = Some i <-> last_index (patterns s) i (W n);
  a_node : forall p, In p (patterns s) -> exists n, n < size s /\ W n = p;
  a_built : built s = true }.
Lemma compile_ok ps : Forall is_bytes ps -> exists s nx W, compile ps = Some s /\ Aut s nx W /\ patterns s = ps.
Proof.
  intros F. destruct (@adds_inv ps init (fun _ => []) init_inv eq_refl F) as (s&W&E&HI&HP&HB). unfold compile. rewrite E. unfold build. rewrite HB.
  destruct (build_fail (v_trie HI) (fail s)) as (fl&Hf&OK). rewrite Hf. eexists _, (next s), W. split; [reflexivity|]. split; [|exact HP].
  split; cbn; auto; apply HI.
Qed.

Section Search.
Variables (s : st) (nx : nat -> nat -> option nat) (W : nat -> bytes).
Hypothesis HA : Aut s nx W.
Notation sz := (size s).
Definition shorter (x y : bytes * nat * nat) : Prop := length (fst (fst y)) < length (fst (fst x)).
Definition hit (off n : nat) (x : bytes * nat * nat) : Prop :=
  exists m i, m < sz /\ m <> 0 /\ suf (W m) (W n) /\ pat s m = Some i /\ x = (W m, i, 1 + off - length (W m)).

Lemma report_ok off : forall fuel n, n < sz -> length (W n) <= fuel ->
  exists r, report fuel s off n = Some r /\ (forall x, In x r <-> hit off n x) /\ StronglySorted shorter r.
Proof.
  pose proof (a_trie HA) as T.
  assert (Z : forall off x, ~ hit off 0 x). { intros o x (m&i&Hm&N&S&_). rewrite (t_root T) in S. apply suf_len in S. apply N. apply (W_nil T); auto. destruct (W m); auto. cbn in S. lia. }
  induction fuel as [|fuel IH]; intros n Hn L.
  - assert (n = 0). { apply (W_nil T); auto. destruct (W n); auto. cbn in L. lia. } subst n. exists []. split; auto. split; [|constructor]. intros x. split; [contradiction|]. intros X. exfalso. eapply Z; eauto.
  - cbn [report]. destruct (n =? 0) eqn:E0.
    { apply Nat.eqb_eq in E0. subst n. exists []. split; auto. split; [|constructor]. intros x. split; [contradiction|]. intros X. exfalso. eapply Z; eauto. }
    apply Nat.eqb_neq in E0. destruct (a_fail HA Hn) as (f&Ff&F). destruct (F E0) as (F1&(F2&F3)&F4). rewrite Ff.
    destruct (IH f F1 ltac:(lia)) as (r&Hr&R1&R2). rewrite Hr.
    assert (Sp : forall x, hit off n x <-> (exists i, pat s n = Some i /\ x = (W n, i, 1 + off - length (W n))) \/ hit off f x).
    { intros x. split.
      - intros (m&i&Hm&N&S&Pm&X). destruct (Nat.eq_dec (length (W m)) (length (W n))) as [Q|Q].
        + apply suf_eq in S; [|lia]. apply (t_inj T) in S; auto. subst m. left. eauto.
        + right. exists m, i. repeat split; auto. apply F4; auto. split; auto. apply suf_len in S. lia.
      - intros [(i&Pi&X)|(m&i&Hm&N&S&Pm&X)].
        + exists n, i. repeat split; auto. apply suf_refl.
        + exists m, i. repeat split; auto. eapply suf_trans; eauto. }
    destruct (pat s n) as [i|] eqn:Pn.
    + pose proof Pn as Pn'. apply (a_pat HA) in Pn'; auto. destruct Pn' as (Pn'&_). change (@nth_error bytes (patterns s) i = Some (W n)) in Pn'. rewrite Pn'. eexists. split; [reflexivity|]. split.
      * intros x. rewrite Sp. cbn [app In]. rewrite R1. split. -- intros [<-|H]; eauto. -- intros [(j&Hj&->)|H]; auto. injection Hj as ->. auto.
      * cbn [app]. constructor; auto. apply Forall_forall. intros y Hy. apply R1 in Hy. destruct Hy as (m&j&_&_&S&_&->). unfold shorter. cbn. apply suf_len in S. lia.
    + eexists. split; [reflexivity|]. split; auto. intros x. rewrite Sp, R1. split; auto. intros [(j&Hj&_)|H]; auto. discriminate.
Qed.

(** everything reported for the rest of the text when [t] has been read *)
Definition found (t text : bytes) (x : bytes * nat * nat) : Prop :=
  exists k m i, 1 <= k <= length text /\ m < sz /\ m <> 0 /\ suf (W m) (t ++ firstn k text) /\ pat s m = Some i /\ x = (W m, i, length t + k - length (W m)).
Lemma search_ok text : forall t n, is_bytes text -> lsuf sz W n t ->
  exists out, search_from s n (length t) text = Some out /\ (forall x, In x out <-> found t text x) /\ StronglySorted earlier out.
Proof.
  pose proof (a_trie HA) as T. induction text as [|c text IH]; intros t n HB (Hn&S1&S2).
  - exists []. split; auto. split; [|constructor]. intros x. split; [contradiction|]. intros (k&m&i&Hk&_). cbn in Hk. lia.
  - inversion HB as [|? ? Hc HB']; subst. cbn [search_from]. rewrite (a_next HA).
    destruct (@go_ok nx sz W T (fail s) c Hc sz n Hn) as (r&Hr&(R1&R2&R3)).
    { pose proof (t_depth T Hn). lia. } { intros m Hm _. now apply (a_fail HA). }
    rewrite Hr. assert (Lr : lsuf sz W r (t ++ [c])).
    { split; auto. split; [eapply suf_trans; [exact R2|now apply suf_app]|]. intros m Hm S. apply R3; auto. apply suf_snoc in S. destruct S as [->|(s'&E'&S)]; [apply suf_nil|].
      destruct (W_snoc T _ _ Hm E') as (k&K1&K2&K3). rewrite E'. apply suf_app. rewrite <- K2 in *. auto. }
    destruct (@report_ok (length t) sz r R1) as (a&Ha&A1&A2). { pose proof (t_depth T R1). lia. }
    rewrite Ha. destruct (IH (t ++ [c]) r HB' Lr) as (b&Hb&B1&B2). rewrite app_length in Hb. cbn in Hb. replace (length t + 1) with (S (length t)) in Hb by lia. rewrite Hb.
    exists (a ++ b). split; auto.
    assert (H1 : forall x, hit (length t) r x <-> exists m i, m < sz /\ m <> 0 /\ suf (W m) (t ++ [c]) /\ pat s m = Some i /\ x = (W m, i, length t + 1 - length (W m))).
    { intros x. destruct Lr as (_&L2&L3). split; intros (m&i&Hm&N&S&Pm&->); exists m, i; repeat split; auto.
      - eapply suf_trans; eauto.
      - f_equal. lia.
      - f_equal. lia. }
    split.
    + intros x. rewrite in_app_iff, A1, B1, H1. split.
      * intros [(m&i&Hm&N&S&Pm&->)|(k&m&i&Hk&Hm&N&S&Pm&->)].
        -- exists 1, m, i. cbn. repeat split; auto. lia.
        -- exists (Datatypes.S k), m, i. cbn. rewrite <- app_assoc in S. cbn in S. repeat split; auto; try lia. f_equal. rewrite app_length. cbn. lia.
      * intros (k&m&i&Hk&Hm&N&S&Pm&->). destruct k as [|[|k]]; [lia| |].
        -- left. exists m, i. cbn in S. repeat split; auto.
        -- right. exists (Datatypes.S k), m, i. cbn in Hk. change (t ++ firstn (Datatypes.S (Datatypes.S k)) (c :: text)) with (t ++ [c] ++ firstn (Datatypes.S k) text) in S. rewrite app_assoc in S. repeat split; auto; try lia.
           f_equal. rewrite app_length. cbn. lia.
    + apply SS_app. split; [|split; auto].
      * assert (E1 : forall x, In x a -> snd x + length (fst (fst x)) = S (length t)).
        { intros x Hx. apply A1, H1 in Hx. destruct Hx as (m&i&_&_&S&_&->). cbn. apply suf_len in S. rewrite app_length in S. cbn in S. lia. }
        clear - A2 E1. induction A2 as [|x l SS IH F]; constructor.
        -- apply IH. intros; apply E1; now right.
        -- rewrite Forall_forall in *. intros y Hy. specialize (F y Hy). pose proof (E1 x (or_introl eq_refl)). pose proof (E1 y (or_intror Hy)). destruct x as ((p,i),u), y as ((q,j),v). unfold shorter in F. cbn in *. right. lia.
      * intros x y Hx Hy. apply A1, H1 in Hx. apply B1 in Hy. destruct Hx as (m&i&_&_&S&_&->), Hy as (k&m'&i'&Hk&_&_&S'&_&->). cbn. left.
        apply suf_len in S, S'. rewrite !app_length in *. rewrite firstn_length in S'. cbn in S, S'. cbn. lia.
Qed.
End Search.
