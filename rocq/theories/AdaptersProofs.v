(** Proofs about the data source adapters. *)
From Verif Require Import Base AdaptersModel AdaptersSpec.

Arguments p_bound {S C}. Arguments p_sticky {S C}. Arguments p_sticky_eod {S C}.
Arguments h_proper {S C out eods}. Arguments h_proc {S C out eods}. Arguments h_eod {S C out eods}.

Lemma skipn_skipn' {A} (a b : nat) (l : list A) : skipn a (skipn b l) = skipn (b + a) l.
Proof. revert l. induction b; intros [ | x l]; cbn [skipn Nat.add]; auto. destruct a; reflexivity. Qed.

Lemma firstn_skipn_app {A} (a b : nat) (l : list A) : firstn (a + b) l = firstn a l ++ firstn b (skipn a l).
Proof. revert l. induction a; intros [ | x l]; cbn; auto. - destruct b; reflexivity. - f_equal. apply IHa. Qed.

Lemma firstn_add_skipn {A} (a b : nat) (l : list A) : firstn b (skipn a l) = skipn a (firstn (a + b) l).
Proof. apply (firstn_skipn_comm b a l). Qed.

(** * fed *)
Lemma fed_trans {S} (C : Consumer S) s r s1 r1 e1 s2 r2 e2 :
  fed C s r s1 r1 e1 -> fed C s1 r1 s2 r2 e2 -> fed C s r s2 r2 (e1 + e2).
Proof.
  intros H. revert s2 r2 e2. induction H; intros s2 r2 e2 H2; cbn [Nat.add].
  - exact H2.
  - eapply fed_proc; [eassumption | ]. apply IHfed. exact H2.
  - apply fed_eod. apply IHfed. exact H2.
Qed.

Lemma fed_sticky {S} (C : Consumer S) s r s' r' e : proper C -> fed C s r s' r' e -> c_tok C s' = true -> c_tok C s = true.
Proof.
  intros P H. induction H; intros T; auto.
  - eapply (p_sticky P); [eassumption | auto].
  - apply (p_sticky_eod P). auto.
Qed.

(** What has been taken is the front, the rest is left. *)
Lemma fed_split {S} (C : Consumer S) s r s' r' e : proper C -> fed C s r s' r' e ->
  exists t, r = t ++ r' /\ (0 < e -> r' = []).
Proof.
  intros P H. induction H.
  - exists []. split; [reflexivity | lia].
  - destruct IHfed as (t & E & N). exists (firstn k r ++ t). split; [ | exact N].
    rewrite <- app_assoc, <- E. symmetry. apply firstn_skipn.
  - destruct IHfed as (t & E & N). exists []. symmetry in E. apply app_eq_nil in E. destruct E as [_ ->]. auto.
Qed.

Lemma fed_honest {S} (C : Consumer S) out eods : honest C out eods ->
  forall s r s' r' e, fed C s r s' r' e ->
  exists t, r = t ++ r' /\ out s' = out s ++ t /\ eods s' = e + eods s /\ (0 < e -> r' = []).
Proof.
  intros Hh s r s' r' e H. induction H.
  - exists []. rewrite app_nil_r. repeat split; auto. lia.
  - destruct IHfed as (t & E & O & D & N). destruct (h_proc Hh _ _ _ _ H) as [Ho He].
    pose proof (p_bound (h_proper Hh) _ _ _ _ H) as B. rewrite firstn_length in B.
    exists (firstn k r ++ t). split.
    { rewrite <- app_assoc, <- E. symmetry. apply firstn_skipn. }
    split.
    { rewrite O, Ho. rewrite firstn_firstn. rewrite <- app_assoc. repeat f_equal. lia. }
    split; [lia | exact N].
  - destruct IHfed as (t & E & O & D & N). destruct (h_eod Hh s) as [Ho He].
    exists t. split; [exact E | ]. split; [congruence | ]. split; [lia | ].
    intros _. symmetry in E. apply app_eq_nil in E. tauto.
Qed.

(** * ConsumeAll *)
Lemma consume_all_fed {S} (C : Consumer S) : proper C -> forall F s d off s' n,
  consume_all F C s d off = Ok (s', n) -> off <= length d ->
  forall tail, off <= n <= length d /\ fed C s (skipn off d ++ tail) s' (skipn n d ++ tail) 0 /\
    (n = length d \/ c_tok C s' = false) /\ (c_tok C s' = true -> c_tok C s = true).
Proof.
  intros P. induction F; intros s d off s' n H B tail; [discriminate | ].
  cbn [consume_all] in H. destruct (c_tok C s) eqn:T; cbn [andb] in H.
  - destruct (Nat.ltb_spec off (length d)).
    + destruct (c_proc C s (skipn off d)) as [[s1 k] | | ] eqn:E; try discriminate.
      pose proof (p_bound P _ _ _ _ E) as Bk. rewrite skipn_length in Bk.
      destruct (IHF s1 d (off + k) s' n H ltac:(lia) tail) as (B' & Fd & R & St).
      split; [lia | ]. split; [ | split; [exact R | auto]].
      apply fed_proc with (n := length (skipn off d)) (s1 := s1) (k := k).
      * rewrite firstn_app, firstn_all, Nat.sub_diag. cbn [firstn]. rewrite app_nil_r. exact E.
      * rewrite skipn_app. replace (k - length (skipn off d)) with 0 by (rewrite skipn_length; lia).
        cbn [skipn]. rewrite skipn_skipn'. exact Fd.
    + injection H as <- <-. split; [lia | ]. split; [apply fed_nil | ]. split; [left; lia | auto].
  - injection H as <- <-. split; [lia | ]. split; [apply fed_nil | ]. split; [right; exact T | congruence].
Qed.

(** It ends if every call takes something. *)
Lemma consume_all_ends {S} (C : Consumer S) :
  (forall s d, d <> [] -> exists s' k, c_proc C s d = Ok (s', k) /\ 0 < k) ->
  forall F s d off, length d < F + off -> F <> 0 -> consume_all F C s d off <> Hang /\ consume_all F C s d off <> Thr.
Proof.
  intros Pr. induction F; intros s d off H N; [lia | ].
  cbn [consume_all]. destruct (c_tok C s); cbn [andb]; [ | split; discriminate].
  destruct (Nat.ltb_spec off (length d)); [ | split; discriminate].
  destruct (Pr s (skipn off d)) as (s1 & k & E & Hk).
  { intros X. apply f_equal with (f := @length byte) in X. rewrite skipn_length in X. cbn in X. lia. }
  rewrite E. apply IHF; lia.
Qed.

(** * Adapters of consumers are proper *)
Lemma taking_proper {S} (C : Consumer S) dis : proper C -> proper (taking C dis).
Proof.
  intros P. constructor.
  - intros [l s] d [l' s'] k H. cbn [taking c_proc] in H.
    destruct (Nat.min l (length d) =? 0).
    + injection H as _ _ <-. destruct dis; lia.
    + destruct (c_proc C s (firstn (Nat.min l (length d)) d)) as [[s1 k1] | | ] eqn:E; try discriminate.
      injection H as _ _ <-. apply (p_bound P) in E. rewrite firstn_length in E. lia.
  - intros [l s] d [l' s'] k H T. cbn [taking c_proc c_tok snd] in *.
    destruct (Nat.min l (length d) =? 0).
    + injection H as _ <- _. exact T.
    + destruct (c_proc C s (firstn (Nat.min l (length d)) d)) as [[s1 k1] | | ] eqn:E; try discriminate.
      injection H as _ <- _. eapply (p_sticky P); eauto.
  - intros [l s] T. cbn [taking c_eod c_tok snd] in *. apply (p_sticky_eod P). exact T.
Qed.

Lemma skipping_proper {S} (C : Consumer S) F pr : proper C -> proper (skipping F C pr).
Proof.
  intros P. constructor.
  - intros [l s] d [l' s'] k H. cbn [skipping c_proc] in H.
    destruct ((Nat.min l (length d) <? length d) && pr).
    + destruct (consume_all F C s (skipn (Nat.min l (length d)) d) 0) as [[s1 k1] | | ]; try discriminate.
      injection H as _ _ <-. lia.
    + injection H as _ _ <-. destruct pr; lia.
  - intros [l s] d [l' s'] k H T. cbn [skipping c_proc c_tok snd] in *.
    destruct ((Nat.min l (length d) <? length d) && pr).
    + destruct (consume_all F C s (skipn (Nat.min l (length d)) d) 0) as [[s1 k1] | | ] eqn:E; try discriminate.
      injection H as _ <- _. apply (consume_all_fed C P) with (tail := []) in E; [ | lia]. tauto.
    + injection H as _ <- _. exact T.
  - intros [l s] T. cbn [skipping c_eod c_tok snd] in *. apply (p_sticky_eod P). exact T.
Qed.

Lemma align_down_le n a : align_down n a <= n.
Proof. unfold align_down. destruct a; [cbn; lia | ]. apply Nat.mul_div_le. lia. Qed.

Lemma aligning_proper {S} (C : Consumer S) F a ub : proper C -> proper (aligning F a ub C).
Proof.
  intros P. constructor.
  - intros [b s] d [b' s'] k H. cbn [aligning c_proc] in H.
    destruct (length b =? 0).
    + destruct (consume_all F C s (firstn (align_down (length d) a) d) 0) as [[s1 k1] | | ] eqn:E; try discriminate.
      apply (consume_all_fed C P) with (tail := []) in E; [ | lia]. destruct E as (B & _). rewrite firstn_length in B.
      destruct (ub && c_tok C s1 && negb (length d - k1 =? 0)); injection H as _ _ <-; lia.
    + destruct (length (b ++ firstn (Nat.min (a - length b) (length d)) d) =? a).
      * destruct (consume_all F C s (b ++ firstn (Nat.min (a - length b) (length d)) d) 0) as [[s1 k1] | | ]; try discriminate.
        injection H as _ _ <-. lia.
      * injection H as _ _ <-. lia.
  - intros [b s] d [b' s'] k H T. cbn [aligning c_proc c_tok snd] in *.
    destruct (length b =? 0).
    + destruct (consume_all F C s (firstn (align_down (length d) a) d) 0) as [[s1 k1] | | ] eqn:E; try discriminate.
      apply (consume_all_fed C P) with (tail := []) in E; [ | lia].
      destruct (ub && c_tok C s1 && negb (length d - k1 =? 0)); injection H as _ <- _; tauto.
    + destruct (length (b ++ firstn (Nat.min (a - length b) (length d)) d) =? a).
      * destruct (consume_all F C s (b ++ firstn (Nat.min (a - length b) (length d)) d) 0) as [[s1 k1] | | ] eqn:E; try discriminate.
        injection H as _ <- _. apply (consume_all_fed C P) with (tail := []) in E; [ | lia]. tauto.
      * injection H as _ <- _. exact T.
  - intros [b s] T. cbn [aligning c_eod c_tok snd] in *. apply (p_sticky_eod P). exact T.
Qed.

Lemma reactive_proper {S} (C : Consumer S) : proper C -> proper (reactive_consumer C).
Proof.
  intros P. constructor.
  - intros [b s] d [b' s'] k H. cbn [reactive_consumer c_proc fst snd] in H.
    destruct (c_proc C s d) as [[s1 k1] | | ] eqn:E; try discriminate. injection H as _ _ <-. eapply (p_bound P); eauto.
  - intros [b s] d [b' s'] k H T. cbn [reactive_consumer c_proc c_tok fst snd] in *.
    destruct (c_proc C s d) as [[s1 k1] | | ] eqn:E; try discriminate. injection H as _ <- _. eapply (p_sticky P); eauto.
  - intros [b s] T. cbn [reactive_consumer c_eod c_tok snd] in *. apply (p_sticky_eod P). exact T.
Qed.

(** * Feeding an adapter feeds the consumer behind it *)

Lemma fed_taking {S} (C : Consumer S) : proper C -> forall ls r ls' r' e,
  fed (taking C false) ls r ls' r' e ->
  fed C (snd ls) (firstn (fst ls) r) (snd ls') (firstn (fst ls') r') e /\
  (e = 0 -> fst ls = (length r - length r') + fst ls') /\ (0 < e -> fst ls' = 0).
Proof.
  intros P ls r ls' r' e H. induction H.
  - split; [apply fed_nil | ]. split; [lia | lia].
  - destruct s as [l s]. destruct s1 as [l1 s1]. destruct s' as [l' s']. cbn [taking c_proc] in H. cbn [fst snd] in *.
    set (size := Nat.min l (length (firstn n r))) in *.
    destruct (Nat.eqb_spec size 0) as [Z | NZ].
    + injection H as <- <- <-. cbn [skipn] in *. exact IHfed.
    + destruct (c_proc C s (firstn size (firstn n r))) as [[s2 k2] | | ] eqn:E; try discriminate.
      injection H as <- <- <-. pose proof (p_bound P _ _ _ _ E) as Bk. rewrite firstn_length in Bk.
      rewrite firstn_firstn in E. assert (Hs : size <= l) by (unfold size; lia).
      assert (Hn : k2 <= length r) by (rewrite firstn_length in Bk; lia).
      destruct IHfed as (Fd & A & B).
      split; [ | split].
      * apply fed_proc with (n := Nat.min size n) (s1 := s2) (k := k2).
        { rewrite firstn_firstn. replace (Nat.min (Nat.min size n) l) with (Nat.min size n) by lia. exact E. }
        { rewrite skipn_firstn_comm. exact Fd. }
      * intros E0. specialize (A E0). rewrite skipn_length in A.
        destruct (fed_split _ _ _ _ _ _ (taking_proper C false P) H0) as (t & Et & _).
        apply f_equal with (f := @length byte) in Et. rewrite skipn_length, app_length in Et. lia.
      * exact B.
  - destruct s as [l s]. cbn [taking c_eod fst snd] in *. destruct IHfed as (Fd & A & B).
    rewrite firstn_nil. cbn [firstn] in Fd. split; [apply fed_eod; exact Fd | ]. split; [lia | ].
    intros _. destruct e; [ | apply B; lia]. specialize (A eq_refl). lia.
Qed.

Lemma fed_reactive {S} (C : Consumer S) fs r fs' r' e :
  fed (reactive_consumer C) fs r fs' r' e ->
  fed C (snd fs) r (snd fs') r' e /\ (e = 0 -> fst fs' = fst fs) /\ (0 < e -> fst fs' = true).
Proof.
  intros H. induction H.
  - split; [apply fed_nil | ]. split; [auto | lia].
  - destruct s as [f s]. destruct s1 as [f1 s1]. cbn [reactive_consumer c_proc fst snd] in *.
    destruct (c_proc C s (firstn n r)) as [[s2 k2] | | ] eqn:E; try discriminate. injection H as <- <- <-.
    destruct IHfed as (Fd & A). split; [ | exact A]. eapply fed_proc; eauto.
  - destruct s as [f s]. cbn [reactive_consumer c_eod fst snd] in *. destruct IHfed as (Fd & A & B).
    split; [apply fed_eod; exact Fd | ]. split; [lia | ]. intros _. destruct e; [auto | apply B; lia].
Qed.

Lemma fed_skipping {S} (C : Consumer S) F : proper C -> forall ls r ls' r' e,
  fed (skipping F C true) ls r ls' r' e -> c_tok C (snd ls') = true ->
  fed C (snd ls) (skipn (fst ls) r) (snd ls') (skipn (fst ls') r') e.
Proof.
  intros P ls r ls' r' e H. induction H; intros T.
  - apply fed_nil.
  - pose proof (fed_sticky _ _ _ _ _ _ (skipping_proper C F true P) H0 T) as T1.
    specialize (IHfed T).
    destruct s as [l s]. destruct s1 as [l1 s1]. destruct s' as [l' s']. cbn [skipping c_proc c_tok] in H, T1. cbn [fst snd] in *.
    rewrite firstn_length in H.
    set (m := Nat.min n (length r)) in *.
    assert (Ed : firstn n r = firstn m r).
    { unfold m. destruct (Nat.le_ge_cases n (length r)); [f_equal; lia | ]. rewrite !firstn_all2 by lia. reflexivity. }
    rewrite Ed in H. clear Ed.
    set (sk := Nat.min l m) in *. rewrite andb_true_r in H.
    destruct (Nat.ltb_spec sk m).
    + destruct (consume_all F C s (skipn sk (firstn m r)) 0) as [[s2 k2] | | ] eqn:E; try discriminate.
      injection H as <- <- <-. assert (Esl : sk = l) by (unfold sk in *; lia).
      apply (consume_all_fed C P) with (tail := skipn m r) in E; [ | lia]. destruct E as (B & Fd & R & _).
      destruct R as [R | R]; [ | congruence]. rewrite R, skipn_all in Fd. cbn [skipn app] in Fd.
      replace (skipn l r) with (skipn sk (firstn m r) ++ skipn m r).
      2:{ rewrite Esl. rewrite <- (firstn_skipn m r) at 3. rewrite skipn_app. f_equal.
          replace (l - length (firstn m r)) with 0; [reflexivity | ]. rewrite firstn_length. lia. }
      replace (l - sk) with 0 in IHfed by lia. cbn [skipn] in IHfed.
      change e with (0 + e). eapply fed_trans; [exact Fd | exact IHfed].
    + assert (Esk : sk = m) by (unfold sk in *; lia). injection H as <- <- <-.
      rewrite skipn_skipn' in IHfed. rewrite Esk in IHfed. replace (m + (l - m)) with l in IHfed by (unfold sk in *; lia). exact IHfed.
  - destruct s as [l s]. cbn [skipping c_eod fst snd] in *. rewrite skipn_nil. apply fed_eod. apply IHfed. exact T.
Qed.

(** Skipping without processing the rest only skips. *)
Lemma fed_skipping_only {S} (C : Consumer S) F : proper C -> forall ls r ls' r' e,
  fed (skipping F C false) ls r ls' r' e ->
  exists t, r = t ++ r' /\ (e = 0 -> snd ls' = snd ls /\ fst ls = length t + fst ls').
Proof.
  intros P ls r ls' r' e H. induction H.
  - exists []. split; [reflexivity | ]. intros _. split; [reflexivity | cbn; lia].
  - destruct s as [l s]. destruct s1 as [l1 s1]. cbn [skipping c_proc] in H. rewrite andb_false_r in H.
    injection H as <- <- <-. destruct IHfed as (t & Et & A). cbn [fst snd] in *.
    set (sk := Nat.min l (length (firstn n r))) in *.
    exists (firstn sk r ++ t). split; [rewrite <- app_assoc, <- Et; symmetry; apply firstn_skipn | ].
    intros E0. destruct (A E0) as [A1 A2]. split; [exact A1 | ]. rewrite app_length, firstn_length.
    unfold sk in *. rewrite firstn_length in *. lia.
  - destruct IHfed as (t & Et & A). exists []. symmetry in Et. apply app_eq_nil in Et. destruct Et as [_ ->].
    split; [reflexivity | lia].
Qed.

(** * Sources *)
Lemma byte_array_lossless : lossless byte_array_source (fun x => x).
Proof.
  intros S C P x s x' s' H. cbn [byte_array_source s_read] in H. destruct x as [ | b x].
  - injection H as <- <-. exists 1. split; [lia | ]. apply fed_eod. apply fed_nil.
  - destruct (c_proc C s (b :: x)) as [[s1 k] | | ] eqn:E; try discriminate. injection H as <- <-.
    exists 0. split; [lia | ]. apply fed_proc with (n := length (b :: x)) (s1 := s1) (k := k).
    + rewrite firstn_all. exact E.
    + apply fed_nil.
Qed.

Lemma lossless_weaken Sr rest : lossless Sr rest -> lossless_unless_cancelled Sr rest.
Proof. intros L S C P x s x' s' H _. eapply L; eauto. Qed.

Lemma stream_lossless F cap : cap <> 0 -> lossless_unless_cancelled (stream_source F cap) (fun x => fst x).
Proof.
  intros Hc S C P [rem o] s [rem' o'] s' H T. cbn [stream_source s_read] in H. cbv zeta in H. cbn [fst].
  set (n := read_size (c_tok C s) o cap (length rem)) in *.
  destruct (Nat.eqb_spec n 0) as [Z | NZ]; cbn [negb] in H.
  - destruct (c_tok C s) eqn:Ts.
    + injection H as <- <- <-. unfold n, read_size in Z. rewrite andb_false_r in Z.
      assert (rem = []) by (destruct rem; [reflexivity | cbn [length] in Z; lia]). subst rem.
      exists 1. split; [lia | ]. rewrite skipn_nil. apply fed_eod. apply fed_nil.
    + injection H as <- <- <-. congruence.
  - destruct (consume_all F C s (firstn n rem) 0) as [[s1 k] | | ] eqn:E; try discriminate. injection H as <- <- <-.
    apply (consume_all_fed C P) with (tail := skipn n rem) in E; [ | lia]. destruct E as (B & Fd & R & _).
    destruct R as [R | R]; [ | congruence]. rewrite R, skipn_all in Fd. cbn [skipn app] in Fd.
    rewrite firstn_skipn in Fd. exists 0. split; [lia | exact Fd].
Qed.

Lemma mediator_lossless F S (C : Consumer S) m s m' s' : proper C ->
  s_read (mediator F) S C m s = Ok (m', s') -> c_tok C s' = true ->
  fed C s (fst m) s' [] (if snd m then 1 else 0) /\ m' = ([], false).
Proof.
  intros P H T. cbn [mediator s_read] in H. destruct m as [buf e]. cbn [fst snd] in *.
  destruct (consume_all F C s buf 0) as [[s1 k] | | ] eqn:E; try discriminate. injection H as <- <-.
  assert (T1 : c_tok C s1 = true) by (destruct e; [apply (p_sticky_eod P) | ]; exact T).
  apply (consume_all_fed C P) with (tail := []) in E; [ | lia]. destruct E as (_ & Fd & R & _).
  destruct R as [R | R]; [ | congruence]. rewrite R, skipn_all, !app_nil_r in Fd. cbn [skipn] in Fd.
  split; [ | reflexivity]. destruct e; [ | exact Fd].
  change 1 with (0 + 1). eapply fed_trans; [exact Fd | ]. apply fed_eod. apply fed_nil.
Qed.

Lemma fed_taking_bound {S} (C : Consumer S) : proper C -> forall ls r ls' r' e,
  fed (taking C false) ls r ls' r' e -> length r - length r' <= fst ls.
Proof.
  intros P ls0 r ls0' r' e H. induction H; [lia | | ].
  - destruct s as [l s]. destruct s1 as [l1 s1]. cbn [taking c_proc] in H. cbn [fst] in *.
    destruct (Nat.min l (length (firstn n r)) =? 0).
    + injection H as <- <- <-. cbn [skipn] in *. exact IHfed.
    + destruct (c_proc C s (firstn (Nat.min l (length (firstn n r))) (firstn n r))) as [[s2 k2] | | ] eqn:E; try discriminate.
      injection H as <- <- <-. apply (p_bound P) in E. rewrite !firstn_length in E. rewrite skipn_length in IHfed. lia.
  - destruct (fed_split _ _ _ _ _ _ (taking_proper C false P) H) as (t & Et & _).
    symmetry in Et. apply app_eq_nil in Et. destruct Et as [_ ->]. cbn. lia.
Qed.

Lemma taker_loop_stops F Sr S (C : Consumer S) dis x ls x' ls' :
  taker_loop F Sr C dis x ls = Ok (x', ls') -> fst ls = 0 \/ c_tok C (snd ls) = false -> x' = x /\ ls' = ls.
Proof.
  intros H D. destruct F; [discriminate | ]. cbn [taker_loop] in H.
  destruct D as [D | D]; rewrite D in H; cbn [Nat.eqb negb andb] in H; rewrite ?andb_false_r in H; injection H as <- <-; auto.
Qed.

Lemma taker_loop_fed Sr rest : lossless_unless_cancelled Sr rest -> forall S (C : Consumer S), proper C ->
  forall F x ls x' ls', taker_loop F Sr C false x ls = Ok (x', ls') -> c_tok C (snd ls') = true ->
  fst ls' = 0 /\
  (exists e, e <= 1 /\ fed C (snd ls) (firstn (fst ls) (rest x)) (snd ls') [] e /\ (0 < e -> length (rest x) <= fst ls)) /\
  rest x' = skipn (fst ls) (rest x).
Proof.
  intros L S C P. induction F; intros x ls x' ls' H T; [discriminate | ].
  cbn [taker_loop] in H.
  destruct (c_tok C (snd ls)) eqn:Ts; cbn [andb] in H; [ | injection H as <- <-; congruence].
  destruct (Nat.eqb_spec (fst ls) 0) as [Z | NZ]; cbn [negb] in H.
  - injection H as <- <-. split; [exact Z | ]. rewrite Z. cbn [firstn skipn].
    split; [exists 0; split; [lia | split; [apply fed_nil | lia]] | reflexivity].
  - destruct (s_read Sr _ (taking C false) x ls) as [[x1 ls1] | | ] eqn:E; try discriminate.
    assert (T1 : c_tok C (snd ls1) = true).
    { destruct (c_tok C (snd ls1)) eqn:T1; [reflexivity | ].
      destruct (taker_loop_stops _ _ _ _ _ _ _ _ _ H (or_intror T1)) as [-> ->]. congruence. }
    destruct (L _ _ (taking_proper C false P) _ _ _ _ E T1) as (e1 & B1 & Fd1).
    destruct (fed_taking C P _ _ _ _ _ Fd1) as (G1 & A1 & A2).
    destruct (fed_split _ _ _ _ _ _ (taking_proper C false P) Fd1) as (t1 & Et1 & N1).
    pose proof (fed_taking_bound C P _ _ _ _ _ Fd1) as Bd.
    pose proof (f_equal (@length byte) Et1) as Len. rewrite app_length in Len.
    destruct (Nat.eq_dec e1 0) as [-> | Ne].
    + destruct (IHF _ _ _ _ H T) as (Z2 & (e2 & B2 & G2 & N2) & Rs).
      specialize (A1 eq_refl). split; [exact Z2 | ]. split.
      * exists e2. split; [exact B2 | ]. split; [ | intros X; specialize (N2 X); lia].
        change e2 with (0 + e2). eapply fed_trans; [exact G1 | exact G2].
      * rewrite Rs, Et1. rewrite skipn_app. rewrite (skipn_all2 t1) by lia. cbn [app]. f_equal; lia.
    + assert (Z1 : fst ls1 = 0) by (apply A2; lia).
      destruct (taker_loop_stops _ _ _ _ _ _ _ _ _ H (or_introl Z1)) as [-> ->].
      assert (N : rest x1 = []) by (apply N1; lia).
      split; [exact Z1 | ]. rewrite Z1 in G1. cbn [firstn] in G1. rewrite N in *. cbn [length] in *.
      split; [exists e1; split; [exact B1 | split; [exact G1 | lia]] | ].
      symmetry. apply skipn_all2. lia.
Qed.

(** A taker over a lossless source is a lossless source of the first _leftToTake bytes. *)
Lemma data_taker_lossless F Sr rest : lossless_unless_cancelled Sr rest ->
  lossless_unless_cancelled (data_taker F Sr false) (fun st => firstn (snd st) (rest (fst st))).
Proof.
  intros L S C P [x lf] s [x' lf'] s' H T. cbn [data_taker s_read fst snd] in *.
  destruct (taker_loop F Sr C false x (lf, s)) as [[x1 [lf1 s1]] | | ] eqn:E; try discriminate.
  injection H as <- <- <-. destruct (taker_loop_fed Sr rest L S C P _ _ _ _ _ E T) as (Z & (e & B & G & _) & _).
  cbn [fst snd] in *. subst lf1. cbn [firstn]. exists e. auto.
Qed.

Lemma data_skipper_lossless F Sr rest : lossless_unless_cancelled Sr rest ->
  lossless_unless_cancelled (data_skipper F Sr true) (fun st => skipn (snd st) (rest (fst st))).
Proof.
  intros L S C P [x lf] s [x' lf'] s' H T. cbn [data_skipper s_read fst snd] in *.
  destruct (s_read Sr _ (skipping F C true) x (lf, s)) as [[x1 [lf1 s1]] | | ] eqn:E; try discriminate.
  injection H as <- <- <-.
  destruct (L _ _ (skipping_proper C F true P) _ _ _ _ E T) as (e & B & Fd).
  exists e. split; [exact B | ]. apply (fed_skipping C F P _ _ _ _ _ Fd T).
Qed.

(** * Reactive sources *)
Lemma reactive_loop_stops F Sr S (C : Consumer S) x fs x' fs' :
  reactive_loop F Sr C x fs = Ok (x', fs') -> fst fs = true \/ c_tok C (snd fs) = false -> x' = x /\ fs' = fs.
Proof.
  intros H D. destruct F; [discriminate | ]. cbn [reactive_loop] in H.
  destruct D as [D | D]; rewrite D in H; cbn [negb andb] in H; rewrite ?andb_false_r in H; injection H as <- <-; auto.
Qed.

Lemma reactive_loop_fed Sr rest : lossless_unless_cancelled Sr rest -> forall S (C : Consumer S), proper C ->
  forall F x fs x' fs', fst fs = false ->
  reactive_loop F Sr C x fs = Ok (x', fs') -> c_tok C (snd fs') = true ->
  fed C (snd fs) (rest x) (snd fs') [] 1 /\ rest x' = [].
Proof.
  intros L S C P. induction F; intros x fs x' fs' Z H T; [discriminate | ].
  cbn [reactive_loop] in H. rewrite Z in H.
  destruct (c_tok C (snd fs)) eqn:Ts; cbn [andb negb] in H; [ | injection H as <- <-; congruence].
  destruct (s_read Sr _ (reactive_consumer C) x fs) as [[x1 fs1] | | ] eqn:E; try discriminate.
  assert (T1 : c_tok C (snd fs1) = true).
  { destruct (c_tok C (snd fs1)) eqn:T1; [reflexivity | ].
    destruct (reactive_loop_stops _ _ _ _ _ _ _ _ H (or_intror T1)) as [-> ->]. congruence. }
  destruct (L _ _ (reactive_proper C P) _ _ _ _ E T1) as (e1 & B1 & Fd1).
  destruct (fed_reactive C _ _ _ _ _ Fd1) as (G1 & A0 & A1).
  destruct (fed_split _ _ _ _ _ _ (reactive_proper C P) Fd1) as (t1 & Et1 & N1).
  destruct (Nat.eq_dec e1 0) as [-> | Ne].
  - rewrite Z in A0. destruct (IHF _ _ _ _ (A0 eq_refl) H T) as (G2 & N2). split; [ | exact N2].
    change 1 with (0 + 1). eapply fed_trans; [exact G1 | exact G2].
  - assert (Z1 : fst fs1 = true) by (apply A1; lia).
    destruct (reactive_loop_stops _ _ _ _ _ _ _ _ H (or_introl Z1)) as [-> ->].
    assert (N : rest x1 = []) by (apply N1; lia). rewrite N in *. assert (e1 = 1) by lia. subst e1. auto.
Qed.

Lemma reactive_lossless F Sr rest : lossless_unless_cancelled Sr rest ->
  forall S (C : Consumer S), proper C -> forall x s x' s',
  s_read (reactive_source F Sr) S C x s = Ok (x', s') -> c_tok C s' = true ->
  fed C s (rest x) s' [] 1 /\ rest x' = [].
Proof.
  intros L S C P x s x' s' H T. cbn [reactive_source s_read] in H.
  destruct (reactive_loop F Sr C x (false, s)) as [[x1 [f1 s1]] | | ] eqn:E; try discriminate. injection H as <- <-.
  apply (reactive_loop_fed Sr rest L S C P _ _ (false, s) _ _ eq_refl E T).
Qed.

Lemma storage_proper : proper storage.
Proof.
  constructor; cbn [storage c_proc c_tok c_eod]; auto.
  intros s d s' k H. injection H as <- <-. lia.
Qed.

Lemma fed_storage s r s' r' e : fed storage s r s' r' e -> exists t, r = t ++ r' /\ s' = s ++ t.
Proof.
  intros H. induction H.
  - exists []. rewrite app_nil_r. auto.
  - cbn [storage c_proc] in H. injection H as <- <-. destruct IHfed as (t & E & ->).
    exists (firstn (length (firstn n r)) r ++ t). split; [rewrite <- app_assoc, <- E; symmetry; apply firstn_skipn | ].
    rewrite <- app_assoc. do 2 f_equal. rewrite firstn_length.
    destruct (Nat.le_ge_cases n (length r)); [f_equal; lia | rewrite !firstn_all2 by lia; reflexivity].
  - destruct IHfed as (t & E & ->). exists t. auto.
Qed.

Lemma read_to_end_exact F Sr rest x x' out : lossless_unless_cancelled Sr rest ->
  read_to_end F Sr x = Ok (x', out) -> out = rest x /\ rest x' = [].
Proof.
  intros L H. destruct (reactive_lossless F Sr rest L _ storage storage_proper _ _ _ _ H eq_refl) as [Fd N].
  apply fed_storage in Fd. destruct Fd as (t & E & ->). rewrite app_nil_r in E. subst t. auto.
Qed.

(** * Aligner *)
Lemma firstn_min_len {A} n (r : list A) : firstn n r = firstn (Nat.min n (length r)) r.
Proof. destruct (Nat.le_ge_cases n (length r)); [f_equal; lia | rewrite !firstn_all2 by lia; reflexivity]. Qed.

Lemma consume_all_honest {S} (C : Consumer S) out eods : honest C out eods -> forall F s d s' n,
  consume_all F C s d 0 = Ok (s', n) ->
  n <= length d /\ out s' = out s ++ firstn n d /\ eods s' = eods s /\ (n = length d \/ c_tok C s' = false).
Proof.
  intros Hh F s d s' n H.
  destruct (consume_all_fed C (h_proper Hh) F s d 0 s' n H ltac:(lia) []) as (B & Fd & R & _).
  destruct (fed_honest C out eods Hh _ _ _ _ _ Fd) as (t & Et & O & D & _). cbn [skipn] in Et. rewrite !app_nil_r in Et.
  split; [lia | ]. split; [ | split; [lia | exact R]]. rewrite O. f_equal.
  rewrite Et at 1. rewrite firstn_app.
  assert (Ht : length t = n). { apply f_equal with (f := @length byte) in Et. rewrite app_length, skipn_length in Et. lia. }
  rewrite (firstn_all2 t) by lia. rewrite Ht, Nat.sub_diag. cbn [firstn]. rewrite app_nil_r. reflexivity.
Qed.

Lemma fed_aligning {S} (C : Consumer S) out eods F a ub : a <> 0 -> honest C out eods -> forall bs r bs' r' e,
  fed (aligning F a ub C) bs r bs' r' e -> length (fst bs) < a -> c_tok C (snd bs') = true ->
  out (snd bs') ++ fst bs' ++ r' = out (snd bs) ++ fst bs ++ r /\
  length (fst bs') < a /\ (exists q, length (out (snd bs')) = length (out (snd bs)) + a * q) /\
  eods (snd bs') = e + eods (snd bs) /\ (ub = false -> fst bs = [] -> fst bs' = []).
Proof.
  intros Ha Hh bs r bs' r' e H. pose proof (h_proper Hh) as P. induction H; intros La T.
  - split; [reflexivity | ]. split; [exact La | ]. split; [exists 0; lia | ]. split; [lia | auto].
  - pose proof (fed_sticky _ _ _ _ _ _ (aligning_proper C F a ub P) H0 T) as T1.
    destruct s as [b s]. destruct s1 as [b1 s1]. destruct s' as [b' s']. cbn [aligning c_proc c_tok] in H, T1. cbn [fst snd] in *.
    rewrite firstn_length in H. rewrite (firstn_min_len n r) in H.
    set (m := Nat.min n (length r)) in *. assert (Hm : m <= length r) by (unfold m; lia). clearbody m.
    assert (Goal' : out s1 ++ b1 ++ skipn k r = out s ++ b ++ r /\ length b1 < a /\
       (exists q, length (out s1) = length (out s) + a * q) /\ eods s1 = eods s /\ (ub = false -> b = [] -> b1 = [])).
    { clear IHfed H0. destruct (Nat.eqb_spec (length b) 0) as [Zb | NZb].
      - assert (b = []) by (destruct b; [reflexivity | discriminate]). subst b. cbn [app].
        pose proof (align_down_le m a) as Le. unfold align_down in *.
        set (g := a * (m / a)) in *.
        assert (Hg : m < g + a). { unfold g. pose proof (Nat.mul_succ_div_gt m a Ha). lia. }
        rewrite firstn_firstn in H. replace (Nat.min g m) with g in H by lia.
        destruct (consume_all F C s (firstn g r) 0) as [[s2 k2] | | ] eqn:E; try discriminate.
        apply (consume_all_honest C out eods Hh) in E. destruct E as (B & O & D & R).
        rewrite firstn_length in B, R. replace (Nat.min g (length r)) with g in B, R by lia.
        destruct (ub && c_tok C s2 && negb (m - k2 =? 0)) eqn:Cd.
        + injection H as <- <- <-. destruct R as [R | R]; [ | congruence]. subst k2.
          rewrite firstn_firstn, Nat.min_id in O. rewrite O. replace (g + (m - g)) with m by lia.
          split; [ | split; [ | split; [ | split]]].
          * rewrite <- app_assoc. f_equal. rewrite skipn_firstn_comm.
            rewrite <- (firstn_skipn g r) at 4. f_equal. rewrite <- (firstn_skipn (m - g) (skipn g r)) at 2. f_equal.
            rewrite skipn_skipn'. f_equal; lia.
          * rewrite skipn_length, firstn_length. lia.
          * exists (m / a). rewrite app_length, firstn_length. unfold g in *. lia.
          * exact D.
          * intros ->. discriminate.
        + injection H as <- <- <-. destruct R as [R | R]; [ | congruence]. subst k2.
          rewrite firstn_firstn, Nat.min_id in O. rewrite O.
          split; [ | split; [ | split; [ | split]]].
          * rewrite <- app_assoc. cbn [app]. f_equal. apply firstn_skipn.
          * cbn; lia.
          * exists (m / a). rewrite app_length, firstn_length. unfold g in *. lia.
          * exact D.
          * auto.
      - set (o := Nat.min (a - length b) m) in *.
        assert (Ho : o <= m /\ length b + o <= a) by (unfold o; lia).
        rewrite firstn_firstn in H. replace (Nat.min o m) with o in H by lia. rewrite app_length, firstn_length in H.
        replace (Nat.min o (length r)) with o in H by lia.
        destruct (Nat.eqb_spec (length b + o) a) as [Ea | Na].
        + destruct (consume_all F C s (b ++ firstn o r) 0) as [[s2 k2] | | ] eqn:E; try discriminate.
          injection H as <- <- <-. apply (consume_all_honest C out eods Hh) in E. destruct E as (B & O & D & R).
          destruct R as [R | R]; [ | congruence]. subst k2. rewrite firstn_all in O. rewrite O.
          split; [ | split; [ | split; [ | split]]].
          * cbn [app]. rewrite <- !app_assoc. do 2 f_equal. apply firstn_skipn.
          * cbn; lia.
          * exists 1. rewrite !app_length, firstn_length. lia.
          * exact D.
          * auto.
        + injection H as <- <- <-. split; [ | split; [ | split; [ | split]]].
          * rewrite <- !app_assoc. do 2 f_equal. apply firstn_skipn.
          * rewrite app_length, firstn_length. lia.
          * exists 0. lia.
          * reflexivity.
          * intros _ ->. cbn in NZb. lia. }
    destruct Goal' as (G1 & G2 & (q1 & G3) & G4 & G5).
    destruct (IHfed G2 T) as (I1 & I2 & (q2 & I3) & I4 & I5).
    split; [congruence | ]. split; [exact I2 | ]. split; [exists (q1 + q2); lia | ]. split; [lia | auto].
  - destruct s as [b s]. cbn [aligning c_eod fst snd] in *. destruct (IHfed La T) as (I1 & I2 & (q2 & I3) & I4 & I5).
    destruct (h_eod Hh s) as [O D]. rewrite O in *. split; [exact I1 | ]. split; [exact I2 | ]. split; [exists q2; exact I3 | ].
    split; [lia | exact I5].
Qed.

Lemma data_aligner_exact F a ub Sr rest : a <> 0 -> lossless_unless_cancelled Sr rest ->
  forall S (C : Consumer S) out eods, honest C out eods -> forall x buf s x' buf' s',
  s_read (data_aligner F a ub Sr) S C (x, buf) s = Ok ((x', buf'), s') -> length buf < a -> c_tok C s' = true ->
  out s' ++ buf' ++ rest x' = out s ++ buf ++ rest x /\ length buf' < a /\
  (exists q, length (out s') = length (out s) + a * q) /\ (ub = false -> buf = [] -> buf' = []).
Proof.
  intros Ha L S C out eods Hh x buf s x' buf' s' H B T. cbn [data_aligner s_read fst snd] in H.
  destruct (s_read Sr _ (aligning F a ub C) x (buf, s)) as [[x1 [b1 s1]] | | ] eqn:E; try discriminate.
  injection H as <- <- <-.
  destruct (L _ _ (aligning_proper C F a ub (h_proper Hh)) _ _ _ _ E T) as (e & Be & Fd).
  destruct (fed_aligning C out eods F a ub Ha Hh _ _ _ _ _ Fd B T) as (I1 & I2 & I3 & _ & I5). auto.
Qed.

(** * Packets *)
Lemma packets_exact {S} (C : Consumer S) out eods F n : honest C out eods ->
  forall s d s' k, c_proc (packeter (depacketer F C) (Some n)) s d = Ok (s', k) -> c_tok C s' = true ->
  k = n /\ n <= length d /\ out s' = out s ++ firstn n d.
Proof.
  intros Hh s d s' k H T. cbn [packeter c_proc depacketer p_proc] in H.
  destruct (Nat.ltb_spec (length d) n); [discriminate | ].
  destruct (consume_all F C s (firstn n d) 0) as [[s1 k1] | | ] eqn:E; try discriminate. injection H as <- <-.
  apply (consume_all_honest C out eods Hh) in E. destruct E as (B & O & D & R).
  destruct R as [R | R]; [ | congruence]. rewrite R, firstn_all in O. rewrite firstn_length in R.
  split; [lia | ]. split; [lia | exact O].
Qed.

(** * Interception *)
Lemma intercepting_honest {S} (C : Consumer S) : proper C ->
  honest (intercepting C) (fun ls => fst (fst ls)) (fun ls => snd (fst ls)).
Proof.
  intros P. constructor; [constructor | | ].
  - intros [[l n] s] d s' k H. cbn [intercepting c_proc] in H.
    destruct (c_proc C s d) as [[s1 k1] | | ] eqn:E; try discriminate. injection H as <- <-. eapply (p_bound P); eauto.
  - intros [[l n] s] d s' k H T. cbn [intercepting c_proc] in H.
    destruct (c_proc C s d) as [[s1 k1] | | ] eqn:E; try discriminate. injection H as <- <-. cbn [intercepting c_tok] in *.
    eapply (p_sticky P); eauto.
  - intros [[l n] s] T. cbn [intercepting c_tok c_eod] in *. apply (p_sticky_eod P). exact T.
  - intros [[l n] s] d s' k H. cbn [intercepting c_proc] in H.
    destruct (c_proc C s d) as [[s1 k1] | | ] eqn:E; try discriminate. injection H as <- <-. cbn. auto.
  - intros [[l n] s]. cbn. auto.
Qed.

(** It does not disturb the consumer. *)
Lemma intercepting_transparent {S} (C : Consumer S) ls r ls' r' e :
  fed (intercepting C) ls r ls' r' e -> fed C (snd ls) r (snd ls') r' e.
Proof.
  intros H. induction H.
  - apply fed_nil.
  - destruct s as [[l m] s]. destruct s1 as [[l1 m1] s1]. cbn [intercepting c_proc snd] in *.
    destruct (c_proc C s (firstn n r)) as [[s2 k2] | | ] eqn:E; try discriminate. injection H as <- <- <- <-.
    eapply fed_proc; eauto.
  - destruct s as [[l m] s]. cbn [intercepting c_eod snd] in *. apply fed_eod. exact IHfed.
Qed.

(** * ByteDataConsumer *)
Lemma fed_byte_data tok st r st' r' e : fed (byte_data_consumer tok) st r st' r' e ->
  exists t, r = t ++ r' /\
  fst (fst st') = fst (fst st) ++ firstn (snd (fst st)) t /\
  snd (fst st') = snd (fst st) - length t /\ snd st' = (snd st || negb (e =? 0)).
Proof.
  intros H. induction H.
  - exists []. rewrite firstn_nil, app_nil_r. cbn. rewrite orb_false_r. repeat split. lia.
  - destruct s as [[w q] f]. cbn [byte_data_consumer c_proc] in H. injection H as <- <-. cbn [fst snd] in *.
    destruct IHfed as (t & Et & A & B & Cc). rewrite firstn_length in *.
    set (m := Nat.min n (length r)) in *.
    exists (firstn m r ++ t). split; [rewrite <- app_assoc, <- Et; symmetry; apply firstn_skipn | ].
    split; [ | split; [ | exact Cc]].
    + rewrite A. rewrite firstn_app, <- app_assoc. f_equal.
      rewrite firstn_length. replace (Nat.min m (length r)) with m by (unfold m; lia).
      rewrite (firstn_min_len n r). fold m. rewrite !firstn_firstn. f_equal; f_equal; lia.
    + rewrite B, app_length, firstn_length. unfold m. lia.
  - destruct s as [[w q] f]. cbn [byte_data_consumer c_eod fst snd] in *. destruct IHfed as (t & Et & A & B & Cc).
    exists t. repeat split; auto. rewrite Cc. cbn. rewrite orb_true_r. reflexivity.
Qed.

(** With discardRest what is delivered is the same. *)
Lemma fed_taking_any {S} (C : Consumer S) dis : proper C -> forall ls r ls' r' e,
  fed (taking C dis) ls r ls' r' e ->
  fed C (snd ls) (firstn (fst ls) r) (snd ls') (firstn (fst ls') r') e /\ (0 < e -> fst ls' = 0) /\ fst ls' <= fst ls.
Proof.
  intros P ls r ls' r' e H. induction H.
  - split; [apply fed_nil | ]. split; lia.
  - destruct s as [l s]. destruct s1 as [l1 s1]. destruct s' as [l' s']. cbn [taking c_proc] in H. cbn [fst snd] in *.
    set (size := Nat.min l (length (firstn n r))) in *.
    destruct IHfed as (Fd & A & B).
    destruct (Nat.eqb_spec size 0) as [Z | NZ].
    + injection H as <- <- <-. destruct dis.
      * unfold size in Z. destruct (Nat.eq_dec l 0) as [-> | NZl].
        { cbn [firstn] in *. assert (l' = 0) by lia. subst l'. auto. }
        { replace (length (firstn n r)) with 0 in Fd by lia. cbn [skipn] in Fd. auto. }
      * cbn [skipn] in *. auto.
    + destruct (c_proc C s (firstn size (firstn n r))) as [[s2 k2] | | ] eqn:E; try discriminate.
      injection H as <- <- <-. pose proof (p_bound P _ _ _ _ E) as Bk. rewrite firstn_length in Bk.
      rewrite firstn_firstn in E. assert (Hs : size <= l) by (unfold size; lia).
      split; [ | split; [exact A | lia]].
      apply fed_proc with (n := Nat.min size n) (s1 := s2) (k := k2).
      { rewrite firstn_firstn. replace (Nat.min (Nat.min size n) l) with (Nat.min size n) by lia. exact E. }
      { rewrite skipn_firstn_comm. exact Fd. }
  - destruct s as [l s]. cbn [taking c_eod fst snd] in *. destruct IHfed as (Fd & A & B).
    rewrite firstn_nil. cbn [firstn] in Fd. split; [apply fed_eod; exact Fd | ]. lia.
Qed.

Lemma taker_loop_delivers dis Sr rest : lossless_unless_cancelled Sr rest -> forall S (C : Consumer S), proper C ->
  forall F x ls x' ls', taker_loop F Sr C dis x ls = Ok (x', ls') -> c_tok C (snd ls') = true ->
  fst ls' = 0 /\ (exists e, e <= 1 /\ fed C (snd ls) (firstn (fst ls) (rest x)) (snd ls') [] e) /\
  exists t, rest x = t ++ rest x'.
Proof.
  intros L S C P. induction F; intros x ls x' ls' H T; [discriminate | ].
  cbn [taker_loop] in H.
  destruct (c_tok C (snd ls)) eqn:Ts; cbn [andb] in H; [ | injection H as <- <-; congruence].
  destruct (Nat.eqb_spec (fst ls) 0) as [Z | NZ]; cbn [negb] in H.
  - injection H as <- <-. split; [exact Z | ]. rewrite Z. cbn [firstn]. split; [exists 0; split; [lia | apply fed_nil] | ].
    exists []. reflexivity.
  - destruct (s_read Sr _ (taking C dis) x ls) as [[x1 ls1] | | ] eqn:E; try discriminate.
    assert (T1 : c_tok C (snd ls1) = true).
    { destruct (c_tok C (snd ls1)) eqn:T1; [reflexivity | ].
      destruct (taker_loop_stops _ _ _ _ _ _ _ _ _ H (or_intror T1)) as [-> ->]. congruence. }
    destruct (L _ _ (taking_proper C dis P) _ _ _ _ E T1) as (e1 & B1 & Fd1).
    destruct (fed_split _ _ _ _ _ _ (taking_proper C dis P) Fd1) as (t1 & Et1 & _).
    destruct (fed_taking_any C dis P _ _ _ _ _ Fd1) as (G1 & A1 & A2).
    destruct (Nat.eq_dec e1 0) as [-> | Ne].
    + destruct (IHF _ _ _ _ H T) as (Z2 & (e2 & B2 & G2) & t2 & Et2). split; [exact Z2 | ]. split.
      * exists e2. split; [exact B2 | ]. change e2 with (0 + e2). eapply fed_trans; [exact G1 | exact G2].
      * exists (t1 ++ t2). rewrite <- app_assoc, <- Et2. exact Et1.
    + assert (Z1 : fst ls1 = 0) by (apply A1; lia).
      destruct (taker_loop_stops _ _ _ _ _ _ _ _ _ H (or_introl Z1)) as [-> ->].
      split; [exact Z1 | ]. rewrite Z1 in G1. cbn [firstn] in G1. split; [exists e1; auto | exists t1; exact Et1].
Qed.

Lemma pipe_whole cap S (C : Consumer S) : proper C -> forall rem o s x' s',
  s_read (pipe_source cap) S C (rem, o) s = Ok (x', s') ->
  (forall s d s' k, c_proc C s d = Ok (s', k) -> d <> [] -> 0 < k) ->
  exists e, e <= 1 /\ fed C s rem s' (fst x') e.
Proof.
  intros P rem o s x' s' H Pos. cbn [pipe_source s_read] in H. destruct rem as [ | b rem].
  - injection H as <- <-. exists 1. split; [lia | ]. apply fed_eod. apply fed_nil.
  - cbv zeta in H. set (r := b :: rem) in *. set (n := read_size (c_tok C s) o cap (length r)) in *.
    destruct (Nat.eqb_spec n 0) as [Z | NZ].
    + injection H as <- <-. cbn [fst]. rewrite Z. exists 0. split; [lia | apply fed_nil].
    + destruct (c_proc C s (firstn n r)) as [[s1 k] | | ] eqn:E; try discriminate.
      assert (Hk : 0 < k). { eapply Pos; [exact E | ]. destruct n; [lia | discriminate]. }
      destruct (Nat.eqb_spec k 0); [lia | ].
      destruct (Nat.eqb_spec k n); [ | discriminate]. injection H as <- <-. subst k. cbn [fst].
      exists 0. split; [lia | ]. eapply fed_proc; [exact E | apply fed_nil].
Qed.
