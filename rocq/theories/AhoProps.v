(** C38: AhoCorasick reports every occurrence of every pattern, once, as the text is read. *)
From Coq Require Import List Arith Lia Bool Sorting.Sorted.
From Verif Require Import FlatProofs AhoSpec AhoModel AhoProofs AhoProofs2.
Import ListNotations.
Set Implicit Arguments.
Local Opaque A.

Lemma firstn_all_occ (p text : bytes) start : p <> [] ->
  occurs p text start <-> exists k, 1 <= k <= length text /\ suf p (firstn k text) /\ start = k - length p.
Proof.
  intros N. assert (Lp : 1 <= length p) by (destruct p; [congruence|cbn; lia]). split.
  - intros (a&b&->&<-). exists (length a + length p). rewrite !app_length. split; [lia|]. split; [|lia].
    exists a. rewrite app_assoc, <- app_length. rewrite firstn_app, Nat.sub_diag, firstn_all. cbn. now rewrite app_nil_r.
  - intros (k&Hk&(a&E)&->). exists a, (skipn k text). assert (L : length (firstn k text) = k) by (rewrite firstn_length; lia). split.
    + rewrite <- (firstn_skipn k text) at 1. rewrite E, <- app_assoc. reflexivity.
    + rewrite E, app_length in L. lia.
Qed.

(** Whatever the patterns (repeated, empty, overlapping, one inside another) and the text: adding the
    patterns, building and searching ends, without touching an unset link; the callback receives exactly the
    occurrences of the non-empty patterns, with the pattern, the index (the last one if the pattern was added
    repeatedly) and the start; by end of occurrence, and the longer pattern first at equal ends. *)
Theorem C38_search_exact ps text : Forall is_bytes ps -> is_bytes text ->
  exists s out, compile ps = Some s /\ search s text = Some out /\
    (forall p i start, In (p, i, start) out <-> p <> [] /\ last_index ps i p /\ occurs p text start) /\
    StronglySorted earlier out.
Proof.
  intros Fp Ft. destruct (compile_ok Fp) as (s&nx&W&E&HA&HP). exists s. pose proof (a_trie HA) as T.
  destruct (@search_ok s nx W HA text [] 0 Ft) as (out&Ho&O1&O2).
  { split; [apply (t_pos T)|]. rewrite (t_root T). split; [apply suf_nil|]. intros m Hm S. exact S. }
  exists out. split; auto. split. { unfold search. rewrite (a_built HA). exact Ho. } split; auto.
  intros p i start. rewrite O1. split.
  - intros (k&m&j&Hk&Hm&N&S&Pm&X). injection X as -> -> ->. assert (Np : W m <> []) by (intros X; apply N, (W_nil T); auto).
    split; auto. split; [rewrite <- HP; now apply (a_pat HA)|]. apply firstn_all_occ; auto. exists k. cbn. auto.
  - intros (N&L&Oc). apply firstn_all_occ in Oc; auto. destruct Oc as (k&Hk&S&->). pose proof (proj1 L) as L1. apply nth_error_In in L1. rewrite <- HP in L1. apply (a_node HA) in L1.
    destruct L1 as (m&Hm&<-). exists k, m, i. cbn. repeat split; auto; try lia. + intros ->. apply N, (t_root T). + apply (a_pat HA); auto. now rewrite HP.
Qed.

Lemma sorted_nodup out : StronglySorted earlier out -> NoDup out.
Proof.
  induction 1 as [|x l S IH F]; constructor; auto. intros X. rewrite Forall_forall in F. apply F in X. destruct x as ((p, i), s). cbn in X. lia.
Qed.
(** For distinct non-empty patterns: every occurrence of every pattern, each exactly once. *)
Theorem C38_every_occurrence_once ps text s out : Forall is_bytes ps -> is_bytes text -> NoDup ps -> ~ In [] ps ->
  compile ps = Some s -> search s text = Some out ->
  (forall i p start, nth_error ps i = Some p -> In (p, i, start) out <-> occurs p text start) /\
  (forall p i start, In (p, i, start) out -> nth_error ps i = Some p) /\ NoDup out.
Proof.
  intros Fp Ft ND NE Hc Hs. destruct (C38_search_exact Fp Ft) as (s'&out'&Hc'&Hs'&O1&O2). assert (s' = s) by congruence. subst s'. assert (out' = out) by congruence. subst out'.
  split; [|split; [|now apply sorted_nodup]].
  - intros i p start H. rewrite O1. split; [tauto|]. intros Oc. split; [intros ->; apply NE; eapply nth_error_In; eauto|]. split; auto. split; auto.
    intros j Lj X. rewrite NoDup_nth_error in ND. assert (i = j); [|lia]. apply ND; [eapply nth_error_Some_lt; eauto|congruence].
  - intros p i start H. apply O1 in H. apply H.
Qed.

(** Add returns consecutive indices; patterns cannot be added and the trie cannot be rebuilt after Build;
    searching needs Build. *)
Theorem C38_protocol s p : (built s = false -> exists s', add s p = Some (s', length (patterns s)) /\ patterns s' = patterns s ++ [p] /\ built s' = false) /\
  (built s = true -> add s p = None /\ build s = None) /\ (built s = false -> forall text, search s text = None).
Proof.
  split; [|split].
  - intros H. unfold add. rewrite H. destruct (add_path _ _ _ _) as ((nx, sz), n). eexists. split; [reflexivity|]. auto.
  - intros H. unfold add, build. now rewrite H.
  - intros H text. unfold search. now rewrite H.
Qed.
Theorem C38_built ps s : compile ps = Some s -> built s = true.
Proof.
  unfold compile, build. destruct (adds init ps) as [s0|]; [|discriminate]. destruct (built s0); [discriminate|].
  destruct (bfs _ _ _ _ _); [|discriminate]. intros H. injection H as <-. reflexivity.
Qed.

(** Not every added pattern is reported under the index Add returned: a second Add of the same pattern takes
    the first index away, and an empty pattern is never reported. *)
Theorem C38_every_added_index_refuted :
  ~ (forall ps text s out i p start, Forall is_bytes ps -> is_bytes text -> compile ps = Some s -> search s text = Some out ->
       nth_error ps i = Some p -> occurs p text start -> In (p, i, start) out).
Proof.
  intros H. assert (B : is_bytes [1]) by (constructor; [apply Nat.ltb_lt; vm_compute; reflexivity|constructor]).
  assert (Bs : Forall is_bytes [[1]; [1]]) by (constructor; [exact B|constructor; [exact B|constructor]]).
  destruct (C38_search_exact Bs B) as (s&out&Hc&Hs&O1&_).
  assert (X : In ([1], 0, 0) out). { eapply (H [[1]; [1]] [1] s out 0); eauto. exists [], []. auto. }
  apply O1 in X. destruct X as (_&(_&X)&_). apply (X 1); auto.
Qed.
Theorem C38_empty_pattern_never_reported ps text s out i start : Forall is_bytes ps -> is_bytes text -> compile ps = Some s -> search s text = Some out ->
  ~ In ([], i, start) out.
Proof.
  intros Fp Ft Hc Hs X. destruct (C38_search_exact Fp Ft) as (s'&out'&Hc'&Hs'&O1&O2). assert (s' = s) by congruence. subst s'. assert (out' = out) by congruence. subst out'.
  apply O1 in X. now destruct X.
Qed.

(** ---- non-vacuity ---- *)
Example C38_run : match compile [[1;2];[2;1;2];[2];[2;1;2;3];[1;2];[]] with Some s => search s [2;1;2;1;2;3;2] | None => None end
  = Some [([2], 2, 0); ([2; 1; 2], 1, 0); ([1; 2], 4, 1); ([2], 2, 2); ([2; 1; 2], 1, 2); ([1; 2], 4, 3); ([2], 2, 4); ([2; 1; 2; 3], 3, 2); ([2], 2, 6)].
Proof. vm_compute. reflexivity. Qed.
Example C38_hypotheses : Forall is_bytes [[104; 101]; [115; 104; 101]; [255; 0]] /\ NoDup [[104; 101]; [115; 104; 101]; [255; 0]] /\ ~ In [] [[104; 101]; [115; 104; 101]; [255; 0]].
Proof.
  split; [|split].
  - repeat constructor; apply Nat.ltb_lt; vm_compute; reflexivity.
  - repeat constructor; cbn; intuition discriminate.
  - cbn. intuition discriminate.
Qed.

Print Assumptions C38_search_exact.
Print Assumptions C38_every_occurrence_once.
Print Assumptions C38_protocol.
Print Assumptions C38_built.
Print Assumptions C38_every_added_index_refuted.
Print Assumptions C38_empty_pattern_never_reported.
