(** C87: logging. *)
From Coq Require Import ZArith List Bool Lia.
From Verif Require Import LogModel LogSpec LogProofs.
Import ListNotations.
Open Scope Z_scope.

(** * The filter of repeated messages *)

(** Statements below the level of their logger print nothing and have no
    effect on what is printed afterwards. *)
Theorem C87_disabled_statements_have_no_effect : forall es,
  snd (log_run filter0 es) = snd (log_run filter0 (filter enabled es)).
Proof.
  assert (H : forall es f, log_run f es = log_run f (filter enabled es)).
  { induction es as [|e es IH]; intros f; cbn [log_run filter]; [reflexivity|].
    unfold enabled at 1. unfold log_event at 1.
    destruct (e_level e <? e_logger e) eqn:E; cbn [negb].
    - rewrite IH. now destruct (log_run f _).
    - cbn [log_run]. unfold log_event at 1. rewrite E.
      destruct (e_mark e) as [[k h]|].
      + destruct (do_log h (f k) (e_text e) (e_now e)) as [c o]. now rewrite IH.
      + now rewrite IH. }
  intros es; now rewrite <- H.
Qed.
Print Assumptions C87_disabled_statements_have_no_effect.

(** What is printed at one call site depends only on the statements at that
    site: other sites, marked or not, do not disturb its counting. *)
Theorem C87_sites_are_independent : forall k es,
  filter (fun p => of_site k (fst p)) (snd (log_run filter0 es)) =
  snd (log_run filter0 (filter (of_site k) es)).
Proof. intros; now apply log_run_site. Qed.
Print Assumptions C87_sites_are_independent.

(** Hiding by count n: of a run of equal messages the first is printed, then
    for each n + 1 repetitions one summary of n, and the rest is summed up
    when the next message comes. *)
Theorem C87_output_of_counting : forall n, (0 < n)%nat -> Z.of_nat n < 2 ^ 32 ->
  forall k rs es, proper_runs rs ->
  Forall (fun e => enabled e = true /\ e_mark e = Some (k, every_count (Z.of_nat n))) es ->
  map e_text es = runs_texts rs ->
  map snd (snd (log_run filter0 es)) = runs_output n rs.
Proof.
  intros n Hn Hb k rs es P F E.
  destruct (log_run_crun k (every_count (Z.of_nat n)) es filter0 F) as [H _]. rewrite H.
  rewrite (crun_runs n Hn Hb rs).
  - destruct rs as [|[m j] rs]; reflexivity.
  - rewrite map_map. cbn [fst]. exact E.
  - exact P.
  - destruct rs as [|[m j] rs]; [exact I|]. intros x [=].
Qed.
Print Assumptions C87_output_of_counting.

(** A message is printed as such exactly if it differs from the previous
    enabled message of its site (or there is none) - in either mode, after
    any history. *)
Theorem C87_new_messages_are_shown_at_once : forall es e k h,
  enabled e = true -> e_mark e = Some (k, h) ->
  (In (e, Plain (e_text e)) (snd (log_run (fst (log_run filter0 es)) [e])) <->
   last_text (site_texts k es) None <> Some (e_text e)).
Proof.
  intros es e k h He Hk.
  pose proof (log_run_text k es filter0) as T. change (counter_text (filter0 k)) with (@None text) in T.
  rewrite <- T. cbn [log_run].
  rewrite (log_event_plain k h e) by now split.
  rewrite <- (do_log_shown h _ (e_text e) (e_now e)).
  destruct (do_log h _ _ _) as [c o]; cbn [snd]. rewrite app_nil_r. split.
  - intros H. apply in_map_iff in H as (x & [= <-] & H). exact H.
  - intros H. apply in_map_iff. now exists (Plain (e_text e)).
Qed.
Print Assumptions C87_new_messages_are_shown_at_once.

(** A summary never counts more than was logged: the lines of a site stand
    for at most as many messages as there were. *)
Theorem C87_summaries_do_not_exceed : forall k es m,
  accounted m (site_lines k (snd (log_run filter0 es))) <= occurrences m (site_texts k es).
Proof.
  intros k es m.
  assert (OK : counter_ok (filter0 k)) by (intros x [=]).
  pose proof (log_run_account k es filter0 m OK) as H.
  pose proof (pending_nonneg m _ (log_run_counter_ok k es filter0 OK)).
  change (pending m (filter0 k)) with 0 in H. lia.
Qed.
Print Assumptions C87_summaries_do_not_exceed.

(** Hiding by interval d: of a run of fewer than 2^32 equal messages, after
    any history of other messages at that site, the lines after the first
    are printed at least d apart, and at least d after the first. *)
Theorem C87_interval_between_lines : forall k d, 0 < d ->
  forall es e0 es', Z.of_nat (length es') < 2 ^ 32 ->
  Forall (fun e => enabled e = true /\ e_mark e = Some (k, every_interval d) /\ e_text e = e_text e0) (e0 :: es') ->
  last_text (site_texts k es) None <> Some (e_text e0) ->
  gaps d (e_now e0 :: map (fun p => e_now (fst p)) (snd (log_run (fst (log_run filter0 (es ++ [e0]))) es'))).
Proof.
  intros k d Hd es e0 es' HL HF HN. inversion HF as [|? ? (H1 & H2 & _) HF']; subst.
  rewrite log_run_app; cbn [fst log_run].
  pose proof (log_run_text k es filter0) as T. change (counter_text (filter0 k)) with (@None text) in T.
  rewrite <- T in HN. set (f := fst (log_run filter0 es)) in *.
  rewrite (log_event_plain k (every_interval d) e0 f) by now split.
  rewrite do_log_new.
  2:{ intros j Ej Es. apply HN. unfold counter_text. rewrite Ej. now f_equal. }
  cbn [every_interval h_interval is_some fst]. unfold reset.
  eapply interval_dups with (m := e_text e0) (j := 0).
  - exact Hd.
  - apply fset_same.
  - lia.
  - lia.
  - eapply Forall_impl; [|exact HF']. intros a (A & B & C). split; [split; assumption | assumption].
Qed.
Print Assumptions C87_interval_between_lines.

(** Messages that come no more often than the interval are dropped without
    a trace: after the first, nothing is ever printed for them. *)
Theorem C87_slow_repetitions_are_never_mentioned : forall k d es e0 es',
  Forall (fun e => enabled e = true /\ e_mark e = Some (k, every_interval d) /\ e_text e = e_text e0) (e0 :: es') ->
  last_text (site_texts k es) None <> Some (e_text e0) ->
  gaps d (map e_now (e0 :: es')) ->
  snd (log_run (fst (log_run filter0 (es ++ [e0]))) es') = [].
Proof.
  intros k d es e0 es' HF HN HG. inversion HF as [|? ? (H1 & H2 & _) HF']; subst.
  rewrite log_run_app; cbn [fst log_run].
  pose proof (log_run_text k es filter0) as T. change (counter_text (filter0 k)) with (@None text) in T.
  rewrite <- T in HN. set (f := fst (log_run filter0 es)) in *.
  rewrite (log_event_plain k (every_interval d) e0 f) by now split.
  rewrite do_log_new.
  2:{ intros j Ej Es. apply HN. unfold counter_text. rewrite Ej. now f_equal. }
  cbn [every_interval h_interval is_some fst]. unfold reset.
  eapply slow_repeats with (m := e_text e0) (k := k) (d := d).
  - apply fset_same.
  - eapply Forall_impl; [|exact HF']. intros a (A & B & C). split; [split; assumption | assumption].
  - exact HG.
Qed.
Print Assumptions C87_slow_repetitions_are_never_mentioned.

Definition repeats (h : hide) (ts : list (text * Z)) : list event :=
  map (fun p => Event 1 1 (Some (7, h)) (fst p) (snd p)) ts.

(** Not true: every message is printed or counted once a different one has
    come.  Hiding with count 1: of three equal messages and another one the
    lines account for two of the three: the repetition that causes a summary
    is itself in none. *)
Theorem C87_every_message_is_accounted_refuted :
  ~ (forall n es, 0 < n -> Forall (fun e => e_mark e = Some (7, every_count n) /\ enabled e = true) es ->
     forall m m', last_text (map e_text es) None = Some m' -> m <> m' ->
     accounted m (map snd (snd (log_run filter0 es))) = occurrences m (map e_text es)).
Proof.
  intros H.
  specialize (H 1 (repeats (every_count 1) [(5, 0); (5, 1); (5, 2); (6, 3)]) ltac:(lia)).
  specialize (H ltac:(repeat constructor) 5 6 eq_refl ltac:(lia)). vm_compute in H. discriminate.
Qed.
Print Assumptions C87_every_message_is_accounted_refuted.

(** Not true: by interval, a message that goes on being repeated is printed
    or summed up at least once in the time after the first interval. *)
Theorem C87_repeated_message_is_mentioned_again_refuted :
  ~ (forall d e0 es', 0 < d -> es' <> [] ->
     Forall (fun e => enabled e = true /\ e_mark e = Some (7, every_interval d) /\ e_text e = e_text e0 /\
                      (e_now e = e_now e0 \/ e_now e0 + d <= e_now e)) (e0 :: es') ->
     snd (log_run (fst (log_run filter0 [e0])) es') <> []).
Proof.
  intros H.
  apply (H 10 (Event 1 1 (Some (7, every_interval 10)) 5 0)
           (repeats (every_interval 10) [(5, 10); (5, 20); (5, 30)]) ltac:(lia) ltac:(discriminate)).
  - repeat constructor; cbn; lia.
  - reflexivity.
Qed.
Print Assumptions C87_repeated_message_is_mentioned_again_refuted.

Example C87_counting_example :
  map snd (snd (log_run filter0 (repeats (every_count 2)
    [(5, 0); (5, 0); (5, 0); (5, 0); (5, 0); (6, 0); (6, 0); (5, 0)]))) =
  [Plain 5; Times 5 2; Times 5 1; Plain 6; Times 6 1; Plain 5]
  /\ runs_output 2 [(5, 4%nat); (6, 1%nat); (5, 0%nat)] =
  [Plain 5; Times 5 2; Times 5 1; Plain 6; Times 6 1; Plain 5]
  /\ runs_texts [(5, 4%nat); (6, 1%nat); (5, 0%nat)] = [5; 5; 5; 5; 5; 6; 6; 5]
  /\ proper_runs [(5, 4%nat); (6, 1%nat); (5, 0%nat)].
Proof. repeat split; try reflexivity; discriminate. Qed.

Example C87_interval_example :
  map (fun p => (e_now (fst p), snd p)) (snd (log_run filter0 (repeats (every_interval 10)
    [(5, 0); (5, 3); (5, 9); (5, 12); (5, 13); (5, 21); (5, 23)]))) =
  [(0, Plain 5); (12, Times 5 2); (23, Times 5 2)].
Proof. reflexivity. Qed.

(** * Named loggers *)

(** After any history of creations, destructions and settings, a living
    logger has the backtrace and highlight switches last set for its name
    (before or after its creation); its level is the level last set for its
    name since its creation, or else the one set before if any setting of
    the name was in force at its creation, or else that of its constructor.
    There is one such logger. *)
Theorem C87_settings_of_a_logger : forall p i n l q,
  ~ In i (created p) -> ~ In i (created q) -> ~ In (Destroy i) q ->
  forall g, In g (r_loggers (reg_run (p ++ Create i n l :: q))) /\ l_id g = i <->
  g = Logger i n
        (last_level n q (if some_setting n p then last_level n p None else l))
        (last_bt n (p ++ Create i n l :: q) false)
        (last_hl n (p ++ Create i n l :: q) false).
Proof.
  intros p i n l q H1 H2 H3 g. rewrite (live_logger p i n l q H1 H2 H3 g).
  unfold expected. replace (s_empty (settings_of p n)) with (negb (some_setting n p)).
  - destruct (some_setting n p); reflexivity.
  - unfold s_empty, settings_of, some_setting, is_some; cbn [s_level s_bt s_hl].
    destruct (last_level n p None), (last_bt n p false), (last_hl n p false); reflexivity.
Qed.
Print Assumptions C87_settings_of_a_logger.

(** A level set for a name and not reset is the level of each living logger
    of that name, whenever created. *)
Theorem C87_level_set_for_the_name : forall p i n l q v,
  ~ In i (created p) -> ~ In i (created q) -> ~ In (Destroy i) q ->
  last_level n (p ++ q) None = Some v ->
  forall g, In g (r_loggers (reg_run (p ++ Create i n l :: q))) -> l_id g = i -> l_level g = Some v.
Proof.
  intros p i n l q v H1 H2 H3 HL g Hg Hi.
  rewrite (proj1 (C87_settings_of_a_logger p i n l q H1 H2 H3 g) (conj Hg Hi)).
  cbn [l_level]. rewrite last_level_app in HL.
  destruct (last_level n p None) as [w|] eqn:Ep.
  - replace (some_setting n p) with true; [exact HL|]. unfold some_setting. now rewrite Ep.
  - assert (D : forall q0 d d', last_level n q0 d = Some v -> d = None -> last_level n q0 d' = Some v).
    { clear. induction q0 as [|o q0 IH]; intros d d' H ->; cbn [last_level] in *; [discriminate|].
      destruct o as [i' n' l'|i'|n' l'|n' b'|n' b']; try (eapply IH; [exact H|reflexivity]).
      destruct (Z.eqb n' n); [exact H | eapply IH; [exact H | reflexivity]]. }
    now apply (D q None).
Qed.
Print Assumptions C87_level_set_for_the_name.

(** GetLogLevel gives the level last set for the name. *)
Theorem C87_get_log_level : forall os n, get_level (reg_run os) n = last_level n os None.
Proof.
  intros os n; unfold get_level. rewrite (reg_settings os n).
  destruct (s_empty (settings_of os n)) eqn:E; [|reflexivity].
  apply s_empty_true in E. unfold settings_of in E. injection E as E _ _. now rewrite E.
Qed.
Print Assumptions C87_get_log_level.

(** Not true: as long as no level is set for its name, a logger has the
    level of its constructor.  Enabling the backtrace for the name first
    makes it lose that level. *)
Theorem C87_constructor_level_is_kept_refuted :
  ~ (forall p i n l q, ~ In i (created p) -> ~ In i (created q) -> ~ In (Destroy i) q ->
     (forall v, ~ In (SetLevel n v) (p ++ q)) ->
     forall g, In g (r_loggers (reg_run (p ++ Create i n l :: q))) -> l_id g = i -> l_level g = l).
Proof.
  intros H.
  specialize (H [SetBt 1 true] 0%nat 1 (Some 3) [] ltac:(easy) ltac:(easy) ltac:(easy)).
  specialize (H ltac:(intros v; cbn; intuition discriminate) (Logger 0 1 None true false) ltac:(cbn; auto) eq_refl).
  discriminate.
Qed.
Print Assumptions C87_constructor_level_is_kept_refuted.

(** Not true: after SetLogLevel for a name all loggers of that name have
    equal levels; a null level is not remembered for loggers created later. *)
Theorem C87_one_level_per_name_refuted :
  ~ (forall p n v q, (forall u, ~ In (SetLevel n u) q) ->
     forall g1 g2, In g1 (r_loggers (reg_run (p ++ SetLevel n v :: q))) ->
     In g2 (r_loggers (reg_run (p ++ SetLevel n v :: q))) ->
     l_name g1 = n -> l_name g2 = n -> l_level g1 = l_level g2).
Proof.
  intros H.
  specialize (H [Create 0 1 (Some 3)] 1 None [Create 1 1 (Some 3)] ltac:(intros u; cbn; intuition discriminate)
                (Logger 0 1 None false false) (Logger 1 1 (Some 3) false false)
                ltac:(cbn; auto) ltac:(cbn; auto) eq_refl eq_refl).
  discriminate.
Qed.
Print Assumptions C87_one_level_per_name_refuted.

Example C87_settings_example :
  r_loggers (reg_run [SetBt 1 true; Create 0 1 (Some 3); Create 1 2 (Some 4); SetLevel 1 (Some 5);
                      Create 2 1 None; SetBt 1 false; Destroy 1; SetHl 1 true]) =
  [Logger 0 1 (Some 5) false true; Logger 2 1 (Some 5) false true].
Proof. reflexivity. Qed.

(** * Sinks *)

(** A sink is present as many times as it was added and not yet removed
    (each removal being the end of a token of an earlier addition). *)
Theorem C87_sinks_present : forall s os,
  (forall p r, os = p ++ r -> (removes s p <= adds s p)%nat) ->
  (count_occ Z.eq_dec (st_sinks (lrun os)) s + removes s os = adds s os)%nat.
Proof. exact sinks_count. Qed.
Print Assumptions C87_sinks_present.

(** If no sink is added twice, the sinks present are those added and not
    removed, in the order of their addition. *)
Theorem C87_order_of_the_sinks : forall os, NoDup (added os) ->
  (forall s p r, os = p ++ r -> (removes s p <= adds s p)%nat) ->
  st_sinks (lrun os) = filter (fun s => Nat.eqb (removes s os) 0) (added os).
Proof. exact sinks_order. Qed.
Print Assumptions C87_order_of_the_sinks.

(** A message goes to each sink present, in their order, whichever of them throw, and to the system log exactly if there is none. *)
Theorem C87_every_sink_gets_the_message : forall ths os m,
  st_out (log_all ths (lrun os) m) =
  st_out (lrun os) ++ match st_sinks (lrun os) with
                      | [] => [(None, m)]
                      | ss => map (fun s => (Some s, m)) ss
                      end.
Proof. intros; now rewrite log_all_result. Qed.
Print Assumptions C87_every_sink_gets_the_message.

(** In any interleaving of Log calls (with different messages), additions
    and removals, the deliveries of a message are always an initial part of
    the sinks present when the call copied them; the rest is what its call
    still has to do. *)
Theorem C87_interleaved_deliveries : forall p m q, NoDup (copied (p ++ LogCopy m :: q)) ->
  exists r, nth_error (st_calls (lrun (p ++ LogCopy m :: q))) (length (copied p)) = Some (m, r) /\
  about m (st_out (lrun (p ++ LogCopy m :: q))) ++ map (fun s => (Some s, m)) r =
  match st_sinks (lrun p) with [] => [(None, m)] | ss => map (fun s => (Some s, m)) ss end.
Proof. exact call_deliveries. Qed.
Print Assumptions C87_interleaved_deliveries.

(** Not true: a sink gets no message after its token was destroyed. *)
Theorem C87_removed_sink_gets_nothing_refuted :
  ~ (forall s p q, (removes s p < adds s p)%nat -> (adds s p <= removes s p + 1)%nat ->
     (forall o, In o q -> o <> AddSink s) ->
     received s (st_out (lrun (p ++ RemoveSink s :: q))) = received s (st_out (lrun p))).
Proof.
  intros H. specialize (H 4 [AddSink 4; LogCopy 9] [LogNext 0 false]
    ltac:(cbn; lia) ltac:(cbn; lia) ltac:(intros o [<-|[]]; discriminate)).
  vm_compute in H. discriminate.
Qed.
Print Assumptions C87_removed_sink_gets_nothing_refuted.

Example C87_sinks_example :
  st_out (log_all (fun s => Z.eqb s 4) (lrun [AddSink 4; AddSink 5; AddSink 4; RemoveSink 4]) 9)
  = [(Some 5, 9); (Some 4, 9)]
  /\ st_out (lrun [LogCopy 1; AddSink 4; LogCopy 2; AddSink 5; LogCopy 3; LogNext 2 false; RemoveSink 4;
                   LogNext 1 true; LogNext 2 false; LogNext 2 false])
  = [(None, 1); (Some 4, 3); (Some 4, 2); (Some 5, 3)].
Proof. split; reflexivity. Qed.
