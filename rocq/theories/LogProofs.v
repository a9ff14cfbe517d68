(** Proofs about logging. *)
From Coq Require Import ZArith List Bool Lia Arith.
From Verif Require Import LogModel LogSpec.
Import ListNotations.
Open Scope Z_scope.

(** * The filter *)

Lemma fset_same : forall f k c, fset f k c k = c.
Proof. intros; unfold fset; now rewrite Z.eqb_refl. Qed.

Lemma fset_other : forall f k c k', k' <> k -> fset f k c k' = f k'.
Proof. intros; unfold fset; destruct (Z.eqb_spec k' k); congruence. Qed.

Lemma log_run_app : forall a f b,
  log_run f (a ++ b) =
  (fst (log_run (fst (log_run f a)) b), snd (log_run f a) ++ snd (log_run (fst (log_run f a)) b)).
Proof.
  induction a as [|e a IH]; intros f b; cbn [log_run app fst snd].
  - destruct (log_run f b); reflexivity.
  - destruct (log_event f e) as [f1 o1]; rewrite IH.
    destruct (log_run f1 a) as [f2 o2]; cbn [fst snd]. now rewrite app_assoc.
Qed.



Lemma log_event_agree : forall k e f g, of_site k e = true -> f k = g k ->
  snd (log_event f e) = snd (log_event g e) /\
  fst (log_event f e) k = fst (log_event g e) k.
Proof.
  intros k [lv lg mk t nw] f g H E; unfold log_event, of_site in *; cbn [e_level e_logger e_mark e_text e_now] in *.
  destruct (lv <? lg); [now split|].
  destruct mk as [[k' h]|]; [|discriminate]. apply Z.eqb_eq in H; subst k'.
  rewrite E. destruct (do_log h (g k) t nw) as [c o]; cbn [fst snd].
  now rewrite !fset_same.
Qed.

Lemma log_event_outside : forall k e f, of_site k e = false -> fst (log_event f e) k = f k.
Proof.
  intros k [lv lg mk t nw] f H; unfold log_event, of_site in *; cbn [e_level e_logger e_mark e_text e_now] in *.
  destruct (lv <? lg); [easy|].
  destruct mk as [[k' h]|]; [|easy].
  destruct (do_log h (f k') t nw) as [c o]; cbn [fst]. apply fset_other.
  intros ->. now rewrite Z.eqb_refl in H.
Qed.

Lemma log_run_site : forall k es f g, f k = g k ->
  filter (fun p => of_site k (fst p)) (snd (log_run f es)) =
  snd (log_run g (filter (of_site k) es)).
Proof.
  induction es as [|e es IH]; intros f g E; cbn [log_run filter]; [reflexivity|].
  destruct (of_site k e) eqn:H.
  - destruct (log_event_agree k e f g H E) as [H1 H2].
    cbn [log_run]. destruct (log_event f e) as [f1 o1], (log_event g e) as [g1 o1']; cbn [fst snd] in *; subst o1'.
    specialize (IH f1 g1 H2).
    destruct (log_run f1 es) as [f2 o2], (log_run g1 (filter (of_site k) es)) as [g2 o2']; cbn [fst snd] in *.
    rewrite filter_app, IH. f_equal.
    clear - H. induction o1 as [|l o IHo]; cbn [map filter fst]; [reflexivity|]. now rewrite H, IHo.
  - pose proof (log_event_outside k e f H) as H1.
    destruct (log_event f e) as [f1 o1]; cbn [fst] in *.
    assert (E1 : f1 k = g k) by congruence.
    specialize (IH f1 g E1).
    destruct (log_run f1 es) as [f2 o2]; cbn [snd] in *.
    rewrite filter_app, IH.
    replace (filter _ (map (pair e) o1)) with (@nil (event * line)); [reflexivity|].
    clear - H. induction o1 as [|l o IHo]; cbn [map filter fst]; [reflexivity|]. now rewrite H.
Qed.

(** ** Counting mode *)

Definition plain_event (k : site) (h : hide) (e : event) : Prop :=
  enabled e = true /\ e_mark e = Some (k, h).

Lemma log_event_plain : forall k h e f, plain_event k h e ->
  log_event f e = (fset f k (fst (do_log h (f k) (e_text e) (e_now e))),
                   snd (do_log h (f k) (e_text e) (e_now e))).
Proof.
  intros k h [lv lg mk t nw] f [H1 H2]; unfold enabled, log_event in *; cbn [e_level e_logger e_mark e_text e_now] in *.
  apply negb_true_iff in H1; rewrite H1, H2. now destruct (do_log h (f k) t nw).
Qed.

(** The run of the counter alone. *)
Fixpoint crun (h : hide) (c : counter) (ts : list (text * Z)) : counter * list line :=
  match ts with
  | [] => (c, [])
  | (t, nw) :: r => let '(c1, o1) := do_log h c t nw in
                    let '(c2, o2) := crun h c1 r in (c2, o1 ++ o2)
  end.

Lemma map_snd_pair : forall {A B} (a : A) (l : list B), map snd (map (pair a) l) = l.
Proof. induction l; cbn; congruence. Qed.

Lemma log_run_crun : forall k h es f, Forall (plain_event k h) es ->
  map snd (snd (log_run f es)) = snd (crun h (f k) (map (fun e => (e_text e, e_now e)) es)) /\
  fst (log_run f es) k = fst (crun h (f k) (map (fun e => (e_text e, e_now e)) es)).
Proof.
  induction es as [|e es IH]; intros f H; cbn [log_run crun map fst snd]; [easy|].
  inversion H; subst. rewrite (log_event_plain k h e f) by assumption.
  destruct (do_log h (f k) (e_text e) (e_now e)) as [c1 o1]; cbn [fst snd].
  specialize (IH (fset f k c1) H3). rewrite fset_same in IH.
  destruct (log_run (fset f k c1) es) as [f2 o2], (crun h c1 _) as [c2 o2']; cbn [fst snd] in *.
  destruct IH as [I1 I2]. split; [|exact I2]. rewrite map_app, map_snd_pair. now f_equal.
Qed.

Lemma crun_app : forall h a c b,
  crun h c (a ++ b) = (fst (crun h (fst (crun h c a)) b),
                       snd (crun h c a) ++ snd (crun h (fst (crun h c a)) b)).
Proof.
  induction a as [|[t nw] a IH]; intros c b; cbn [crun app fst snd].
  - now destruct (crun h c b).
  - destruct (do_log h c t nw) as [c1 o1]; rewrite IH.
    destruct (crun h c1 a) as [c2 o2]; cbn [fst snd]. now rewrite app_assoc.
Qed.

(** Repetitions of the message already counted. *)
Lemma crun_dups : forall n, (0 < n)%nat -> Z.of_nat n < 2 ^ 32 ->
  forall m ts j, (j <= n)%nat -> Forall (fun p => fst p = m) ts ->
  crun (every_count (Z.of_nat n)) (Counter m (Some (Z.of_nat j)) None) ts =
  (Counter m (Some (Z.of_nat ((j + length ts) mod S n))) None,
   repeat (Times m (Z.of_nat n)) ((j + length ts) / S n)).
Proof.
  intros n Hn Hb m ts; induction ts as [|[t nw] ts IH]; intros j Hj HF; cbn [crun].
  - rewrite Nat.add_0_r, Nat.mod_small, Nat.div_small by lia. reflexivity.
  - inversion HF; subst; cbn [fst] in *; subst.
    unfold do_log; cbn [c_count c_str c_since every_count h_count h_interval is_some].
    rewrite Z.eqb_refl; cbn [negb orb].
    destruct (Z.leb_spec (Z.of_nat n) (Z.of_nat j)); cbn [orb].
    + assert (j = n) by lia; subst j.
      destruct (Z.ltb_spec 0 (Z.of_nat n)); [|lia].
      unfold reset. change (Some 0) with (Some (Z.of_nat 0)). rewrite IH by (lia || assumption).
      cbn [length]. replace (n + S (length ts))%nat with (length ts + 1 * S n)%nat by lia.
      rewrite Nat.mod_add, Nat.div_add by lia. rewrite Nat.add_1_r. reflexivity.
    + rewrite Z.mod_small by lia. replace (Z.of_nat j + 1) with (Z.of_nat (S j)) by lia.
      rewrite IH by (lia || assumption). cbn [length].
      replace (S j + length ts)%nat with (j + S (length ts))%nat by lia. reflexivity.
Qed.

Lemma do_log_new : forall h c m nw, (forall k, c_count c = Some k -> c_str c <> m) ->
  do_log h c m nw =
  (reset m (is_some (h_interval h)) nw,
   (match c_count c with Some k => if 0 <? k then [Times (c_str c) k] else [] | None => [] end) ++ [Plain m]).
Proof.
  intros h c m nw H; unfold do_log. destruct (c_count c) as [k|]; [|reflexivity].
  specialize (H k eq_refl). destruct (Z.eqb_spec (c_str c) m); [congruence|]. reflexivity.
Qed.

Lemma runs_texts_cons : forall m k r, runs_texts ((m, k) :: r) = m :: repeat m k ++ runs_texts r.
Proof. reflexivity. Qed.

Lemma split_times : forall (ts : list (text * Z)) a b, map fst ts = a ++ b ->
  exists ta tb, ts = ta ++ tb /\ map fst ta = a /\ map fst tb = b.
Proof.
  intros ts a; revert ts; induction a as [|x a IH]; intros ts b H.
  - exists [], ts; now cbn.
  - destruct ts as [|p ts]; cbn in H; [discriminate|]. injection H as H1 H2.
    destruct (IH ts b H2) as (ta & tb & -> & <- & <-). exists (p :: ta), tb. cbn. now rewrite H1.
Qed.

Lemma crun_runs : forall n, (0 < n)%nat -> Z.of_nat n < 2 ^ 32 ->
  forall rs ts c, map fst ts = runs_texts rs -> proper_runs rs ->
  match rs with (m, _) :: _ => (forall k, c_count c = Some k -> c_str c <> m) | [] => True end ->
  snd (crun (every_count (Z.of_nat n)) c ts) =
  (match rs with
   | [] => []
   | _ => match c_count c with Some k => if 0 <? k then [Times (c_str c) k] else [] | None => [] end
   end) ++ runs_output n rs.
Proof.
  intros n Hn Hb; induction rs as [|[m k] rs IH]; intros ts c E P Hc.
  - destruct ts; [reflexivity | discriminate].
  - rewrite runs_texts_cons in E.
    destruct ts as [|[t nw] ts]; [discriminate|]. cbn [map fst] in E. injection E as -> E.
    destruct (split_times ts _ _ E) as (ta & tb & -> & Ea & Eb).
    cbn [crun]. rewrite do_log_new by assumption.
    cbn [every_count h_interval is_some]. unfold reset. change (Some 0) with (Some (Z.of_nat 0)).
    rewrite crun_app.
    fold (every_count (Z.of_nat n)).
    assert (HF : Forall (fun p => fst p = m) ta).
    { apply Forall_forall; intros p Hp. apply (in_map fst) in Hp. rewrite Ea in Hp. eapply repeat_spec; eassumption. }
    rewrite (crun_dups n Hn Hb m ta 0%nat) by (lia || assumption).
    assert (L : length ta = k) by (rewrite <- (map_length fst), Ea; apply repeat_length).
    rewrite L. cbn [Nat.add fst snd runs_output].
    rewrite (IH tb); [|assumption| |].
    + cbn [c_count c_str]. rewrite <- !app_assoc. cbn [app]. f_equal. f_equal. f_equal.
      destruct rs as [|[m' k'] rs']; [reflexivity|].
      destruct (Nat.eqb_spec (k mod S n) 0) as [Z0|Z0].
      * rewrite Z0. reflexivity.
      * destruct (Z.ltb_spec 0 (Z.of_nat (k mod S n))); [reflexivity|lia].
    + cbn in P. destruct rs as [|[m' k'] rs']; [exact I | apply P].
    + destruct rs as [|[m' k'] rs']; [exact I|]. cbn [proper_runs] in P.
      intros x _. cbn [c_str]. apply P.
Qed.

(** ** What is displayed, for any mode *)


Definition counter_text (c : counter) : option text :=
  match c_count c with Some _ => Some (c_str c) | None => None end.


Lemma do_log_text : forall h c m nw, counter_text (fst (do_log h c m nw)) = Some m.
Proof.
  intros h c m nw; unfold do_log. destruct (c_count c) as [k|] eqn:E; [|reflexivity].
  cbv zeta. match goal with |- context [if ?b then _ else _] => destruct b eqn:B end; [reflexivity|].
  cbn [fst]. unfold counter_text; cbn [c_count c_str].
  apply orb_false_iff in B as [B _]. apply orb_false_iff in B as [B _].
  apply negb_false_iff, Z.eqb_eq in B. now rewrite B.
Qed.

Lemma log_event_text : forall k e f,
  counter_text (fst (log_event f e) k) =
  if enabled e && of_site k e then Some (e_text e) else counter_text (f k).
Proof.
  intros k [lv lg mk t nw] f; unfold log_event, of_site, enabled; cbn [e_level e_logger e_mark e_text e_now].
  destruct (lv <? lg); cbn [negb andb]; [easy|].
  destruct mk as [[k' h]|]; [|easy].
  pose proof (do_log_text h (f k') t nw) as H.
  destruct (do_log h (f k') t nw) as [c o]; cbn [fst] in *.
  destruct (Z.eqb_spec k' k) as [->|N]; [now rewrite fset_same | now rewrite fset_other by congruence].
Qed.

Lemma log_run_text : forall k es f,
  counter_text (fst (log_run f es) k) = last_text (site_texts k es) (counter_text (f k)).
Proof.
  induction es as [|e es IH]; intros f; cbn [log_run]; [reflexivity|].
  pose proof (log_event_text k e f) as H.
  destruct (log_event f e) as [f1 o1]; cbn [fst] in H. specialize (IH f1).
  destruct (log_run f1 es) as [f2 o2]; cbn [fst] in *. rewrite IH, H.
  unfold site_texts; cbn [filter]. destruct (enabled e && of_site k e); reflexivity.
Qed.

Lemma do_log_shown : forall h c m nw,
  In (Plain m) (snd (do_log h c m nw)) <-> counter_text c <> Some m.
Proof.
  intros h c m nw; unfold do_log, counter_text.
  destruct (c_count c) as [k|] eqn:E.
  - cbv zeta. destruct (Z.eqb_spec (c_str c) m) as [->|N]; cbn [negb orb].
    + split; [|congruence]. match goal with |- context [if ?b then _ else _] => destruct b end; cbn [snd]; [|easy].
      destruct (0 <? k); cbn; intuition discriminate.
    + split; [congruence|]. intros _. cbn [snd]. apply in_or_app; right; now left.
  - split; [discriminate|]. intros _; now left.
Qed.

(** ** Accounting *)

Lemma accounted_app : forall m a b, accounted m (a ++ b) = accounted m a + accounted m b.
Proof.
  intros m a b; unfold accounted. induction a as [|x a IH]; cbn [app map fold_right]; [lia|]. rewrite IH; lia.
Qed.

Definition pending (m : text) (c : counter) : Z :=
  match c_count c with Some k => if Z.eqb (c_str c) m then k else 0 | None => 0 end.

Definition counter_ok (c : counter) : Prop := forall k, c_count c = Some k -> 0 <= k.

Lemma do_log_account : forall h c t nw m, counter_ok c ->
  counter_ok (fst (do_log h c t nw)) /\
  accounted m (snd (do_log h c t nw)) + pending m (fst (do_log h c t nw)) <=
  pending m c + (if Z.eqb t m then 1 else 0).
Proof.
  intros h c t nw m OK; unfold do_log, pending, counter_ok in *.
  destruct (c_count c) as [k|] eqn:E.
  - specialize (OK k eq_refl). cbv zeta.
    destruct (Z.eqb_spec (c_str c) t) as [Et|N]; cbn [negb orb].
    + match goal with |- context [if ?b then _ else _] => destruct b end; cbn [fst snd reset c_count c_str].
      * split; [intros ? [= <-]; lia|].
        unfold accounted. destruct (Z.ltb_spec 0 k); cbn [app map fold_right stands_for];
          rewrite ?Et; destruct (Z.eqb_spec t m); lia.
      * split; [intros ? [= <-]; apply Z.mod_pos_bound; lia|].
        unfold accounted; cbn [map fold_right]. rewrite Et.
        pose proof (Z.mod_le (k + 1) (2 ^ 32)).
        destruct (Z.eqb_spec t m); lia.
    + cbn [fst snd reset c_count c_str]. split; [intros ? [= <-]; lia|].
      rewrite accounted_app. unfold accounted.
      destruct (Z.ltb_spec 0 k); cbn [map fold_right stands_for];
        destruct (Z.eqb_spec (c_str c) m), (Z.eqb_spec t m); lia.
  - cbn [fst snd reset c_count c_str]. split; [intros ? [= <-]; lia|].
    unfold accounted; cbn [map fold_right stands_for]. destruct (Z.eqb_spec t m); lia.
Qed.


Lemma site_lines_app : forall k a b, site_lines k (a ++ b) = site_lines k a ++ site_lines k b.
Proof. intros; unfold site_lines. now rewrite filter_app, map_app. Qed.

Lemma site_lines_event : forall k e o, site_lines k (map (pair e) o) = if of_site k e then o else [].
Proof.
  intros k e o; unfold site_lines; induction o as [|l o IH]; cbn [map filter fst].
  - now destruct (of_site k e).
  - destruct (of_site k e); cbn [map snd]; [now rewrite IH | exact IH].
Qed.

Lemma log_event_account : forall k e f m, counter_ok (f k) ->
  counter_ok (fst (log_event f e) k) /\
  accounted m (if of_site k e then snd (log_event f e) else []) + pending m (fst (log_event f e) k) <=
  pending m (f k) + (if enabled e && of_site k e then (if Z.eqb (e_text e) m then 1 else 0) else 0).
Proof.
  intros k [lv lg mk t nw] f m OK; unfold log_event, of_site, enabled; cbn [e_level e_logger e_mark e_text e_now].
  destruct (lv <? lg); cbn [negb andb fst snd].
  - split; [assumption|]. destruct mk as [[k' h]|]; [destruct (Z.eqb k' k)|]; cbn; lia.
  - destruct mk as [[k' h]|]; cbn [fst snd].
    + destruct (Z.eqb_spec k' k) as [->|N].
      * pose proof (do_log_account h (f k) t nw m OK) as H.
        destruct (do_log h (f k) t nw) as [c o]; cbn [fst snd] in *. now rewrite fset_same.
      * destruct (do_log h (f k') t nw) as [c o]; cbn [fst snd] in *. rewrite fset_other by congruence.
        split; [assumption|]. cbn; lia.
    + split; [assumption|]. cbn; lia.
Qed.

Lemma log_run_account : forall k es f m, counter_ok (f k) ->
  accounted m (site_lines k (snd (log_run f es))) + pending m (fst (log_run f es) k) <=
  pending m (f k) + occurrences m (site_texts k es).
Proof.
  induction es as [|e es IH]; intros f m OK; cbn [log_run].
  - cbn. lia.
  - destruct (log_event_account k e f m OK) as [OK1 H].
    destruct (log_event f e) as [f1 o1]; cbn [fst snd] in *. specialize (IH f1 m OK1).
    destruct (log_run f1 es) as [f2 o2]; cbn [fst snd] in *.
    rewrite site_lines_app, site_lines_event, accounted_app.
    unfold site_texts, occurrences in *; cbn [filter].
    destruct (enabled e && of_site k e); cbn [map count_occ] in *; [|lia].
    destruct (Z.eq_dec (e_text e) m), (Z.eqb_spec (e_text e) m); try congruence; lia.
Qed.

Lemma pending_nonneg : forall m c, counter_ok c -> 0 <= pending m c.
Proof.
  intros m c OK; unfold pending. destruct (c_count c) eqn:E; [|lia].
  specialize (OK _ eq_refl) || specialize (OK z E). destruct (Z.eqb _ _); lia.
Qed.

Lemma log_run_counter_ok : forall k es f, counter_ok (f k) -> counter_ok (fst (log_run f es) k).
Proof.
  induction es as [|e es IH]; intros f OK; cbn [log_run]; [assumption|].
  destruct (log_event_account k e f 0 OK) as [OK1 _].
  destruct (log_event f e) as [f1 o1]; cbn [fst] in *. specialize (IH f1 OK1).
  now destruct (log_run f1 es).
Qed.

(** ** Interval mode *)


Lemma gaps_weaken : forall d s s' ts, 0 < d -> d <= s' - s -> gaps d (s' :: ts) -> gaps d (s :: ts).
Proof. intros d s s' [|t ts] Hd H G; cbn [gaps] in *; [easy|]. destruct G; split; [lia|easy]. Qed.

Lemma fst_pair_now : forall (e : event) (l : list line), map (fun p => e_now (fst p)) (map (pair e) l) = map (fun _ => e_now e) l.
Proof. induction l; cbn [map fst]; congruence. Qed.

Lemma interval_dups : forall k d m, 0 < d ->
  forall es f s j, f k = Counter m (Some j) (Some s) -> 0 <= j -> j + Z.of_nat (length es) <= 2 ^ 32 - 1 ->
  Forall (fun e => plain_event k (every_interval d) e /\ e_text e = m) es ->
  gaps d (s :: map (fun p => e_now (fst p)) (snd (log_run f es))).
Proof.
  intros k d m Hd; induction es as [|e es IH]; intros f s j Ef Hj HL HF; cbn [log_run].
  - cbn. exact I.
  - inversion HF as [|? ? [He Ht] HF']; subst.
    rewrite (log_event_plain _ _ _ f He), Ef.
    cbn [length] in HL. unfold do_log; cbn [c_count c_str c_since every_interval h_interval h_count is_some].
    rewrite Z.eqb_refl; cbn [negb orb].
    destruct (Z.leb_spec (2 ^ 32 - 1) j); [lia|]; cbn [orb].
    destruct (Z.leb_spec d (e_now e - s)); cbn [fst snd app].
    + unfold reset.
      assert (G := IH (fset f k (Counter (e_text e) (Some 0) (Some (e_now e)))) (e_now e) 0).
      rewrite fset_same in G. specialize (G eq_refl ltac:(lia) ltac:(lia) HF').
      destruct (log_run _ es) as [f2 o2]; cbn [snd] in *.
      destruct (0 <? j); cbn [app map fst].
      * cbn [gaps]. split; [lia|exact G].
      * eapply gaps_weaken; eassumption.
    + rewrite Z.mod_small by lia.
      assert (G := IH (fset f k (Counter (e_text e) (Some (j + 1)) (Some s))) s (j + 1)).
      rewrite fset_same in G. specialize (G eq_refl ltac:(lia) ltac:(lia) HF').
      destruct (log_run _ es) as [f2 o2]; cbn [snd app] in *. exact G.
Qed.

Lemma slow_repeats : forall k d m es f s,
  f k = Counter m (Some 0) (Some s) ->
  Forall (fun e => plain_event k (every_interval d) e /\ e_text e = m) es ->
  gaps d (s :: map e_now es) ->
  snd (log_run f es) = [].
Proof.
  intros k d m; induction es as [|e es IH]; intros f s Ef HF G; cbn [log_run]; [reflexivity|].
  inversion HF as [|? ? [He Ht] HF']; subst.
  rewrite (log_event_plain _ _ _ f He), Ef.
  cbn [map gaps] in G. destruct G as [G1 G2].
  unfold do_log; cbn [c_count c_str c_since every_interval h_interval h_count is_some].
  rewrite Z.eqb_refl; cbn [negb orb].
  destruct (Z.leb_spec d (e_now e - s)); [|lia].
  rewrite orb_true_r; cbn [fst snd app Z.ltb Z.compare].
  unfold reset.
  assert (R := IH (fset f k (Counter (e_text e) (Some 0) (Some (e_now e)))) (e_now e)).
  rewrite fset_same in R. specialize (R eq_refl HF' G2).
  destruct (log_run _ es) as [f2 o2]; cbn [snd app] in *. exact R.
Qed.

(** * Settings *)

Definition settings_of (os : list op) (n : name) : settings :=
  Settings (last_level n os None) (last_bt n os false) (last_hl n os false).

Lemma last_level_app : forall n a b d, last_level n (a ++ b) d = last_level n b (last_level n a d).
Proof. induction a as [|[]]; intros; cbn [app last_level]; auto. Qed.
Lemma last_bt_app : forall n a b d, last_bt n (a ++ b) d = last_bt n b (last_bt n a d).
Proof. induction a as [|[]]; intros; cbn [app last_bt]; auto. Qed.
Lemma last_hl_app : forall n a b d, last_hl n (a ++ b) d = last_hl n b (last_hl n a d).
Proof. induction a as [|[]]; intros; cbn [app last_hl]; auto. Qed.

Definition settings_inv (f : name -> option settings) (os : list op) : Prop :=
  forall n, f n = if s_empty (settings_of os n) then None else Some (settings_of os n).

Lemma s_empty_true : forall s, s_empty s = true -> s = settings0.
Proof.
  intros [[l|] [] []]; cbn; intros; try discriminate; reflexivity.
Qed.

Lemma found_settings : forall f os n, settings_inv f os ->
  match f n with Some s => s | None => settings0 end = settings_of os n.
Proof.
  intros f os n I; rewrite (I n). destruct (s_empty (settings_of os n)) eqn:E; [|reflexivity].
  symmetry; now apply s_empty_true.
Qed.

Lemma change_inv : forall f os o n u, settings_inv f os ->
  settings_of (os ++ [o]) n = u (settings_of os n) ->
  (forall n', n' <> n -> settings_of (os ++ [o]) n' = settings_of os n') ->
  settings_inv (change n u f) (os ++ [o]).
Proof.
  intros f os o n u I E1 E2 n'. unfold change, sset. cbv zeta.
  destruct (Z.eqb_spec n' n) as [->|N].
  - rewrite (found_settings f os n I), E1. reflexivity.
  - now rewrite E2, (I n').
Qed.

Lemma reg_settings : forall os, settings_inv (r_settings (reg_run os)) os.
Proof.
  intros os; induction os as [|o os IH] using rev_ind; [now intros n|].
  unfold reg_run in *; rewrite fold_left_app; cbn [fold_left].
  set (r := fold_left reg_step os registry0) in *.
  assert (Z : (match o with SetLevel _ _ | SetBt _ _ | SetHl _ _ => False | _ => True end) ->
              settings_inv (r_settings r) (os ++ [o])).
  { intros Ho n. rewrite (IH n). unfold settings_of.
    rewrite last_level_app, last_bt_app, last_hl_app. destruct o; cbn [last_level last_bt last_hl]; easy. }
  destruct o as [i n l|i|n l|n b|n b]; cbn [reg_step r_settings]; [now apply Z | now apply Z | ..]; clear Z;
    apply change_inv; try assumption; unfold settings_of;
    rewrite ?last_level_app, ?last_bt_app, ?last_hl_app;
    cbn [last_level last_bt last_hl s_level s_bt s_hl]; try rewrite Z.eqb_refl; try reflexivity;
    intros n' N; rewrite ?last_level_app, ?last_bt_app, ?last_hl_app;
    cbn [last_level last_bt last_hl]; (destruct (Z.eqb_spec n n'); [congruence|reflexivity]).
Qed.

(** What an operation does to a live logger. *)
Definition touch (o : op) (g : logger) : logger :=
  match o with
  | SetLevel n l => if Z.eqb (l_name g) n then set_level l g else g
  | SetBt n b => if Z.eqb (l_name g) n then set_bt b g else g
  | SetHl n b => if Z.eqb (l_name g) n then set_hl b g else g
  | _ => g
  end.

Lemma touch_id : forall o g, l_id (touch o g) = l_id g /\ l_name (touch o g) = l_name g.
Proof. intros [] g; cbn [touch]; try easy; destruct (Z.eqb _ _); now cbn. Qed.

Definition made (os : list op) (i : nat) (n : name) (l : option Z) : logger :=
  if s_empty (settings_of os n) then Logger i n l false false
  else Logger i n (last_level n os None) (last_bt n os false) (last_hl n os false).

Lemma reg_step_loggers : forall os o,
  r_loggers (reg_step (reg_run os) o) =
  match o with
  | Create i n l => r_loggers (reg_run os) ++ [made os i n l]
  | Destroy i => filter (fun g => negb (Nat.eqb (l_id g) i)) (r_loggers (reg_run os))
  | _ => map (touch o) (r_loggers (reg_run os))
  end.
Proof.
  intros os [i n l|i|n l|n b|n b]; cbn [reg_step r_loggers]; try reflexivity.
  rewrite (reg_settings os n). unfold made.
  destruct (s_empty (settings_of os n)); reflexivity.
Qed.

Lemma reg_run_snoc : forall os o, reg_run (os ++ [o]) = reg_step (reg_run os) o.
Proof. intros; unfold reg_run; now rewrite fold_left_app. Qed.

Lemma ids_created : forall os g, In g (r_loggers (reg_run os)) -> In (l_id g) (created os).
Proof.
  induction os as [|o os IH] using rev_ind; intros g H; [destruct H|].
  rewrite reg_run_snoc, reg_step_loggers in H. unfold created; rewrite flat_map_app; apply in_or_app.
  destruct o as [i n l|i|n l|n b|n b].
  - apply in_app_or in H as [H|[<-|[]]]; [left; now apply IH|]. right. cbn.
    unfold made; destruct (s_empty _); now left.
  - apply filter_In in H as [H _]. left; now apply IH.
  - apply in_map_iff in H as (g0 & <- & H). left. rewrite (proj1 (touch_id _ _)). now apply IH.
  - apply in_map_iff in H as (g0 & <- & H). left. rewrite (proj1 (touch_id _ _)). now apply IH.
  - apply in_map_iff in H as (g0 & <- & H). left. rewrite (proj1 (touch_id _ _)). now apply IH.
Qed.

Definition expected (p : list op) (i : nat) (n : name) (l : option Z) (q : list op) : logger :=
  Logger i n (last_level n q (if s_empty (settings_of p n) then l else last_level n p None))
         (last_bt n (p ++ Create i n l :: q) false) (last_hl n (p ++ Create i n l :: q) false).

Lemma expected_nil : forall p i n l, expected p i n l [] = made p i n l.
Proof.
  intros; unfold expected, made. rewrite last_bt_app, last_hl_app; cbn [last_level last_bt last_hl].
  destruct (s_empty (settings_of p n)) eqn:E; [|reflexivity].
  apply s_empty_true in E. unfold settings_of in E. injection E as E1 E2 E3. now rewrite E2, E3.
Qed.

Lemma expected_snoc : forall p i n l q o, expected p i n l (q ++ [o]) = touch o (expected p i n l q).
Proof.
  intros; unfold expected.
  replace (p ++ Create i n l :: q ++ [o]) with ((p ++ Create i n l :: q) ++ [o]) by (now rewrite <- app_assoc).
  rewrite last_level_app, !(last_bt_app n (p ++ _)), !(last_hl_app n (p ++ _)).
  destruct o as [i' n' l'|i'|n' l'|n' b'|n' b']; cbn [last_level last_bt last_hl touch l_name];
    try reflexivity;
    rewrite (Z.eqb_sym n' n); destruct (Z.eqb n n'); reflexivity.
Qed.

Lemma touch_expected : forall o p i n l q, l_id (touch o (expected p i n l q)) = i.
Proof. intros; now rewrite (proj1 (touch_id _ _)). Qed.

Lemma live_logger : forall p i n l q, ~ In i (created p) -> ~ In i (created q) -> ~ In (Destroy i) q ->
  forall g, In g (r_loggers (reg_run (p ++ Create i n l :: q))) /\ l_id g = i <-> g = expected p i n l q.
Proof.
  intros p i n l q Hp; induction q as [|o q IH] using rev_ind; intros Hq Hd g.
  - replace (p ++ [Create i n l]) with (p ++ [Create i n l]) by reflexivity.
    rewrite reg_run_snoc, reg_step_loggers, expected_nil. split.
    + intros [H E]. apply in_app_or in H as [H|[<-|[]]]; [|reflexivity].
      apply ids_created in H. congruence.
    + intros ->. split; [apply in_or_app; right; now left|]. unfold made; now destruct (s_empty _).
  - assert (Hq' : ~ In i (created q)).
    { intros H; apply Hq. unfold created; rewrite flat_map_app; apply in_or_app; now left. }
    assert (Hd' : ~ In (Destroy i) q) by (intros H; apply Hd, in_or_app; now left).
    specialize (IH Hq' Hd').
    replace (p ++ Create i n l :: q ++ [o]) with ((p ++ Create i n l :: q) ++ [o]) by (now rewrite <- app_assoc).
    rewrite reg_run_snoc, reg_step_loggers, expected_snoc.
    set (R := reg_run (p ++ Create i n l :: q)) in *.
    assert (M : forall u, (forall g0, l_id (u g0) = l_id g0) ->
              (In g (map u (r_loggers R)) /\ l_id g = i <-> g = u (expected p i n l q))).
    { intros u Hu. split.
      - intros [H E]. apply in_map_iff in H as (g0 & <- & H). rewrite Hu in E.
        f_equal. apply IH. now split.
      - intros ->. split; [|now rewrite Hu]. apply in_map. now apply (IH (expected p i n l q)). }
    destruct o as [i' n' l'|i'|n' l'|n' b'|n' b'];
      [ | | apply (M (touch (SetLevel n' l'))); intros; apply touch_id
          | apply (M (touch (SetBt n' b'))); intros; apply touch_id
          | apply (M (touch (SetHl n' b'))); intros; apply touch_id].
    + cbn [touch]. rewrite <- IH. split.
      * intros [H E]. split; [|exact E]. apply in_app_or in H as [H|[H|[]]]; [exact H|].
        exfalso; apply Hq. unfold created; rewrite flat_map_app; apply in_or_app; right. cbn. left.
        rewrite <- E, <- H. unfold made; now destruct (s_empty _).
      * intros [H E]. split; [apply in_or_app; now left | exact E].
    + cbn [touch]. rewrite <- IH. split.
      * intros [H E]. apply filter_In in H as [H _]. now split.
      * intros [H E]. split; [|exact E]. apply filter_In. split; [exact H|].
        apply negb_true_iff, Nat.eqb_neq. intros E'. apply Hd, in_or_app; right. left.
        rewrite <- E', E. reflexivity.
Qed.

(** * Sinks *)

Lemma upd_last : forall {A} (l : list A) x y, upd (l ++ [x]) (length l) y = l ++ [y].
Proof. induction l; intros; cbn [app length upd]; [reflexivity | now rewrite IHl]. Qed.

Lemma upd_length : forall {A} (l : list A) i x, length (upd l i x) = length l.
Proof. induction l; intros [|i] x; cbn; congruence. Qed.

Lemma deliver_one : forall calls out sinks m s ss b,
  lstep (LState sinks (calls ++ [(m, s :: ss)]) out) (LogNext (length calls) b) =
  LState sinks (calls ++ [(m, ss)]) (out ++ [(Some s, m)]).
Proof.
  intros; unfold lstep; cbn [st_calls st_sinks st_out].
  rewrite nth_error_app2 by lia. rewrite Nat.sub_diag. cbn [nth_error].
  now rewrite upd_last.
Qed.

Lemma deliver_all : forall (ths : sink -> bool) ss calls out sinks m,
  fold_left (fun st s => lstep st (LogNext (length calls) (ths s))) ss (LState sinks (calls ++ [(m, ss)]) out) =
  LState sinks (calls ++ [(m, [])]) (out ++ map (fun s => (Some s, m)) ss).
Proof.
  intros ths ss; induction ss as [|s ss IH]; intros; cbn [fold_left map].
  - now rewrite app_nil_r.
  - rewrite deliver_one, IH. now rewrite <- app_assoc.
Qed.

(** The index of the own call does not change during it. *)
Lemma lognext_length : forall st i b, length (st_calls (lstep st (LogNext i b))) = length (st_calls st).
Proof.
  intros [ss cs out] i b; cbn [lstep st_calls].
  destruct (nth_error cs i) as [[m [|s r]]|]; cbn [st_calls]; try reflexivity. now apply upd_length.
Qed.

Lemma own_index : forall (ths : sink -> bool) ss st n, length (st_calls st) = S n ->
  fold_left (fun st s => lstep st (LogNext (length (st_calls st) - 1)%nat (ths s))) ss st =
  fold_left (fun st s => lstep st (LogNext n (ths s))) ss st.
Proof.
  intros ths; induction ss as [|s ss IH]; intros st n H; cbn [fold_left]; [reflexivity|].
  rewrite H. replace (S n - 1)%nat with n by lia. apply IH. now rewrite lognext_length.
Qed.

Lemma log_all_result : forall ths st m,
  log_all ths st m =
  LState (st_sinks st) (st_calls st ++ [(m, [])])
         (st_out st ++ match st_sinks st with [] => [(None, m)] | ss => map (fun s => (Some s, m)) ss end).
Proof.
  intros ths [ss calls out] m; unfold log_all; cbn [st_sinks st_calls st_out].
  destruct ss as [|s ss].
  - reflexivity.
  - rewrite (own_index ths _ _ (length calls)).
    + change (lstep _ (LogCopy m)) with (LState (s :: ss) (calls ++ [(m, s :: ss)]) out).
      now rewrite deliver_all.
    + change (lstep _ (LogCopy m)) with (LState (s :: ss) (calls ++ [(m, s :: ss)]) out).
      cbn [st_calls]. rewrite app_length. cbn. lia.
Qed.

(** The sinks present. *)

Lemma count_remove_first : forall s x ss,
  count_occ Z.eq_dec (remove_first x ss) s =
  if Z.eqb x s then pred (count_occ Z.eq_dec ss s) else count_occ Z.eq_dec ss s.
Proof.
  intros s x; induction ss as [|y ss IH]; cbn [remove_first count_occ].
  - now destruct (Z.eqb x s).
  - destruct (Z.eqb_spec y x) as [->|N].
    + destruct (Z.eq_dec x s), (Z.eqb_spec x s); try congruence; reflexivity.
    + cbn [count_occ]. rewrite IH.
      destruct (Z.eq_dec y s), (Z.eqb_spec x s); try congruence; reflexivity.
Qed.

Lemma lrun_snoc : forall os o, lrun (os ++ [o]) = lstep (lrun os) o.
Proof. intros; unfold lrun; now rewrite fold_left_app. Qed.

Lemma lstep_sinks : forall st o, st_sinks (lstep st o) =
  match o with
  | AddSink s => st_sinks st ++ [s]
  | RemoveSink s => remove_first s (st_sinks st)
  | _ => st_sinks st
  end.
Proof.
  intros [ss cs out] [s|s|m|i t]; cbn [lstep st_sinks st_calls st_out]; try reflexivity.
  - now destruct ss.
  - destruct (nth_error cs i) as [[m [|s r]]|]; reflexivity.
Qed.

Lemma adds_snoc : forall s os o,
  adds s (os ++ [o]) = (adds s os + match o with AddSink x => if Z.eqb x s then 1 else 0 | _ => 0 end)%nat.
Proof.
  intros; unfold adds. rewrite filter_app, app_length. f_equal. cbn [filter].
  destruct o; try reflexivity. now destruct (Z.eqb _ _).
Qed.

Lemma removes_snoc : forall s os o,
  removes s (os ++ [o]) = (removes s os + match o with RemoveSink x => if Z.eqb x s then 1 else 0 | _ => 0 end)%nat.
Proof.
  intros; unfold removes. rewrite filter_app, app_length. f_equal. cbn [filter].
  destruct o; try reflexivity. now destruct (Z.eqb _ _).
Qed.

Lemma sinks_count : forall s os,
  (forall p r, os = p ++ r -> (removes s p <= adds s p)%nat) ->
  (count_occ Z.eq_dec (st_sinks (lrun os)) s + removes s os = adds s os)%nat.
Proof.
  intros s os; induction os as [|o os IH] using rev_ind; intros V; [reflexivity|].
  assert (V' : forall p r, os = p ++ r -> (removes s p <= adds s p)%nat).
  { intros p r ->. apply (V p (r ++ [o])). now rewrite app_assoc. }
  specialize (IH V'). pose proof (V (os ++ [o]) [] (eq_sym (app_nil_r _))) as Vl.
  clear V V'. rewrite lrun_snoc, lstep_sinks. rewrite adds_snoc, removes_snoc in *.
  destruct o as [x|x|m|i t].
  - rewrite count_occ_app; cbn [count_occ]. destruct (Z.eq_dec x s), (Z.eqb_spec x s); try congruence; change (@count_occ sink) with (@count_occ Z); lia.
  - rewrite count_remove_first. destruct (Z.eqb_spec x s); lia.
  - lia.
  - lia.
Qed.

Lemma remove_first_nodup : forall x ss, NoDup ss ->
  remove_first x ss = filter (fun s => negb (Z.eqb x s)) ss.
Proof.
  intros x; induction ss as [|y ss IH]; intros ND; cbn [remove_first filter]; [reflexivity|].
  inversion ND; subst. rewrite (Z.eqb_sym x y).
  destruct (Z.eqb_spec y x) as [->|N]; cbn [negb].
  - symmetry. rewrite <- (IH H2).
    clear - H1. induction ss as [|z ss IH]; cbn [remove_first]; [reflexivity|].
    destruct (Z.eqb_spec z x) as [->|N]; [exfalso; apply H1; now left|].
    f_equal. apply IH. intros I; apply H1; now right.
  - now rewrite IH.
Qed.

Lemma filter_filter2 : forall {A} (f g : A -> bool) l, filter f (filter g l) = filter (fun x => g x && f x) l.
Proof.
  induction l as [|x l IH]; cbn [filter]; [reflexivity|].
  destruct (g x); cbn [andb filter]; [|exact IH]. destruct (f x); now rewrite IH.
Qed.

Lemma adds_added : forall s os, adds s os = count_occ Z.eq_dec (added os) s.
Proof.
  intros s os; induction os as [|o os IH]; [reflexivity|].
  unfold adds, added in *; cbn [filter flat_map]. destruct o as [x|x|m|i t]; cbn [app]; try exact IH.
  cbn [count_occ]. destruct (Z.eqb_spec x s), (Z.eq_dec x s); try congruence; cbn [length]; now rewrite IH.
Qed.

Lemma sinks_order : forall os, NoDup (added os) ->
  (forall s p r, os = p ++ r -> (removes s p <= adds s p)%nat) ->
  st_sinks (lrun os) = filter (fun s => Nat.eqb (removes s os) 0) (added os).
Proof.
  intros os; induction os as [|o os IH] using rev_ind; intros ND V; [reflexivity|].
  assert (V' : forall s p r, os = p ++ r -> (removes s p <= adds s p)%nat).
  { intros s p r ->. apply (V s p (r ++ [o])). now rewrite app_assoc. }
  assert (EA : added (os ++ [o]) = added os ++ match o with AddSink s => [s] | _ => [] end).
  { unfold added; rewrite flat_map_app. cbn. now rewrite app_nil_r. }
  rewrite EA in *.
  assert (ND' : NoDup (added os)).
  { clear - ND. revert ND; generalize (added os). intros l; induction l as [|a l IHl]; intros H; [constructor|].
    cbn in H; inversion H; subst. constructor; [intros I; apply H2, in_or_app; now left | now apply IHl]. }
  specialize (IH ND' V'). rewrite lrun_snoc, lstep_sinks, IH.
  destruct o as [x|x|m|i t].
  - rewrite filter_app. cbn [filter].
    assert (NI : ~ In x (added os)).
    { apply NoDup_remove_2 in ND. now rewrite app_nil_r in ND. }
    assert (R0 : removes x os = 0%nat).
    { pose proof (V' x os [] (eq_sym (app_nil_r _))) as H. rewrite adds_added in H.
      apply (count_occ_not_In Z.eq_dec) in NI. change (@count_occ sink) with (@count_occ Z) in *. lia. }
    rewrite removes_snoc, R0. cbn [Nat.add Nat.eqb]. f_equal.
    apply filter_ext. intros s. rewrite removes_snoc. now rewrite Nat.add_0_r.
  - rewrite app_nil_r, remove_first_nodup by now apply NoDup_filter.
    rewrite filter_filter2. apply filter_ext. intros s. rewrite removes_snoc.
    destruct (Z.eqb x s); cbn [negb].
    + rewrite andb_false_r. symmetry. apply Nat.eqb_neq. lia.
    + now rewrite andb_true_r, Nat.add_0_r.
  - rewrite app_nil_r. apply filter_ext. intros s. now rewrite removes_snoc, Nat.add_0_r.
  - rewrite app_nil_r. apply filter_ext. intros s. now rewrite removes_snoc, Nat.add_0_r.
Qed.

(** Calls and their deliveries. *)


Lemma calls_msgs : forall os, map fst (st_calls (lrun os)) = copied os.
Proof.
  induction os as [|o os IH] using rev_ind; [reflexivity|].
  rewrite lrun_snoc. unfold copied; rewrite flat_map_app; fold (copied os). rewrite <- IH.
  destruct (lrun os) as [ss cs out]; cbn [st_calls].
  destruct o as [s|s|m|i t]; cbn [lstep st_calls st_sinks st_out flat_map app]; rewrite ?app_nil_r; try reflexivity.
  - destruct ss; cbn [st_calls]; now rewrite map_app.
  - destruct (nth_error cs i) as [[m [|s r]]|] eqn:E; cbn [st_calls]; try reflexivity.
    clear - E. revert i E; induction cs as [|[m' r'] cs IH]; intros [|i] E; cbn in *; try discriminate.
    + now injection E as -> ->.
    + f_equal. now apply IH.
Qed.

Lemma out_msgs : forall os p, In p (st_out (lrun os)) -> In (snd p) (copied os).
Proof.
  induction os as [|o os IH] using rev_ind; intros p H; [destruct H|].
  unfold copied; rewrite flat_map_app; fold (copied os); apply in_or_app.
  rewrite lrun_snoc in H. pose proof (calls_msgs os) as C.
  destruct (lrun os) as [ss cs out]; cbn [st_calls st_out] in *.
  destruct o as [s|s|m|i t]; cbn [lstep st_calls st_sinks st_out] in H; try (left; now apply IH).
  - destruct ss; cbn [st_out] in H; [|left; now apply IH].
    apply in_app_or in H as [H|[<-|[]]]; [left; now apply IH | right; now left].
  - destruct (nth_error cs i) as [[m [|s r]]|] eqn:E; cbn [st_out] in H; try (left; now apply IH).
    apply in_app_or in H as [H|[<-|[]]]; [left; now apply IH|]. left. rewrite <- C.
    apply nth_error_In in E. now apply (in_map fst) in E.
Qed.

Lemma about_app : forall m a b, about m (a ++ b) = about m a ++ about m b.
Proof. intros; apply filter_app. Qed.

Lemma nth_upd_same : forall {A} (l : list A) i x y, nth_error l i = Some y -> nth_error (upd l i x) i = Some x.
Proof. induction l; intros [|i] x y H; cbn in *; try discriminate; eauto. Qed.

Lemma nth_upd_other : forall {A} (l : list A) i j x, i <> j -> nth_error (upd l i x) j = nth_error l j.
Proof. induction l; intros [|i] [|j] x H; cbn; try congruence; auto. Qed.


Lemma call_deliveries : forall p m q, NoDup (copied (p ++ LogCopy m :: q)) ->
  exists r, nth_error (st_calls (lrun (p ++ LogCopy m :: q))) (length (copied p)) = Some (m, r) /\
  about m (st_out (lrun (p ++ LogCopy m :: q))) ++ map (fun s => (Some s, m)) r =
  match st_sinks (lrun p) with [] => [(None, m)] | ss => map (fun s => (Some s, m)) ss end.
Proof.
  intros p m q; induction q as [|o q IH] using rev_ind; intros ND.
  - replace (p ++ [LogCopy m]) with (p ++ [LogCopy m]) by reflexivity.
    rewrite lrun_snoc.
    assert (NI : ~ In m (copied p)).
    { unfold copied in ND; rewrite flat_map_app in ND. cbn in ND. apply NoDup_remove_2 in ND. now rewrite app_nil_r in ND. }
    assert (A : about m (st_out (lrun p)) = []).
    { unfold about. destruct (filter _ _) as [|x xs] eqn:E; [reflexivity|].
      exfalso. assert (H : In x (x :: xs)) by now left. rewrite <- E in H.
      apply filter_In in H as [H1 H2]. apply out_msgs in H1. apply Z.eqb_eq in H2. exact (NI (eq_ind _ (fun z => In z (copied p)) H1 _ H2)). }
    pose proof (calls_msgs p) as C. assert (L : length (copied p) = length (st_calls (lrun p))) by (now rewrite <- C, map_length).
    destruct (lrun p) as [ss cs out]; cbn [st_calls st_out st_sinks] in *. rewrite L.
    destruct ss as [|s ss]; cbn [lstep st_calls st_out st_sinks].
    + exists []. split; [rewrite nth_error_app2 by lia; now rewrite Nat.sub_diag|].
      rewrite about_app, A. cbn. now rewrite Z.eqb_refl.
    + exists (s :: ss). split; [rewrite nth_error_app2 by lia; now rewrite Nat.sub_diag|].
      now rewrite A.
  - replace (p ++ LogCopy m :: q ++ [o]) with ((p ++ LogCopy m :: q) ++ [o]) in * by (now rewrite <- app_assoc).
    set (os := p ++ LogCopy m :: q) in *.
    assert (ND' : NoDup (copied os)).
    { clear IH. unfold copied in *; rewrite flat_map_app in ND. clear - ND.
      revert ND; generalize (flat_map (fun o0 => match o0 with LogCopy m0 => [m0] | _ => [] end) os).
      intros l; induction l as [|a l IHl]; intros H; [constructor|]. cbn in H; inversion H; subst.
      constructor; [intros I; apply H2, in_or_app; now left | now apply IHl]. }
    destruct (IH ND') as (r & N & E).
    assert (Hm : In m (copied os)).
    { unfold os, copied; rewrite flat_map_app; apply in_or_app; right; now left. }
    rewrite lrun_snoc. pose proof (calls_msgs os) as C.
    destruct (lrun os) as [ss cs out]; cbn [st_calls st_out] in *.
    destruct o as [s|s|m'|i t]; cbn [lstep st_calls st_sinks st_out]; try (exists r; now split).
    + assert (m' <> m).
      { intros ->. unfold copied in ND; rewrite flat_map_app in ND. cbn in ND. apply NoDup_remove_2 in ND.
        rewrite app_nil_r in ND. now apply ND. }
      exists r. assert (nth_error (cs ++ [(m', ss)]) (length (copied p)) = Some (m, r) /\
                        nth_error (cs ++ [(m', [])]) (length (copied p)) = Some (m, r)) as [N1 N2].
      { split; rewrite nth_error_app1; try assumption; apply nth_error_Some; congruence. }
      destruct ss; cbn [st_calls st_out]; (split; [assumption|]).
      * rewrite about_app. cbn. destruct (Z.eqb_spec m' m); [congruence|]. now rewrite app_nil_r.
      * assumption.
    + destruct (nth_error cs i) as [[m' [|s r']]|] eqn:Ei; cbn [st_calls st_out]; try (exists r; now split).
      destruct (Nat.eq_dec i (length (copied p))) as [->|Ni].
      * rewrite N in Ei. injection Ei as <- ->. exists r'. split.
        -- eapply nth_upd_same; eassumption.
        -- rewrite about_app. cbn. rewrite Z.eqb_refl. rewrite <- app_assoc. cbn. exact E.
      * assert (m' <> m).
        { intros ->. apply Ni. rewrite <- C in ND'.
          apply (proj1 (NoDup_nth_error _) ND').
          - rewrite map_length. apply nth_error_Some. congruence.
          - now rewrite (map_nth_error fst _ _ Ei), (map_nth_error fst _ _ N). }
        exists r. split; [now rewrite nth_upd_other by congruence|].
        rewrite about_app. cbn. destruct (Z.eqb_spec m' m); [congruence|]. now rewrite app_nil_r.
Qed.
