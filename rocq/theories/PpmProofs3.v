(** Proofs for C63: the dictionary built from a builder. *)
From Verif Require Import Base ArithModel ArithSpec ArithProofs PpmModel PpmSpec PpmProofs PpmProofs2.
Local Open Scope Z_scope.

(** ** where the symbols of a context are *)
Definition entry (g : cfg) (e : list Z * counts) : list Z * Z * counts := (fst e, exit_prob g (snd e), probs g (snd e)).
Definition kept (g : cfg) (m : list (list Z * counts)) : list (list Z * Z * counts) :=
  filter (fun e => match snd e with [] => false | _ => true end) (map (entry g) m).
Fixpoint place (off : nat) (l : list (list Z * Z * counts)) : list (list Z * Z * nat) :=
  match l with [] => [] | (c, e, p) :: t => (c, e, off) :: place (off + length p) t end.
Lemma fold_add_context g m : forall syms cxs, fold_left (add_context g) m (mkM g syms cxs) =
  mkM g (syms ++ concat (map snd (kept g m))) (cxs ++ place (length syms) (kept g m)).
Proof.
  induction m as [|[c l] t IH]; intros syms cxs; cbn [fold_left].
  - cbn. rewrite !app_nil_r. auto.
  - unfold add_context at 2. cbn [fst snd m_symbols m_contexts]. unfold kept. cbn [map filter]. change (entry g (c, l)) with (c, exit_prob g l, probs g l). cbn [snd]. fold (kept g t).
    destruct (probs g l) as [|p ps] eqn:P; [apply IH|]. rewrite IH. cbn [map concat snd place]. rewrite <- !app_assoc, app_length. reflexivity.
Qed.
Lemma build_level_spec g v : build_level (g, v) = mkM g (concat (map snd (kept g (ctxs v)))) (place 0 (kept g (ctxs v))).
Proof. unfold build_level. cbn [fst snd]. rewrite fold_add_context. reflexivity. Qed.

Lemma find_context_some c L off e o stop : find_context c (place off L) (off + length (concat (map snd L))) = Some (e, o, stop) ->
  exists pre c' p post, L = pre ++ (c', e, p) :: post /\ o = (off + length (concat (map snd pre)))%nat /\ stop = (o + length p)%nat /\
    (forall x, In x (map (fun y => fst (fst y)) pre) -> lex_lt x c = true) /\ lex_lt c' c = false.
Proof.
  revert off. induction L as [|[[c1 e1] p1] t IH]; intros off H; cbn [place find_context] in H; [discriminate|].
  destruct (lex_lt c1 c) eqn:Lt.
  - cbn [map concat snd] in H. rewrite app_length, Nat.add_assoc in H.
    destruct (IH _ H) as (pre & c' & p & post & -> & -> & -> & A & B). exists ((c1, e1, p1) :: pre), c', p, post.
    cbn [map concat snd app]. rewrite app_length. repeat split; auto; try lia. intros x [<-|Q]; auto.
  - injection H as <- <- H. exists [], c1, p1, t. cbn [map concat length app snd]. repeat split; auto; try lia; try tauto.
    subst stop. destruct t as [|[[c2 e2] p2] t]; cbn [place map concat snd app]; [rewrite app_nil_r|]; cbn; lia.
Qed.
Lemma find_context_none c L off total : find_context c (place off L) total = None -> forall x, In x (map (fun y => fst (fst y)) L) -> lex_lt x c = true.
Proof.
  revert off. induction L as [|[[c1 e1] p1] t IH]; intros off H x; cbn [place find_context map fst In] in *; [tauto|].
  destruct (lex_lt c1 c) eqn:Lt; [|discriminate]. intros [<-|I]; eauto.
Qed.
Lemma lookup_spec g v c e l : lookup (build_level (g, v)) c = Some (e, l) -> exists pre c' post,
  kept g (ctxs v) = pre ++ (c', e, l) :: post /\ (forall x, In x (map (fun y => fst (fst y)) pre) -> lex_lt x c = true) /\ lex_lt c' c = false.
Proof.
  rewrite build_level_spec. unfold lookup. cbn [m_contexts m_symbols]. set (L := kept g (ctxs v)).
  destruct (find_context c (place 0 L) (length (concat (map snd L)))) as [[[e1 o] stop]|] eqn:F; [|discriminate]. intros H. inversion H; subst.
  change (length (concat (map snd L))) with (0 + length (concat (map snd L)))%nat in F.
  destruct (find_context_some _ _ _ _ _ _ F) as (pre & c' & p & post & E & -> & -> & A & B). exists pre, c', post. rewrite E.
  replace (firstn _ _) with p; [auto|]. rewrite map_app, concat_app. cbn [map concat snd plus].
  rewrite skipn_app, skipn_all, Nat.sub_diag. cbn [skipn app]. rewrite Nat.add_comm, Nat.add_sub. rewrite firstn_app, firstn_all, Nat.sub_diag. cbn [firstn]. rewrite app_nil_r. auto.
Qed.
Lemma kept_in g m c e l : In (c, e, l) (kept g m) -> exists k, In (c, k) m /\ e = exit_prob g k /\ l = probs g k.
Proof.
  unfold kept. intros H. apply filter_In in H. destruct H as [H _]. apply in_map_iff in H. destruct H as ([c1 k] & E & I). inversion E; subst. exists k. auto.
Qed.
Lemma m_cfg_build g v : m_cfg (build_level (g, v)) = g.
Proof. rewrite build_level_spec. reflexivity. Qed.

(** ** probabilities *)
Lemma exit_prob_1 g l : exit_prob g l = 1.
Proof. unfold exit_prob, exit_count. destruct (_ <? _); cbn [Z.mul]; [rewrite Zdiv_0_l|]; reflexivity. Qed.
Lemma max_count_bounds l a : 0 <= a -> (forall s k, In (s, k) l -> 1 <= k) ->
  a <= fold_left (fun m e => Z.max m (snd e)) l a <= a + mass l /\ forall s k, In (s, k) l -> k <= fold_left (fun m e => Z.max m (snd e)) l a.
Proof.
  revert a. induction l as [|[s k] t IH]; intros a Ha H; cbn [fold_left snd].
  - change (mass []) with 0. split; [lia|intros ? ? []].
  - rewrite mass_cons. assert (1 <= k) by (apply (H s); left; auto).
    destruct (IH (Z.max a k) ltac:(lia) (fun s k Q => H s k (or_intror Q))) as [B1 B2]. split; [lia|].
    intros s2 k2 [E|I]; [inversion E; subst; lia|eauto].
Qed.
Lemma max_count_attained l : l <> [] -> (forall s k, In (s, k) l -> 1 <= k) -> exists s, In (s, max_count l) l.
Proof.
  unfold max_count, exit_count. intros N H.
  assert (A : forall l a, (forall s k, In (s, k) l -> 1 <= k) -> fold_left (fun m (e : Z * Z) => Z.max m (snd e)) l a = a \/ exists s, In (s, fold_left (fun m (e : Z * Z) => Z.max m (snd e)) l a) l).
  { clear. induction l as [|[s k] t IH]; intros a H; cbn [fold_left snd]; [auto|].
    destruct (IH (Z.max a k) (fun s k Q => H s k (or_intror Q))) as [E|[s' I]]; [|right; exists s'; right; auto]. rewrite E.
    destruct (Z.max_spec a k) as [[_ ->]|[_ ->]]; [right; exists s; left; auto|auto]. }
  destruct (A l 0 H) as [E|I]; [|auto]. exfalso. destruct l as [|[s k] t]; [congruence|].
  destruct (max_count_bounds ((s, k) :: t) 0 ltac:(lia) H) as [_ B]. specialize (B s k (or_introl eq_refl)). specialize (H s k (or_introl eq_refl)). lia.
Qed.
Lemma scaled_id g maxc k : 0 <= k <= maxc -> maxc <= scale_max g -> scaled g maxc k = k.
Proof. intros H1 H2. unfold scaled. rewrite (proj2 (Z.ltb_ge (scale_max g) maxc)) by lia. apply Z.mod_small. unfold scale_max in H2. lia. Qed.

Lemma fill_syms n g maxc sym l : map fst (fill n g maxc sym l) = map (fun i => sym + Z.of_nat i) (seq 0 n).
Proof.
  revert sym l. induction n as [|n IH]; intros sym l; [reflexivity|].
  assert (E : forall x, x :: map (fun i => sym + 1 + Z.of_nat i) (seq 0 n) = x :: map (fun i => sym + Z.of_nat i) (seq 1 n)).
  { intros x. f_equal. rewrite <- seq_shift, map_map. apply map_ext. intros. lia. }
  cbn [fill]. destruct l as [|[s k] t]; [|destruct (s =? sym)]; cbn [map fst seq]; rewrite IH, E; f_equal; lia.
Qed.
Lemma ssorted_seq n sym a : ssorted (map (fun i => sym + Z.of_nat i) (seq a n)).
Proof. revert a. induction n; intros a; cbn [seq map ssorted]; [auto|]. split; [|auto]. intros y Hy. apply in_map_iff in Hy. destruct Hy as (i & <- & I). apply in_seq in I. lia. Qed.
Lemma fill_nonempty n g maxc sym l : (1 <= n)%nat -> fill n g maxc sym l <> [].
Proof. destruct n as [|n]; [lia|]. intros _. cbn [fill]. destruct l as [|[s k] t]; [discriminate|]. destruct (s =? sym); discriminate. Qed.
Lemma fill_pos n g maxc sym l s p : In (s, p) (fill n g maxc sym l) -> 1 <= p.
Proof.
  revert sym l. induction n as [|n IH]; intros sym l; cbn [fill]; [intros []|].
  destruct l as [|[s1 k] t]; [|destruct (s1 =? sym)]; intros [E|I]; eauto; inversion E; subst; lia.
Qed.
Lemma fill_mass n g maxc sym l : (forall s k, In (s, k) l -> 1 <= k <= maxc) -> maxc <= scale_max g ->
  mass (fill n g maxc sym l) + Z.of_nat (length l) <= Z.of_nat n + mass l.
Proof.
  intros H1 H2. revert sym l H1. induction n as [|n IH]; intros sym l H1; cbn [fill].
  - change (mass []) with 0. induction l as [|[s k] t IHl]; [cbn; lia|]. rewrite mass_cons. cbn [length].
    destruct (H1 s k (or_introl eq_refl)). specialize (IHl (fun s k Q => H1 s k (or_intror Q))). lia.
  - destruct l as [|[s1 k] t]; [|destruct (s1 =? sym)]; rewrite mass_cons.
    + specialize (IH (sym + 1) [] H1). cbn [length] in *. change (mass []) with 0 in *. lia.
    + rewrite (mass_cons s1). destruct (H1 s1 k (or_introl eq_refl)). rewrite scaled_id by lia. rewrite Z.max_l by lia.
      specialize (IH (sym + 1) t (fun s k Q => H1 s k (or_intror Q))). cbn [length]. lia.
    + specialize (IH (sym + 1) _ H1). lia.
Qed.
Lemma probs_same g l : csize g <> 0%nat -> (forall s k, In (s, k) l -> 1 <= k <= max_count l) -> max_count l <= scale_max g -> probs g l = l.
Proof.
  intros N H M. unfold probs. rewrite (proj2 (Nat.eqb_neq _ _) N).
  set (m := max_count l) in *. clearbody m. induction l as [|[s k] t IH]; [reflexivity|]. destruct (H s k (or_introl eq_refl)). cbn [map filter fst snd]. rewrite scaled_id by lia.
  destruct (Z.eqb_spec k 0); [lia|]. cbn [negb]. rewrite IH; auto. intros; apply (H s0); right; auto.
Qed.
Lemma good_probs g l n : cinv l -> l <> [] -> mass l <= n -> n + 255 <= 2 ^ pbits g -> n + 256 <= 2 ^ 29 -> good_slice g (exit_prob g l) (probs g l).
Proof.
  intros [So H] N Hn H1 H2. assert (P : forall s k, In (s, k) l -> 1 <= k) by (intros; apply (H s k); auto).
  destruct (max_count_bounds l 0 ltac:(lia) P) as [B1 B2]. fold exit_count in B1, B2. fold (max_count l) in B1, B2.
  assert (M : max_count l <= scale_max g) by (unfold scale_max, exit_count in *; lia).
  assert (B : forall s k, In (s, k) l -> 1 <= k <= max_count l) by (intros s k I; split; eauto).
  split; [apply exit_prob_1|]. destruct (Nat.eq_dec (csize g) 0) as [Z0|Z0].
  - unfold probs. rewrite Z0. cbn [Nat.eqb]. pose proof (fill_mass 256 g (max_count l) 0 l B M) as F. set (F256 := fill 256 g (max_count l) 0 l) in *. replace (map fst F256) with (map (fun i => 0 + Z.of_nat i) (seq 0 256)) by (symmetry; apply fill_syms). split; [apply ssorted_seq|]. split; [intros s p; apply fill_pos|]. clearbody F256. change (Z.of_nat 256) with 256 in F.
    assert (1 <= Z.of_nat (length l)) by (destruct l; [congruence|cbn [length]; lia]). lia.
  - rewrite (probs_same g l Z0 B M). repeat split; auto; lia.
Qed.
Lemma mass_le_mmass n m c l : minv n m -> In (c, l) m -> mass l <= mmass m.
Proof.
  intros I Q. assert (N : forall c l, In (c, l) m -> 0 <= mass l).
  { intros c1 l1 I1. apply mass_pos. intros. apply (proj2 (proj2 (proj2 (proj2 I _ _ I1)))) in H. lia. } clear I.
  assert (Nm : forall m, (forall c l, In (c, l) m -> 0 <= mass l) -> 0 <= mmass m).
  { clear. unfold mmass. induction m as [|[c l] t IH]; intros N; cbn [fold_right snd]; [lia|]. specialize (IH (fun c l I => N c l (or_intror I))). specialize (N c l (or_introl eq_refl)). lia. }
  induction m as [|[c1 l1] t IH]; [destruct Q|]. unfold mmass in *. cbn [fold_right snd] in *. destruct Q as [E|I].
  - inversion E; subst. specialize (Nm t (fun c l I => N c l (or_intror I))). lia.
  - specialize (IH I (fun c l I => N c l (or_intror I))). specialize (N c1 l1 (or_introl eq_refl)). lia.
Qed.
Lemma level_mass_nonneg g v : linv g v -> 0 <= level_mass v.
Proof.
  intros [[_ I] _]. unfold level_mass. induction (ctxs v) as [|[c l] t IH]; cbn [fold_right snd]; [lia|].
  assert (0 <= mass l) by (apply mass_pos; intros; apply (I c l (or_introl eq_refl)) in H; lia). specialize (IH (fun c l Q => I c l (or_intror Q))). lia.
Qed.
Lemma level_mass_le b gs g v : binv gs b -> In (g, v) b -> level_mass v <= builder_mass b.
Proof.
  intros [_ F]. unfold builder_mass. assert (N : forall b, Forall (fun e => linv (fst e) (snd e)) b -> 0 <= fold_right (fun e a => level_mass (snd e) + a) 0 b).
  { clear. induction 1; cbn [fold_right]; [lia|]. apply level_mass_nonneg in H. lia. }
  induction F as [|[g1 v1] t H F IH]; intros I; [destruct I|]. cbn [fold_right snd fst] in *. specialize (N t F). pose proof (level_mass_nonneg _ _ H).
  destruct I as [E|I]; [inversion E; subst; lia|specialize (IH I); lia].
Qed.
Lemma good_build gs n t : tinv gs n t -> fits n gs -> Forall good_level (dictionary t).
Proof.
  intros [Ib Im _ _ _] [F1 F2]. unfold dictionary, build. apply Forall_forall. intros m Hm. apply in_map_iff in Hm. destruct Hm as ([g v] & <- & I).
  intros c e l L. rewrite m_cfg_build. destruct (lookup_spec _ _ _ _ _ L) as (pre & c' & post & E & _ & _).
  assert (K : In (c', e, l) (kept g (ctxs v))) by (rewrite E; apply in_elt). destruct (kept_in _ _ _ _ _ K) as (k & Ik & -> & ->).
  pose proof (level_mass_le _ _ _ _ Ib I) as LM. destruct Ib as [Eg Fb]. rewrite Forall_forall in Fb. specialize (Fb _ I). cbn [fst snd] in Fb. destruct Fb as (Mi & _).
  pose proof (mass_le_mmass _ _ _ _ Mi Ik). destruct (proj2 Mi _ _ Ik) as (_ & Nk & Ck). change (mmass (ctxs v)) with (level_mass v) in H.
  apply (good_probs g k n); auto; try lia. apply F2. rewrite <- Eg. apply in_map_iff. exists (g, v). auto.
Qed.

(** ** every byte can be encoded *)
Lemma predict_app pre m ctx s : predict [m] ctx (Some s) <> None -> predict (pre ++ [m]) ctx (Some s) <> None.
Proof.
  intros H. induction pre as [|a t IH]; [exact H|]. cbn [app predict]. destruct (length ctx <? csize (m_cfg a))%nat; [auto|].
  destruct (lookup a _) as [[e l]|]; [|auto]. destruct (do_predict _ _ _ _) as [y here]. destruct here; [discriminate|]. destruct (predict (t ++ [m]) ctx (Some s)); [discriminate|congruence].
Qed.
Lemma order0_predicts g v ctx s : csize g = 0%nat -> ctxs v <> [] -> byte s -> predict [build_level (g, v)] ctx (Some s) <> None.
Proof.
  intros Z0 N B. cbn [predict]. rewrite m_cfg_build, Z0. change (length ctx <? 0)%nat with false. cbv iota.
  replace (lastn 0 ctx) with (@nil Z) by (unfold lastn; rewrite Nat.sub_0_r, skipn_all; auto).
  destruct (lookup (build_level (g, v)) []) as [[e l]|] eqn:L.
  - destruct (lookup_spec _ _ _ _ _ L) as (pre & c' & post & E & _ & _).
    assert (K : In (c', e, l) (kept g (ctxs v))) by (rewrite E; apply in_elt). destruct (kept_in _ _ _ _ _ K) as (k & Ik & _ & Ep).
    unfold do_predict. destruct (find_symbol s l []) as [[before p]|] eqn:Fs; [discriminate|]. exfalso. revert Fs. apply find_symbol_in; rewrite Ep; unfold probs; rewrite Z0; cbn [Nat.eqb]; rewrite fill_syms.
    + apply ssorted_seq.
    + apply in_map_iff. exists (Z.to_nat s). unfold byte in B. split; [lia|]. apply in_seq. lia.
  - exfalso. rewrite build_level_spec in L. unfold lookup in L. cbn [m_contexts m_symbols] in L.
    destruct (find_context [] _ _) as [[[? ?] ?]|] eqn:F; [discriminate|].
    assert (K : exists x, In x (kept g (ctxs v))).
    { destruct (ctxs v) as [|[c k] t]; [congruence|]. exists (entry g (c, k)). unfold kept. apply filter_In. split; [left; auto|].
      change (entry g (c, k)) with (c, exit_prob g k, probs g k). cbn [snd]. unfold probs. rewrite Z0. cbn [Nat.eqb].
      pose proof (fill_nonempty 256 g (max_count k) 0 k ltac:(lia)) as Fn. destruct (fill 256 g (max_count k) 0 k); [congruence|auto]. }
    destruct K as [x K]. pose proof (find_context_none _ _ _ _ F (fst (fst x))) as Q. assert (Q' : lex_lt (fst (fst x)) [] = true) by (apply Q; apply in_map_iff; exists x; auto). destruct (fst (fst x)); discriminate.
Qed.
Lemma predict_none ms ctx : predict ms ctx None <> None.
Proof.
  induction ms as [|a t IH]; [discriminate|]. cbn [predict]. destruct (length ctx <? csize (m_cfg a))%nat; [auto|].
  destruct (lookup a _) as [[e l]|]; [|auto]. destruct (do_predict _ _ _ _) as [y here]. destruct here; [discriminate|]. destruct (predict t ctx None); [discriminate|congruence].
Qed.
Lemma predict_total gs n t ctx so : ends_with_order0 gs -> tinv gs n t -> 1 <= n -> (forall s, so = Some s -> byte s) -> predict (dictionary t) ctx so <> None.
Proof.
  intros (pg & g & -> & Z0) [[Eg _] _ Il _ _] Hn B. destruct so as [s|]; [|apply predict_none]. destruct (Il Hn) as (pre & g1 & v & E & N).
  rewrite E, map_app in Eg. cbn [map fst] in Eg. apply app_inj_tail in Eg. destruct Eg as [_ ->].
  unfold dictionary, build. rewrite E, map_app. cbn [map]. apply predict_app. apply order0_predicts; auto.
Qed.
Lemma intervals_total ms msg : (forall ctx so, (forall s, so = Some s -> byte s) -> predict ms ctx so <> None) -> Forall byte msg -> forall ctx, exists ys, intervals ms ctx msg = Some ys.
Proof.
  intros H. induction 1 as [|s t Hs Ht IH]; intros ctx; cbn [intervals].
  - specialize (H ctx None). destruct (predict ms ctx None); [eauto|]. exfalso. apply H; auto. discriminate.
  - destruct (IH (push_context (top_size ms) ctx s)) as (b & ->). specialize (H ctx (Some s)). destruct (predict ms ctx (Some s)); [eauto|]. exfalso. apply H; auto. intros s' E. congruence.
Qed.

(** ** a context that was seen is found *)
Lemma probs_nonempty g l : 1 <= pbits g -> cinv l -> l <> [] -> probs g l <> [].
Proof.
  intros W [_ H] N. unfold probs. destruct (csize g =? 0)%nat. { apply fill_nonempty. lia. }
  assert (P : forall s k, In (s, k) l -> 1 <= k) by (intros; apply (H s k); auto).
  destruct (max_count_attained l N P) as [s I]. pose proof (P _ _ I). intros Q.
  assert (S1 : 2 <= 2 ^ pbits g) by (change 2 with (2 ^ 1) at 1; apply Z.pow_le_mono_r; lia).
  assert (In (s, scaled g (max_count l) (max_count l)) []) as [].
  rewrite <- Q. apply filter_In. split; [apply in_map_iff; exists (s, max_count l); auto|]. cbn [snd]. apply negb_true_iff. apply Z.eqb_neq.
  unfold scaled. unfold scale_max in *. destruct (Z.ltb_spec (2 ^ pbits g - 1) (max_count l)).
  - rewrite Z.mul_comm, Z.div_mul by lia. rewrite Z.mod_small by lia. lia.
  - rewrite Z.mod_small by lia. lia.
Qed.
Lemma lsorted_app a x b : lsorted (a ++ x :: b) -> (forall y, In y a -> lex_lt y x = true) /\ (forall y, In y b -> lex_lt x y = true).
Proof.
  induction a as [|c a IH]; cbn [app lsorted]; [intros [H1 H2]; split; [intros ? []|auto]|].
  intros [H1 H2]. destruct (IH H2) as [I1 I2]. split; [|auto]. intros y [<-|I]; auto. apply H1. apply in_elt.
Qed.
Lemma kept_all g m : 1 <= pbits g -> (forall c l, In (c, l) m -> l <> [] /\ cinv l) -> kept g m = map (entry g) m.
Proof.
  intros W H. unfold kept. induction m as [|[c l] t IH]; [reflexivity|]. cbn [map filter]. change (entry g (c, l)) with (c, exit_prob g l, probs g l). cbn [snd]. rewrite IH by (intros; eapply H; right; eauto).
  destruct (H c l (or_introl eq_refl)) as [N C]. pose proof (probs_nonempty g l W C N). destruct (probs g l); [congruence|reflexivity].
Qed.
Lemma lookup_seen g v c k : 1 <= pbits g -> linv g v -> In (c, k) (ctxs v) -> lookup (build_level (g, v)) c = Some (1, probs g k).
Proof.
  intros W ((So & H) & _) I. assert (K : kept g (ctxs v) = map (entry g) (ctxs v)) by (apply kept_all; auto; intros; apply (H _ _ H0)).
  apply in_split in I. destruct I as (a & b & E). rewrite E, map_app in So. cbn [map fst] in So. destruct (lsorted_app _ _ _ So) as [A B].
  destruct (lookup (build_level (g, v)) c) as [[e l]|] eqn:L.
  - destruct (lookup_spec _ _ _ _ _ L) as (pre & c' & post & E2 & P1 & P2). rewrite K in E2.
    assert (Mc : map fst (ctxs v) = map (fun y => fst (fst y)) pre ++ c' :: map (fun y => fst (fst y)) post).
    { transitivity (map (fun y : list Z * Z * counts => fst (fst y)) (map (entry g) (ctxs v))); [rewrite map_map; reflexivity|]. rewrite E2, map_app. reflexivity. }
    rewrite E, map_app in Mc. cbn [map fst] in Mc.
    assert (Lp : (length pre = length a)%nat).
    { destruct (lt_eq_lt_dec (length pre) (length a)) as [[Lt|Eq]|Gt]; [exfalso|auto|exfalso].
      - assert (Q : nth_error (map fst a ++ c :: map fst b) (length pre) = Some c') by (rewrite Mc, nth_error_app2; rewrite map_length; [rewrite Nat.sub_diag; reflexivity|lia]).
        rewrite nth_error_app1 in Q by (rewrite map_length; lia). apply nth_error_In in Q. rewrite (A _ Q) in P2. discriminate.
      - assert (Q : nth_error (map (fun y : list Z * Z * counts => fst (fst y)) pre ++ c' :: map (fun y => fst (fst y)) post) (length a) = Some c) by (rewrite <- Mc, nth_error_app2; rewrite map_length; [rewrite Nat.sub_diag; reflexivity|lia]).
        rewrite nth_error_app1 in Q by (rewrite map_length; lia). apply nth_error_In in Q. apply P1 in Q. rewrite lex_irrefl in Q. discriminate. }
    rewrite E, map_app in E2. cbn [map] in E2.
    assert (Q : nth_error (map (entry g) a ++ entry g (c, k) :: map (entry g) b) (length a) = Some (c', e, l)) by (rewrite E2, nth_error_app2; rewrite Lp; [rewrite Nat.sub_diag; reflexivity|lia]).
    rewrite nth_error_app2 in Q by (rewrite map_length; lia). rewrite map_length, Nat.sub_diag in Q. cbn in Q. inversion Q; subst. rewrite exit_prob_1. reflexivity.
  - exfalso. rewrite build_level_spec in L. unfold lookup in L. cbn [m_contexts m_symbols] in L. destruct (find_context c _ _) as [[[? ?] ?]|] eqn:F; [discriminate|].
    pose proof (find_context_none _ _ _ _ F c) as Q. rewrite lex_irrefl in Q. discriminate Q. rewrite K, map_map. apply in_map_iff. exists (c, k). split; [auto|]. rewrite E. apply in_elt.
Qed.
