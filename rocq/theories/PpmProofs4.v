(** Proofs for C63: what is counted. *)
From Verif Require Import Base ArithModel ArithSpec PpmModel PpmSpec PpmProofs PpmProofs2 PpmProofs3.
Local Open Scope Z_scope.

Lemma count_in_cons s s1 k1 t : count_in s ((s1, k1) :: t) = if s1 =? s then k1 else count_in s t.
Proof. unfold count_in. cbn [find fst]. destruct (s1 =? s); reflexivity. Qed.
Lemma count_in_absent s l : ~ In s (map fst l) -> count_in s l = 0.
Proof.
  induction l as [|[s1 k1] t IH]; intros H; [reflexivity|]. rewrite count_in_cons. cbn [map fst In] in H.
  destruct (Z.eqb_spec s1 s); [tauto|]. apply IH. tauto.
Qed.
Lemma info_add_count s k l b l' s' : ssorted (map fst l) -> info_add s k l = (b, l') -> count_in s' l' = count_in s' l + if s =? s' then k else 0.
Proof.
  revert b l'. induction l as [|[s1 k1] t IH]; intros b l' So H; cbn [info_add] in H.
  - inversion H; subst. rewrite count_in_cons. change (count_in s' []) with 0. destruct (s =? s'); lia.
  - cbn [map fst ssorted] in So. destruct So as [So1 So2]. destruct (Z.ltb_spec s1 s); [|destruct (Z.eqb_spec s1 s)].
    + destruct (info_add s k t) as [b1 t1]. inversion H; subst. rewrite !count_in_cons, (IH _ _ So2 eq_refl). destruct (Z.eqb_spec s1 s'), (Z.eqb_spec s s'); lia.
    + inversion H; subst. rewrite !count_in_cons. destruct (s =? s'); lia.
    + inversion H; subst. rewrite (count_in_cons s' s k). destruct (Z.eqb_spec s s'); [|lia]. subst s'. rewrite count_in_absent; [lia|].
      cbn [map fst In]. intros [E|I]; [lia|]. specialize (So1 _ I). lia.
Qed.
Definition mstat (m : list (list Z * counts)) (c : list Z) (s : Z) : Z :=
  match find (fun e => if list_eq_dec Z.eq_dec (fst e) c then true else false) m with Some (_, l) => count_in s l | None => 0 end.
Lemma mstat_cons c1 l1 t c s : mstat ((c1, l1) :: t) c s = if list_eq_dec Z.eq_dec c1 c then count_in s l1 else mstat t c s.
Proof. unfold mstat. cbn [find fst]. destruct (list_eq_dec Z.eq_dec c1 c); reflexivity. Qed.
Lemma mstat_absent m c s : ~ In c (map fst m) -> mstat m c s = 0.
Proof.
  induction m as [|[c1 l1] t IH]; intros H; [reflexivity|]. rewrite mstat_cons. cbn [map fst In] in H.
  destruct (list_eq_dec Z.eq_dec c1 c); [tauto|]. apply IH. tauto.
Qed.
Definition hit (c c' : list Z) (s s' k : Z) : Z := if list_eq_dec Z.eq_dec c c' then if s =? s' then k else 0 else 0.
Lemma map_add_stat n c s k m r m' c' s' : minv n m -> map_add c s k m = (r, m') -> mstat m' c' s' = mstat m c' s' + hit c c' s s' k.
Proof.
  revert r m'. induction m as [|[c1 l1] t IH]; intros r m' I H; cbn [map_add] in H; unfold hit in *.
  - inversion H; subst. rewrite mstat_cons. change (mstat [] c' s') with 0. rewrite count_in_cons. change (count_in s' []) with 0. destruct (list_eq_dec Z.eq_dec c c'); [destruct (s =? s')|]; lia.
  - destruct (lex_lt c1 c) eqn:L1; [|destruct (lex_lt c c1) eqn:L2].
    + destruct (map_add c s k t) as [r1 t1]. inversion H; subst. rewrite !mstat_cons, (IH _ _ (minv_tail _ _ _ I) eq_refl).
      destruct (list_eq_dec Z.eq_dec c1 c'), (list_eq_dec Z.eq_dec c c'); try lia. subst. rewrite lex_irrefl in L1. discriminate.
    + inversion H; subst. rewrite (mstat_cons c). destruct (list_eq_dec Z.eq_dec c c'); [|lia]. subst c'. rewrite count_in_cons. change (count_in s' []) with 0.
      rewrite (mstat_absent _ c); [destruct (s =? s'); lia|]. cbn [map fst In]. intros [E|Q]; [subst; rewrite lex_irrefl in L2; discriminate|].
      destruct I as [[Is It] _]. specialize (Is _ Q). pose proof (lex_trans _ _ _ L2 Is) as T. rewrite lex_irrefl in T. discriminate.
    + destruct (info_add s k l1) as [b l'] eqn:A. inversion H; subst. pose proof (lex_total _ _ L1 L2). subst c1.
      rewrite !mstat_cons. destruct (list_eq_dec Z.eq_dec c c'); [|lia]. apply (info_add_count _ _ _ b); [|exact A].
      apply (proj2 I c l1). left; auto.
Qed.
Lemma level_add_stat g c s k v c' s' : linv g v -> stat (level_add c s k v) c' s' = stat v c' s' + hit c c' s s' k.
Proof.
  intros (I & _). unfold level_add. destruct (map_add c s k (ctxs v)) as [r m] eqn:A. exact (map_add_stat _ _ _ _ _ _ _ c' s' I A).
Qed.
Lemma fold_add_stat g c l c' s' : length c = csize g -> cinv l -> forall v, linv g v ->
  stat (fold_left (fun acc e => level_add c (fst e) (snd e) acc) l v) c' s' = stat v c' s' + if list_eq_dec Z.eq_dec c c' then count_in s' l else 0.
Proof.
  intros Hc. induction l as [|[s k] t IH]; intros C v I; cbn [fold_left fst snd].
  - change (count_in s' []) with 0. destruct (list_eq_dec Z.eq_dec c c'); lia.
  - pose proof C as [[So1 So2] Hk]. destruct (Hk s k (or_introl eq_refl)) as [K1 K2]. rewrite IH; [|eapply cinv_tail; eauto|apply level_add_inv; auto].
    rewrite (level_add_stat g _ _ _ _ _ _ I). unfold hit. destruct (list_eq_dec Z.eq_dec c c'); [|lia]. rewrite count_in_cons.
    destruct (Z.eqb_spec s s'); [|lia]. subst. rewrite (count_in_absent s' t); [lia|]. intros Q. specialize (So1 _ Q). cbn [fst] in So1. lia.
Qed.

(** ** giving up a context: it goes away at its own level and its counts go to the shorter context at the next *)
Lemma mstat_removed a c l b c' s' : lsorted (map fst (a ++ (c, l) :: b)) -> mstat (a ++ b) c' s' = if list_eq_dec Z.eq_dec c c' then 0 else mstat (a ++ (c, l) :: b) c' s'.
Proof.
  rewrite map_app. cbn [map fst]. intros So. destruct (lsorted_app _ _ _ So) as [A B].
  destruct (list_eq_dec Z.eq_dec c c') as [<-|N].
  - apply mstat_absent. rewrite map_app, in_app_iff. intros [I|I]; [apply A in I|apply B in I]; rewrite lex_irrefl in I; discriminate.
  - clear So A B. induction a as [|[c1 l1] a IH]; cbn [app]; rewrite !mstat_cons; [destruct (list_eq_dec Z.eq_dec c c'); [tauto|auto]|].
    destruct (list_eq_dec Z.eq_dec c1 c'); auto.
Qed.
Lemma b_pop_stat gs i c b b' : descending gs -> binv gs b -> b_pop i c b = Some b' ->
  exists g v g' v' w w', nth_error b i = Some (g, v) /\ nth_error b (S i) = Some (g', v') /\ nth_error b' i = Some (g, w) /\ nth_error b' (S i) = Some (g', w') /\
    (forall j, j <> i -> j <> S i -> nth_error b' j = nth_error b j) /\
    (forall x s, stat w x s = if list_eq_dec Z.eq_dec c x then 0 else stat v x s) /\
    (forall x s, stat w' x s = stat v' x s + if list_eq_dec Z.eq_dec (lastn (csize g') c) x then stat v c s else 0).
Proof.
  intros D I. revert i b' gs D I. induction b as [|[g v] t IH]; intros i b' gs D [<- F] H; cbn [b_pop] in H; [discriminate|].
  inversion F as [|? ? Fv Ft]; subst. cbn [fst snd map] in *. destruct i as [|i].
  - destruct t as [|[g' v'] t']; [discriminate|]. destruct (map_remove c (ctxs v)) as [[l m]|] eqn:R; [|discriminate]. inversion H; subst; clear H.
    destruct (map_remove_spec _ _ _ _ R) as (a & b & Ev & ->). pose proof Fv as (I1 & _). rewrite Ev in I1.
    destruct (minv_remove _ _ _ _ _ I1) as (I2 & Lc & Nl & Cl). inversion Ft; subst. cbn [fst snd map] in *. destruct D as [D1 D2].
    eexists g, v, g', v', _, _. split; [reflexivity|]. split; [reflexivity|]. split; [reflexivity|]. split; [reflexivity|]. split; [|split].
    + intros [|[|j]] N1 N2; try congruence. reflexivity.
    + intros x s. change (mstat (a ++ b) x s = if list_eq_dec Z.eq_dec c x then 0 else mstat (ctxs v) x s). rewrite Ev. apply mstat_removed. apply I1.
    + intros x s. rewrite (fold_add_stat g'); auto; [|apply lastn_length; lia]. f_equal. destruct (list_eq_dec Z.eq_dec (lastn (csize g') c) x); [|auto].
      change (stat v c s) with (mstat (ctxs v) c s). rewrite Ev. destruct I1 as [So _]. rewrite map_app in So. cbn [map fst] in So. destruct (lsorted_app _ _ _ So) as [A _]. clear - A.
      induction a as [|[c1 l1] a IH]; cbn [app]; rewrite mstat_cons; [destruct (list_eq_dec Z.eq_dec c c); [auto|congruence]|].
      destruct (list_eq_dec Z.eq_dec c1 c) as [->|]; [|apply IH; intros; apply A; right; auto]. specialize (A c (or_introl eq_refl)). rewrite lex_irrefl in A. discriminate.
  - destruct (b_pop i c t) as [t'|] eqn:P; [|discriminate]. cbn in H. inversion H; subst.
    destruct (IH i t' (map fst t) (descending_tail _ _ D) (conj eq_refl Ft) P) as (g1 & v1 & g2 & v2 & w1 & w2 & E1 & E2 & E3 & E4 & E5 & E6).
    exists g1, v1, g2, v2, w1, w2. do 4 (split; [assumption|]). split; [|exact E6].
    intros [|j] N1 N2; [reflexivity|]. cbn [nth_error]. apply E5; congruence.
Qed.

(** ** training on a text *)
Lemma lastn_all {A} n (l : list A) : (length l <= n)%nat -> lastn n l = l.
Proof. intros H. unfold lastn. replace (length l - n)%nat with 0%nat by lia. reflexivity. Qed.
Lemma skipn_skipn' {A} a b (l : list A) : skipn a (skipn b l) = skipn (b + a) l.
Proof. revert l. induction b as [|b IH]; intros l; [reflexivity|]. destruct l; cbn [skipn plus]; [apply skipn_nil|auto]. Qed.
Lemma lastn_lastn {A} n m (l : list A) : (n <= m)%nat -> lastn n (lastn m l) = lastn n l.
Proof.
  intros H. unfold lastn. rewrite skipn_length, skipn_skipn'. f_equal. lia.
Qed.
Lemma push_lastn top h s : push_context top (lastn top h) s = lastn top (h ++ [s]).
Proof.
  unfold push_context. rewrite app_length. cbn [length]. destruct (Nat.ltb_spec top (length (lastn top h) + 1)).
  - assert (L : (top <= length h)%nat) by (unfold lastn in H; rewrite skipn_length in H; lia).
    unfold lastn. rewrite app_length. cbn [length]. rewrite skipn_app.
    destruct top as [|top].
    + rewrite Nat.sub_0_r, skipn_all. rewrite skipn_all2 by lia. replace (length h + 1 - 0 - length h)%nat with 1%nat by lia. reflexivity.
    + replace (length h + 1 - S top)%nat with (S (length h - S top))%nat by lia. replace (S (length h - S top) - length h)%nat with 0%nat by lia. cbn [skipn].
      assert (N : exists x r, skipn (length h - S top) h = x :: r).
      { destruct (skipn (length h - S top) h) eqn:E; [|eauto]. apply (f_equal (@length Z)) in E. rewrite skipn_length in E. cbn in E. lia. }
      destruct N as (x & r & N). rewrite N. cbn [app tl]. f_equal. clear - N. revert N. generalize (length h - S top)%nat as n. induction h as [|y h IH]; intros [|n] N; cbn in *; try congruence; auto.
  - assert (L : (length h < top)%nat) by (unfold lastn in H; rewrite skipn_length in H; lia). rewrite !lastn_all; auto; rewrite ?app_length; cbn; lia.
Qed.
Lemma b_add_nth ctx s b i g v : nth_error b i = Some (g, v) -> Forall (fun e => linv (fst e) (snd e)) b ->
  forall w, nth_error (b_add ctx s 1 b) i = Some (g, w) -> descending (map fst b) -> forall c' s',
  stat w c' s' = stat v c' s' + if (csize g <=? length ctx)%nat && match upto (map fst b) i with Some u => (length ctx <? u)%nat | None => true end then hit (lastn (csize g) ctx) c' s s' 1 else 0.
Proof.
  revert i. induction b as [|[g1 v1] t IH]; intros i Hv F w Hw D c' s'; [destruct i; discriminate|]. inversion F as [|? ? Fv Ft]; subst. cbn [fst snd map] in *.
  destruct i as [|i].
  - cbn [nth_error b_add upto] in *. inversion Hv; subst. destruct (Nat.ltb_spec (length ctx) (csize g)); cbn [nth_error] in Hw; inversion Hw; subst.
    + rewrite (proj2 (Nat.leb_gt _ _)) by lia. cbn [andb]. lia.
    + rewrite (proj2 (Nat.leb_le _ _)) by lia. cbn [andb]. apply (level_add_stat g); auto.
  - cbn [nth_error] in Hv. destruct t as [|[g2 v2] t]; [destruct i; discriminate|]. pose proof D as D'. destruct D as [D1 D2].
    assert (Gi : (csize g < csize g1)%nat).
    { clear - Hv D'. revert g1 g2 v2 t Hv D'. induction i as [|i IHi]; intros g1 g2 v2 t Hv [D1 D2]; cbn [nth_error] in Hv; [inversion Hv; subst; auto|].
      destruct t as [|[g3 v3] t]; [destruct i; discriminate|]. specialize (IHi g2 g3 v3 t Hv D2). cbn [map fst] in *. lia. }
    assert (U : upto (g1 :: map fst ((g2, v2) :: t)) (S i) = match i with O => Some (csize g1) | S _ => upto (map fst ((g2, v2) :: t)) i end) by (destruct i; reflexivity).
    cbn [map fst] in *. rewrite U. cbn [b_add] in Hw. destruct (Nat.ltb_spec (length ctx) (csize g1)); cbn [nth_error] in Hw.
    + rewrite (IH i Hv Ft w Hw D2). f_equal. destruct i as [|i]; [|reflexivity]. cbn [upto]. rewrite (proj2 (Nat.ltb_lt (length ctx) (csize g1))) by lia. reflexivity.
    + assert (w = v) by (cbn [nth_error] in *; congruence). subst w. replace (match _ with Some u => _ | None => _ end) with false; [rewrite andb_false_r; lia|]. symmetry.
      destruct i as [|i]; [apply Nat.ltb_ge; lia|]. cbn [upto nth_error] in *.
      assert (Q : exists gi, nth_error (map fst ((g2, v2) :: t)) i = Some gi /\ (csize gi < csize g1)%nat).
      { clear - Hv D'. revert g1 g2 v2 t Hv D'. induction i as [|i IHi]; intros g1 g2 v2 t Hv [D1 D2]; [exists g2; auto|].
        destruct t as [|[g3 v3] t]; [destruct i; discriminate|]. destruct (IHi g2 g3 v3 t Hv D2) as (gi & Q1 & Q2). exists gi. split; [exact Q1|cbn [map fst] in *; lia]. }
      destruct Q as (gi & Q1 & Q2). cbn [map fst] in Q1. rewrite Q1. cbn [option_map]. apply Nat.ltb_ge. lia.
Qed.
Lemma here_snoc h x c s n u j : (j < length h)%nat -> here (h ++ [x]) c s n u j = here h c s n u j.
Proof. intros H. unfold here. rewrite firstn_app. replace (j - length h)%nat with 0%nat by lia. cbn [firstn]. rewrite app_nil_r, nth_error_app1 by lia. reflexivity. Qed.
Lemma seen_snoc h x c s n u : seen (h ++ [x]) c s n u = seen h c s n u +
  if (n <=? length h)%nat && match u with Some k => (length h <? k)%nat | None => true end then hit (lastn n h) c x s 1 else 0.
Proof.
  unfold seen. rewrite app_length. cbn [length]. rewrite Nat.add_1_r, seq_S, filter_app, app_length, Nat2Z.inj_add. cbn [filter plus]. f_equal.
  - f_equal. f_equal. apply filter_ext_in. intros j Hj. apply here_snoc. apply in_seq in Hj. lia.
  - unfold here, hit. rewrite firstn_app, firstn_all, Nat.sub_diag. cbn [firstn]. rewrite app_nil_r, nth_error_app2, Nat.sub_diag by lia. cbn [nth_error].
    destruct ((n <=? length h)%nat && _); cbn [andb]; [|reflexivity]. destruct (list_eq_dec Z.eq_dec (lastn n h) c); cbn [andb]; [|reflexivity]. destruct (x =? s); reflexivity.
Qed.
Lemma train_app t a b : train t (a ++ b) = match train t a with Some t' => train t' b | None => None end.
Proof. revert t. induction a as [|e a IH]; intros t; cbn [app train]; [auto|]. destruct (train1 t e); auto. Qed.
Lemma csize_le_top gs i g : descending gs -> nth_error gs i = Some g -> (csize g <= match gs with [] => 0 | a :: _ => csize a end)%nat.
Proof.
  revert i. induction gs as [|a t IH]; intros i D H; [destruct i; discriminate|]. destruct i; [inversion H; subst; lia|]. cbn [nth_error] in H.
  specialize (IH i (descending_tail _ _ D) H). destruct t; [destruct i; discriminate|]. destruct D. lia.
Qed.
Lemma train_counts gs h : descending gs -> ends_with_order0 gs -> Forall byte h -> exists t, train (trainer0 gs) (map Train h) = Some t /\
  tr_context t = lastn (match gs with [] => 0 | g :: _ => csize g end)%nat h /\
  forall i g v, nth_error (tr_builder t) i = Some (g, v) -> forall c s, stat v c s = seen h c s (csize g) (upto gs i).
Proof.
  intros D O. induction h as [|x h IH] using rev_ind; intros B.
  - exists (trainer0 gs). split; [reflexivity|]. split; [symmetry; apply lastn_all; cbn; lia|].
    intros i g v H c s. cbn [trainer0 tr_builder] in H. rewrite nth_error_map in H. destruct (nth_error gs i); inversion H; subst. reflexivity.
  - apply Forall_app in B. destruct B as [B1 B2]. destruct (IH B1) as (t & T & C & S1). clear IH. inversion B2; subst.
    assert (BO : bytes_only (map Train h)). { intros s I. apply in_map_iff in I. destruct I as (y & E & I). inversion E; subst. rewrite Forall_forall in B1. auto. }
    pose proof (trained_inv _ _ _ D O BO T) as TI. destruct (ti_b _ _ _ TI) as [Eg F].
    exists (mkTr (b_add (tr_context t) x 1 (tr_builder t)) (push_context (top_cfg (tr_builder t)) (tr_context t) x)).
    assert (Tp : top_cfg (tr_builder t) = match gs with [] => 0%nat | g :: _ => csize g end) by (rewrite <- Eg; destruct (tr_builder t) as [|[? ?] ?]; reflexivity).
    split; [rewrite map_app, train_app, T; reflexivity|]. cbn [tr_context tr_builder]. split; [rewrite Tp, C; apply push_lastn|].
    intros i g w Hw c s. destruct (nth_error (tr_builder t) i) as [[g0 v]|] eqn:Hv.
    + assert (g0 = g).
      { pose proof (b_add_inv (tr_context t) x 1 (tr_builder t) gs ltac:(lia) H1 (conj Eg F)) as [Eg2 _].
        assert (A1 : nth_error gs i = Some g) by (rewrite <- Eg2; apply (map_nth_error fst) in Hw; exact Hw). assert (A2 : nth_error gs i = Some g0) by (rewrite <- Eg; apply (map_nth_error fst) in Hv; exact Hv). congruence. }
      subst g0. rewrite (b_add_nth _ _ _ _ _ _ Hv F _ Hw); [|rewrite Eg; auto]. rewrite (S1 _ _ _ Hv), Eg, seen_snoc. f_equal.
      assert (Hg : nth_error gs i = Some g) by (rewrite <- Eg; apply (map_nth_error fst) in Hv; exact Hv).
      pose proof (csize_le_top _ _ _ D Hg) as Lt. rewrite C. set (top := match gs with [] => 0%nat | a :: _ => csize a end) in *. rewrite lastn_lastn by lia.
      assert (Ll : length (lastn top h) = Nat.min top (length h)) by (unfold lastn; rewrite skipn_length; lia). rewrite Ll.
      assert (E1 : (csize g <=? Nat.min top (length h))%nat = (csize g <=? length h)%nat) by (destruct (Nat.leb_spec (csize g) (length h)); [apply Nat.leb_le|apply Nat.leb_gt]; lia). rewrite E1.
      destruct (csize g <=? length h)%nat; cbn [andb]; [|auto]. destruct i as [|i]; cbn [upto]; [auto|]. destruct (nth_error gs i) as [gi|] eqn:Gi; cbn [option_map]; [|auto].
      pose proof (csize_le_top _ _ _ D Gi) as Lt2. fold top in Lt2. 
      destruct (Nat.ltb_spec (length h) (csize gi)), (Nat.ltb_spec (Nat.min top (length h)) (csize gi)); try reflexivity; exfalso; lia.
    + exfalso. pose proof (b_add_inv (tr_context t) x 1 (tr_builder t) gs ltac:(lia) H1 (conj Eg F)) as [Eg2 _].
      apply nth_error_None in Hv. assert (length (b_add (tr_context t) x 1 (tr_builder t)) = length (tr_builder t)) by (rewrite <- (map_length fst), Eg2, <- Eg, map_length; auto).
      assert (nth_error (b_add (tr_context t) x 1 (tr_builder t)) i <> None) by congruence. apply nth_error_Some in H0. lia.
Qed.
