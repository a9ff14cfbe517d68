(** Proofs for C63: the statistics of a dictionary builder. *)
From Verif Require Import Base ArithModel ArithSpec PpmModel PpmSpec PpmProofs.
Local Open Scope Z_scope.

(** ** the order of contexts *)
Lemma lex_irrefl a : lex_lt a a = false.
Proof. induction a; cbn; [auto|]. rewrite Z.ltb_irrefl. auto. Qed.
Lemma lex_trans a b c : lex_lt a b = true -> lex_lt b c = true -> lex_lt a c = true.
Proof.
  revert b c. induction a as [|x a IH]; intros [|y b] [|z c]; cbn; try discriminate; auto.
  destruct (Z.ltb_spec x y), (Z.ltb_spec y z), (Z.ltb_spec x z); auto; try lia; destruct (Z.ltb_spec y x), (Z.ltb_spec z y), (Z.ltb_spec z x); auto; try lia; try discriminate.
  apply IH.
Qed.
Lemma lex_total a b : lex_lt a b = false -> lex_lt b a = false -> a = b.
Proof.
  revert b. induction a as [|x a IH]; intros [|y b]; cbn; auto; try discriminate.
  destruct (Z.ltb_spec x y), (Z.ltb_spec y x); try lia; try discriminate. intros H1 H2. rewrite (IH _ H1 H2). f_equal. lia.
Qed.
Fixpoint lsorted (l : list (list Z)) : Prop := match l with [] => True | x :: t => (forall y, In y t -> lex_lt x y = true) /\ lsorted t end.

Definition cinv (l : counts) : Prop := ssorted (map fst l) /\ forall s k, In (s, k) l -> 1 <= k /\ byte s.
Definition minv (n : nat) (m : list (list Z * counts)) : Prop :=
  lsorted (map fst m) /\ forall c l, In (c, l) m -> length c = n /\ l <> [] /\ cinv l.
Definition entries (m : list (list Z * counts)) : Z := fold_right (fun e a => Z.of_nat (length (snd e)) + a) 0 m.
Definition mmass (m : list (list Z * counts)) : Z := fold_right (fun e a => mass (snd e) + a) 0 m.
Definition linv (g : cfg) (v : level) : Prop :=
  minv (csize g) (ctxs v) /\ n_contexts v = Z.of_nat (length (ctxs v)) /\ n_entries v = entries (ctxs v).

Lemma cinv_tail e l : cinv (e :: l) -> cinv l.
Proof. intros [H1 H2]. split; [apply H1|]. intros; apply H2; right; auto. Qed.
Lemma minv_tail n e l : minv n (e :: l) -> minv n l.
Proof. intros [H1 H2]. split; [apply H1|]. intros; apply H2; right; auto. Qed.

Lemma info_add_syms s k l b l' : info_add s k l = (b, l') -> forall x, In x (map fst l') <-> x = s \/ In x (map fst l).
Proof.
  revert b l'. induction l as [|[s1 k1] t IH]; intros b l' H x; cbn [info_add] in H.
  - inversion H; subst. cbn. intuition.
  - destruct (Z.ltb_spec s1 s); [|destruct (Z.eqb_spec s1 s)].
    + destruct (info_add s k t) as [b1 t1]. inversion H; subst. specialize (IH _ _ eq_refl x). cbn. rewrite IH. intuition.
    + inversion H; subst. cbn. intuition.
    + inversion H; subst. cbn. intuition.
Qed.
Lemma info_add_inv s k l b l' : 1 <= k -> byte s -> cinv l -> info_add s k l = (b, l') ->
  cinv l' /\ l' <> [] /\ mass l' = mass l + k /\ Z.of_nat (length l') = Z.of_nat (length l) + if b then 1 else 0.
Proof.
  intros Hk Hs. revert b l'. induction l as [|[s1 k1] t IH]; intros b l' C H; cbn [info_add] in H.
  - inversion H; subst. repeat split; cbn; try tauto; try lia; try discriminate; destruct H0 as [E|[]]; inversion E; subst; auto; apply Hs.
  - destruct (Z.ltb_spec s1 s); [|destruct (Z.eqb_spec s1 s)].
    + destruct (info_add s k t) as [b1 t1] eqn:A. inversion H; subst. destruct (IH _ _ (cinv_tail _ _ C) eq_refl) as (C1 & N & M & L).
      split; [|split; [discriminate|split; [rewrite !mass_cons; lia|cbn [length]; lia]]].
      destruct C as [[Cs Ct] Ck]. split.
      * cbn. split; [|apply C1]. intros y Hy. apply (info_add_syms _ _ _ _ _ A) in Hy. destruct Hy as [->|Hy]; auto.
      * intros s2 k2 [E|I]; [inversion E; subst; apply Ck; left; auto|apply C1; auto].
    + inversion H; subst. split; [|split; [discriminate|split; [rewrite !mass_cons; lia|cbn [length]; lia]]].
      destruct C as [[Cs Ct] Ck]. split; [split; auto|].
      intros s2 k2 [E|I]; [|apply Ck; right; auto]. inversion E; subst. destruct (Ck s2 k1) as [Q1 Q2]; [left; auto|]. split; [lia|auto].
    + inversion H; subst. split; [|split; [discriminate|split; [rewrite !mass_cons; lia|cbn [length]; lia]]].
      destruct C as [Cs Ck]. split.
      * cbn. cbn in Cs. split; [|auto]. intros y [<-|Hy]; [lia|]. destruct Cs as [Cs _]. specialize (Cs _ Hy). lia.
      * intros s2 k2 [E|I]; [inversion E; subst; auto|apply Ck; auto].
Qed.

Lemma map_add_ctxs c s k m r m' : map_add c s k m = (r, m') -> forall x, In x (map fst m') <-> x = c \/ In x (map fst m).
Proof.
  revert r m'. induction m as [|[c1 l1] t IH]; intros r m' H x; cbn [map_add] in H.
  - inversion H; subst. cbn. intuition.
  - destruct (lex_lt c1 c) eqn:L1; [|destruct (lex_lt c c1) eqn:L2].
    + destruct (map_add c s k t) as [r1 t1]. inversion H; subst. specialize (IH _ _ eq_refl x). cbn. rewrite IH. intuition.
    + inversion H; subst. cbn. intuition.
    + destruct (info_add s k l1). inversion H; subst. rewrite (lex_total _ _ L1 L2). cbn. intuition.
Qed.
Lemma single_inv s k : 1 <= k -> byte s -> cinv [(s, k)].
Proof. intros. split; [cbn; tauto|]. intros s2 k2 [E|[]]. inversion E; subst; auto. Qed.
Lemma map_add_inv n c s k m r m' : 1 <= k -> byte s -> length c = n -> minv n m -> map_add c s k m = (r, m') ->
  minv n m' /\ m' <> [] /\ mmass m' = mmass m + k /\ Z.of_nat (length m') = Z.of_nat (length m) + (if fst r then 1 else 0) /\
  entries m' = entries m + if snd r then 1 else 0.
Proof.
  intros Hk Hs Hc. revert r m'. induction m as [|[c1 l1] t IH]; intros r m' I H; cbn [map_add] in H.
  - inversion H; subst. split; [|split; [discriminate|unfold mmass, entries; cbn [length fold_right fst snd]; rewrite mass_cons; change (mass []) with 0; repeat split; lia]].
    split; [cbn; tauto|]. intros c2 l2 [E|[]]. inversion E; subst. split; [auto|split; [discriminate|apply single_inv; auto]].
  - destruct (lex_lt c1 c) eqn:L1; [|destruct (lex_lt c c1) eqn:L2].
    + destruct (map_add c s k t) as [r1 t1] eqn:A. inversion H; subst. destruct (IH _ _ (minv_tail _ _ _ I) eq_refl) as (I1 & N & M & L & E).
      unfold mmass, entries in *. split; [|split; [discriminate|cbn [length fold_right snd]; repeat split; lia]].
      destruct I as [[Is It] Ik]. split.
      * cbn. split; [|apply I1]. intros y Hy. apply (map_add_ctxs _ _ _ _ _ _ A) in Hy. destruct Hy as [->|Hy]; auto.
      * intros c2 l2 [E2|I2]; [inversion E2; subst; apply Ik; left; auto|apply I1; auto].
    + inversion H; subst. unfold mmass, entries. split; [|split; [discriminate|cbn [length fold_right fst snd]; rewrite mass_cons; change (mass []) with 0; repeat split; lia]].
      destruct I as [Is Ik]. split.
      * cbn. cbn in Is. split; [|auto]. intros y [<-|Hy]; [auto|]. eapply lex_trans; [exact L2|]. apply Is; auto.
      * intros c2 l2 [E2|I2]; [|apply Ik; auto]. inversion E2; subst. split; [auto|split; [discriminate|apply single_inv; auto]].
    + destruct (info_add s k l1) as [b l'] eqn:A. inversion H; subst. pose proof (lex_total _ _ L1 L2). subst c1.
      destruct I as [Is Ik]. destruct (Ik c l1) as (K1 & K2 & K3); [left; auto|]. destruct (info_add_inv _ _ _ _ _ Hk Hs K3 A) as (C1 & N1 & M1 & E1).
      unfold mmass, entries. split; [|split; [discriminate|cbn [length fold_right fst snd]; repeat split; lia]].
      split; [exact Is|]. intros c2 l2 [E2|I2]; [inversion E2; subst; auto|apply Ik; right; auto].
Qed.
Lemma level_add_inv g c s k v : 1 <= k -> byte s -> length c = csize g -> linv g v ->
  linv g (level_add c s k v) /\ ctxs (level_add c s k v) <> [] /\ level_mass (level_add c s k v) = level_mass v + k.
Proof.
  intros Hk Hs Hc (I & N & E). unfold level_add. destruct (map_add c s k (ctxs v)) as [r m] eqn:A.
  destruct (map_add_inv _ _ _ _ _ _ _ Hk Hs Hc I A) as (I1 & N1 & M1 & L1 & E1).
  split; [|split; auto]. split; [auto|]. cbn [n_contexts n_entries ctxs]. lia.
Qed.

Lemma lastn_length {A} n (l : list A) : (n <= length l)%nat -> length (lastn n l) = n.
Proof. intros H. unfold lastn. rewrite skipn_length. lia. Qed.

Definition binv (gs : list cfg) (b : builder) : Prop := map fst b = gs /\ Forall (fun e => linv (fst e) (snd e)) b.
Lemma b_add_inv ctx s k b gs : 1 <= k -> byte s -> binv gs b -> binv gs (b_add ctx s k b).
Proof.
  intros Hk Hs [<- F]. induction b as [|[g v] t IH]; cbn [b_add]; [split; auto; constructor|].
  inversion F; subst. cbn [fst snd] in *. destruct (IH H2) as [IH1 IH2]. destruct (Nat.ltb_spec (length ctx) (csize g)).
  - split; [cbn [map fst]; congruence|]. constructor; auto.
  - split; [reflexivity|]. constructor; auto. cbn [fst snd]. apply level_add_inv; auto. apply lastn_length. lia.
Qed.
Lemma b_add_mass ctx s k b gs : 1 <= k -> byte s -> binv gs b -> (exists g, In g gs /\ (csize g <= length ctx)%nat) ->
  builder_mass (b_add ctx s k b) = builder_mass b + k.
Proof.
  intros Hk Hs [<- F] E. induction b as [|[g v] t IH]; cbn [b_add]; [destruct E as (g & [] & _)|].
  inversion F; subst. cbn [fst snd] in *. unfold builder_mass in *. destruct (Nat.ltb_spec (length ctx) (csize g)).
  - cbn [fold_right snd]. rewrite IH; [lia|auto|]. destruct E as (g' & [<-|I] & L); [cbn in L; lia|eauto].
  - cbn [fold_right snd]. destruct (level_add_inv g (lastn (csize g) ctx) s k v Hk Hs) as (_ & _ & ->); auto; [apply lastn_length; lia|lia].
Qed.

Lemma map_remove_spec c m l m' : map_remove c m = Some (l, m') -> exists a b, m = a ++ (c, l) :: b /\ m' = a ++ b.
Proof.
  revert l m'. induction m as [|[c1 l1] t IH]; intros l m' H; cbn [map_remove] in H; [discriminate|].
  destruct (list_eq_dec Z.eq_dec c c1); [inversion H; subst; exists [], m'; auto|].
  destruct (map_remove c t) as [[l2 t2]|]; inversion H; subst. destruct (IH _ _ eq_refl) as (a & b & -> & ->).
  exists ((c1, l1) :: a), b. auto.
Qed.
Lemma lsorted_remove a c b : lsorted (a ++ c :: b) -> lsorted (a ++ b).
Proof.
  induction a as [|x a IH]; cbn; [tauto|]. intros [H1 H2]. split; [|auto]. intros y Hy. apply H1. apply in_app_iff in Hy. apply in_app_iff. cbn. tauto.
Qed.
Lemma minv_remove n a c l b : minv n (a ++ (c, l) :: b) -> minv n (a ++ b) /\ length c = n /\ l <> [] /\ cinv l.
Proof.
  intros [H1 H2]. split; [split|].
  - rewrite map_app in *. cbn [map fst] in H1. eapply lsorted_remove; eauto.
  - intros c2 l2 I. apply H2. apply in_app_iff in I. apply in_app_iff. cbn. tauto.
  - apply H2. apply in_elt.
Qed.
Lemma fold_add_inv g c l : length c = csize g -> (forall s k, In (s, k) l -> 1 <= k /\ byte s) -> forall v, linv g v ->
  linv g (fold_left (fun acc e => level_add c (fst e) (snd e) acc) l v) /\
  level_mass (fold_left (fun acc e => level_add c (fst e) (snd e) acc) l v) = level_mass v + mass l /\
  (ctxs v <> [] -> ctxs (fold_left (fun acc e => level_add c (fst e) (snd e) acc) l v) <> []).
Proof.
  intros Hc. induction l as [|[s k] t IH]; intros H v I; cbn [fold_left fst snd]; [change (mass []) with 0; split; [auto|split; [lia|auto]]|].
  rewrite mass_cons. destruct (H s k) as [Hk Hs]; [left; auto|]. destruct (level_add_inv g c s k v Hk Hs Hc I) as (I1 & N1 & M1).
  destruct (IH (fun s k Q => H s k (or_intror Q)) _ I1) as (I2 & M2 & N2). split; [auto|split; [lia|auto]].
Qed.
Lemma mmass_app a b : mmass (a ++ b) = mmass a + mmass b.
Proof. unfold mmass. induction a; cbn [app fold_right]; lia. Qed.
Lemma entries_app a b : entries (a ++ b) = entries a + entries b.
Proof. unfold entries. induction a; cbn [app fold_right]; lia. Qed.
Lemma descending_tail g gs : descending (g :: gs) -> descending gs.
Proof. destruct gs; cbn; tauto. Qed.
Definition last_nonempty (b : builder) : Prop := exists pre g v, b = pre ++ [(g, v)] /\ ctxs v <> [].
Lemma last_cons e b : b <> [] -> last_nonempty (e :: b) <-> last_nonempty b.
Proof.
  intros N. split; intros (pre & g & v & E & H).
  - destruct pre as [|p pre]; inversion E; subst; [congruence|]. exists pre, g, v. auto.
  - exists (e :: pre), g, v. rewrite E. auto.
Qed.
Lemma last_up e b : b <> [] -> last_nonempty b -> last_nonempty (e :: b).
Proof. intros N H. apply (proj2 (last_cons e b N)); auto. Qed.
Lemma last_down e b : b <> [] -> last_nonempty (e :: b) -> last_nonempty b.
Proof. intros N H. apply (proj1 (last_cons e b N)); auto. Qed.
Lemma b_pop_inv i c b b' gs : descending gs -> binv gs b -> b_pop i c b = Some b' ->
  binv gs b' /\ builder_mass b' = builder_mass b /\ (last_nonempty b -> last_nonempty b').
Proof.
  intros D I. revert i b' gs D I. induction b as [|[g v] t IH]; intros i b' gs D [<- F] H; cbn [b_pop] in H; [discriminate|].
  inversion F as [|? ? Fv Ft]; subst. cbn [fst snd map] in *. destruct i as [|i].
  - destruct t as [|[g' v'] t']; [discriminate|]. destruct (map_remove c (ctxs v)) as [[l m]|] eqn:R; [|discriminate]. inversion H; subst; clear H.
    destruct (map_remove_spec _ _ _ _ R) as (a & b & Ev & ->). destruct Fv as (I1 & N1 & E1). rewrite Ev in *.
    destruct (minv_remove _ _ _ _ _ I1) as (I2 & Lc & Nl & Cl). inversion Ft; subst. cbn [fst snd map] in *. destruct D as [D1 D2].
    destruct (fold_add_inv g' (lastn (csize g') c) l) with (v := v') as (I3 & M3 & N3); auto; [apply lastn_length; lia|apply Cl|].
    split; [split; [reflexivity|]|split].
    + constructor; [|constructor; auto]. cbn [fst snd]. split; [auto|]. cbn [ctxs n_contexts n_entries]. rewrite N1, E1. rewrite !app_length, !entries_app. cbn [length]. unfold entries at 2. cbn [fold_right snd]. fold (entries b). lia.
    + unfold builder_mass. cbn [fold_right snd]. rewrite M3. unfold level_mass. cbn [ctxs]. rewrite Ev. fold (mmass (a ++ b)). fold (mmass (a ++ (c, l) :: b)). rewrite !mmass_app.
      unfold mmass at 4. cbn [fold_right snd]. fold (mmass b). lia.
    + intros LN. apply last_down in LN; [|discriminate]. apply last_up; [discriminate|]. destruct t'.
      * destruct LN as ([|? [|? ?]] & g2 & v2 & E & N); inversion E; subst. exists [], g2. eexists. split; [reflexivity|auto].
      * apply last_down in LN; [|discriminate]. apply last_up; [discriminate|auto].
  - destruct (b_pop i c t) as [t'|] eqn:P; [|discriminate]. cbn in H. inversion H; subst.
    destruct (IH i t' (map fst t) (descending_tail _ _ D) (conj eq_refl Ft) P) as ((I1 & I2) & M & L).
    split; [split; [cbn [map fst]; congruence|constructor; auto]|split].
    + unfold builder_mass in *. cbn [fold_right snd]. lia.
    + assert (t <> []) by (intros ->; destruct i; discriminate P).
      assert (t' <> []) by (intros ->; cbn in I1; destruct t; [congruence|discriminate]). intros LN. apply last_up; auto. apply L. apply last_down in LN; auto.
Qed.
Lemma b_add_last ctx s k b gs : 1 <= k -> byte s -> binv gs b -> last_nonempty b -> last_nonempty (b_add ctx s k b).
Proof.
  intros Hk Hs [<- F]. induction b as [|[g v] t IH]; cbn [b_add]; intros L; [auto|]. inversion F; subst. cbn [fst snd] in *.
  destruct (Nat.ltb_spec (length ctx) (csize g)).
  - destruct t as [|e t]; [auto|]. apply last_down in L; [|discriminate]. specialize (IH H2 L).
    apply last_up; auto. intros N. rewrite N in IH. destruct IH as ([|? ?] & ? & ? & E & _); discriminate.
  - destruct t as [|e t].
    + exists [], g. eexists. split; [reflexivity|]. apply (level_add_inv g); auto. apply lastn_length. lia.
    + apply last_down in L; [|discriminate]. apply last_up; [discriminate|auto].
Qed.
Lemma b_add_nonnil ctx s k b : b <> [] -> b_add ctx s k b <> [].
Proof. destruct b as [|[g v] t]; [congruence|]. cbn [b_add]. intros _. destruct (length ctx <? csize g)%nat; discriminate. Qed.
Lemma b_add_first s k b gs : 1 <= k -> byte s -> binv gs b -> descending gs -> ends_with_order0 gs -> last_nonempty (b_add [] s k b).
Proof.
  intros Hk Hs I D (pre & g0 & Eg & Z0). revert gs pre I D Eg. induction b as [|[g v] t IH]; intros gs pre [<- F] D Eg; cbn [b_add length].
  - destruct pre; discriminate.
  - inversion F; subst. cbn [fst snd map] in *. destruct t as [|[g' v'] t].
    + destruct pre as [|? [|? ?]]; inversion Eg; subst. rewrite Z0. cbn [Nat.ltb Nat.leb]. exists [], g0. eexists. split; [reflexivity|]. apply (level_add_inv g0); auto.
    + destruct D as [D1 D2]. rewrite (proj2 (Nat.ltb_lt 0 (csize g))) by lia.
      destruct pre as [|p pre]; [discriminate|]. injection Eg as -> Eg.
      apply last_up; [apply b_add_nonnil; discriminate|]. apply (IH (map fst ((g', v') :: t)) pre); auto. split; auto.
Qed.

(** ** a whole training *)
Lemma push_length top ctx s : (length ctx <= top)%nat -> (length (push_context top ctx s) <= top)%nat.
Proof. intros H. unfold push_context. rewrite app_length. cbn [length]. destruct (Nat.ltb_spec top (length ctx + 1)); [|rewrite app_length; cbn; lia]. destruct ctx; cbn in *; [lia|]. rewrite app_length. cbn. lia. Qed.
Lemma binv0 gs : binv gs (map (fun g => (g, level0)) gs).
Proof.
  split; [induction gs; cbn; congruence|]. induction gs; cbn; constructor; auto. cbn. split; [|cbn; auto]. split; [cbn; tauto|]. intros c l [].
Qed.
Lemma mass0 gs : builder_mass (map (fun g => (g, level0)) gs) = 0.
Proof. unfold builder_mass. induction gs; cbn [map fold_right snd]; [auto|]. rewrite IHgs. reflexivity. Qed.

Record tinv (gs : list cfg) (n : Z) (t : trainer) : Prop := {
  ti_b : binv gs (tr_builder t);
  ti_mass : builder_mass (tr_builder t) = n;
  ti_last : 1 <= n -> last_nonempty (tr_builder t);
  ti_empty : n = 0 -> tr_context t = [];
  ti_n : 0 <= n }.
Lemma tinv_step gs n t e t' : descending gs -> ends_with_order0 gs -> (forall s, e = Train s -> byte s) -> tinv gs n t -> train1 t e = Some t' ->
  tinv gs (n + trained [e]) t'.
Proof.
  intros D O B I H. destruct I as [Ib Im Il Ie In]. destruct e as [s|i c]; cbn [train1 trained] in *.
  - inversion H; subst; clear H. specialize (B s eq_refl). constructor; cbn [tr_builder tr_context]; try lia.
    + apply b_add_inv; auto; lia.
    + rewrite (b_add_mass _ _ _ _ gs); auto; try lia. destruct O as (pre & g & -> & Z0). exists g. split; [apply in_elt|lia].
    + intros _. destruct (Z.eq_dec (builder_mass (tr_builder t)) 0) as [E|E].
      * rewrite (Ie E). eapply b_add_first; eauto; lia.
      * eapply b_add_last; eauto; try lia. apply Il. lia.
  - destruct (b_pop i c (tr_builder t)) as [b'|] eqn:P; inversion H; subst; clear H.
    destruct (b_pop_inv _ _ _ _ _ D Ib P) as (I1 & M1 & L1). constructor; cbn [tr_builder tr_context]; try lia; auto.
    + intros Q. apply L1, Il. lia.
    + intros Q. apply Ie. lia.
Qed.
Lemma tinv_train gs es : descending gs -> ends_with_order0 gs -> forall n t t', bytes_only es -> tinv gs n t -> train t es = Some t' -> tinv gs (n + trained es) t'.
Proof.
  intros D O. induction es as [|e es IH]; intros n t t' B I H; cbn [train] in H.
  - inversion H; subst. cbn [trained]. rewrite Z.add_0_r. auto.
  - destruct (train1 t e) as [t1|] eqn:E; [|discriminate].
    replace (n + trained (e :: es)) with (n + trained [e] + trained es) by (destruct e; cbn [trained]; lia).
    eapply IH; [|eapply tinv_step; eauto|eauto]; [intros s Hs; apply B; right; auto|intros s ->; apply B; left; auto].
Qed.
Lemma tinv0 gs : tinv gs 0 (trainer0 gs).
Proof. constructor; cbn; auto; try lia. apply binv0. apply mass0. Qed.
Lemma trained_inv gs es t : descending gs -> ends_with_order0 gs -> bytes_only es -> train (trainer0 gs) es = Some t -> tinv gs (trained es) t.
Proof. intros. eapply (tinv_train gs es H H0 0); eauto. apply tinv0. Qed.
