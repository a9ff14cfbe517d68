From Coq Require Import List Bool Arith Lia Sorting.Sorted.
From Verif Require Import TxEnumModel TxDictModel TxDictSpec ViewSpec EntryModel EntrySpec.
Import ListNotations.
Local Open Scope nat_scope.

Lemma knows_snoc {W} (l : list W) w : knows (l ++ [w]) = Some w.
Proof. unfold knows. rewrite map_app. cbn [map]. apply last_last. Qed.
Lemma knows_app {W} (l r : list W) : knows (l ++ r) = match r with [] => knows l | _ => knows r end.
Proof.
  destruct r as [|x r']; [rewrite app_nil_r; reflexivity|]. destruct (exists_last (l := x :: r')) as (r & y & ->); [discriminate|].
  rewrite app_assoc. rewrite !knows_snoc. reflexivity.
Qed.

Section KV.
Variables K V W : Type.
Variable wrap : V -> W.
Variable null : W.
Variable cmp : K -> K -> bool.
Hypothesis cmp_eq : forall a b, cmp a b = true <-> a = b.
Variable key : K.
Notation get := (kv_get V W wrap null).
Notation events := (kv_events K V W wrap null cmp key).

Lemma put_same (m : dict K V) k o : put cmp k o m k = o.
Proof. unfold put. now rewrite (proj2 (cmp_eq k k) eq_refl). Qed.
Lemma put_other (m : dict K V) k o x : k <> x -> put cmp k o m x = m x.
Proof. intros H. unfold put. destruct (cmp k x) eqn:E; [apply cmp_eq in E; contradiction|reflexivity]. Qed.

Lemma events_tell c evs m : dict_calls cmp c evs m -> forall l, knows l = Some (get (c key)) -> knows (l ++ events evs) = Some (get (m key)).
Proof.
  induction 1 as [c|c k v l0 m H D IH|c k u v l0 m H D IH|c k v l0 m H D IH]; intros l Hl.
  - cbn. rewrite app_nil_r. exact Hl.
  - cbn [kv_events flat_map]. cbn [fst snd]. destruct (cmp key k) eqn:E.
    + rewrite app_assoc. apply IH. rewrite knows_snoc. apply cmp_eq in E. subst k. rewrite put_same. reflexivity.
    + cbn [app]. apply IH. rewrite put_other; [exact Hl|]. intros ->. rewrite (proj2 (cmp_eq key key) eq_refl) in E. discriminate.
  - cbn [kv_events flat_map]. cbn [fst snd]. destruct (cmp key k) eqn:E.
    + rewrite app_assoc. apply IH. rewrite knows_snoc. apply cmp_eq in E. subst k. rewrite put_same. reflexivity.
    + cbn [app]. apply IH. rewrite put_other; [exact Hl|]. intros ->. rewrite (proj2 (cmp_eq key key) eq_refl) in E. discriminate.
  - cbn [kv_events flat_map]. cbn [fst snd]. destruct (cmp key k) eqn:E.
    + rewrite app_assoc. apply IH. rewrite knows_snoc. apply cmp_eq in E. subst k. rewrite put_same. reflexivity.
    + cbn [app]. apply IH. rewrite put_other; [exact Hl|]. intros ->. rewrite (proj2 (cmp_eq key key) eq_refl) in E. discriminate.
Qed.

(* the loop over a diff *)
Notation kdiff := (kv_diff K V W wrap null cmp key).
Lemma diff_snoc d e : kdiff (d ++ [e]) = if cmp key (fst (snd e)) then Some (shown V W wrap null (fst e) (snd (snd e))) else kdiff d.
Proof. unfold kv_diff. rewrite fold_left_app. reflexivity. Qed.
Lemma diff_none d : kdiff d = None <-> forall e, In e d -> fst (snd e) <> key.
Proof.
  induction d as [|e d IH] using rev_ind; [split; [intros _ e []|reflexivity]|]. rewrite diff_snoc. destruct (cmp key (fst (snd e))) eqn:E.
  - apply cmp_eq in E. split; [discriminate|]. intros H. exfalso. apply (H e); [apply in_or_app; right; left; reflexivity|auto].
  - rewrite IH. split; intros H x Hx.
    + apply in_app_or in Hx. destruct Hx as [Hx|[<-|[]]]; [auto|]. intros X. rewrite X, (proj2 (cmp_eq key key) eq_refl) in E. discriminate.
    + apply H, in_or_app. auto.
Qed.
Lemma diff_some d w : kdiff d = Some w -> exists a e b, d = a ++ e :: b /\ fst (snd e) = key /\ (forall x, In x b -> fst (snd x) <> key) /\ w = shown V W wrap null (fst e) (snd (snd e)).
Proof.
  induction d as [|e d IH] using rev_ind; [discriminate|]. rewrite diff_snoc. destruct (cmp key (fst (snd e))) eqn:E.
  - apply cmp_eq in E. intros [= <-]. exists d, e, []. auto.
  - intros H. destruct (IH H) as (a & x & b & -> & Hx & Hb & Hw). exists a, x, (b ++ [e]). rewrite <- app_assoc. split; [reflexivity|]. split; [exact Hx|]. split; [|exact Hw].
    intros y Hy. apply in_app_or in Hy. destruct Hy as [Hy|[<-|[]]]; [auto|]. intros X. rewrite X, (proj2 (cmp_eq key key) eq_refl) in E. discriminate.
Qed.

Variable klt : K -> K -> bool.
Hypothesis klt_irrefl : forall a, klt a a = false.
Hypothesis klt_total : forall a b, klt a b = false -> klt b a = false -> a = b.

Lemma replay_other d c : (forall e, In e d -> fst (snd e) <> key) -> @replay K V klt d c key = c key.
Proof.
  revert c. induction d as [|e d IH]; intros c H; [reflexivity|]. unfold replay in *. cbn [fold_left]. rewrite IH; [|intros x Hx; apply H; right; exact Hx].
  assert (N : klt (fst (snd e)) key || klt key (fst (snd e)) = true).
  { destruct (klt (fst (snd e)) key) eqn:A; [reflexivity|]. destruct (klt key (fst (snd e))) eqn:B; [reflexivity|].
    exfalso. exact (H e (or_introl eq_refl) (klt_total _ _ A B)). }
  unfold apply_entry. destruct (fst e); unfold upd; rewrite N; reflexivity.
Qed.

Lemma diff_tells c m d : exact_diff klt c m d ->
  match kdiff d with None => m key = c key | Some w => m key <> c key /\ w = get (m key) end.
Proof.
  intros [Hr Ha Hu Ho Hp]. destruct (kdiff d) as [w|] eqn:E.
  - destruct (diff_some _ _ E) as (a & e & b & -> & He & Hb & ->). destruct e as (o & (k & v)). cbn [fst snd] in *. subst k.
    destruct o; cbn [shown].
    + assert (H : In (OpAdded, (key, v)) (a ++ (OpAdded, (key, v)) :: b)) by (apply in_or_app; right; left; reflexivity).
      apply Ha in H. destruct H as (H1 & H2). rewrite H1. split; [congruence|reflexivity].
    + assert (H : In (OpRemoved, (key, v)) (a ++ (OpRemoved, (key, v)) :: b)) by (apply in_or_app; right; left; reflexivity).
      apply Hr in H. destruct H as (H1 & H2). split; [congruence|]. destruct (m key) as [u|] eqn:Em; [|reflexivity]. exfalso.
      (* then the key is added too, and that entry must be later *)
      assert (HA : In (OpAdded, (key, u)) (a ++ (OpRemoved, (key, v)) :: b)) by (apply Ha; split; [exact Em|congruence]).
      apply in_app_or in HA. destruct HA as [HA|[HA|HA]]; [|discriminate|exact (Hb _ HA eq_refl)].
      apply in_split in HA. destruct HA as (a1 & a2 & ->). rewrite <- app_assoc in Ho. cbn [app] in Ho.
      assert (S : StronglySorted (entry_before klt) ((OpAdded, (key, u)) :: a2 ++ (OpRemoved, (key, v)) :: b)).
      { clear -Ho. induction a1 as [|x a1 IH]; [exact Ho|]. apply IH. inversion Ho. assumption. }
      inversion S as [|? ? _ F]. rewrite Forall_forall in F. specialize (F (OpRemoved, (key, v)) ltac:(apply in_or_app; right; left; reflexivity)).
      destruct F as [F|(_ & F & _)]; cbn in F; [rewrite klt_irrefl in F|]; discriminate.
    + exfalso. apply (Hu (key, v)). apply in_or_app. right. left. reflexivity.
  - rewrite <- (Hp key). rewrite (replay_other d); [reflexivity|]. exact (proj1 (diff_none d) E).
Qed.
End KV.

Section Set_.
Variables K V W : Type.
Variable wrap : V -> W.
Variable null : W.
Variable as_value : W -> option V.
Variable cmp : K -> K -> bool.
Hypothesis cmp_eq : forall a b, cmp a b = true <-> a = b.
Hypothesis Sh : shows wrap null as_value.
Variable key : K.

Lemma set_done w (m : dict K V) :
  dict_calls cmp m (snd (dict_do K V cmp m (kv_set K V W as_value key w))) (fst (dict_do K V cmp m (kv_set K V W as_value key w))) /\
  kv_get V W wrap null (fst (dict_do K V cmp m (kv_set K V W as_value key w)) key) = w /\
  (forall k, k <> key -> fst (dict_do K V cmp m (kv_set K V W as_value key w)) k = m k).
Proof.
  destruct Sh as [Hb Hn]. unfold kv_set. destruct (as_value w) as [v|] eqn:E; cbn [dict_do].
  - cbn [fst snd]. split; [|split].
    + destruct (m key) eqn:Em; [eapply dc_upd|eapply dc_add]; try exact Em; apply dc_nil.
    + unfold dict_put. rewrite (proj2 (cmp_eq key key) eq_refl). cbn. exact (Hb _ _ E).
    + intros k Hk. unfold dict_put. destruct (cmp key k) eqn:X; [apply cmp_eq in X; congruence|reflexivity].
  - destruct (m key) as [v|] eqn:Em; cbn [fst snd].
    + split; [|split].
      * eapply dc_rem; [exact Em|]. apply dc_nil.
      * unfold dict_put. rewrite (proj2 (cmp_eq key key) eq_refl). cbn. symmetry. exact (Hn _ E).
      * intros k Hk. unfold dict_put. destruct (cmp key k) eqn:X; [apply cmp_eq in X; congruence|reflexivity].
    + split; [apply dc_nil|]. split; [rewrite Em; cbn; symmetry; exact (Hn _ E)|auto].
Qed.
End Set_.

Section Entry.
Variable T : Type.
Variable cmp : T -> T -> bool.
Hypothesis cmp_eq : forall a b, cmp a b = true <-> a = b.
Variable key : T.

Lemma set_events_tell P evs Q : set_calls P evs Q -> forall l b, knows l = Some b -> (b = true <-> P key) ->
  exists b', knows (l ++ se_events T cmp key evs) = Some b' /\ (b' = true <-> Q key).
Proof.
  induction 1 as [P Q H|P Q a evs H D IH|P Q a evs H D IH]; intros l b Hl Hb.
  - exists b. cbn. rewrite app_nil_r. split; [exact Hl|]. rewrite Hb. apply H.
  - cbn [se_events flat_map fst snd]. destruct (cmp key a) eqn:E.
    + apply cmp_eq in E. subst a. rewrite app_assoc. apply (IH _ true); [apply knows_snoc|]. split; auto.
    + cbn [app]. apply (IH _ b); [exact Hl|]. rewrite Hb. split; [auto|]. intros [->|X]; [|exact X]. rewrite (proj2 (cmp_eq a a) eq_refl) in E. discriminate.
  - cbn [se_events flat_map fst snd]. destruct (cmp key a) eqn:E.
    + apply cmp_eq in E. subst a. rewrite app_assoc. apply (IH _ false); [apply knows_snoc|]. split; [discriminate|]. intros (X & _). congruence.
    + cbn [app]. apply (IH _ b); [exact Hl|]. rewrite Hb. split; [|tauto]. intros X. split; [|exact X]. intros ->. rewrite (proj2 (cmp_eq a a) eq_refl) in E. discriminate.
Qed.

Lemma set_entry_done value (content : T -> bool) :
  set_calls (fun x => content x = true) (snd (se_set T key cmp value content)) (fun x => fst (se_set T key cmp value content) x = true) /\
  fst (se_set T key cmp value content) key = value /\
  (forall x, x <> key -> fst (se_set T key cmp value content) x = content x).
Proof.
  assert (R : cmp key key = true) by (apply cmp_eq; reflexivity).
  assert (O : forall x, x <> key -> cmp key x = false) by (intros x Hx; destruct (cmp key x) eqn:X; [apply cmp_eq in X; congruence|reflexivity]).
  unfold se_set. destruct value, (content key) eqn:E; cbn [fst snd].
  - split; [apply sc_nil; reflexivity|auto].
  - split; [|split; [rewrite R; reflexivity|intros x Hx; rewrite (O x Hx); reflexivity]].
    apply sc_add; [congruence|]. apply sc_nil. intros x. rewrite orb_true_iff, cmp_eq. intuition.
  - split; [|split; [rewrite R; reflexivity|intros x Hx; rewrite (O x Hx); reflexivity]].
    apply sc_rem; [exact E|]. apply sc_nil. intros x. rewrite andb_true_iff, negb_true_iff. split.
    + intros (A & B). auto.
    + intros (A & B). split; [|exact B]. intros ->. congruence.
  - split; [apply sc_nil; reflexivity|auto].
Qed.
End Entry.
