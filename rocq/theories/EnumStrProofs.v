From Coq Require Import List Bool ZArith Lia.
From Verif Require Import EnumStrModel EnumStrSpec.
Import ListNotations.
Open Scope Z_scope.

(** values *)
Lemma s32_int z : int z -> s32 z = z.
Proof. unfold int, s32. intros H. rewrite Z.mod_small; lia. Qed.
Lemma s32_range z : int (s32 z).
Proof. unfold int, s32. pose proof (Z.mod_pos_bound (z + 2 ^ 31) (2 ^ 32) ltac:(lia)). lia. Qed.
Lemma s32_cong a b : (a - b) mod 2 ^ 32 = 0 -> s32 a = s32 b.
Proof.
  intros H. unfold s32. f_equal. apply Z.mod_divide in H; [|lia]. destruct H as (k & H).
  replace (a + 2 ^ 31) with (b + 2 ^ 31 + k * 2 ^ 32) by lia. apply Z.mod_add. lia.
Qed.
Lemma s32_diff z : exists k, s32 z = z + k * 2 ^ 32.
Proof. unfold s32. pose proof (Z.div_mod (z + 2 ^ 31) (2 ^ 32) ltac:(lia)). exists (- ((z + 2 ^ 31) / 2 ^ 32)). lia. Qed.
Lemma s32_plus a b : s32 (s32 a + s32 b) = s32 (a + b).
Proof.
  apply s32_cong. destruct (s32_diff a) as (k & ->), (s32_diff b) as (j & ->). apply Z.mod_divide; [lia|]. exists (k + j). lia.
Qed.
Lemma s32_minus a b : s32 (s32 a - s32 b) = s32 (a - b).
Proof.
  apply s32_cong. destruct (s32_diff a) as (k & ->), (s32_diff b) as (j & ->). apply Z.mod_divide; [lia|]. exists (k - j). lia.
Qed.
Lemma holders_snoc d : forall env x, holders env (d ++ [x]) = holders env d ++ [match x with Some e => holder (holders env d) e | None => Uninitialized end].
Proof. induction d as [|i d IH]; intros env x; cbn [holders app]; auto. Qed.
Lemma init_values_snoc hs : forall c h, init_values c (hs ++ [h]) =
  init_values c hs ++ [if h =? Uninitialized then match init_values c hs with [] => c | l => last l 0 + 1 end else s32 h].
Proof.
  induction hs as [|g hs IH]; intros c h; [reflexivity|]. cbn [app init_values]. rewrite IH. cbn [app]. f_equal. f_equal.
  destruct (h =? Uninitialized); auto. destruct (init_values _ hs) eqn:E; [reflexivity|]. cbn [app]. destruct l; reflexivity.
Qed.

Definition agree (d : definition) (hs vs : list Z) : Prop :=
  length hs = length d /\ length vs = length d /\ forall i e, nth_error d i = Some (Some e) -> nth i hs Uninitialized = nth i vs 0 /\ int (nth i vs 0).
Lemma holder_value d hs vs e : agree d hs vs -> explicit d e -> holder hs e = s32 (value vs e).
Proof.
  intros (A1 & A2 & A3). induction e as [z|i|a IHa b IHb|a IHa b IHb]; cbn [holder value explicit]; intros H; auto.
  - destruct H as (e' & He). destruct (A3 _ _ He) as (E & F). rewrite E. symmetry. now apply s32_int.
  - destruct H. rewrite IHa, IHb by auto. apply s32_plus.
  - destruct H. rewrite IHa, IHb by auto. apply s32_minus.
Qed.
Lemma not_uninitialized z : int z -> (z =? Uninitialized) = false.
Proof. unfold int, Uninitialized. intros. apply Z.eqb_neq. lia. Qed.

Lemma cpp_length d vs : cpp d vs -> length vs = length d.
Proof. induction 1; auto; rewrite !app_length; cbn; lia. Qed.
Lemma values_agree d vs : cpp d vs -> all_explicit d -> Forall int vs -> agree d (holders [] d) vs /\ init_values 0 (holders [] d) = vs.
Proof.
  induction 1 as [|d vs e H IH|d vs H IH]; intros He Hi.
  - split; [split; [reflexivity|split; [reflexivity|intros [|] e; discriminate]]|reflexivity].
  - apply Forall_app in Hi. destruct Hi as (Hi & Hv). inversion Hv as [|? ? Hv1 _]; subst.
    destruct IH as (A & E); auto. { intros pre e' post ->. apply (He pre e' (post ++ [Some e])). rewrite <- app_assoc. reflexivity. }
    assert (X : explicit d e) by (apply (He d e []); reflexivity).
    pose proof (holder_value _ _ _ _ A X) as V. rewrite (s32_int _ Hv1) in V. destruct A as (A1 & A2 & A3). rewrite holders_snoc, V. split.
    + split; [rewrite !app_length; cbn; lia|]. split; [rewrite !app_length; cbn; lia|]. intros i e' Hn.
      destruct (Nat.lt_ge_cases i (length d)) as [L|L].
      * rewrite nth_error_app1 in Hn by auto. rewrite !app_nth1 by lia. eauto.
      * rewrite nth_error_app2 in Hn by auto. rewrite !app_nth2 by lia. rewrite A1, A2. destruct (i - length d)%nat as [|[|]]; try discriminate. cbn. auto.
    + rewrite init_values_snoc, E, not_uninitialized, s32_int by auto. reflexivity.
  - apply Forall_app in Hi. destruct Hi as (Hi & Hv).
    destruct IH as (A & E); auto. { intros pre e' post ->. apply (He pre e' (post ++ [None])). rewrite <- app_assoc. reflexivity. }
    destruct A as (A1 & A2 & A3). rewrite holders_snoc. split.
    + split; [rewrite !app_length; cbn; lia|]. split; [rewrite !app_length; cbn; lia|]. intros i e' Hn.
      destruct (Nat.lt_ge_cases i (length d)) as [L|L].
      * rewrite nth_error_app1 in Hn by auto. rewrite !app_nth1 by lia. eauto.
      * rewrite nth_error_app2 in Hn by auto. destruct (i - length d)%nat as [|[|]]; discriminate.
    + rewrite init_values_snoc, E, Z.eqb_refl. destruct vs; reflexivity.
Qed.

(** names *)
Lemma ws_In c : ws c = true <-> In c [32; 9; 10; 13].
Proof. unfold ws. rewrite !orb_true_iff, !Z.eqb_eq. cbn. intuition. Qed.
Lemma plain_ws c : plain c -> ws c = false.
Proof. intros H. destruct (ws c) eqn:E; auto. apply ws_In in E. exfalso. apply H. cbn in *. intuition. Qed.
Lemma plain_neq c : plain c -> c <> 44 /\ c <> 61 /\ c <> 124.
Proof. intros H. repeat split; intros ->; apply H; cbn; auto 8. Qed.
Lemma skip_blank a s : blank a -> skip ws (a ++ s) = skip ws s.
Proof. induction 1 as [|c a H Ha IH]; cbn; auto. rewrite (proj2 (ws_In c) H). auto. Qed.
Lemma skip_blank_nil a : blank a -> skip ws a = [].
Proof. intros H. rewrite <- (app_nil_r a). rewrite skip_blank; auto. Qed.
Lemma skip_name n s : name n -> skip ws (n ++ s) = n ++ s.
Proof. intros (c & r & -> & _ & H). inversion H; subst. cbn. rewrite plain_ws; auto. Qed.
Lemma span_all p n s : Forall (fun c => p c = true) n -> match s with [] => True | c :: _ => p c = false end -> span p (n ++ s) = (n, s).
Proof.
  induction 1 as [|c n H Hn IH]; cbn; intros Hs.
  - destruct s; auto. cbn. now rewrite Hs.
  - rewrite H, IH by auto. reflexivity.
Qed.
Lemma skip_until c s s' : ~ In c s -> skip (fun x => negb (x =? c)) (s ++ c :: s') = c :: s'.
Proof.
  induction s as [|x s IH]; cbn; intros H; [now rewrite Z.eqb_refl|]. destruct (Z.eqb_spec x c); [subst; exfalso; auto|]. cbn. apply IH. auto.
Qed.
Lemma skip_until_end c s : ~ In c s -> skip (fun x => negb (x =? c)) s = [].
Proof. induction s as [|x s IH]; cbn; intros H; auto. destruct (Z.eqb_spec x c); [subst; exfalso; auto|]. cbn. auto. Qed.

Definition name_char := fun c => negb (ws c) && negb (c =? comma) && negb (c =? equals).
Lemma name_chars n : Forall plain n -> Forall (fun c => name_char c = true) n.
Proof.
  apply Forall_impl. intros c H. unfold name_char. rewrite plain_ws by auto. destruct (plain_neq c H) as (H1 & H2 & _).
  unfold comma, equals. destruct (Z.eqb_spec c 44), (Z.eqb_spec c 61); auto; contradiction.
Qed.
Lemma blank_not c s : blank s -> ~ In c [32; 9; 10; 13] -> ~ In c s.
Proof. unfold blank. rewrite Forall_forall. intros H N K. apply N, H, K. Qed.
(* one item, whatever follows it *)
Lemma item_span n s rest : item n s -> rest = [] \/ (exists r, rest = 44 :: r) ->
  exists s2, span name_char (skip ws (s ++ rest)) = (n, s2) /\ skip (fun c => negb (c =? comma)) s2 = rest.
Proof.
  intros H Hr. assert (Hn : name_char 44 = false) by reflexivity.
  assert (F : forall b x, blank b -> ~ In 44 x -> x = [] \/ (exists t, x = 61 :: t) -> name n -> forall a, blank a ->
    exists s2, span name_char (skip ws ((a ++ n ++ b ++ x) ++ rest)) = (n, s2) /\ skip (fun c => negb (c =? comma)) s2 = rest).
  { intros b x Hb Hx Hx' Hn' a Ha. exists (b ++ x ++ rest). rewrite <- !app_assoc. rewrite skip_blank, skip_name by auto. split.
    - apply span_all; [destruct Hn' as (c & r & -> & _ & Hp); now apply name_chars|]. destruct b as [|c b]; cbn.
      + destruct Hx' as [->|(t & ->)]; cbn; [|reflexivity]. destruct Hr as [->|(r & ->)]; cbn; auto.
      + inversion Hb as [|? ? Hc _]; subst. unfold name_char. now rewrite (proj2 (ws_In c) Hc).
    - assert (Hbx : ~ In 44 (b ++ x)). { rewrite in_app_iff. intros [K|K]; auto. revert K. apply blank_not; auto. cbn. intuition discriminate. }
      rewrite app_assoc. destruct Hr as [->|(r & ->)]; [rewrite app_nil_r; now apply skip_until_end|]. now apply skip_until. }
  destruct H as [a n b Ha Hn' Hb|a n b x Ha Hn' Hb Hx].
  - rewrite <- (app_nil_r b). apply F; auto.
  - apply F; auto; [|eauto]. intros [K|K]; [discriminate|auto].
Qed.
Lemma item_nonempty n s : item n s -> s <> [].
Proof. intros [a m b _ (c & r & -> & _) _|a m b x _ (c & r & -> & _) _ _] E; destruct a; discriminate. Qed.
Lemma text_nonempty ns s : text ns s -> s <> [].
Proof. intros [n t H|n t ms t' H _] E; [|destruct t; discriminate]. eapply item_nonempty; eauto. Qed.
Lemma text_names ns s : text ns s -> Forall name ns.
Proof.
  assert (I : forall n s, item n s -> name n) by (intros n t [a m b _ H _|a m b x _ H _ _]; auto).
  induction 1; constructor; eauto.
Qed.
Lemma init_names_text ns s : text ns s -> forall vs, length vs = length ns -> init_names vs s = Some (combine vs ns).
Proof.
  induction 1 as [n s Hi|n s ns s' Hi Ht IH]; intros [|v vs] Hl; try discriminate; cbn in Hl.
  - destruct vs; [|discriminate]. cbn. destruct (item_span n s [] Hi (or_introl eq_refl)) as (s2 & E1 & E2). rewrite app_nil_r in E1.
    destruct s as [|c s]; [exfalso; eapply item_nonempty; eauto|]. fold name_char. rewrite E1. reflexivity.
  - cbn [init_names combine]. destruct (item_span n s (44 :: s') Hi (or_intror (ex_intro _ s' eq_refl))) as (s2 & E1 & E2).
    destruct (s ++ 44 :: s') as [|c t] eqn:Es; [destruct s; discriminate|]. fold name_char. rewrite E1, E2, IH by lia. reflexivity.
Qed.

(** the maps *)
Lemma str_eqb_eq a b : str_eqb a b = true <-> a = b.
Proof. unfold str_eqb. destruct (list_eq_dec Z.eq_dec a b); split; auto; discriminate. Qed.
Definition sorted (m : list (Z * str)) : Prop := forall pre p mid q post, m = pre ++ p :: mid ++ q :: post -> fst p < fst q.
Lemma sorted_cons p m : sorted (p :: m) <-> sorted m /\ forall q, In q m -> fst p < fst q.
Proof.
  split.
  - intros H. split.
    + intros pre a mid q post E. apply (H (p :: pre) a mid q post). cbn. now rewrite E.
    + intros q Hq. apply in_split in Hq. destruct Hq as (mid & post & ->). apply (H [] p mid q post eq_refl).
  - intros (H1 & H2) [|x pre] a mid q post E; injection E as <- E.
    + apply H2. subst m. apply in_app_iff. right. now left.
    + eapply H1; eauto.
Qed.
Lemma find_val_insert v n m w : sorted m -> find_val w (insert_val v n m) = match find_val w m with Some k => Some k | None => if v =? w then Some n else None end.
Proof.
  unfold find_val. induction m as [|(u, k) m IH]; cbn; intros H.
  - destruct (v =? w); reflexivity.
  - apply sorted_cons in H. destruct H as (H1 & H2). cbn in H2.
    assert (N : v < u -> v = w -> find (fun p : Z * str => fst p =? w) m = None).
    { intros L ->. destruct (find _ m) as [p|] eqn:E; auto. apply find_some in E. destruct E as (E1 & E2). apply Z.eqb_eq in E2. specialize (H2 _ E1). lia. }
    destruct (Z.ltb_spec v u).
    + cbn. destruct (Z.eqb_spec v w); [|destruct (Z.eqb_spec u w); auto; destruct (find _ m); reflexivity].
      destruct (Z.eqb_spec u w); [lia|]. rewrite N by auto. reflexivity.
    + destruct (Z.eqb_spec v u); cbn.
      * subst u. destruct (Z.eqb_spec v w); cbn; auto. destruct (find _ m); reflexivity.
      * destruct (Z.eqb_spec u w); cbn; auto.
Qed.
Lemma insert_In v n m p : In p (insert_val v n m) -> p = (v, n) \/ In p m.
Proof.
  induction m as [|(u, k) m IH]; cbn; [intuition|]. destruct (v <? u); [cbn; intuition|]. destruct (v =? u); [cbn; intuition|]. cbn. intuition.
Qed.
Lemma insert_sorted v n m : sorted m -> sorted (insert_val v n m).
Proof.
  induction m as [|(u, k) m IH]; cbn [insert_val]; intros H.
  - apply sorted_cons. split; auto. intros q [].
  - destruct (Z.ltb_spec v u).
    + apply sorted_cons. split; auto. apply sorted_cons in H. destruct H as (H1 & H2). cbn in *. intros q [<-|Hq]; auto. specialize (H2 _ Hq). lia.
    + destruct (Z.eqb_spec v u); auto. apply sorted_cons in H. destruct H as (H1 & H2). apply sorted_cons. split; auto.
      intros q Hq. apply insert_In in Hq. destruct Hq as [->|Hq]; cbn in *; auto. lia.
Qed.
Lemma build_find l w : forall m, sorted m -> sorted (fold_left (fun m p => insert_val (fst p) (snd p) m) l m) /\
  find_val w (fold_left (fun m p => insert_val (fst p) (snd p) m) l m) = match find_val w m with Some k => Some k | None => find_val w l end.
Proof.
  induction l as [|(v, n) l IH]; intros m H; cbn [fold_left fst snd].
  - split; auto. destruct (find_val w m); reflexivity.
  - destruct (IH (insert_val v n m) (insert_sorted _ _ _ H)) as (S & E). split; auto. rewrite E, find_val_insert by auto.
    destruct (find_val w m); auto. unfold find_val. cbn. destruct (v =? w); reflexivity.
Qed.
Lemma build_In l : forall m p, In p (fold_left (fun m p => insert_val (fst p) (snd p) m) l m) -> In p m \/ In p l.
Proof.
  induction l as [|(v, n) l IH]; intros m p; cbn [fold_left fst snd]; auto. intros H. apply IH in H. destruct H as [H|H]; [|right; now right].
  apply insert_In in H. destruct H as [->|H]; auto. right; now left.
Qed.
Lemma find_val_In v m n : find_val v m = Some n -> In (v, n) m.
Proof. unfold find_val. destruct (find _ m) as [(a, b)|] eqn:E; [|discriminate]. intros [= <-]. apply find_some in E. destruct E as (E1 & E2). apply Z.eqb_eq in E2. cbn in *. now subst. Qed.
Lemma In_find_val v m n : In (v, n) m -> exists n', find_val v m = Some n'.
Proof.
  intros H. unfold find_val. destruct (find _ m) as [p|] eqn:E; [cbn; eauto|]. exfalso. apply (find_none _ _ E) in H. cbn in H. rewrite Z.eqb_refl in H. discriminate.
Qed.
Lemma build_complete l v n : In (v, n) l -> exists n', In (v, n') (fold_left (fun m p => insert_val (fst p) (snd p) m) l []).
Proof.
  intros H. destruct (In_find_val _ _ _ H) as (n' & E). exists n'. apply find_val_In. destruct (build_find l v []) as (_ & ->); auto.
  intros [|? ?] p0 mid q0 post K; discriminate.
Qed.
Lemma find_str_unique l n v : NoDup (map snd l) -> In (v, n) l -> find_str n (map (fun p : Z * str => (snd p, fst p)) l) = Some v.
Proof.
  unfold find_str. induction l as [|(w, k) l IH]; cbn; intros Hd Hi; [contradiction|]. inversion Hd as [|? ? Hn Hd']; subst.
  destruct Hi as [[= -> ->]|Hi].
  - rewrite (proj2 (str_eqb_eq n n) eq_refl). reflexivity.
  - destruct (str_eqb k n) eqn:E; auto. apply str_eqb_eq in E. subst k. exfalso. apply Hn. now apply (in_map snd) in Hi.
Qed.
Lemma find_str_In n l v : find_str n (map (fun p : Z * str => (snd p, fst p)) l) = Some v -> In (v, n) l.
Proof.
  unfold find_str. destruct (find _ _) as [(a, b)|] eqn:E; [|discriminate]. intros [= <-]. apply find_some in E. destruct E as (E1 & E2).
  apply str_eqb_eq in E2. cbn in *. subst a. apply in_map_iff in E1. destruct E1 as ((x, y) & [= -> ->] & H). auto.
Qed.

(** flags *)
Definition sub (k v : Z) : Prop := Z.land k (Z.lnot v) = 0.
Lemma sub_spec k v : sub k v <-> forall i, 0 <= i -> Z.testbit k i = true -> Z.testbit v i = true.
Proof.
  unfold sub. split.
  - intros H i Hi Hk. assert (K : Z.testbit (Z.land k (Z.lnot v)) i = false) by (rewrite H; apply Z.bits_0).
    rewrite Z.land_spec, Z.lnot_spec, Hk in K by auto. destruct (Z.testbit v i); auto.
  - intros H. apply Z.bits_inj'. intros i Hi. rewrite Z.bits_0, Z.land_spec, Z.lnot_spec by auto. specialize (H i Hi). destruct (Z.testbit k i); auto. now rewrite H.
Qed.
Lemma sub_antisym a b : sub a b -> sub b a -> a = b.
Proof.
  rewrite !sub_spec. intros H1 H2. apply Z.bits_inj'. intros i Hi. specialize (H1 i Hi). specialize (H2 i Hi).
  destruct (Z.testbit a i), (Z.testbit b i); auto; try (symmetry; auto).
Qed.
Lemma sub_lor a b c : sub (Z.lor a b) c <-> sub a c /\ sub b c.
Proof.
  rewrite !sub_spec. split.
  - intros H. split; intros i Hi K; apply H; auto; rewrite Z.lor_spec, K; auto with bool.
  - intros (H1 & H2) i Hi. rewrite Z.lor_spec, orb_true_iff. intros [K|K]; auto.
Qed.
Lemma sub_refl a : sub a a.
Proof. apply sub_spec; auto. Qed.
Lemma sub_trans a b c : sub a b -> sub b c -> sub a c.
Proof. rewrite !sub_spec. auto. Qed.
Lemma sub_lor_l a b : sub a (Z.lor a b).
Proof. apply (sub_lor a b). apply sub_refl. Qed.
Lemma sub_lor_r a b : sub b (Z.lor a b).
Proof. apply (sub_lor a b). apply sub_refl. Qed.
Lemma sub_land k v : sub k v -> Z.land k v = k.
Proof.
  intros H. apply Z.bits_inj'. intros i Hi. rewrite Z.land_spec. rewrite sub_spec in H. specialize (H i Hi). destruct (Z.testbit k i); auto.
Qed.
Lemma or_all_app l l' : or_all (l ++ l') = Z.lor (or_all l) (or_all l').
Proof. induction l; cbn; auto. rewrite IHl. apply Z.lor_assoc. Qed.
Lemma or_all_sub l v : sub (or_all l) v <-> Forall (fun k => sub k v) l.
Proof.
  induction l; cbn; [split; constructor|]. rewrite sub_lor, IHl. split; [intros (? & ?); constructor; auto|]. intros H; inversion H; auto.
Qed.

(* names with | between them *)
Fixpoint join (ns : list str) : str := match ns with [] => [] | [n] => n | n :: r => n ++ bar :: join r end.
Lemma join_snoc ns n : ns <> [] -> join (ns ++ [n]) = join ns ++ bar :: n.
Proof.
  induction ns as [|a ns IH]; [contradiction|]. intros _. destruct ns as [|b ns]; [reflexivity|]. cbn [app join] in *. rewrite IH by discriminate.
  rewrite <- app_assoc. reflexivity.
Qed.
Lemma join_nonempty ns : Forall name ns -> ns <> [] -> join ns <> [].
Proof. intros [|n r (c & t & -> & _) _]; [contradiction|]. intros _. destruct r; discriminate. Qed.

Lemma flags_spec val m : forall f taken, Forall (fun p => name (snd p)) m -> Forall (fun p => name (snd p)) taken ->
  f = or_all (map fst taken) -> sub f val ->
  exists taken', flags val f (join (map snd taken)) m = (or_all (map fst taken'), join (map snd taken')) /\
    (forall p, In p taken' -> In p taken \/ In p m) /\ sub (or_all (map fst taken')) val /\
    (or_all (map fst taken') = val \/ forall p, In p m -> sub (fst p) val -> sub (fst p) (or_all (map fst taken'))) /\
    sub f (or_all (map fst taken')).
Proof.
  induction m as [|(k, n) m IH]; intros f taken Hm Ht Hf Hs; cbn [flags].
  - exists taken. rewrite Hf. repeat split; auto; [congruence|right; intros p []|apply sub_refl].
  - inversion Hm as [|? ? Hn Hm']; subst. cbn in Hn.
    set (take := negb (Z.land k val =? 0) && (Z.land k (Z.lnot val) =? 0) && negb (Z.land k (Z.lnot (or_all (map fst taken))) =? 0)).
    assert (Hk : sub k val -> take = false -> sub k (or_all (map fst taken))).
    { intros S T. unfold take in T. rewrite S in T. cbn in T. rewrite (sub_land k val S) in T. rewrite andb_true_r in T. apply andb_false_iff in T.
      destruct T as [T|T]; apply negb_false_iff, Z.eqb_eq in T; auto. subst k. unfold sub. now rewrite Z.land_0_l. }
    assert (Hk' : take = true -> sub k val).
    { unfold take. rewrite !andb_true_iff, Z.eqb_eq. tauto. }
    destruct take.
    + assert (J : (match join (map snd taken) with [] => [] | _ => join (map snd taken) ++ [bar] end) ++ n = join (map snd (taken ++ [(k, n)]))).
      { rewrite map_app. cbn [map snd]. destruct taken as [|t taken]; [reflexivity|]. rewrite join_snoc by discriminate.
        assert (NE : join (map snd (t :: taken)) <> []). { apply join_nonempty; [now apply Forall_map|discriminate]. }
        destruct (join (map snd (t :: taken))); [contradiction|]. rewrite <- app_assoc. reflexivity. }
      assert (O : Z.lor (or_all (map fst taken)) k = or_all (map fst (taken ++ [(k, n)]))).
      { rewrite map_app, or_all_app. cbn. now rewrite Z.lor_0_r. }
      rewrite J, O. assert (S' : sub (or_all (map fst (taken ++ [(k, n)]))) val). { rewrite <- O. apply sub_lor. auto. }
      destruct (Z.eqb_spec (or_all (map fst (taken ++ [(k, n)]))) val) as [E|E].
      * exists (taken ++ [(k, n)]). repeat split; auto.
        { intros p Hp. apply in_app_iff in Hp. destruct Hp as [Hp|[<-|[]]]; auto. right; now left. }
        rewrite <- O. apply sub_lor_l.
      * destruct (IH (or_all (map fst (taken ++ [(k, n)]))) (taken ++ [(k, n)])) as (tk & E1 & E2 & E3 & E4 & E5); auto.
        { apply Forall_app. split; auto. }
        exists tk. repeat split; auto.
        { intros p Hp. destruct (E2 p Hp) as [H|H]; [|right; now right]. apply in_app_iff in H. destruct H as [H|[<-|[]]]; auto. right; now left. }
        { destruct E4 as [E4|E4]; auto. right. intros p [<-|Hp] Sp; auto. cbn. eapply sub_trans; [|apply E5]. rewrite <- O. apply sub_lor_r. }
        eapply sub_trans; [|apply E5]. rewrite <- O. apply sub_lor_l.
    + destruct (Z.eqb_spec (or_all (map fst taken)) val) as [E|E].
      * exists taken. repeat split; auto. apply sub_refl.
      * destruct (IH (or_all (map fst taken)) taken) as (tk & E1 & E2 & E3 & E4 & E5); auto.
        exists tk. repeat split; auto.
        { intros p Hp. destruct (E2 p Hp) as [H|H]; auto. right; now right. }
        destruct E4 as [E4|E4]; auto. right. intros p [<-|Hp] Sp; auto. cbn. eapply sub_trans; [|apply E5]. apply Hk; auto.
Qed.

(** parsing *)
Definition flag_char := fun c => negb (ws c) && negb (c =? bar).
Lemma flag_chars n : Forall plain n -> Forall (fun c => flag_char c = true) n.
Proof.
  apply Forall_impl. intros c H. unfold flag_char. rewrite plain_ws by auto. destruct (plain_neq c H) as (_ & _ & H2).
  unfold bar. destruct (Z.eqb_spec c 124); auto; contradiction.
Qed.
Lemma flag_span n b rest : name n -> blank b -> rest = [] \/ (exists r, rest = 124 :: r) -> span flag_char (n ++ b ++ rest) = (n, b ++ rest).
Proof.
  intros (c & r & -> & _ & Hp) Hb Hr. apply span_all; [now apply flag_chars|]. destruct b as [|d b]; cbn.
  - destruct Hr as [->|(t & ->)]; cbn; auto.
  - inversion Hb as [|? ? Hc _]; subst. unfold flag_char. now rewrite (proj2 (ws_In d) Hc).
Qed.
Lemma parse_flags_joined tbl ns s : joined ns s -> forall vs fuel seen r, Forall2 (fun n v => find_str n tbl = Some v) ns vs -> (length s <= fuel)%nat ->
  parse_flags fuel tbl s seen r = Some (true, Z.lor r (or_all vs)).
Proof.
  induction 1 as [a n b Ha Hn Hb|a n b ns s Ha Hn Hb Hj IH]; intros vs fuel seen r Hf Hl.
  - inversion Hf as [|? v ? ? Hv Hnil]; subst. inversion Hnil; subst. cbn [or_all]. rewrite Z.lor_0_r.
    assert (NE : a ++ n ++ b <> []). { destruct Hn as (c & t & -> & _). destruct a; discriminate. }
    destruct fuel as [|fuel]; [destruct (a ++ n ++ b); [contradiction|cbn in Hl; lia]|]. cbn [parse_flags].
    destruct (a ++ n ++ b) as [|z zs] eqn:Ez; [contradiction|]. rewrite <- Ez. rewrite skip_blank, skip_name by auto. fold flag_char.
    pose proof (flag_span n b [] Hn Hb (or_introl eq_refl)) as P. rewrite app_nil_r in P. rewrite P. rewrite skip_blank_nil by auto.
    destruct Hn as (c & t & -> & _). cbn [app]. rewrite Hv. reflexivity.
  - inversion Hf as [|? v ? vs' Hv Hf']; subst. cbn [or_all]. rewrite Z.lor_assoc.
    assert (NE : a ++ n ++ b ++ 124 :: s <> []). { destruct Hn as (c & t & -> & _). destruct a; discriminate. }
    destruct fuel as [|fuel]; [destruct (a ++ n ++ b ++ 124 :: s); [contradiction|cbn in Hl; lia]|]. cbn [parse_flags].
    destruct (a ++ n ++ b ++ 124 :: s) as [|z zs] eqn:Ez; [contradiction|]. rewrite <- Ez. rewrite skip_blank, skip_name by auto. fold flag_char.
    rewrite flag_span by eauto. rewrite skip_blank by auto. change (skip ws (124 :: s)) with (124 :: s).
    assert (L : (length s <= fuel)%nat). { rewrite <- Ez in Hl. rewrite !app_length in Hl. cbn in Hl. lia. }
    destruct Hn as (c & t & -> & _). cbn [app]. rewrite Hv. cbn [option_map]. apply IH; auto.
Qed.
Lemma join_joined ns : ns <> [] -> Forall name ns -> joined ns (join ns).
Proof.
  induction ns as [|n ns IH]; [contradiction|]. intros _ H. inversion H as [|? ? Hn Hns]; subst. destruct ns as [|m ns].
  - pose proof (joined_one [] n [] (Forall_nil _) Hn (Forall_nil _)) as J. cbn in J. rewrite app_nil_r in J. exact J.
  - exact (joined_more [] n [] (m :: ns) _ (Forall_nil _) Hn (Forall_nil _) (IH ltac:(discriminate) Hns)).
Qed.

(** numbers *)
Lemma digit_char d : 0 <= d < 10 -> digit (48 + d) = true.
Proof. intros. unfold digit. apply andb_true_iff. rewrite !Z.leb_le. lia. Qed.
Lemma number_digits fuel : forall n acc, 0 <= n < 10 ^ Z.of_nat fuel -> (0 < fuel)%nat ->
  exists ds, digits fuel n acc = ds ++ acc /\ ds <> [] /\ Forall (fun c => digit c = true) ds /\ forall k, number k (ds ++ acc) = number (k * 10 ^ Z.of_nat (length ds) + n) acc.
Proof.
  induction fuel as [|f IH]; intros n acc Hn Hf; [lia|]. cbn [digits].
  pose proof (Z.mod_pos_bound n 10 ltac:(lia)) as M. pose proof (Z.div_mod n 10 ltac:(lia)) as D. destruct (Z.ltb_spec n 10).
  - exists [48 + n mod 10]. split; [reflexivity|]. split; [discriminate|]. split; [repeat constructor; apply digit_char; auto|]. intros k.
    cbn [app number length]. f_equal. rewrite Z.mod_small by lia. change (10 ^ Z.of_nat 1) with 10. lia.
  - assert (P : 10 ^ Z.of_nat (S f) = 10 * 10 ^ Z.of_nat f) by (rewrite Nat2Z.inj_succ, Z.pow_succ_r; lia).
    assert (Q : 0 <= n / 10 < 10 ^ Z.of_nat f). { split; [apply Z.div_pos; lia|]. apply Z.div_lt_upper_bound; lia. }
    assert (f <> 0)%nat. { intros ->. cbn in Q. change (10 ^ Z.of_nat 0) with 1 in Q. assert (1 <= n / 10) by (apply Z.div_le_lower_bound; lia). lia. }
    destruct (IH (n / 10) (48 + n mod 10 :: acc) Q ltac:(lia)) as (ds & E1 & E2 & E3 & E4).
    exists (ds ++ [48 + n mod 10]). rewrite E1, <- app_assoc. split; [reflexivity|]. split; [destruct ds; discriminate|]. split.
    { apply Forall_app. split; auto. repeat constructor. apply digit_char; auto. }
    intros k. cbn [app]. rewrite E4. cbn [number]. f_equal. rewrite app_length. cbn [length]. rewrite Nat2Z.inj_add, Z.pow_add_r by lia.
    change (10 ^ Z.of_nat 1) with 10. lia.
Qed.
Lemma digit_not_space c : digit c = true -> isspace c = false /\ ws c = false.
Proof.
  unfold digit. rewrite andb_true_iff, !Z.leb_le. intros H. split.
  - unfold isspace. destruct (Z.eqb_spec c 32), (Z.leb_spec 9 c), (Z.leb_spec c 13); auto; lia.
  - destruct (ws c) eqn:E; auto. apply ws_In in E. cbn in E. lia.
Qed.
Lemma parse_print n : 0 <= n < 2 ^ 32 -> exists c r, print_unsigned n = c :: r /\ digit c = true /\ ws c = false /\ parse_number (print_unsigned n) = Some (s32 n).
Proof.
  intros H. unfold print_unsigned. destruct (number_digits 10 n []) as (ds & E & E2 & E3 & E4); [change (10 ^ Z.of_nat 10) with 10000000000; lia|lia|].
  rewrite E. rewrite app_nil_r in *. destruct ds as [|c r]; [contradiction|]. inversion E3 as [|? ? Hc Hr]; subst. destruct (digit_not_space c Hc) as (H1 & H2).
  exists c, r. repeat split; auto. unfold parse_number. cbn [skip]. rewrite H1.
  pose proof (span_all digit (c :: r) [] E3 I) as P. rewrite app_nil_r in P. rewrite P. rewrite (E4 0). cbn [number].
  rewrite Z.mul_0_l, Z.add_0_l. destruct (Z.ltb_spec n (2 ^ 32)); [reflexivity|lia].
Qed.
