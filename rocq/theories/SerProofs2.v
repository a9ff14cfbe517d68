(** Proofs for C64: what is read *)
From Verif Require Import Base SerModel SerSpec SerProofs.
Local Open Scope Z_scope.

Lemma name_eqb_eq : forall a b, name_eqb a b = true <-> a = b.
Proof. intros a b. unfold name_eqb. destruct (list_eq_dec Z.eq_dec a b); split; congruence. Qed.
Lemma name_eqb_neq : forall a b, a <> b -> name_eqb a b = false.
Proof. intros a b H. unfold name_eqb. destruct (list_eq_dec Z.eq_dec a b); congruence. Qed.

Lemma to_s64_mod : forall z, to_s64 z mod 2 ^ 64 = z mod 2 ^ 64.
Proof.
  intros z. unfold to_s64. pose proof (Z.mod_pos_bound z (2 ^ 64) ltac:(lia)) as Hb.
  destruct (z mod 2 ^ 64 <? 2 ^ 63) eqn:E; [apply Z.mod_small; lia|].
  replace (z mod 2 ^ 64 - 2 ^ 64) with (z mod 2 ^ 64 + (-1) * 2 ^ 64) by lia. rewrite Z.mod_add by lia. apply Z.mod_small; lia.
Qed.
Lemma to_s64_mod_n : forall z n, 0 <= n <= 64 -> to_s64 z mod 2 ^ n = z mod 2 ^ n.
Proof.
  intros z n Hn. assert (D : (2 ^ n | 2 ^ 64)) by (exists (2 ^ (64 - n)); rewrite <- Z.pow_add_r by lia; f_equal; lia).
  rewrite (Znumtheory.Zmod_div_mod (2 ^ n) (2 ^ 64) (to_s64 z)), to_s64_mod by (try assumption; apply Z.pow_pos_nonneg; lia).
  symmetry. apply Znumtheory.Zmod_div_mod; try assumption; apply Z.pow_pos_nonneg; lia.
Qed.
Lemma to_int_signed : forall n z, 1 <= n <= 64 -> - 2 ^ (n - 1) <= z < 2 ^ (n - 1) -> to_int true n (to_s64 z) = z.
Proof.
  intros n z Hn Hz. unfold to_int. rewrite to_s64_mod_n by lia.
  assert (E : 2 ^ n = 2 * 2 ^ (n - 1)) by (rewrite <- Z.pow_succ_r by lia; f_equal; lia).
  destruct (Z_lt_le_dec z 0) as [Hneg|Hpos].
  - replace (z mod 2 ^ n) with (z + 2 ^ n).
    + destruct (z + 2 ^ n <? 2 ^ (n - 1)) eqn:F; lia.
    + symmetry. replace z with (z + 2 ^ n + (-1) * 2 ^ n) at 1 by lia. rewrite Z.mod_add by lia. apply Z.mod_small; lia.
  - rewrite Z.mod_small by lia. destruct (z <? 2 ^ (n - 1)) eqn:F; lia.
Qed.
Lemma to_int_unsigned : forall n z, 1 <= n <= 64 -> 0 <= z < 2 ^ n -> to_int false n (to_s64 z) = z.
Proof. intros n z Hn Hz. unfold to_int. rewrite to_s64_mod_n by lia. apply Z.mod_small; lia. Qed.

(* ------------------------------------------------------------------ properties of objects *)
Lemma enc_fields_names : forall fs vs n x, In (n, x) (enc_fields fs vs) -> In n (map fst fs).
Proof.
  induction fs as [|[m t] fs IH]; intros [|v vs] n x H; cbn [enc_fields] in H; try contradiction.
  cbn [map fst]. rewrite in_app_iff in H. destruct H as [H|H].
  - destruct (present t v); [|contradiction]. destruct H as [H|[]]. injection H as -> _. left; reflexivity.
  - right. eapply IH; eassumption.
Qed.
Lemma find_none_names : forall (l : list (name * tree)) n, (forall x, ~ In (n, x) l) -> find (fun e => name_eqb (fst e) n) l = None.
Proof.
  induction l as [|[m x] l IH]; intros n H; cbn [find fst]; [reflexivity|].
  rewrite name_eqb_neq; [apply IH|]; intros; [intro C|intro C; subst].
  - eapply H. right; eassumption.
  - eapply H. left; reflexivity.
Qed.
Lemma find_app_none : forall (l r : list (name * tree)) n, (forall x, ~ In (n, x) l) ->
  find (fun e => name_eqb (fst e) n) (l ++ r) = find (fun e => name_eqb (fst e) n) r.
Proof.
  induction l as [|[m x] l IH]; intros r n H; cbn [find fst app]; [reflexivity|].
  rewrite name_eqb_neq; [apply IH|]; intros; [intro C|intro C; subst].
  - eapply H. right; eassumption.
  - eapply H. left; reflexivity.
Qed.

Section Reading.
  Variable less : value -> value -> bool.
  Variable fresh : ty -> value.
  Hypothesis Hfresh : constructs fresh.
  Notation deser := (deser less fresh).
  Notation typed := (typed less).

  Definition deser_fields (composite : bool) (tr : tree) := fix fields (l : list (name * ty)) (olds : list value) {struct l} : option (list value) :=
    match l with [] => Some [] | (n, t') :: r =>
      match prop composite t' (deser t') (hd VEmpty olds) tr n, fields r (tl olds) with Some w, Some ws => Some (w :: ws) | _, _ => None end end.
  Definition deser_alt (tr : tree) := fix alt (l : list ty) (n : nat) (o : option value) {struct l} : option value :=
    match l with [] => None | t' :: r => match n with O => prop false t' (deser t') (match o with Some w => w | None => fresh t' end) tr s_obj | S n' => alt r n' o end end.
  Fixpoint clean_fields (l : list (name * ty)) (olds : list value) {struct l} : Prop :=
    match l with [] => True | (_, t') :: r => clean t' (hd VEmpty olds) /\ clean_fields r (tl olds) end.
  Fixpoint clean_cfields (l : list (name * ty)) (olds : list value) {struct l} : Prop :=
    match l with [] => True | (_, t') :: r => match t' with TOpt _ => hd VEmpty olds = VNone | _ => clean t' (hd VEmpty olds) end /\ clean_cfields r (tl olds) end.

  Lemma deser_struct : forall fs old tr, deser (TStruct fs) old tr = option_map VStruct (deser_fields false tr fs (items old)).
  Proof. reflexivity. Qed.
  Lemma deser_composite : forall fs old tr, deser (TComposite fs) old tr = option_map VStruct (deser_fields true tr fs (items old)).
  Proof. reflexivity. Qed.
  Lemma deser_ptr : forall fs old l, deser (TPtr fs) old (TrObj l) = option_map VPtr (deser_fields false (TrObj l) fs (items (fresh (TPtr fs)))).
  Proof. reflexivity. Qed.
  Lemma deser_variant : forall ts old tr, deser (TVariant ts) old tr =
    match get tr s_index with
    | Some (Some (TrInt z)) =>
        if z mod 2 ^ 64 <? Z.of_nat (length ts) then option_map (VVariant (Z.to_nat (z mod 2 ^ 64))) (deser_alt tr ts (Z.to_nat (z mod 2 ^ 64)) None)
        else match old with VVariant j w => option_map (VVariant j) (deser_alt tr ts j (Some w)) | _ => None end
    | _ => None
    end.
  Proof. reflexivity. Qed.
  Lemma clean_struct : forall fs old, clean (TStruct fs) old = clean_fields fs (items old).
  Proof. reflexivity. Qed.
  Lemma clean_composite : forall fs old, clean (TComposite fs) old = clean_cfields fs (items old).
  Proof. reflexivity. Qed.

  Definition R (t : ty) : Prop := forall v old, readable t -> typed t v -> clean t old -> deser t old (enc t v) = Some v.

  Lemma enc_not_null : forall t v, readable t -> typed t v -> nullable t = false -> enc t v <> TrNull.
  Proof. intros t v Hr Ht Hn. destruct Ht; cbn in Hn; try discriminate; cbn; try discriminate. inversion Hr. Qed.
  Lemma present_not_null : forall t v, readable t -> typed t v -> present t v = true -> (exists t', t = TOpt t') -> enc t v <> TrNull.
  Proof.
    intros t v Hr Ht Hp [t' ->]. inversion Hr; subst. inversion Ht; subst; cbn in Hp; [discriminate|]. cbn [enc]. apply enc_not_null; assumption.
  Qed.

  Lemma not_present : forall t v, readable t -> typed t v -> present t v = false -> (exists t', t = TOpt t') /\ v = VNone.
  Proof.
    intros t v Hr Ht Hp. destruct Ht; cbn in Hp; try discriminate.
    - split; [eauto|reflexivity].
    - inversion Hr; subst. exfalso. destruct t; cbn in *; try discriminate. inversion Ht; subst. match goal with H : readable TEmpty |- _ => inversion H end.
    - inversion Hr.
  Qed.

  (** one property, given what get finds *)
  Lemma prop_read : forall (composite : bool) t v old tr n, R t -> readable t -> typed t v ->
    get tr n = Some (if present t v then Some (enc t v) else None) ->
    (if composite then match t with TOpt _ => old = VNone | _ => clean t old end else clean t old) ->
    prop composite t (deser t) old tr n = Some v.
  Proof.
    intros composite t v old tr n HR Hr Ht Hg Hc. unfold prop. rewrite Hg.
    destruct (present t v) eqn:Hp.
    - assert (Hd : forall o, clean t o -> deser t o (enc t v) = Some v) by (intros; apply HR; assumption).
      assert (HN : (exists t', t = TOpt t') -> enc t v <> TrNull) by (intros; apply present_not_null; assumption).
      destruct t; try (destruct composite; apply Hd; assumption).
      specialize (HN ltac:(exists t; reflexivity)). assert (Hd' := Hd old I). destruct (enc (TOpt t) v); try exact Hd'. contradiction.
    - destruct (not_present _ _ Hr Ht Hp) as [[t' ->] ->]. destruct composite; [subst old|]; reflexivity.
  Qed.

  Lemma fields_read : forall (composite : bool) fs vs, Forall (fun f => R (snd f)) fs -> Forall (fun f => readable (snd f)) fs ->
    Forall2 (fun f v => typed (snd f) v) fs vs -> NoDup (map fst fs) ->
    forall before olds, (forall n x, In (n, x) before -> ~ In n (map fst fs)) ->
    (if composite then clean_cfields fs olds else clean_fields fs olds) ->
    deser_fields composite (TrObj (before ++ enc_fields fs vs)) fs olds = Some vs.
  Proof.
    intros composite fs vs HR Hrd Ht Hnd. induction Ht as [|[n t] v fs vs Hv Ht IH]; intros before olds Hb Hc; [reflexivity|].
    cbn [deser_fields enc_fields]. cbn [snd] in Hv. inversion HR; subst. inversion Hrd; subst. cbn [map fst] in Hnd. inversion Hnd; subst.
    cbn [snd] in *.
    rewrite (prop_read composite t v).
    - rewrite app_assoc. rewrite IH; [reflexivity|assumption..| |].
      + intros m x Hin. rewrite in_app_iff in Hin. destruct Hin as [Hin|Hin].
        * intro C. apply (Hb m x Hin). cbn [map fst]. right; exact C.
        * destruct (present t v); [|contradiction]. destruct Hin as [Hin|[]]. injection Hin as <- _. assumption.
      + destruct composite; cbn [clean_cfields clean_fields] in Hc; apply Hc.
    - assumption.
    - assumption.
    - assumption.
    - cbn [get]. f_equal. rewrite find_app_none.
      2:{ intros x C. apply (Hb _ _ C). left; reflexivity. }
      destruct (present t v).
      + cbn [app find fst]. replace (name_eqb n n) with true by (symmetry; apply name_eqb_eq; reflexivity). reflexivity.
      + cbn [app]. rewrite find_none_names; [reflexivity|]. intros x C. apply enc_fields_names in C. contradiction.
    - destruct composite; cbn [clean_cfields clean_fields] in Hc; apply Hc.
  Qed.

  Lemma read_all_append : forall (read : tree -> option value) vs trs acc,
    Forall2 (fun x v => read x = Some v) trs vs -> read_all read (fun v a => a ++ [v]) trs acc = Some (acc ++ vs).
  Proof.
    intros read vs trs acc H. revert acc. induction H as [|x v trs vs Hx H IH]; intros acc; cbn [read_all]; [rewrite app_nil_r; reflexivity|].
    rewrite Hx, IH, <- app_assoc. reflexivity.
  Qed.

  Lemma set_insert_last : forall v l, Forall (fun x => less x v = true) l -> set_insert less v l = l ++ [v].
  Proof. induction 1 as [|x l Hx H IH]; cbn [set_insert app]; [reflexivity|]. rewrite Hx, IH. reflexivity. Qed.
  Lemma map_insert_last : forall p l, Forall (fun x => less (key x) (key p) = true) l -> map_insert less p l = l ++ [p].
  Proof. induction 1 as [|x l Hx H IH]; cbn [map_insert app]; [reflexivity|]. rewrite Hx, IH. reflexivity. Qed.

  Lemma read_all_sorted : forall (read : tree -> option value) (ins : value -> list value -> list value) (lt : value -> value -> Prop),
    (forall v l, Forall (fun x => lt x v) l -> ins v l = l ++ [v]) ->
    forall vs trs acc, Forall2 (fun x v => read x = Some v) trs vs -> ForallOrdPairs lt vs -> Forall (fun a => Forall (fun b => lt a b) vs) acc ->
    read_all read ins trs acc = Some (acc ++ vs).
  Proof.
    intros read ins lt Hins vs trs acc H. revert acc. induction H as [|x v trs vs Hx H IH]; intros acc Ho Ha; cbn [read_all]; [rewrite app_nil_r; reflexivity|].
    rewrite Hx. inversion Ho; subst. rewrite Hins.
    - rewrite IH; [rewrite <- app_assoc; reflexivity|assumption|]. rewrite Forall_app. split.
      + eapply Forall_impl; [|exact Ha]. intros a Hl. inversion Hl; assumption.
      + constructor; [assumption|constructor].
    - eapply Forall_impl; [|exact Ha]. intros a Hl. inversion Hl; assumption.
  Qed.

  Lemma Forall2_map_l : forall (A B C : Type) (P : B -> C -> Prop) (f : A -> B) l m, Forall2 (fun a c => P (f a) c) l m -> Forall2 P (map f l) m.
  Proof. induction 1; cbn; constructor; auto. Qed.
  Lemma Forall_self2 : forall (A : Type) (P : A -> A -> Prop) l, Forall (fun a => P a a) l -> Forall2 P l l.
  Proof. induction 1; constructor; auto. Qed.

  Lemma fop_map : forall ks vs, length ks = length vs -> ForallOrdPairs (fun a b => less a b = true) ks ->
    ForallOrdPairs (fun a b => less (key a) (key b) = true) (map (fun p => VPair (fst p) (snd p)) (combine ks vs)).
  Proof.
    intros ks vs Hl Ho. revert vs Hl. induction Ho as [|k ks Hk Ho IH]; intros [|v vs] Hl; cbn [combine map]; try constructor; try discriminate.
    - clear -Hk. cbn [fst key]. revert vs. induction Hk as [|a ks Ha Hk IH]; intros [|y vs]; cbn [combine map]; constructor; auto.
    - apply IH. cbn in Hl. lia.
  Qed.

  Lemma alt_read : forall ts i t v tr, nth_error ts i = Some t -> (t = TEmpty -> v = VEmpty) -> (t <> TEmpty -> R t /\ readable t /\ typed t v) ->
    get tr s_obj = Some (if present t v then Some (enc t v) else None) -> deser_alt tr ts i None = Some v.
  Proof.
    induction ts as [|t0 ts IH]; intros [|i] t v tr Hn He Hne Hg; cbn [nth_error] in Hn; try discriminate.
    - injection Hn as ->. cbn [deser_alt]. destruct (match t with TEmpty => true | _ => false end) eqn:Et.
      + destruct t; try discriminate. rewrite He by reflexivity. cbn [prop]. f_equal. apply Hfresh.
      + assert (t <> TEmpty) by (intros ->; discriminate). destruct (Hne H) as [A [B C]]. apply prop_read; try assumption. apply Hfresh.
    - cbn [deser_alt]. eapply IH; eassumption.
  Qed.

  Lemma enc_alt_nth : forall ts i t v, nth_error ts i = Some t -> enc_alt v ts i = if present t v then [(s_obj, enc t v)] else [].
  Proof. induction ts as [|t0 ts IH]; intros [|i] t v H; cbn [nth_error] in H; try discriminate; [injection H as ->; reflexivity|]. apply (IH i t v H). Qed.

  Lemma deser_opt_some : forall t old tr, tr <> TrNull -> deser (TOpt t) old tr = option_map VSome (deser t (fresh t) tr).
  Proof. intros t old tr H. cbn [SerModel.deser]. destruct tr; try reflexivity. contradiction. Qed.

  Lemma R_all : forall t, R t.
  Proof.
    destruct Hfresh as [_ [HC HP]].
    apply ty_ind2; unfold R.
    - intros v old _ Ht _. inversion Ht; reflexivity.
    - intros s n v old Hr Ht _. inversion Hr; subst. inversion Ht; subst; cbn [SerModel.deser enc get_int]; do 2 f_equal;
        [apply to_int_signed|apply to_int_unsigned]; assumption.
    - intros v old _ Ht _. inversion Ht; reflexivity.
    - intros v old _ Ht _. inversion Ht; reflexivity.
    - intros t IH v old Hr Ht _. inversion Hr; subst. inversion Ht; subst; [reflexivity|].
      cbn [enc]. rewrite deser_opt_some by (apply enc_not_null; assumption). rewrite IH; [reflexivity|assumption|assumption|apply HC].
    - intros t IH v old Hr Ht _. inversion Hr; subst. inversion Ht; subst. cbn [SerModel.deser enc]. rewrite (read_all_append _ vs); [reflexivity|].
      apply Forall2_map_l, Forall_self2. eapply Forall_impl; [|eassumption]. intros a Ha. apply IH; [assumption|assumption|apply HC].
    - intros t IH v old Hr Ht _. inversion Hr; subst. inversion Ht; subst. cbn [SerModel.deser enc].
      rewrite (read_all_sorted _ _ (fun a b => less a b = true) set_insert_last vs); [reflexivity| |assumption|constructor].
      apply Forall2_map_l, Forall_self2. eapply Forall_impl; [|eassumption]. intros a Ha. apply IH; [assumption|assumption|apply HC].
    - intros k t IHk IHt v old Hr Ht _. inversion Hr; subst. inversion Ht as [| | | | | | | | |k' t' ks vs Hk Hv Hl Hi| | | | | | |]; subst. cbn [SerModel.deser enc].
      rewrite (read_all_sorted _ _ (fun a b => less (key a) (key b) = true) map_insert_last (map (fun p => VPair (fst p) (snd p)) (combine ks vs)));
        [reflexivity| |apply fop_map; assumption|constructor].
      apply Forall2_map_l, Forall_self2. rewrite Forall_map. clear Hi. revert vs Hv Hl Ht.
      induction Hk as [|x ks Hx Hk IH]; intros [|y vs] Hv Hl Ht; cbn [combine]; try constructor; try discriminate.
      + cbn [fst snd read_pair part]. inversion Hv; subst. rewrite IHk by (try assumption; apply HC). rewrite IHt by (try assumption; apply HC). reflexivity.
      + inversion Hv; subst. apply IH; [assumption|cbn in Hl; lia|].
        inversion Ht as [| | | | | | | | |k'' t'' ks' vs' Hk' Hv' Hl' Hi' E1 E2| | | | | | |]; subst.
        destruct ks' as [|a ks'], vs' as [|b vs']; cbn [combine map] in E2; try discriminate. injection E2 as -> -> E2.
        rewrite <- E2. inversion Hk'; subst. inversion Hv'; subst. inversion Hi'; subst. constructor; try assumption. cbn in Hl'; lia.
    - intros a b IHa IHb v old Hr Ht Hc. inversion Hr; subst. inversion Ht; subst. cbn [clean] in Hc. cbn [SerModel.deser enc read_pair].
      rewrite IHa, IHb by (try assumption; apply Hc). reflexivity.
    - intros v old Hr. inversion Hr.
    - intros ts IH v old Hr Ht _. inversion Hr as [| | | | | | | | |ts' HF HL| | |]; subst. inversion Ht as [| | | | | | | | | | | |ts' i t w Hn Hw| | | |]; subst.
      assert (Hlt : (i < length ts)%nat) by (apply nth_error_Some; rewrite Hn; discriminate).
      assert (Hin : In t ts) by (eapply nth_error_In; eassumption).
      rewrite deser_variant, enc_variant. cbn [get find fst]. replace (name_eqb s_index s_index) with true by reflexivity.
      rewrite to_s64_mod, Z.mod_small by lia. rewrite Nat2Z.id.
      replace (Z.of_nat i <? Z.of_nat (length ts)) with true by (symmetry; apply Z.ltb_lt; lia).
      rewrite (alt_read ts i t w); [reflexivity|assumption| | |].
      + intros ->. inversion Hw; reflexivity.
      + intros Hne. rewrite Forall_forall in *. destruct (HF _ Hin) as [?|Hrd]; [contradiction|]. split; [|split]; [|assumption|assumption].
        unfold R. intros; apply IH; assumption.
      + rewrite (enc_alt_nth _ _ _ _ Hn). cbn [get find fst]. replace (name_eqb s_index s_obj) with false by reflexivity.
        destruct (present t w); cbn [find fst]; [replace (name_eqb s_obj s_obj) with true by reflexivity|]; reflexivity.
    - intros fs IH v old Hr Ht Hc. inversion Hr; subst. inversion Ht; subst. rewrite deser_struct, enc_struct.
      rewrite clean_struct in Hc. pose proof (fields_read false fs vs IH) as F. cbv beta iota in F.
      specialize (F ltac:(assumption) ltac:(assumption) ltac:(assumption) [] (items old)). cbn [app] in F. rewrite F; [reflexivity| |exact Hc]. intros ? ? [].
    - intros fs IH v old Hr Ht Hc. inversion Hr; subst. inversion Ht; subst. rewrite deser_composite, enc_composite.
      rewrite clean_composite in Hc. pose proof (fields_read true fs vs IH) as F. cbv beta iota in F.
      specialize (F ltac:(assumption) ltac:(assumption) ltac:(assumption) [] (items old)). cbn [app] in F. rewrite F; [reflexivity| |exact Hc]. intros ? ? [].
    - intros fs IH v old Hr Ht Hc. inversion Hr; subst. inversion Ht; subst; [reflexivity|]. rewrite enc_ptr, deser_ptr.
      pose proof (fields_read false fs vs IH) as F. cbv beta iota in F.
      specialize (F ltac:(assumption) ltac:(assumption) ltac:(assumption) [] (items (fresh (TPtr fs)))). cbn [app] in F. rewrite F; [reflexivity| |].
      + intros ? ? [].
      + specialize (HP fs). rewrite clean_struct in HP. cbn [items] in HP. exact HP.
  Qed.
End Reading.
