(** Proofs for C64: the pieces around the two streams *)
From Verif Require Import Base SerModel SerSpec SerProofs SerProofs2.
Local Open Scope Z_scope.

Lemma default_constructs : constructs default.
Proof.
  assert (H : forall t, clean t (default t)).
  { apply ty_ind2; try (intros; exact I).
    - intros a b Ha Hb. cbn [clean default part]. auto.
    - intros fs IH. rewrite clean_struct. cbn [default items]. induction IH as [|[n t] fs Ht _ IH]; cbn [clean_fields map hd tl snd] in *; auto.
    - intros fs IH. rewrite clean_composite. cbn [default items]. induction IH as [|[n t] fs Ht _ IH]; cbn [clean_cfields map hd tl snd] in *; [exact I|].
      split; [|exact IH]. destruct t; try exact Ht. reflexivity. }
  split; [reflexivity|]. split; [exact H|]. intros fs. exact (H (TStruct fs)).
Qed.

Theorem roundtrip : forall less fresh t v, constructs fresh -> readable t -> typed less t v ->
  exists tr, document (ser None t v) = Some tr /\ forall old, clean t old -> deser less fresh t old tr = Some v.
Proof.
  intros less fresh t v Hf Hr Ht. exists (enc t v). split; [eapply document_ser; eassumption|]. intros old Hc. apply R_all; assumption.
Qed.

(* ------------------------------------------------------------------ InjectionSerializer *)
Section TreeInd.
  Variable P : tree -> Prop.
  Hypothesis Hn : P TrNull.
  Hypothesis Hb : forall b, P (TrBool b).
  Hypothesis Hi : forall z, P (TrInt z).
  Hypothesis Hs : forall s, P (TrStr s).
  Hypothesis Hy : forall s, P (TrBytes s).
  Hypothesis Hl : forall l, Forall P l -> P (TrList l).
  Hypothesis Ho : forall l, Forall (fun e => P (snd e)) l -> P (TrObj l).
  Fixpoint tree_ind2 (t : tree) : P t :=
    match t with
    | TrNull => Hn | TrBool b => Hb b | TrInt z => Hi z | TrStr s => Hs s | TrBytes s => Hy s
    | TrList l => Hl l ((fix go (l : list tree) : Forall P l := match l with [] => Forall_nil _ | x :: r => Forall_cons x (tree_ind2 x) (go r) end) l)
    | TrObj l => Ho l ((fix go (l : list (name * tree)) : Forall (fun e => P (snd e)) l :=
                         match l with [] => Forall_nil _ | x :: r => Forall_cons x (tree_ind2 (snd x)) (go r) end) l)
    end.
End TreeInd.

Lemma run_inject : forall tr st, run (inject tr) st = put tr st.
Proof.
  apply (tree_ind2 (fun tr => forall st, run (inject tr) st = put tr st)).
  1-5: intros; cbn [inject run step]; match goal with |- context [put ?x ?s] => destruct (put x s); reflexivity end.
  - intros l H st. cbn [inject app run step]. rewrite run_app, flat_map_concat_map. rewrite (run_list _ l).
    + cbn [run step]. rewrite app_nil_r, rev_involutive. destruct (put _ st); reflexivity.
    + replace l with (map (fun x => x) l) at 2 by apply map_id. apply Forall2_map_map. exact H.
  - intros l H st. cbn [inject app run step]. rewrite run_app.
    assert (E : forall acc s, run (flat_map (fun e => EName (fst e) :: inject (snd e)) l) (FObj acc None :: s) = Some (FObj (rev l ++ acc) None :: s)).
    { induction H as [|[n x] l Hx H IH]; intros acc s; cbn [flat_map rev app]; [reflexivity|].
      cbn [app run step fst snd]. rewrite run_app, Hx. cbn [put]. rewrite IH, <- app_assoc. reflexivity. }
    rewrite E. cbn [run step]. rewrite app_nil_r, rev_involutive. destruct (put _ st); reflexivity.
Qed.

(* ------------------------------------------------------------------ "hex=" strings *)
Lemma xdigit_hex : forall d, 0 <= d < 16 -> xdigit (hex_char d) = Some d.
Proof.
  intros d Hd. assert (H : d = 0 \/ d = 1 \/ d = 2 \/ d = 3 \/ d = 4 \/ d = 5 \/ d = 6 \/ d = 7 \/ d = 8 \/ d = 9 \/ d = 10 \/ d = 11 \/ d = 12 \/ d = 13 \/ d = 14 \/ d = 15) by lia.
  repeat (destruct H as [->|H]; [reflexivity|]). subst d. reflexivity.
Qed.
Lemma byte_of_halves : forall b, 0 <= b < 256 -> Z.lor (b mod 16) ((b / 16 * 16) mod 256) = b.
Proof.
  intros b Hb. rewrite (Z.mod_small (b / 16 * 16)) by (pose proof (Z.mul_div_le b 16 ltac:(lia)); pose proof (Z.div_pos b 16 ltac:(lia) ltac:(lia)); lia).
  assert (D : Z.land (b mod 16) (b / 16 * 16) = 0).
  { apply Z.bits_inj'. intros n Hn. rewrite Z.land_spec, Z.bits_0. change (b / 16 * 16) with (b / 16 * 2 ^ 4). change (b mod 16) with (b mod 2 ^ 4).
    destruct (Z_lt_le_dec n 4).
    - rewrite Z.mul_pow2_bits_low by lia. apply andb_false_r.
    - rewrite Z.mod_pow2_bits_high by lia. reflexivity. }
  rewrite <- (Z.lxor_lor _ _ D), <- (Z.add_nocarry_lxor _ _ D). pose proof (Z.div_mod b 16 ltac:(lia)). lia.
Qed.
Lemma unpack_hex : forall l, Forall (fun b => 0 <= b < 256) l -> unpack_pairs (hex_text l) = Some l.
Proof.
  induction 1 as [|b l Hb H IH]; [reflexivity|]. cbn [hex_text flat_map app unpack_pairs] in *. fold (hex_text l).
  rewrite !xdigit_hex by (split; [apply Z.div_pos; lia|apply Z.div_lt_upper_bound; lia] || (apply Z.mod_pos_bound; lia)).
  rewrite IH, byte_of_halves by assumption. reflexivity.
Qed.
Lemma unpack_length : forall n s r, (length s <= n)%nat -> unpack_pairs s = Some r -> length s = (2 * length r)%nat /\ Forall (fun b => 0 <= b < 256) r.
Proof.
  induction n as [|n IH]; intros [|a [|b s]] r Hl H; cbn [unpack_pairs length] in *; try discriminate; try (injection H as <-; split; [reflexivity|constructor]); try lia.
  destruct (xdigit a) as [h|] eqn:Ea; [|discriminate]. destruct (xdigit b) as [l|] eqn:Eb; [|discriminate].
  destruct (unpack_pairs s) as [t|] eqn:Et; [|discriminate]. injection H as <-.
  destruct (IH s t) as [E F]; [lia|exact Et|]. cbn [length]. split; [lia|]. constructor; [|exact F].
  assert (X : forall c d, xdigit c = Some d -> 0 <= d < 16).
  { intros c d. unfold xdigit. destruct ((48 <=? c) && (c <=? 57)) eqn:E1; [intros [= <-]; lia|].
    destruct ((97 <=? Z.lor c 32) && (Z.lor c 32 <=? 102)) eqn:E2; [intros [= <-]; lia|discriminate]. }
  pose proof (X _ _ Ea) as X1. pose proof (X _ _ Eb) as X2. rewrite Z.mod_small by lia.
  split; [apply Z.lor_nonneg; lia|]. change 256 with (2 ^ 8).
  destruct (Z.eq_dec (Z.lor l (h * 16)) 0) as [->|Hz]; [lia|].
  assert (0 <= Z.lor l (h * 16)) by (apply Z.lor_nonneg; lia).
  apply Z.log2_lt_pow2; [lia|]. rewrite Z.log2_lor by lia.
  apply Z.max_lub_lt.
  - destruct (Z.eq_dec l 0) as [->|]; [cbn; lia|apply Z.log2_lt_pow2; lia].
  - destruct (Z.eq_dec h 0) as [->|]; [cbn; lia|apply Z.log2_lt_pow2; lia].
Qed.

(* ------------------------------------------------------------------ CheckedIntegerCaster *)
Lemma to_s64_small : forall z, - 2 ^ 63 <= z < 2 ^ 63 -> to_s64 z = z.
Proof.
  intros z Hz. unfold to_s64. destruct (Z_lt_le_dec z 0).
  - replace (z mod 2 ^ 64) with (z + 2 ^ 64) by (symmetry; replace z with (z + 2 ^ 64 + (-1) * 2 ^ 64) at 1 by lia; rewrite Z.mod_add by lia; apply Z.mod_small; lia).
    destruct (z + 2 ^ 64 <? 2 ^ 63) eqn:E; lia.
  - rewrite Z.mod_small by lia. destruct (z <? 2 ^ 63) eqn:E; lia.
Qed.
Lemma checked_exact : forall sg n z, 1 <= n <= 32 -> - 2 ^ 63 <= z < 2 ^ 63 ->
  checked_cast sg n z = if (int_min sg n <=? z) && (z <=? int_max sg n) then Some z else None.
Proof.
  intros sg n z Hn Hz. unfold checked_cast.
  assert (P : 0 < 2 ^ (n - 1) <= 2 ^ 31) by (split; [apply Z.pow_pos_nonneg; lia|apply Z.pow_le_mono_r; lia]).
  assert (E : 2 ^ n = 2 * 2 ^ (n - 1)) by (rewrite <- Z.pow_succ_r by lia; f_equal; lia).
  assert (M : - 2 ^ 31 <= int_min sg n <= 0 /\ 0 <= int_max sg n <= 2 ^ 32) by (destruct sg; cbn [int_min int_max]; lia).
  rewrite (to_s64_small (int_min sg n)), (to_s64_small (int_max sg n)) by lia. rewrite to_s64_small by lia.
  replace (z <? int_max sg n + 1) with (z <=? int_max sg n) by lia.
  destruct ((int_min sg n <=? z) && (z <=? int_max sg n)) eqn:C; [|reflexivity]. f_equal.
  rewrite <- (to_s64_small z Hz) at 1. destruct sg; cbn [int_min int_max] in C; [apply to_int_signed|apply to_int_unsigned]; lia.
Qed.

(* ------------------------------------------------------------------ six digits *)
Lemma digits_small : forall f n, 0 <= n -> n < 10 ^ (Z.of_nat f) -> digits f n <= Z.of_nat f.
Proof.
  induction f as [|f IH]; intros n Hn Hb; cbn [digits]; [lia|]. destruct (n <? 10) eqn:E; [lia|].
  assert (n / 10 < 10 ^ Z.of_nat f). { apply Z.div_lt_upper_bound; [lia|]. rewrite <- Z.pow_succ_r by lia. replace (Z.succ (Z.of_nat f)) with (Z.of_nat (S f)) by lia. exact Hb. }
  specialize (IH (n / 10) ltac:(apply Z.div_pos; lia) ltac:(assumption)). lia.
Qed.
Lemma digits_enough : forall f g n, 0 <= n -> n < 10 ^ (Z.of_nat f) -> (f <= g)%nat -> (1 <= f)%nat -> digits g n <= Z.of_nat f.
Proof.
  induction f as [|f IH]; intros [|g] n Hn Hb Hg Hf; cbn [digits]; try lia. destruct (n <? 10) eqn:E; [lia|].
  assert (n / 10 < 10 ^ Z.of_nat f). { apply Z.div_lt_upper_bound; [lia|]. rewrite <- Z.pow_succ_r by lia. replace (Z.succ (Z.of_nat f)) with (Z.of_nat (S f)) by lia. exact Hb. }
  destruct f as [|f].
  - change (10 ^ Z.of_nat 1) with 10 in Hb. lia.
  - specialize (IH g (n / 10) ltac:(apply Z.div_pos; lia) ltac:(assumption) ltac:(lia) ltac:(lia)). lia.
Qed.
Lemma six_exact : forall n, - 10 ^ 6 < n < 10 ^ 6 -> six_digits n = n.
Proof.
  intros n H. unfold six_digits. pose proof (digits_enough 6 20 (Z.abs n) ltac:(lia) ltac:(change (Z.of_nat 6) with 6; lia) ltac:(lia) ltac:(lia)) as D.
  change (Z.of_nat 6) with 6 in D. destruct (digits 20 (Z.abs n) <=? 6) eqn:E; [|lia]. rewrite Z.mul_comm. apply Z.abs_sgn.
Qed.
Lemma digits_low : forall f n, 0 < n -> 10 ^ (digits f n - 1) <= n.
Proof.
  induction f as [|f IH]; intros n Hn; cbn [digits]; [change (10 ^ (0 - 1)) with 0; lia|]. destruct (n <? 10) eqn:E; [change (10 ^ (1 - 1)) with 1; lia|].
  assert (0 < n / 10) by (apply Z.div_str_pos; lia). specialize (IH _ H).
  replace (1 + digits f (n / 10) - 1) with (digits f (n / 10)) by lia.
  assert (0 <= digits f (n / 10)) by (clear; revert n; induction f as [|f IH]; intros n; cbn [digits]; [lia|]; destruct (n / 10 <? 10); [lia|]; specialize (IH (n / 10)); lia).
  destruct (Z.eq_dec (digits f (n / 10)) 0) as [->|]; [lia|].
  replace (digits f (n / 10)) with (Z.succ (digits f (n / 10) - 1)) by lia. rewrite Z.pow_succ_r by lia.
  pose proof (Z.mul_div_le n 10 ltac:(lia)). lia.
Qed.
Lemma round_div_near : forall n d, 0 < d -> 2 * Z.abs (round_div n d * d - n) <= d.
Proof.
  intros n d Hd. unfold round_div. pose proof (Z.div_mod n d ltac:(lia)) as D. pose proof (Z.mod_pos_bound n d Hd) as B.
  destruct ((2 * (n mod d) <? d) || ((2 * (n mod d) =? d) && Z.even (n / d))) eqn:E.
  - rewrite Bool.orb_true_iff, Bool.andb_true_iff in E. destruct E as [E|[E _]]; nia.
  - rewrite Bool.orb_false_iff in E. destruct E as [E _]. nia.
Qed.
(** the value read back is within half of one part in a hundred thousand *)
Lemma six_near : forall n, 2 * 10 ^ 5 * Z.abs (six_digits n - n) <= Z.abs n.
Proof.
  intros n. destruct (Z.eq_dec n 0) as [->|Hn]; [cbn; lia|]. unfold six_digits. set (a := Z.abs n). set (k := digits 20 a).
  destruct (k <=? 6) eqn:E.
  - replace (Z.sgn n * a) with n by (unfold a; rewrite Z.mul_comm; symmetry; apply Z.abs_sgn). rewrite Z.sub_diag. cbn [Z.abs]. lia.
  - assert (Hk : 7 <= k) by lia. assert (0 < 10 ^ (k - 6)) by (apply Z.pow_pos_nonneg; lia).
    pose proof (round_div_near a (10 ^ (k - 6)) ltac:(assumption)) as R.
    assert (L : 10 ^ (k - 1) <= a) by (apply digits_low; lia).
    replace (k - 1) with (5 + (k - 6)) in L by lia. rewrite Z.pow_add_r in L by lia.
    assert (EA : Z.abs (Z.sgn n * (round_div a (10 ^ (k - 6)) * 10 ^ (k - 6)) - n) = Z.abs (round_div a (10 ^ (k - 6)) * 10 ^ (k - 6) - a)).
    { rewrite <- (Z.abs_sgn n) at 2. fold a. replace (Z.sgn n * (round_div a (10 ^ (k - 6)) * 10 ^ (k - 6)) - a * Z.sgn n)
        with (Z.sgn n * (round_div a (10 ^ (k - 6)) * 10 ^ (k - 6) - a)) by ring. rewrite Z.abs_mul. destruct n; cbn [Z.sgn Z.abs]; lia. }
    rewrite EA. unfold a in *. nia.
Qed.

(* ------------------------------------------------------------------ human readable maps *)
Lemma object_map : forall less fresh t, constructs fresh -> readable t -> forall (kvs : list (name * value)) trs old,
  Forall2 (fun kv tr => document (ser None t (snd kv)) = Some tr) kvs trs -> Forall (fun kv => typed less t (snd kv)) kvs ->
  increasing less (map (fun kv => VStr (fst kv)) kvs) ->
  deser less fresh (TMap TStr t) old (TrObj (combine (map fst kvs) trs)) = Some (VList (map (fun kv => VPair (VStr (fst kv)) (snd kv)) kvs)).
Proof.
  intros less fresh t Hf Hr kvs trs old HD HT HI. cbn [deser].
  rewrite (read_all_sorted _ _ (fun a b => less (key a) (key b) = true) (map_insert_last less) (map (fun kv => VPair (VStr (fst kv)) (snd kv)) kvs)).
  - reflexivity.
  - clear HI. induction HD as [|[k v] tr kvs trs H HD IH]; cbn [map combine fst snd]; constructor.
    + inversion HT; subst. cbn [snd] in *. rewrite (document_ser less) in H by assumption. injection H as <-.
      rewrite (R_all less fresh Hf); [reflexivity|assumption|assumption|apply Hf].
    + apply IH. inversion HT; assumption.
  - clear -HI. unfold increasing in HI. induction kvs as [|[k v] kvs IH]; cbn [map fst snd] in *; constructor; inversion HI; subst.
    + match goal with H : Forall _ _ |- _ => rewrite Forall_map in H; rewrite Forall_map; exact H end.
    + apply IH; assumption.
  - constructor.
Qed.

(* ------------------------------------------------------------------ sets and maps from any list *)
Section Ordered.
  Variable less : value -> value -> bool.
  Hypothesis irrefl : forall a, less a a = false.
  Hypothesis trans : forall a b c, less a b = true -> less b c = true -> less a c = true.
  Hypothesis weak : forall a b c, less a b = false -> less b c = false -> less a c = false.
  Definition same (a b : value) : Prop := less a b = false /\ less b a = false.

  Variable k : value -> value.
  Variable ins : value -> list value -> list value.
  Hypothesis ins_nil : forall v, ins v [] = [v].
  Hypothesis ins_cons : forall v x t, ins v (x :: t) = if less (k x) (k v) then x :: ins v t else if less (k v) (k x) then v :: x :: t else x :: t.
  Definition sorted_by (l : list value) : Prop := ForallOrdPairs (fun a b => less (k a) (k b) = true) l.

  Lemma ins_in : forall v l y, In y (ins v l) -> y = v \/ In y l.
  Proof.
    induction l as [|x l IH]; intros y H; [rewrite ins_nil in H; destruct H as [<-|[]]; auto|]. rewrite ins_cons in H.
    destruct (less (k x) (k v)); [destruct H as [<-|H]; [right; left; reflexivity|destruct (IH _ H); [auto|right; right; assumption]]|].
    destruct (less (k v) (k x)); [destruct H as [<-|H]; auto|auto].
  Qed.
  Lemma ins_keeps : forall v l y, In y l -> In y (ins v l).
  Proof.
    induction l as [|x l IH]; intros y H; [contradiction|]. rewrite ins_cons. destruct (less (k x) (k v)); [destruct H as [<-|H]; [left; reflexivity|right; auto]|].
    destruct (less (k v) (k x)); [right; exact H|exact H].
  Qed.
  Lemma ins_has : forall v l, exists y, In y (ins v l) /\ same (k v) (k y).
  Proof.
    induction l as [|x l IH]; [exists v; rewrite ins_nil; split; [left; reflexivity|split; apply irrefl]|]. rewrite ins_cons.
    destruct (less (k x) (k v)) eqn:A; [destruct IH as [y [I J]]; exists y; split; [right; exact I|exact J]|].
    destruct (less (k v) (k x)) eqn:B; [exists v; split; [left; reflexivity|split; apply irrefl]|exists x; split; [left; reflexivity|split; assumption]].
  Qed.
  Lemma ins_sorted : forall v l, sorted_by l -> sorted_by (ins v l).
  Proof.
    intros v l H. induction H as [|x l Hx H IH]; [rewrite ins_nil; repeat constructor|]. rewrite ins_cons. destruct (less (k x) (k v)) eqn:A.
    - constructor; [|exact IH]. rewrite Forall_forall in *. intros y Hy. destruct (ins_in _ _ _ Hy) as [->|Hy']; [exact A|apply Hx; exact Hy'].
    - destruct (less (k v) (k x)) eqn:B; [|constructor; assumption]. constructor; [|constructor; assumption].
      constructor; [exact B|]. rewrite Forall_forall in *. intros y Hy. eapply trans; [exact B|apply Hx; exact Hy].
  Qed.
  Lemma same_trans : forall a b c, same a b -> same b c -> same a c.
  Proof. intros a b c [A B] [C D]. split; eapply weak; eassumption. Qed.
  Lemma same_sym : forall a b, same a b -> same b a.
  Proof. intros a b [A B]. split; assumption. Qed.

  (** everything read is represented, nothing else is there, no two elements are equivalent; of equivalent ones the first is kept *)
  Lemma read_ins : forall read trs acc out, read_all read ins trs acc = Some out -> sorted_by acc ->
    sorted_by out /\ (forall y, In y acc -> In y out) /\ (forall y, In y out -> In y acc \/ exists tr, In tr trs /\ read tr = Some y) /\
    (forall tr, In tr trs -> exists v y, read tr = Some v /\ In y out /\ same (k v) (k y)).
  Proof.
    intros read trs. induction trs as [|tr trs IH]; intros acc out H Hs; cbn [read_all] in H.
    - injection H as <-. repeat split; auto. intros ? [].
    - destruct (read tr) as [v|] eqn:E; [|discriminate]. destruct (IH _ _ H (ins_sorted v acc Hs)) as [A [B [C D]]]. split; [exact A|]. split; [|split].
      + intros y Hy. apply B, ins_keeps, Hy.
      + intros y Hy. destruct (C _ Hy) as [Hy'|[tr' [I J]]].
        * destruct (ins_in _ _ _ Hy') as [->|?]; [right; exists tr; split; [left; reflexivity|exact E]|left; assumption].
        * right. exists tr'. split; [right; exact I|exact J].
      + intros tr' [<-|I].
        * destruct (ins_has v acc) as [y [I J]]. exists v, y. split; [exact E|]. split; [apply B, I|exact J].
        * apply D, I.
  Qed.
  Lemma ins_new : forall v l, (forall y, In y l -> ~ same (k v) (k y)) -> In v (ins v l).
  Proof.
    induction l as [|x l IH]; intros H; [rewrite ins_nil; left; reflexivity|]. rewrite ins_cons. destruct (less (k x) (k v)) eqn:A.
    - right. apply IH. intros y Hy. apply H. right; exact Hy.
    - destruct (less (k v) (k x)) eqn:B; [left; reflexivity|]. exfalso. apply (H x); [left; reflexivity|split; assumption].
  Qed.
  Lemma read_all_app : forall read a b acc, read_all read ins (a ++ b) acc = match read_all read ins a acc with Some acc' => read_all read ins b acc' | None => None end.
  Proof. induction a as [|x a IH]; intros b acc; cbn [read_all app]; [reflexivity|]. destruct (read x); [apply IH|reflexivity]. Qed.
  Lemma read_ins_first : forall read a tr b out v, read_all read ins (a ++ tr :: b) [] = Some out -> read tr = Some v ->
    (forall tr' v', In tr' a -> read tr' = Some v' -> ~ same (k v) (k v')) -> In v out.
  Proof.
    intros read a tr b out v H Hv Hn. rewrite read_all_app in H. destruct (read_all read ins a []) as [acc|] eqn:E; [|discriminate].
    cbn [read_all] in H. rewrite Hv in H. destruct (read_ins _ _ _ _ E) as [Hs [_ [C _]]]; [constructor|].
    destruct (read_ins _ _ _ _ H (ins_sorted v acc Hs)) as [_ [B _]]. apply B, ins_new. intros y Hy. destruct (C y Hy) as [[]|[tr' [I J]]]. eapply Hn; eassumption.
  Qed.
End Ordered.
