From Coq Require Import List ZArith Bool Lia Arith.
From Verif Require Import ArithModel ArithSpec.
Import ListNotations.
Local Open Scope Z_scope.
Ltac Zify.zify_post_hook ::= Z.div_mod_to_equations.

Notation P29 := 536870912. Notation P29x3 := 1610612736. Notation P30 := 1073741824. Notation P31 := 2147483648. Notation P32 := 4294967296.

(** ** Words *)
Lemma w32_small x : 0 <= x < P32 -> w32 x = x.
Proof. intros H. unfold w32. apply Z.mod_small. lia. Qed.

Lemma land_pow x n : 0 <= n -> Z.land x (2 ^ n) = if Z.testbit x n then 2 ^ n else 0.
Proof.
  intros Hn. apply Z.bits_inj'. intros k Hk. rewrite Z.land_spec. rewrite Z.pow2_bits_eqb by auto.
  destruct (Z.eqb_spec n k) as [<-|N].
  - rewrite andb_true_r. destruct (Z.testbit x n) eqn:E; [now rewrite Z.pow2_bits_true|now rewrite Z.bits_0].
  - rewrite andb_false_r. destruct (Z.testbit x n); [now rewrite Z.pow2_bits_false|now rewrite Z.bits_0].
Qed.
Lemma pow_bit_test x n : 0 <= n -> negb (Z.land x (2 ^ n) =? 0) = Z.testbit x n.
Proof. intros Hn. rewrite land_pow by auto. assert (0 < 2 ^ n) by (apply Z.pow_pos_nonneg; lia). destruct (Z.testbit x n); [|reflexivity]. destruct (Z.eqb_spec (2 ^ n) 0); auto. lia. Qed.
Lemma testbit_div x n : 0 <= n -> Z.testbit x n = ((x / 2 ^ n) mod 2 =? 1).
Proof.
  intros Hn. destruct (Z.testbit x n) eqn:E.
  - apply Z.testbit_true in E; auto. rewrite E. reflexivity.
  - apply Z.testbit_false in E; auto. rewrite E. reflexivity.
Qed.

Lemma first_bit_spec v : 0 <= v < P31 -> first_bit v = (P30 <=? v).
Proof.
  intros H. unfold first_bit. change 0x40000000 with (2 ^ 30). rewrite pow_bit_test by lia. rewrite testbit_div by lia. change (2 ^ 30) with P30.
  destruct (Z.leb_spec P30 v); [apply Z.eqb_eq|apply Z.eqb_neq]; lia.
Qed.
Lemma second_bit_spec v : 0 <= v < P31 -> second_bit v = ((P29 <=? v) && (v <? P30) || (P29x3 <=? v)).
Proof.
  intros H. unfold second_bit. change 0x20000000 with (2 ^ 29). rewrite pow_bit_test by lia. rewrite testbit_div by lia. change (2 ^ 29) with P29.
  destruct (Z.leb_spec P29 v); destruct (Z.ltb_spec v P30); destruct (Z.leb_spec (P29x3) v); cbn; try apply Z.eqb_eq; try apply Z.eqb_neq; lia.
Qed.

Lemma shl1 v : Z.shiftl v 1 = 2 * v.
Proof. rewrite Z.shiftl_mul_pow2 by lia. lia. Qed.
Lemma land_31 v : Z.land v 0x7FFFFFFF = v mod P31.
Proof. change 0x7FFFFFFF with (Z.ones 31). rewrite Z.land_ones by lia. reflexivity. Qed.
Lemma shift_mod v : Z.land (w32 (Z.shiftl v 1)) 0x7FFFFFFF = (2 * v) mod P31.
Proof.
  rewrite land_31, shl1. unfold w32. change (2 ^ 32) with P32.
  replace P32 with (P31 * 2) by lia. rewrite Z.rem_mul_r by lia. rewrite Z.mul_comm with (n := P31). rewrite Z.mod_add by lia. apply Z.mod_mod. lia.
Qed.
Lemma land_even_bit x b : x mod 2 = 0 -> Z.land x (bit b) = 0.
Proof.
  intros H. destruct b; cbn [bit]; [|apply Z.land_0_r]. change 1 with (2 ^ 0). rewrite land_pow by lia. rewrite testbit_div by lia.
  change (2 ^ 0) with 1. rewrite Z.div_1_r, H. reflexivity.
Qed.
Lemma lor_bit x b : x mod 2 = 0 -> Z.lor x (bit b) = x + bit b.
Proof. intros H. apply land_even_bit with (b := b) in H. rewrite (Z.add_nocarry_lxor _ _ H). symmetry. now apply Z.lxor_lor. Qed.
Lemma even_shift v : ((2 * v) mod P31) mod 2 = 0.
Proof. lia. Qed.

Lemma shift_low_spec v : shift_low v = (2 * v) mod P31.
Proof. apply shift_mod. Qed.
Lemma shift_high_spec v : shift_high v = (2 * v) mod P31 + 1.
Proof. unfold shift_high. rewrite shift_mod. exact (lor_bit _ true (even_shift v)). Qed.
Lemma shift_code_spec v b : shift_code v b = (2 * v) mod P31 + bit b.
Proof. unfold shift_code. rewrite shift_mod. apply lor_bit, even_shift. Qed.

Lemma low_mask v : Z.land v 0x1FFFFFFF = v mod P29.
Proof. change 0x1FFFFFFF with (Z.ones 29). rewrite Z.land_ones by lia. reflexivity. Qed.
Lemma bit29 v : (v / P29) mod 2 = 0 -> Z.land v 0x20000000 = 0.
Proof. intros H. change 0x20000000 with (2 ^ 29). rewrite land_pow by lia. rewrite testbit_div by lia. change (2 ^ 29) with P29. now rewrite H. Qed.
Lemma or29 v : (v / P29) mod 2 = 0 -> Z.lor v 0x20000000 = v + P29.
Proof. intros H. apply bit29 in H. rewrite <- (Z.lxor_lor _ _ H). symmetry. now apply Z.add_nocarry_lxor. Qed.
Lemma xor29_0 v : (v / P29) mod 2 = 0 -> Z.lxor v 0x20000000 = v + P29.
Proof. intros H. apply bit29 in H. symmetry. now apply Z.add_nocarry_lxor. Qed.
Lemma xor29_1 v : (v / P29) mod 2 = 1 -> Z.lxor v 0x20000000 = v - P29.
Proof.
  intros H. assert (X : Z.lxor (v - P29) 0x20000000 = v) by (rewrite xor29_0; lia).
  rewrite <- X at 1. rewrite Z.lxor_assoc, Z.lxor_nilpotent, Z.lxor_0_r. reflexivity.
Qed.

(** ** One iteration of the loops *)
Inductive kind := KSame | KUnder | KStop.
Definition kind_of (l h : Z) : kind :=
  if Bool.eqb (first_bit l) (first_bit h) then KSame
  else if second_bit l && negb (second_bit h) then KUnder else KStop.

Record wf (l h : Z) : Prop := { wf_l : 0 <= l; wf_le : l <= h; wf_h : h < P31 }.

Lemma kind_spec l h : wf l h ->
  match kind_of l h with
  | KSame => (h < P30 \/ P30 <= l)
  | KUnder => P29 <= l < P30 /\ P30 <= h < P29x3
  | KStop => l < P30 <= h /\ (l < P29 \/ P29x3 <= h)
  end.
Proof.
  intros [A B C]. unfold kind_of. rewrite !first_bit_spec, !second_bit_spec by lia.
  destruct (Z.leb_spec P30 l), (Z.leb_spec P30 h); cbn [Bool.eqb]; try lia.
  destruct (Z.leb_spec P29 l), (Z.ltb_spec l P30), (Z.leb_spec (P29x3) l); cbn; try lia;
  destruct (Z.leb_spec P29 h), (Z.ltb_spec h P30), (Z.leb_spec (P29x3) h); cbn; lia.
Qed.

(** the new interval *)
Definition l_next (k : kind) (l : Z) : Z := match k with KSame => shift_low l | KUnder => shift_low (Z.land l 0x1FFFFFFF) | KStop => l end.
Definition h_next (k : kind) (h : Z) : Z := match k with KSame => shift_high h | KUnder => shift_high (Z.lor h 0x20000000) | KStop => h end.

Lemma next_same l h : wf l h -> kind_of l h = KSame -> wf (shift_low l) (shift_high h) /\
  exists f, f = first_bit l /\ shift_low l = 2 * (l - bit f * P30) /\ shift_high h = 2 * (h - bit f * P30) + 1.
Proof.
  intros W K. pose proof (kind_spec l h W) as S. rewrite K in S. destruct W as [A B C].
  rewrite shift_low_spec, shift_high_spec. rewrite first_bit_spec by lia.
  split; [constructor; lia|]. exists (P30 <=? l). split; auto. destruct (Z.leb_spec P30 l); cbn [bit]; lia.
Qed.
Lemma next_under l h : wf l h -> kind_of l h = KUnder ->
  wf (shift_low (Z.land l 0x1FFFFFFF)) (shift_high (Z.lor h 0x20000000)) /\
  shift_low (Z.land l 0x1FFFFFFF) = 2 * l - P30 /\ shift_high (Z.lor h 0x20000000) = 2 * h - P30 + 1.
Proof.
  intros W K. pose proof (kind_spec l h W) as S. rewrite K in S. destruct W as [A B C].
  rewrite low_mask, or29 by lia. rewrite shift_low_spec, shift_high_spec.
  assert (l mod P29 = l - P29) by lia. split; [constructor; lia|]. lia.
Qed.

(** ** Termination of the loop *)
Lemma renorm_unfold n c : renorm (S n) c =
  match kind_of (low c) (high c) with
  | KSame => match renorm n (mk_coder (shift_low (low c)) (shift_high (high c)) 0) with
             | Some (o, c') => Some ((first_bit (low c) :: repeat (negb (first_bit (low c))) (under c)) ++ o, c')
             | None => None
             end
  | KUnder => renorm n (mk_coder (shift_low (Z.land (low c) 0x1FFFFFFF)) (shift_high (Z.lor (high c) 0x20000000)) (S (under c)))
  | KStop => Some ([], c)
  end.
Proof. cbn [renorm]. unfold kind_of. destruct (Bool.eqb _ _); auto. destruct (second_bit _ && _); auto. Qed.

Lemma renorm_some n c : wf (low c) (high c) -> P31 < (high c - low c + 1) * 2 ^ Z.of_nat n -> exists o c', renorm n c = Some (o, c').
Proof.
  revert c. induction n as [|n IH]; intros c W H.
  - cbn in H. destruct W. lia.
  - rewrite renorm_unfold. assert (X : 2 ^ Z.of_nat (S n) = 2 * 2 ^ Z.of_nat n) by (rewrite Nat2Z.inj_succ, Z.pow_succ_r; lia). rewrite X in H.
    destruct (kind_of (low c) (high c)) eqn:K.
    + destruct (next_same _ _ W K) as (W' & f & Ef & E1 & E2).
      destruct (IH (mk_coder (shift_low (low c)) (shift_high (high c)) 0)) as (o & c' & E); cbn [low high]; auto; [rewrite E1, E2; nia|]. rewrite E. eauto.
    + destruct (next_under _ _ W K) as (W' & E1 & E2).
      destruct (IH (mk_coder (shift_low (Z.land (low c) 0x1FFFFFFF)) (shift_high (Z.lor (high c) 0x20000000)) (S (under c)))) as (o & c' & E); cbn [low high]; auto; [rewrite E1, E2; nia|]. eauto.
    + eauto.
Qed.

(** a coder between two calls *)
Definition stable (l h : Z) : Prop := wf l h /\ P29 < h - l + 1.
Lemma stop_stable l h : wf l h -> kind_of l h = KStop -> stable l h.
Proof. intros W K. pose proof (kind_spec l h W) as S. rewrite K in S. split; auto. lia. Qed.

(** ** The narrowed interval *)
Lemma narrow l h y : stable l h -> valid_sym y ->
  exists r, range_of l h (s_scale y) = r /\ 1 <= r /\ r * s_scale y <= h - l + 1 /\
    new_low l r (s_low y) = l + r * s_low y /\ new_high l r (s_high y) = l + r * s_high y - 1.
Proof.
  intros [[A B C] D] [[V1 V2] [V3 V4]]. change (2 ^ 29) with P29 in V4. exists ((h - l + 1) / s_scale y).
  assert (R : range_of l h (s_scale y) = (h - l + 1) / s_scale y).
  { unfold range_of. rewrite (w32_small (h - l)) by lia. rewrite w32_small by lia. reflexivity. }
  assert (P : 0 < s_scale y) by lia. pose proof (Z.mul_div_le (h - l + 1) (s_scale y) P) as M.
  assert (Q : 1 <= (h - l + 1) / s_scale y) by (apply Z.div_le_lower_bound; lia).
  split; auto. set (r := (h - l + 1) / s_scale y) in *. repeat split; auto; [lia| |].
  - unfold new_low. rewrite (w32_small (r * s_low y)) by nia. apply w32_small. nia.
  - unfold new_high. rewrite (w32_small (r * s_high y)) by nia. rewrite (w32_small (l + _)) by nia. apply w32_small. nia.
Qed.
Lemma narrow_wf l h y r : stable l h -> valid_sym y -> 1 <= r -> r * s_scale y <= h - l + 1 ->
  wf (l + r * s_low y) (l + r * s_high y - 1) /\ l <= l + r * s_low y /\ l + r * s_high y - 1 <= h.
Proof.
  intros [[A B C] D] [[V1 V2] [V3 V4]] R M. assert (X : r * s_high y <= r * s_scale y) by nia. assert (Y : r * s_low y + r <= r * s_high y) by nia.
  assert (0 <= r * s_low y) by nia. split; [constructor|]; lia.
Qed.
Lemma sym_ok_valid y : valid_sym y -> sym_ok y = true.
Proof. intros [[V1 V2] [V3 V4]]. unfold sym_ok. apply andb_true_intro. split; [apply Z.ltb_lt|apply Z.leb_le]; lia. Qed.

Lemma renorm_stable n c o c' : renorm n c = Some (o, c') -> wf (low c) (high c) -> stable (low c') (high c').
Proof.
  revert c o. induction n as [|n IH]; intros c o; [discriminate|]. rewrite renorm_unfold. intros H W. destruct (kind_of (low c) (high c)) eqn:K.
  - destruct (next_same _ _ W K) as (W' & _). destruct (renorm n _) as [[o1 c1]|] eqn:E; [|discriminate]. injection H as <- <-. eapply IH; eauto.
  - destruct (next_under _ _ W K) as (W' & _). eapply IH; eauto.
  - injection H as <- <-. now apply stop_stable.
Qed.

Lemma encode_some c y : stable (low c) (high c) -> valid_sym y ->
  exists o c', encode c y = Some (o, c') /\ stable (low c') (high c').
Proof.
  intros S V. destruct (narrow _ _ _ S V) as (r & R1 & R2 & R3 & R4 & R5). unfold encode. rewrite (sym_ok_valid _ V), R1, R4, R5.
  destruct (narrow_wf _ _ _ _ S V R2 R3) as (W & _). destruct (Z.eqb_spec r 0); [lia|].
  destruct (renorm_some loop_fuel (mk_coder (low c + r * s_low y) (low c + r * s_high y - 1) (under c))) as (o & c' & E); auto.
  - cbn [low high]. destruct W. change (2 ^ Z.of_nat loop_fuel) with P32. lia.
  - rewrite E. exists o, c'. split; auto. eapply renorm_stable; eauto.
Qed.

(** ** Values of bit strings *)
Lemma bit_range b : 0 <= bit b <= 1.
Proof. destruct b; cbn; lia. Qed.
Lemma val_range n l : 0 <= val n l < 2 ^ Z.of_nat n.
Proof.
  revert l. induction n as [|n IH]; intros l; [cbn; lia|]. rewrite Nat2Z.inj_succ, Z.pow_succ_r by lia.
  pose proof (Z.pow_pos_nonneg 2 (Z.of_nat n)). destruct l as [|b t]; [cbn [val]; lia|]. cbn [val]. specialize (IH t). pose proof (bit_range b). nia.
Qed.
Lemma val_snoc n l : val (S n) l = 2 * val n l + bit (nth n l false).
Proof.
  revert l. induction n as [|n IH]; intros [|b t].
  - reflexivity.
  - cbn [val nth]. change (2 ^ Z.of_nat 0) with 1. lia.
  - reflexivity.
  - cbn [nth]. change (val (S (S n)) (b :: t)) with (bit b * 2 ^ Z.of_nat (S n) + val (S n) t). rewrite IH. cbn [val]. rewrite Nat2Z.inj_succ, Z.pow_succ_r by lia. lia.
Qed.
Lemma val31 b l : val 31 (b :: l) = bit b * P30 + val 30 l.
Proof. reflexivity. Qed.
Lemma val30 b l : val 30 (b :: l) = bit b * P29 + val 29 l.
Proof. reflexivity. Qed.
Lemma val30_range l : 0 <= val 30 l < P30.
Proof. exact (val_range 30 l). Qed.
Lemma val29_range l : 0 <= val 29 l < P29.
Proof. exact (val_range 29 l). Qed.
Lemma val31_30 l : exists b, val 31 l = 2 * val 30 l + bit b.
Proof. eexists. apply val_snoc. Qed.
Lemma val30_29 l : exists b, val 30 l = 2 * val 29 l + bit b.
Proof. eexists. apply val_snoc. Qed.

(** ** What may follow, backwards through one call *)
Lemma completes_renorm n c o c' x : renorm n c = Some (o, c') -> wf (low c) (high c) -> completes c' x -> completes c (o ++ x).
Proof.
  revert c o. induction n as [|n IH]; intros c o; [discriminate|]. rewrite renorm_unfold. intros H W X. destruct (kind_of (low c) (high c)) eqn:K.
  - destruct (next_same _ _ W K) as (W' & f & Ef & E1 & E2). destruct (renorm n _) as [[o1 c1]|] eqn:E; [|discriminate]. injection H as <- <-.
    destruct (IH _ _ E W' X) as (b & r & Er & Hv). cbn [under low high repeat app] in *. rewrite <- Ef.
    exists f, (o1 ++ x). split; [now rewrite <- app_assoc|]. rewrite val31, Er. destruct (val31_30 (b :: r)) as (b' & Eb). pose proof (bit_range b'). 
    rewrite E1, E2 in Hv. lia.
  - destruct (next_under _ _ W K) as (W' & E1 & E2). destruct (IH _ _ H W' X) as (b & r & Er & Hv). cbn [under low high] in *.
    exists b, (negb b :: r). split.
    + rewrite Er. cbn [repeat]. f_equal. rewrite repeat_cons. now rewrite <- app_assoc.
    + rewrite E1, E2 in Hv. rewrite val31 in *. rewrite val30. destruct (val30_29 r) as (b' & Eb). pose proof (bit_range b'). destruct b; cbn [negb bit] in *; lia.
  - injection H as <- <-. exact X.
Qed.
Lemma completes_encode c y o c' x : stable (low c) (high c) -> valid_sym y -> encode c y = Some (o, c') -> completes c' x -> completes c (o ++ x).
Proof.
  intros S V H X. destruct (narrow _ _ _ S V) as (r & R1 & R2 & R3 & R4 & R5). unfold encode in H. rewrite (sym_ok_valid _ V), R1, R4, R5 in H.
  destruct (narrow_wf _ _ _ _ S V R2 R3) as (W & L1 & L2). destruct (Z.eqb_spec r 0); [lia|].
  pose proof (completes_renorm _ _ _ _ _ H W X) as (b & t & E & Hv). exists b, t. cbn [under low high] in *. split; auto. lia.
Qed.

(** ** The decoder follows the coder *)
Record sync (c : coder) (d : decoder) (fut : list bool) : Prop := {
  y_low : d_low d = low c;
  y_high : d_high d = high c;
  y_fut : exists b r, fut = b :: repeat (negb b) (under c) ++ r /\ d_code d = val 31 (b :: r) /\ d_src d = skipn 31 (b :: r) }.

Lemma get_bit_skipn n (l : list bool) : get_bit (skipn n l) = (nth n l false, skipn (S n) l).
Proof.
  revert l. induction n as [|n IH]; intros [|b t]; try reflexivity. exact (IH t).
Qed.
Lemma repeat_inj (b b' : bool) n r r' : b :: repeat (negb b) n ++ r = b' :: repeat (negb b') n ++ r' -> b = b' /\ r = r'.
Proof. intros [= -> H]. split; auto. now apply app_inv_head in H. Qed.

Lemma d_renorm_unfold n d : d_renorm (S n) d =
  match kind_of (d_low d) (d_high d) with
  | KSame => d_renorm n (d_shift d)
  | KUnder => d_renorm n (d_shift (mk_decoder (Z.land (d_low d) 0x1FFFFFFF) (Z.lor (d_high d) 0x20000000) (Z.lxor (d_code d) 0x20000000) (d_src d)))
  | KStop => Some d
  end.
Proof. cbn [d_renorm]. unfold kind_of. destruct (Bool.eqb _ _); auto. destruct (second_bit _ && _); auto. Qed.

Lemma shift_window W code : code = val 31 W -> shift_code code (nth 31 W false) = val 31 (tl W).
Proof.
  intros ->. rewrite shift_code_spec. destruct W as [|b t]; [reflexivity|]. cbn [tl nth]. rewrite val31. rewrite (val_snoc 30 t).
  pose proof (val30_range t). pose proof (bit_range b). destruct b; cbn [bit] in *; lia.
Qed.

Lemma decode_renorm n c o c' x d : renorm n c = Some (o, c') -> wf (low c) (high c) -> completes c' x -> sync c d (o ++ x) ->
  exists d', d_renorm n d = Some d' /\ sync c' d' x.
Proof.
  revert c o d. induction n as [|n IH]; intros c o d H W X Y; [discriminate|]. pose proof (completes_renorm _ _ _ _ _ H W X) as (b0 & r0 & E0 & Hv).
  destruct Y as [Y1 Y2 (b & r & E & Ec & Es)]. rewrite E in E0. apply repeat_inj in E0. destruct E0 as [<- <-].
  rewrite renorm_unfold in H. rewrite d_renorm_unfold, Y1, Y2. destruct (kind_of (low c) (high c)) eqn:K.
  - destruct (next_same _ _ W K) as (W' & f & Ef & E1 & E2). destruct (renorm n _) as [[o1 c1]|] eqn:En; [|discriminate]. injection H as <- <-.
    rewrite <- Ef in E. cbn [app] in E. rewrite <- app_assoc in E. apply repeat_inj in E. destruct E as [<- Er].
    destruct (completes_renorm _ _ _ _ _ En W' X) as (b1 & r1 & E3 & _). cbn [under repeat app] in E3.
    refine (IH _ _ _ En W' X _). unfold d_shift. rewrite Es, get_bit_skipn. constructor; cbn [d_low d_high d_code d_src low high under repeat app]; try congruence.
    exists b1, r1. split; auto. rewrite <- E3, Er. split; [now rewrite (shift_window _ _ Ec)|reflexivity].
  - destruct (next_under _ _ W K) as (W' & E1 & E2). pose proof (kind_spec _ _ W) as S. rewrite K in S.
    (* the second bit is the complement of the first *)
    pose proof (completes_renorm _ _ _ _ _ H W' X) as (b1 & r1 & E3 & _). cbn [under repeat] in E3. rewrite E in E3.
    injection E3 as <- E3.
    assert (Er : r = negb b :: r1).
    { rewrite app_comm_cons, repeat_cons, <- app_assoc in E3. now apply app_inv_head in E3. }
    subst r. refine (IH _ _ _ H W' X _). unfold d_shift. cbn [d_src d_low d_high d_code]. rewrite Es, get_bit_skipn.
    constructor; cbn [d_low d_high d_code d_src low high under]; try congruence. exists b, r1. split.
    + rewrite E. cbn [repeat]. f_equal. rewrite repeat_cons, <- app_assoc. reflexivity.
    + split; [|reflexivity]. rewrite Ec. cbn [nth]. rewrite shift_code_spec, val31, val30, val31. rewrite (val_snoc 29 r1). pose proof (val29_range r1) as V. pose proof (bit_range (nth 29 r1 false)).
      destruct b; cbn [negb bit].
      * rewrite xor29_0 by lia. lia.
      * rewrite xor29_1 by lia. lia.
  - injection H as <- <-. exists d. split; auto. constructor; auto. exists b, r. auto.
Qed.

Lemma decode_step c y o c' x d : stable (low c) (high c) -> valid_sym y -> encode c y = Some (o, c') -> completes c' x -> sync c d (o ++ x) ->
  s_low y <= get_probability d (s_scale y) < s_high y /\ exists d', symbol_decoded d y = Some d' /\ sync c' d' x.
Proof.
  intros S V H X Y. destruct (narrow _ _ _ S V) as (r & R1 & R2 & R3 & R4 & R5). unfold encode in H. rewrite (sym_ok_valid _ V), R1, R4, R5 in H.
  destruct (narrow_wf _ _ _ _ S V R2 R3) as (W & L1 & L2). destruct (Z.eqb_spec r 0); [lia|].
  pose proof (completes_renorm _ _ _ _ _ H W X) as (b & t & E & Hv). cbn [under low high] in E, Hv.
  destruct Y as [Y1 Y2 (b1 & t1 & E1 & Ec & Es)]. rewrite E1 in E. apply repeat_inj in E. destruct E as [<- <-].
  split.
  - unfold get_probability. rewrite Y1, Y2, R1, Ec. destruct S as [[S1 S2 S3] _]. rewrite w32_small by (destruct W; lia).
    split; [apply Z.div_le_lower_bound; lia|]. apply Z.div_lt_upper_bound; lia.
  - unfold symbol_decoded. rewrite (sym_ok_valid _ V), Y1, Y2, R1, R4, R5.
    refine (decode_renorm _ _ _ _ _ _ H W X _). constructor; cbn [d_low d_high d_code d_src low high under]; auto. exists b1, t1. auto.
Qed.

(** ** Sequences *)
Lemma encode_all_some c ys : stable (low c) (high c) -> Forall valid_sym ys ->
  exists o c', encode_all c ys = Some (o, c') /\ stable (low c') (high c').
Proof.
  intros S V. revert c S. induction V as [|y ys Vy Vs IH]; intros c S; [exists [], c; auto|].
  destruct (encode_some c y S Vy) as (o & c1 & E & S1). destruct (IH c1 S1) as (o2 & c2 & E2 & S2). exists (o ++ o2), c2. cbn [encode_all]. rewrite E, E2. auto.
Qed.
Lemma completes_all c ys o c' x : stable (low c) (high c) -> Forall valid_sym ys -> encode_all c ys = Some (o, c') -> completes c' x -> completes c (o ++ x).
Proof.
  intros S V. revert c S o. induction V as [|y ys Vy Vs IH]; intros c S o H X; [injection H as <- <-; exact X|].
  cbn [encode_all] in H. destruct (encode_some c y S Vy) as (o1 & c1 & E & S1). rewrite E in H. destruct (encode_all c1 ys) as [[o2 c2]|] eqn:E2; [|discriminate].
  injection H as <- <-. rewrite <- app_assoc. eapply completes_encode; eauto.
Qed.
Lemma decodes_all c ys o c' x d : stable (low c) (high c) -> Forall valid_sym ys -> encode_all c ys = Some (o, c') -> completes c' x -> sync c d (o ++ x) -> decodes d ys.
Proof.
  intros S V. revert c S o d. induction V as [|y ys Vy Vs IH]; intros c S o d H X Y; [exact I|].
  cbn [encode_all] in H. destruct (encode_some c y S Vy) as (o1 & c1 & E & S1). rewrite E in H. destruct (encode_all c1 ys) as [[o2 c2]|] eqn:E2; [|discriminate].
  injection H as <- <-. rewrite <- app_assoc in Y. destruct (decode_step _ _ _ _ _ _ S Vy E (completes_all _ _ _ _ _ S1 Vs E2 X) Y) as (P & d' & D & Y').
  cbn [decodes]. split; auto. exists d'. split; auto. eapply IH; eauto.
Qed.

Lemma stable0 : stable (low coder0) (high coder0).
Proof. split; [constructor|]; cbn; lia. Qed.

Lemma read_code_spec n m l : read_code n (val m l) (skipn m l) = (val (m + n) l, skipn (m + n) l) \/ (31 < m + n)%nat.
Proof.
  revert m. induction n as [|n IH]; intros m.
  - rewrite Nat.add_0_r. auto.
  - destruct (le_lt_dec (m + S n) 31) as [L|L]; [|auto]. cbn [read_code]. rewrite get_bit_skipn.
    replace (Z.lor (w32 (Z.shiftl (val m l) 1)) (bit (nth m l false))) with (val (S m) l).
    + replace (m + S n)%nat with (S m + n)%nat by lia. apply IH.
    + rewrite shl1. assert (V := val_range m l). assert (2 ^ Z.of_nat m <= 2 ^ 30) by (apply Z.pow_le_mono_r; lia). change (2 ^ 30) with P30 in *.
      rewrite w32_small by lia. rewrite val_snoc. symmetry. apply lor_bit. lia.
Qed.
Lemma decoder_of_spec src : decoder_of src = mk_decoder 0 0x7FFFFFFF (val 31 src) (skipn 31 src).
Proof.
  unfold decoder_of. destruct (read_code_spec 31 0 src) as [H|H]; [|lia]. cbn [val skipn plus] in H.
  change (read_code 31 0 src) with (read_code 31 0 src). 
  assert (E : read_code 31 0 src = (val 31 src, skipn 31 src)) by exact H. rewrite E. reflexivity.
Qed.

Lemma roundtrip ys o c x : Forall valid_sym ys -> encode_all coder0 ys = Some (o, c) -> completes c x -> decodes (decoder_of (o ++ x)) ys.
Proof.
  intros V H X. eapply decodes_all; eauto using stable0.
  destruct (completes_all _ _ _ _ _ stable0 V H X) as (b & r & E & Hv). rewrite decoder_of_spec. constructor; auto.
  exists b, r. rewrite E. cbn [d_code d_src]. auto.
Qed.

(** a completion always exists *)
Fixpoint bits_of (n : nat) (v : Z) : list bool :=
  match n with O => [] | S n => (2 ^ Z.of_nat n <=? v) :: bits_of n (if 2 ^ Z.of_nat n <=? v then v - 2 ^ Z.of_nat n else v) end.
Lemma val_bits_of n v : 0 <= v < 2 ^ Z.of_nat n -> val n (bits_of n v) = v.
Proof.
  revert v. induction n as [|n IH]; intros v H; [cbn in *; lia|]. rewrite Nat2Z.inj_succ, Z.pow_succ_r in H by lia.
  cbn [bits_of val]. destruct (Z.leb_spec (2 ^ Z.of_nat n) v); rewrite IH; cbn [bit]; lia.
Qed.
Lemma completes_exists c : stable (low c) (high c) -> exists x, completes c x.
Proof.
  intros [[A B C] D]. set (b := P30 <=? low c). set (r := bits_of 30 (if b then low c - P30 else low c)).
  exists (b :: repeat (negb b) (under c) ++ r). exists b, r. split; auto.
  rewrite val31. unfold r, b. change P30 with (2 ^ Z.of_nat 30) in *. destruct (Z.leb_spec (2 ^ Z.of_nat 30) (low c)); rewrite val_bits_of; cbn [bit]; change (2 ^ Z.of_nat 30) with P30 in *; lia.
Qed.

(** with an adaptive model *)
Lemma model_roundtrip A (interval : list A -> A -> sym) scale find msg o c x : model_ok A interval scale find ->
  encode_all coder0 (symbols A interval [] msg) = Some (o, c) -> completes c x ->
  decode A interval scale find (length msg) [] (decoder_of (o ++ x)) = Some msg.
Proof.
  intros M H X.
  assert (V : forall m h, Forall valid_sym (symbols A interval h m)).
  { induction m as [|a m IH]; intros h; cbn; constructor; auto. apply M. }
  pose proof (roundtrip _ _ _ _ (V msg []) H X) as D. clear H X. generalize (decoder_of (o ++ x)) D. clear D V. generalize (@nil A).
  induction msg as [|a m IH]; intros h d D; [reflexivity|]. cbn [symbols decodes length decode] in *.
  destruct D as (P & d' & E & D). destruct (M h a) as (V & Sc & F). rewrite Sc in P. rewrite (F _ P). rewrite E. rewrite (IH _ _ D). reflexivity.
Qed.

(** ** EndOfData *)
Lemma flush_fuel n extra l h : 0 <= l < P31 -> 0 <= h < P31 -> (l * 2 ^ Z.of_nat n) mod P31 = 0 -> (h * 2 ^ Z.of_nat n) mod P31 = 0 ->
  flush (S n + extra) l h = flush (S n) l h.
Proof.
  revert l h. induction n as [|n IH]; intros l h Hl Hh El Eh.
  - change (2 ^ Z.of_nat 0) with 1 in *. assert (l = h) by lia. subst. cbn [flush plus]. now rewrite Z.eqb_refl.
  - cbn [flush plus]. destruct (l =? h); auto. f_equal. rewrite Nat2Z.inj_succ, Z.pow_succ_r in El, Eh by lia.
    assert (X : forall v, (v * (2 * 2 ^ Z.of_nat n)) mod P31 = 0 -> (shift_low v * 2 ^ Z.of_nat n) mod P31 = 0).
    { intros v E. rewrite shift_low_spec, Z.mul_mod_idemp_l by lia. rewrite <- E. f_equal. lia. }
    apply (IH (shift_low l) (shift_low h)); auto; rewrite shift_low_spec; lia.
Qed.
Lemma end_of_data_terminates c : wf (low c) (high c) -> forall fuel, (32 <= fuel)%nat -> flush fuel (low c) (high c) = end_of_data c.
Proof.
  intros [A B C] fuel Hf. unfold end_of_data. replace fuel with (S 31 + (fuel - 32))%nat by lia.
  apply flush_fuel; try lia; change (2 ^ Z.of_nat 31) with P31; apply Z.mod_mul; lia.
Qed.

Lemma flush_below fuel l h t : 0 <= l < h -> h < P31 -> P31 <= (h - l) * 2 ^ Z.of_nat fuel ->
  exists b r, flush fuel l h ++ t = b :: r /\ val 31 (b :: r) < h.
Proof.
  revert l h. induction fuel as [|fuel IH]; intros l h L H M; [change (2 ^ Z.of_nat 0) with 1 in M; lia|].
  cbn [flush]. destruct (Z.eqb_spec l h); [lia|]. cbn [app]. eexists. eexists. split; [reflexivity|].
  rewrite first_bit_spec by lia. rewrite val31. pose proof (val30_range (flush fuel (shift_low l) (shift_low h) ++ t)) as V.
  rewrite Nat2Z.inj_succ, Z.pow_succ_r in M by lia.
  destruct (Z.leb_spec P30 l) as [Hl|Hl]; cbn [bit].
  - assert (X1 : shift_low l = 2 * l - P31) by (rewrite shift_low_spec; lia). assert (X2 : shift_low h = 2 * h - P31) by (rewrite shift_low_spec; lia).
    destruct (IH (shift_low l) (shift_low h)) as (b & r & E & Hv); [lia|lia|rewrite X1, X2; nia|].
    rewrite E in *. destruct (val31_30 (b :: r)) as (b' & Eb). pose proof (bit_range b'). lia.
  - destruct (Z.le_gt_cases P30 h); [lia|].
    assert (X1 : shift_low l = 2 * l) by (rewrite shift_low_spec; lia). assert (X2 : shift_low h = 2 * h) by (rewrite shift_low_spec; lia).
    destruct (IH (shift_low l) (shift_low h)) as (b & r & E & Hv); [lia|lia|rewrite X1, X2; nia|].
    rewrite E in *. destruct (val31_30 (b :: r)) as (b' & Eb). pose proof (bit_range b'). lia.
Qed.

Lemma encode_all_stable ys o c : Forall valid_sym ys -> encode_all coder0 ys = Some (o, c) -> stable (low c) (high c).
Proof. intros V H. destruct (encode_all_some coder0 ys stable0 V) as (o' & c' & E & S). rewrite H in E. injection E as <- <-. exact S. Qed.

Lemma eod_roundtrip ys o c t : Forall valid_sym ys -> encode_all coder0 ys = Some (o, c) ->
  under c = 0%nat -> low c <= val 31 (end_of_data c ++ t) -> decodes (decoder_of (o ++ end_of_data c ++ t)) ys.
Proof.
  intros V H U Lo. eapply roundtrip; eauto. pose proof (encode_all_stable _ _ _ V H) as [[A B C] D].
  destruct (flush_below 32 (low c) (high c) t) as (b & r & E & Hv); [lia|lia|change (2 ^ Z.of_nat 32) with P32; lia|].
  unfold end_of_data in *. rewrite E in *. exists b, r. rewrite U. split; auto. lia.
Qed.

Lemma flush_above fuel l h t : 0 <= l < P31 -> 0 <= h < P31 -> val 31 t = P31 - 1 -> (forall n, val n t = 2 ^ Z.of_nat n - 1 \/ (31 < n)%nat) -> l <= val 31 (flush fuel l h ++ t).
Proof.
  intros Hl Hh T T'. revert l h Hl Hh. induction fuel as [|fuel IH]; intros l h Hl Hh; [cbn [flush app]; lia|].
  cbn [flush]. destruct (l =? h); [cbn [app]; lia|]. cbn [app]. rewrite val31. rewrite first_bit_spec by lia.
  specialize (IH (shift_low l) (shift_low h)). rewrite !shift_low_spec in *. destruct (val31_30 (flush fuel ((2 * l) mod P31) ((2 * h) mod P31) ++ t)) as (b' & Eb). pose proof (bit_range b').
  assert (X : (2 * l) mod P31 <= val 31 (flush fuel ((2 * l) mod P31) ((2 * h) mod P31) ++ t)) by (apply IH; lia).
  destruct (Z.leb_spec P30 l); cbn [bit]; lia.
Qed.
Lemma val_ones n k : (n <= k)%nat -> val n (repeat true k) = 2 ^ Z.of_nat n - 1.
Proof.
  revert k. induction n as [|n IH]; intros k H; [reflexivity|]. destruct k; [lia|]. cbn [repeat val]. rewrite IH by lia. rewrite Nat2Z.inj_succ, Z.pow_succ_r by lia. cbn [bit]. lia.
Qed.
Lemma eod_ones ys o c : Forall valid_sym ys -> encode_all coder0 ys = Some (o, c) ->
  under c = 0%nat -> decodes (decoder_of (o ++ end_of_data c ++ repeat true 31)) ys.
Proof.
  intros V H U. eapply eod_roundtrip; eauto. pose proof (encode_all_stable _ _ _ V H) as [[A B C] D]. apply flush_above; try lia.
  - rewrite val_ones by lia. reflexivity.
  - intros n. destruct (le_lt_dec n 31); auto. left. now apply val_ones.
Qed.
