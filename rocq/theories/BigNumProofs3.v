(** Lemmas for BigNumProps.v: conversions, the numbers reachable through the interface *)
From Coq Require Import List ZArith Bool Arith Lia.
From Verif Require Import BigNumModel BigNumSpec BigNumProofs BigNumProofs2.
Import ListNotations.
Local Open Scope Z_scope.
Set Implicit Arguments.

Lemma digits_value_snoc base ds d : digits_value base (ds ++ [d]) = digits_value base ds * base + d.
Proof. unfold digits_value. rewrite fold_left_app. reflexivity. Qed.

Lemma digits_nonneg base ds : 0 <= base -> Forall (fun d => 0 <= d < base) ds -> 0 <= digits_value base ds.
Proof.
  intros Hb. induction ds as [|d ds IH] using rev_ind; intros H; [cbn; lia|].
  apply Forall_app in H as [H1 H2]. inversion H2; subst. rewrite digits_value_snoc. specialize (IH H1). nia.
Qed.
Definition lead (ds : list Z) : Prop := match ds with [] => True | d :: _ => d <> 0 end.
Lemma lead_snoc ds d : lead (ds ++ [d]) -> lead ds.
Proof. destruct ds; cbn; auto. Qed.
Lemma digits_pos base ds : 1 <= base -> Forall (fun d => 0 <= d < base) ds -> lead ds -> ds <> [] -> 0 < digits_value base ds.
Proof.
  intros Hb. induction ds as [|d ds IH] using rev_ind; intros H Hl Hn; [congruence|].
  apply Forall_app in H as [H1 H2]. inversion H2; subst. rewrite digits_value_snoc.
  destruct ds as [|e ds].
  - cbn in *. lia.
  - assert (0 < digits_value base (e :: ds)) by (apply IH; auto; discriminate). nia.
Qed.
Lemma digits_inj base ds : 1 <= base -> forall es, Forall (fun d => 0 <= d < base) ds -> Forall (fun d => 0 <= d < base) es ->
  lead ds -> lead es -> digits_value base ds = digits_value base es -> ds = es.
Proof.
  intros Hb. induction ds as [|d ds IH] using rev_ind; intros es H1 H2 L1 L2 E.
  - destruct es as [|e es]; auto.
    assert (0 < digits_value base (e :: es)) by (apply digits_pos; auto; discriminate).
    rewrite <- E in H. cbn in H. lia.
  - destruct es as [|e es _] using rev_ind.
    + assert (0 < digits_value base (ds ++ [d])) by (apply digits_pos; auto; destruct ds; discriminate).
      rewrite E in H. cbn in H. lia.
    + apply Forall_app in H1 as [H1 H1']. inversion H1'; subst. apply Forall_app in H2 as [H2 H2']. inversion H2'; subst.
      rewrite !digits_value_snoc in E.
      assert (digits_value base ds = digits_value base es /\ d = e) as [E1 ->].
      { assert (digits_value base ds = digits_value base es) by nia. split; [auto | nia]. }
      f_equal. apply IH; auto; eapply lead_snoc; eauto.
Qed.

Lemma digit_of_spec c d : digit_of c = Some d <-> char_digit c d.
Proof.
  unfold digit_of. split.
  - destruct ((48 <=? c) && (c <=? 57)) eqn:E1.
    { intros [= <-]. replace c with (48 + (c - 48)) at 1 by lia. constructor. lia. }
    destruct ((65 <=? c) && (c <=? 90)) eqn:E2.
    { intros [= <-]. replace c with (65 + (c - 65 + 10 - 10)) at 1 by lia. constructor. lia. }
    destruct ((97 <=? c) && (c <=? 122)) eqn:E3; [|discriminate].
    intros [= <-]. replace c with (97 + (c - 97 + 10 - 10)) at 1 by lia. constructor. lia.
  - intros H. inversion H; subst.
    + replace ((48 <=? 48 + d) && (48 + d <=? 57)) with true by lia. f_equal; lia.
    + replace ((48 <=? 65 + (d - 10)) && (65 + (d - 10) <=? 57)) with false by lia.
      replace ((65 <=? 65 + (d - 10)) && (65 + (d - 10) <=? 90)) with true by lia. f_equal; lia.
    + replace ((48 <=? 97 + (d - 10)) && (97 + (d - 10) <=? 57)) with false by lia.
      replace ((65 <=? 97 + (d - 10)) && (97 + (d - 10) <=? 90)) with false by lia.
      replace ((97 <=? 97 + (d - 10)) && (97 + (d - 10) <=? 122)) with true by lia. f_equal; lia.
Qed.
Lemma digit_char d : 0 <= d < 36 -> digit_of (char_of d) = Some d.
Proof.
  intros H. apply digit_of_spec. unfold char_of. destruct (Z.ltb_spec d 10).
  - constructor. lia.
  - replace (65 + d - 10) with (65 + (d - 10)) by lia. constructor. lia.
Qed.

Section P.
Variable w : nat.
Hypothesis Hw : (16 <= w)%nat.
Lemma Hw0 : (0 < w)%nat. Proof. lia. Qed.
Let Hw' := Hw0.
Notation R := (R w).
Notation value := (value w).
Notation blocks := (blocks w).
Let Rpos := Rpos Hw'.
Let value_bound := @value_bound w Hw'.
Lemma R256 : 256 < R.
Proof. unfold BigNumModel.R. change 256 with (2 ^ 8). apply Z.pow_lt_mono_r; lia. Qed.

Lemma single_good d : 0 <= d < R -> good w [d].
Proof.
  intros H. destruct (Z.eq_dec d 0) as [->|]; [right; auto|]. left. split; [|cbn; auto].
  apply blocks_cons. split; auto. constructor.
Qed.
Lemma single_blocks d : 0 <= d < R -> blocks [d].
Proof. intros. apply blocks_cons. split; auto. constructor. Qed.
Lemma single_value d : value [d] = d.
Proof. cbn [BigNumSpec.value]. lia. Qed.

Lemma load_step_spec base u d : 0 <= base < R -> 0 <= d < R -> good w u ->
  exists r, load_step w base u d = Some r /\ good w r /\ value r = value u * base + d.
Proof.
  intros Hb Hd Hu. unfold load_step.
  destruct (@multiply_spec w Hw' u [base]) as (t & E & A & B); [apply good_blocks; auto | apply single_blocks; auto|].
  rewrite E. eexists. split; [reflexivity|]. split.
  - apply add_good; auto; [left; auto | apply single_good; auto].
  - destruct (@add_value w Hw' t [d]) as [_ ->]; [apply A | apply single_blocks; auto|].
    rewrite B, !single_value. reflexivity.
Qed.
Lemma load_data_fold bytes : forall u, Forall (fun b => 0 <= b < 256) bytes -> good w u ->
  exists r, fold_opt (load_step w 256) bytes u = Some r /\ good w r
    /\ value r = fold_left (fun v d => v * 256 + d) bytes (value u).
Proof.
  induction bytes as [|b bytes IH]; intros u H Hu; cbn [fold_opt fold_left].
  - eauto.
  - inversion H; subst. pose proof R256.
    destruct (@load_step_spec 256 u b) as (r & E & A & B); auto; [lia | lia|].
    rewrite E. destruct (IH r H3 A) as (r' & E' & A' & B'). exists r'. rewrite B', B. auto.
Qed.
Lemma load_data_spec bytes : Forall (fun b => 0 <= b < 256) bytes ->
  exists r, load_data w bytes = Some r /\ good w r /\ value r = digits_value 256 bytes.
Proof. intros H. apply load_data_fold; auto. left. split; [constructor | cbn; lia]. Qed.

Lemma load_string_fold base s : 0 <= base < R -> forall u ds, Forall2 char_digit s ds -> Forall (fun d => d < base) ds -> good w u ->
  exists r, fold_opt (load_char w base) s u = Some r /\ good w r
    /\ value r = fold_left (fun v d => v * base + d) ds (value u).
Proof.
  intros Hb. induction s as [|c s IH]; intros u ds H2 Hd Hu; inversion H2; subst; cbn [fold_opt fold_left].
  - eauto.
  - inversion Hd; subst. unfold load_char at 1. rewrite (proj2 (digit_of_spec _ _) H1).
    destruct (Z.ltb_spec y base); [|lia].
    assert (0 <= y) by (inversion H1; lia).
    destruct (@load_step_spec base u y) as (r & E & A & B); auto; [lia|].
    rewrite E. destruct (IH r l') as (r' & E' & A' & B'); auto. exists r'. rewrite B', B. auto.
Qed.
Lemma load_string_bad base s : forall u, (forall ds, Forall2 char_digit s ds -> ~ Forall (fun d => d < base) ds) ->
  fold_opt (load_char w base) s u = None.
Proof.
  induction s as [|c s IH]; intros u H; cbn [fold_opt].
  - exfalso. apply (H []); constructor.
  - unfold load_char at 1. destruct (digit_of c) as [d|] eqn:E; auto.
    destruct (Z.ltb_spec d base); auto. destruct (load_step w base u d) as [r|]; auto.
    apply IH. intros ds H1 H2. apply (H (d :: ds)); constructor; auto. apply digit_of_spec; auto.
Qed.
Lemma char_digit_dec s : (exists ds, Forall2 char_digit s ds) \/ (forall ds, ~ Forall2 char_digit s ds).
Proof.
  induction s as [|c s [(ds & IH)|IH]].
  - left. exists []. constructor.
  - destruct (digit_of c) as [d|] eqn:E.
    + left. exists (d :: ds). constructor; auto. apply digit_of_spec; auto.
    + right. intros ds' H. inversion H; subst. apply digit_of_spec in H2. congruence.
  - right. intros ds' H. inversion H; subst. apply (IH _ H4).
Qed.
Lemma char_digit_fun s : forall ds es, Forall2 char_digit s ds -> Forall2 char_digit s es -> ds = es.
Proof.
  induction s; intros ds es H1 H2; inversion H1; inversion H2; subst; auto. f_equal; auto.
  apply digit_of_spec in H3, H8. congruence.
Qed.
Lemma load_string_some base s r : 0 <= base < R -> load_string w s base = Some r ->
  exists ds, Forall2 char_digit s ds /\ Forall (fun d => d < base) ds /\ good w r /\ value r = digits_value base ds.
Proof.
  intros Hb E. unfold load_string in E.
  assert (good w []) as G by (left; split; [constructor | cbn; lia]).
  destruct (char_digit_dec s) as [(ds & H)|H].
  - destruct (Forall_dec (fun d => d < base) (fun d => Z_lt_dec d base) ds) as [F|F].
    + destruct (@load_string_fold base s Hb [] ds H F G) as (r' & E' & A & B).
      rewrite E in E'. inversion E'; subst. exists ds. auto.
    + rewrite load_string_bad in E; [discriminate|]. intros es He. rewrite (char_digit_fun He H). auto.
  - rewrite load_string_bad in E; [discriminate|]. intros es He. exfalso. eapply H; eauto.
Qed.

Lemma bytes_of_spec n : forall x, 0 <= x < 2 ^ Z.of_nat (8 * n) ->
  Forall (fun b => 0 <= b < 256) (bytes_of n x) /\ digits_value 256 (bytes_of n x) = x.
Proof.
  induction n as [|n IH]; intros x H; cbn [bytes_of].
  - cbn in H. split; [constructor | cbn; lia].
  - destruct (Z.eqb_spec x 0); [subst; split; [constructor | reflexivity]|].
    rewrite Z.shiftr_div_pow2 by lia. change (2 ^ 8) with 256.
    replace (Z.land x 255) with (x mod 256) by (change 255 with (Z.ones 8); rewrite Z.land_ones by lia; reflexivity).
    assert (0 <= x / 256 < 2 ^ Z.of_nat (8 * n)).
    { split; [apply Z.div_pos; lia|]. apply Z.div_lt_upper_bound; [lia|].
      replace (Z.of_nat (8 * S n)) with (8 + Z.of_nat (8 * n)) in H by lia. rewrite Z.pow_add_r in H by lia.
      change (2 ^ 8) with 256 in H. lia. }
    destruct (IH _ H0) as [A B]. pose proof (Z.mod_pos_bound x 256 ltac:(lia)). split.
    + apply Forall_app. split; auto.
    + rewrite digits_value_snoc, B. pose proof (Z.div_mod x 256 ltac:(lia)). lia.
Qed.

(** ** good is preserved by everything *)
Lemma subtract_good a b r : good w a -> good w b -> subtract w a b = Some r -> good w r.
Proof.
  intros Ha Hb E. destruct (le_lt_dec (length b) (length a)).
  - pose proof (@subtract_value w Hw' a b (good_blocks Hw' Ha) (good_blocks Hw' Hb) l) as S. rewrite E in S.
    destruct b as [|y b]; [cbn in E; inversion E; subst; auto|].
    left. apply S. discriminate.
  - unfold subtract in E. destruct b; [cbn in E; inversion E; subst; auto|]. cbn [is_zero] in E.
    destruct (Nat.ltb_spec (length a) (length (z :: b))); [discriminate|lia].
Qed.
Lemma nil_canonical : canonical w []. Proof. split; [constructor | cbn; lia]. Qed.

Lemma div_by_zero_step (a : list Z) u q k n : blocks u -> length u = S (length a) -> length q = n ->
  (1 + n = S (length a))%nat -> (k < n * w)%nat -> value u < R ^ Z.of_nat (length a) -> blocks q ->
  exists q', div_step w [0] (u, q) (pos_of w k) = (u, q') /\ length q' = n /\ blocks q'.
Proof.
  intros Hu Hl Hq Hn Hk Hv Hqb. unfold pos_of. set (i := (k / w)%nat). set (j := (k mod w)%nat).
  assert (Ej : (j < w)%nat) by (apply Nat.mod_upper_bound; lia).
  assert (Ek : k = (i * w + j)%nat) by (unfold i, j; rewrite (Nat.div_mod k w) at 1 by lia; lia).
  assert (Ei : (i < n)%nat) by (clearbody i j; nia). clearbody i j. unfold div_step.
  assert (B0 : blocks [0]) by (apply single_blocks; lia).
  destruct (shifted_blocks_spec Hw' Ej B0) as (Sb & Sl & Sv).
  rewrite single_value in Sv. cbn [length] in Sl.
  destruct (sub_from w (skipn i u) (shifted_blocks w [0] j) false) as [r b] eqn:E.
  destruct (@top_zero w Hw' u (length a) Hu Hl Hv) as (u0 & Eu & Lu).
  assert (Hlast : last (skipn i u) 0 = 0).
  { rewrite Eu, skipn_app. replace (i - length u0)%nat with 0%nat by lia. cbn [skipn]. apply last_last. }
  assert (Hle : (length (shifted_blocks w [0%Z] j) <= length (skipn i u))%nat) by (rewrite Sl, skipn_length; lia).
  destruct (sub_from_spec Hw' _ (blocks_skipn i Hu) Sb Hle Hlast E) as (A & B & C).
  pose proof (value_bound (blocks_skipn i Hu)).
  cbn [Z.b2z] in C. rewrite Sv in C. destruct b; [lia|].
  assert (r = skipn i u) as ->. { apply (value_inj Hw' A (blocks_skipn i Hu)); auto. lia. }
  rewrite firstn_skipn. eexists. split; [reflexivity|].
  rewrite wrap_bit by auto.
  destruct (@set_nth_spec w Hw' q i (Z.lor (nth i q 0) (2 ^ Z.of_nat j)) Hqb) as (Q1 & Q2 & Q3); [lia| |split; [lia|auto]].
  apply (op_bound Hw' _ orb Z.lor_spec eq_refl).
  - unfold BigNumSpec.blocks in Hqb. rewrite Forall_forall in Hqb. apply Hqb. apply nth_In. lia.
  - split; [apply Z.pow_nonneg; lia | unfold BigNumModel.R; apply Z.pow_lt_mono_r; lia].
Qed.
Lemma div_by_zero_fold (a : list Z) n u : blocks u -> length u = S (length a) -> (1 + n = S (length a))%nat -> value u < R ^ Z.of_nat (length a) ->
  forall k q, (k <= n * w)%nat -> length q = n -> blocks q ->
  exists q', fold_left (div_step w [0]) (rev (map (pos_of w) (seq 0 k))) (u, q) = (u, q') /\ blocks q'.
Proof.
  intros Hu Hl Hn Hv. induction k as [|k IH]; intros q Hk Hq Hqb.
  - cbn. eauto.
  - replace (S k) with (k + 1)%nat by lia. rewrite seq_app, map_app, rev_app_distr. cbn [seq map rev app fold_left plus].
    destruct (@div_by_zero_step a u q k n) as (q' & E & A & B); auto. rewrite E. apply IH; auto. lia.
Qed.
Lemma divide_by_zero a : good w a -> good w (fst (divide w a [0])) /\ good w (snd (divide w a [0])).
Proof.
  intros Ha. pose proof (good_blocks Hw' Ha) as Hb. unfold divide. cbn [is_zero].
  destruct (Nat.ltb_spec (length a) (length [0%Z])).
  - cbn. split; auto. left. apply nil_canonical.
  - set (n := (length a - length [0%Z] + 1)%nat).
    rewrite (positions_eq Hw'). change (fun k : nat => ((k / w)%nat, (k mod w)%nat)) with (pos_of w).
    pose proof (value_bound Hb).
    destruct (@div_by_zero_fold a n (a ++ [0])) with (k := (n * w)%nat) (q := repeat 0 n) as (q' & E & B).
    + apply blocks_app. split; auto. apply single_blocks. lia.
    + rewrite app_length. cbn. lia.
    + unfold n. cbn [length] in *. lia.
    + rewrite value_app. cbn [BigNumSpec.value]. lia.
    + lia.
    + apply repeat_length.
    + apply blocks_zeroes; auto.
    + rewrite E. cbn [fst snd]. split; left; apply zap_canonical; auto.
      apply blocks_app. split; auto. apply single_blocks. lia.
Qed.
Lemma divide_good a b : good w a -> good w b -> b <> [] -> good w (fst (divide w a b)) /\ good w (snd (divide w a b)).
Proof.
  intros Ha [Hb| ->] Hn; [|apply divide_by_zero; auto].
  destruct (@divide_spec w Hw' a b (good_blocks Hw' Ha) Hb Hn) as (_ & _ & A & _ & B & C).
  split; [left; auto|]. destruct Ha as [Ha| ->]; [left; auto|].
  destruct (le_lt_dec (length b) (length [0%Z])); [left; auto|].
  unfold divide. destruct b; [congruence|]. cbn [is_zero].
  destruct (Nat.ltb_spec (length [0%Z]) (length (z :: b))); [|lia]. cbn. right. auto.
Qed.

Lemma api_good u : api w u -> good w u.
Proof.
  induction 1.
  - left. apply nil_canonical.
  - unfold of_primitive in H0. destruct (Z.leb_spec 0 x); [|discriminate]. inversion H0; subst. apply single_good. auto.
  - unfold of_wide in H0. destruct (Z.leb_spec 0 x); [|discriminate].
    destruct (@bytes_of_spec n x) as [A _]; [lia|]. destruct (load_data_spec A) as (r & E & G & _). congruence.
  - destruct (load_data_spec H) as (r & E & G & _). congruence.
  - destruct (load_string_some s H H0) as (ds & _ & _ & G & _). auto.
  - assert (K : forall s base, 0 <= base < 256 -> load_string w s base = Some u -> good w u).
    { intros s0 base Hb E. pose proof R256. destruct (@load_string_some base s0 u) as (ds & _ & _ & G & _); auto. lia. }
    unfold load_auto in H.
    repeat match type of H with context [match ?x with _ => _ end] => destruct x end; eapply K; try eassumption; lia.
  - apply add_good; auto.
  - eapply subtract_good; [exact IHapi1 | exact IHapi2 | eauto].
  - destruct (@multiply_spec w Hw' a b (good_blocks Hw' IHapi1) (good_blocks Hw' IHapi2)) as (r & E & A & _).
    left. congruence.
  - unfold op_div in H1. destruct b; [discriminate|]. cbn [is_zero] in H1. inversion H1; subst. apply divide_good; auto. discriminate.
  - unfold op_mod in H1. destruct b; [discriminate|]. cbn [is_zero] in H1. inversion H1; subst. apply divide_good; auto. discriminate.
  - left. apply and_spec; auto; apply good_blocks; auto.
  - apply or_good; auto.
  - left. apply xor_spec; auto; apply good_blocks; auto.
  - left. unfold shift_left. destruct (k <? 0); [apply shift_right_spec | apply shift_left_spec]; auto; apply good_blocks; auto.
  - left. unfold shift_right. destruct (k <? 0); [apply shift_left_spec | apply shift_right_spec]; auto; apply good_blocks; auto.
Qed.

(** ** Dump *)
Lemma small_canonical r : canonical w r -> value r < 256 -> to_unsigned 8 r = Some (value r).
Proof.
  intros H Hv. pose proof R256. destruct r as [|x r]; [reflexivity|].
  assert (x :: r <> []) as Hn by discriminate. pose proof (canonical_lower Hw' H Hn) as L.
  destruct r as [|y r].
  - rewrite single_value in *. cbn [to_unsigned]. destruct H as [H _]. apply blocks_cons in H as [Hx _].
    change (2 ^ Z.of_nat 8) with 256. rewrite Z.mod_small by lia. rewrite Z.eqb_refl. reflexivity.
  - exfalso. assert (R ^ 1 <= R ^ Z.of_nat (length (x :: y :: r) - 1)) by (apply Z.pow_le_mono_r; cbn [length]; lia).
    rewrite Z.pow_1_r in *. lia.
Qed.
Lemma dump_loop_spec base : 2 <= base <= 256 -> forall fuel x, canonical w x -> value x < 2 ^ Z.of_nat fuel ->
  exists ds, dump_loop w fuel base x = Some ds /\ Forall (fun d => 0 <= d < base) ds /\ lead ds /\ digits_value base ds = value x.
Proof.
  intros Hb. pose proof R256. induction fuel as [|fuel IH]; intros x Hx Hv.
  - cbn in Hv. pose proof (value_bound (proj1 Hx)). assert (value x = 0) by lia. rewrite (canonical_zero Hw' Hx H1).
    exists []. cbn. auto.
  - destruct x as [|x0 x].
    { exists []. cbn. auto. }
    cbn [dump_loop is_zero].
    assert (Hne : x0 :: x <> []) by discriminate. set (X := x0 :: x) in *.
    assert (Cb : canonical w [base]) by (split; [apply single_blocks; lia | cbn; lia]).
    assert (Nb : [base] <> []) by discriminate.
    destruct (@divide_spec w Hw' X [base] (proj1 Hx) Cb Nb) as (D1 & D2 & D3 & _ & D4 & _).
    specialize (D4 Hx). destruct (divide w X [base]) as [q r]. cbn [fst snd] in *. rewrite single_value in *.
    pose proof (value_bound (proj1 Hx)) as VX.
    pose proof (Z.mod_pos_bound (value X) base ltac:(lia)) as Hm.
    pose proof (Z.div_mod (value X) base ltac:(lia)) as Hdm.
    rewrite small_canonical by (auto; lia).
    assert (Hq : value q < 2 ^ Z.of_nat fuel).
    { rewrite D1. apply Z.div_lt_upper_bound; [lia|]. rewrite Nat2Z.inj_succ, Z.pow_succ_r in Hv by lia.
      assert (0 <= 2 ^ Z.of_nat fuel) by (apply Z.pow_nonneg; lia). nia. }
    destruct (IH q D3 Hq) as (ds & E & A & B & C). rewrite E.
    exists (ds ++ [value r]). split; [reflexivity|]. split; [|split].
    + apply Forall_app. split; auto. constructor; [lia | constructor].
    + destruct ds as [|d ds]; [|exact B]. cbn. cbn in C. rewrite D2. intros Z0.
      assert (value X = 0) by nia. apply (canonical_zero Hw' Hx) in H0. congruence.
    + rewrite digits_value_snoc, C, D1, D2. lia.
Qed.
Lemma dump_zero base : 2 <= base <= 256 -> dump w [0] base = Some [0].
Proof.
  intros Hb. pose proof R256. unfold dump. cbn [dump_loop is_zero].
  assert (Cb : canonical w [base]) by (split; [apply single_blocks; lia | cbn; lia]).
  assert (Nb : [base] <> []) by discriminate.
  destruct (@divide_spec w Hw' [0] [base] (@single_blocks 0 ltac:(lia)) Cb Nb) as (D1 & D2 & D3 & _ & _ & D4).
  specialize (D4 (le_n _)). destruct (divide w [0] [base]) as [q r]. cbn [fst snd] in *. rewrite !single_value in *.
  rewrite Z.div_0_l in D1 by lia. rewrite Z.mod_0_l in D2 by lia.
  rewrite (canonical_zero Hw' D3 D1), (canonical_zero Hw' D4 D2). 
  destruct (w * length [0%Z])%nat eqn:Ew; [cbn [length] in Ew; lia|]. reflexivity.
Qed.
Lemma dump_spec base u : 2 <= base <= 256 -> good w u ->
  exists ds, dump w u base = Some ds /\ Forall (fun d => 0 <= d < base) ds /\ digits_value base ds = value u
    /\ (canonical w u -> lead ds) /\ (u = [0] -> ds = [0]).
Proof.
  intros Hb [Hu| ->].
  - destruct (@dump_loop_spec base Hb (S (w * length u)) u Hu) as (ds & E & A & B & C).
    + pose proof (value_bound (proj1 Hu)) as V. rewrite Rk in V.
      eapply Z.lt_le_trans; [apply V|]. apply Z.pow_le_mono_r; lia.
    + exists ds. repeat split; auto. intros ->. destruct Hu as [_ Hu]. cbn in Hu. congruence.
  - exists [0]. rewrite dump_zero by auto. repeat split; auto.
    + constructor; [lia | constructor].
    + rewrite single_value. reflexivity.
    + intros [_ H]. cbn in H. congruence.
Qed.

Lemma chars_digits ds base : base <= 36 -> Forall (fun d => 0 <= d < base) ds ->
  Forall2 char_digit (map char_of ds) ds /\ Forall (fun d => d < base) ds.
Proof.
  intros Hb H. split.
  - induction H; cbn; constructor; auto. apply digit_of_spec. apply digit_char. lia.
  - eapply Forall_impl; [|exact H]. cbn. lia.
Qed.

(** to_string gives the digits; loading them gives the value back *)
Lemma to_string_spec base u : 2 <= base <= 36 -> good w u ->
  exists ds, to_string w u base = Some (map char_of ds) /\ ds <> [] /\ Forall (fun d => 0 <= d < base) ds
    /\ digits_value base ds = value u /\ (ds = [0] \/ lead ds).
Proof.
  intros Hb Hu. destruct (@dump_spec base u) as (ds & E & A & B & C & D); [lia | auto|].
  unfold to_string. rewrite E. destruct ds as [|d ds].
  - exists [0]. repeat split; auto; [discriminate | constructor; [lia | constructor]].
  - exists (d :: ds). repeat split; auto; [discriminate|].
    destruct Hu as [Hu| ->]; [right; auto | left; auto].
Qed.

Lemma round_trip base u : 2 <= base <= 36 -> good w u ->
  exists s u', to_string w u base = Some s /\ load_string w s base = Some u' /\ good w u' /\ value u' = value u /\ (u <> [] -> u' = u).
Proof.
  intros Hb Hu. destruct (to_string_spec Hb Hu) as (ds & E & Hn & A & B & C).
  destruct (@chars_digits ds base) as [F1 F2]; [lia | auto|].
  pose proof R256.
  destruct (@load_string_fold base (map char_of ds)) with (u := @nil Z) (ds := ds) as (r & E2 & G & V); auto; [lia | left; apply nil_canonical|].
  exists (map char_of ds), r. split; [auto|]. split; [auto|]. split; [auto|].
  assert (value r = value u) as EV by (rewrite V; exact B). split; [auto|].
  intros Hne. destruct Hu as [Hu| ->].
  - destruct G as [G| ->]; [apply (canonical_inj Hw' G Hu EV)|].
    rewrite single_value in EV. exfalso. apply Hne. apply (canonical_zero Hw' Hu). auto.
  - destruct G as [G| ->]; auto. rewrite single_value in EV.
    apply (canonical_zero Hw' G) in EV. subst r. exfalso.
    (* loading a non-empty string never leaves the number empty *)
    clear - E2 Hn Hw Hw'. destruct ds as [|d ds] using rev_ind; [congruence|]. clear IHds Hn.
    rewrite map_app in E2. cbn [map] in E2.
    assert (K : forall s u c, fold_opt (load_char w base) (s ++ [c]) u = Some [] -> False).
    { induction s as [|c' s IH]; intros u c E; cbn [app fold_opt] in E.
      - destruct (load_char w base u c) as [r|] eqn:EL; [|discriminate]. inversion E; subst r.
        unfold load_char in EL. destruct (digit_of c); [|discriminate]. destruct (z <? base); [|discriminate].
        unfold load_step in EL. destruct (multiply w u [base]) as [t|]; [|discriminate]. inversion EL as [EA].
        destruct t as [|t0 t]; [cbn in EA; discriminate|]. unfold add in EA. cbn [is_zero] in EA.
        destruct (Nat.ltb_spec (length (t0 :: t)) (length [z])); [cbn [length] in *; lia|].
        cbn [add_loop] in EA. destruct (add_block w t0 z false). discriminate.
      - destruct (load_char w base u c') as [r|]; [|discriminate]. eapply IH; eauto. }
    eapply K. exact E2.
Qed.

Lemma round_trip_string base ds : 2 <= base <= 36 -> ds <> [] -> Forall (fun d => 0 <= d < base) ds -> ds = [0] \/ lead ds ->
  exists u, load_string w (map char_of ds) base = Some u /\ to_string w u base = Some (map char_of ds).
Proof.
  intros Hb Hn A C. destruct (@chars_digits ds base) as [F1 F2]; [lia | auto|]. pose proof R256.
  destruct (@load_string_fold base (map char_of ds)) with (u := @nil Z) (ds := ds) as (r & E2 & G & V); auto; [lia | left; apply nil_canonical|].
  exists r. split; [exact E2|].
  destruct (to_string_spec Hb G) as (es & E & Hn' & A' & B' & C'). rewrite E. do 2 f_equal.
  assert (digits_value base es = digits_value base ds) as EV by (rewrite B', V; reflexivity).
  destruct C as [->|C], C' as [->|C']; auto.
  - exfalso. pose proof (@digits_pos base es ltac:(lia) A' C' Hn'). cbn in EV. lia.
  - exfalso. pose proof (@digits_pos base ds ltac:(lia) A C Hn). cbn in EV. lia.
  - apply (@digits_inj base es ltac:(lia) ds); auto.
Qed.

Lemma bytes_round_trip u : good w u -> exists bytes u', dump w u 256 = Some bytes /\ Forall (fun b => 0 <= b < 256) bytes
  /\ digits_value 256 bytes = value u /\ load_data w bytes = Some u' /\ value u' = value u /\ (canonical w u -> lead bytes).
Proof.
  intros Hu. destruct (@dump_spec 256 u) as (ds & E & A & B & C & D); [lia | auto|].
  destruct (load_data_spec A) as (r & E2 & G & V). exists ds, r. repeat split; auto. lia.
Qed.
End P.
