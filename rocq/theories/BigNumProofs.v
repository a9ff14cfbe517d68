(** Lemmas for BigNumProps.v *)
From Coq Require Import List ZArith Bool Arith Lia.
From Verif Require Import BigNumModel BigNumSpec.
Import ListNotations.
Local Open Scope Z_scope.
Set Implicit Arguments.

Section P.
Variable w : nat.
Hypothesis Hw : (0 < w)%nat.
Notation R := (R w).
Notation wrap := (wrap w).
Notation value := (value w).
Notation blocks := (blocks w).

Lemma Rdef : R = 2 ^ Z.of_nat w. Proof. reflexivity. Qed.
Lemma Rpos : 2 <= R.
Proof. unfold BigNumModel.R. change 2 with (2^1) at 1. apply Z.pow_le_mono_r; lia. Qed.
Lemma Rk k : (R ^ Z.of_nat k) = 2 ^ (Z.of_nat w * Z.of_nat k).
Proof. clear Hw. unfold BigNumModel.R. rewrite <- Z.pow_mul_r by lia. reflexivity. Qed.
Lemma Rkpos k : 0 < R ^ Z.of_nat k.
Proof. apply Z.pow_pos_nonneg; pose proof Rpos; lia. Qed.
Lemma RS k : R ^ Z.of_nat (S k) = R * R ^ Z.of_nat k.
Proof. clear Hw. rewrite Nat2Z.inj_succ, Z.pow_succ_r by lia. reflexivity. Qed.

Lemma wrap_cases x : 0 <= x < 2 * R -> (x < R /\ wrap x = x) \/ (R <= x /\ wrap x = x - R).
Proof.
  intros H. unfold BigNumModel.wrap. destruct (Z_lt_ge_dec x R).
  - left. split; [lia|]. apply Z.mod_small; lia.
  - right. split; [lia|]. rewrite <- (Z.mod_small (x - R) R) by lia.
    rewrite <- (Z.mod_add (x - R) 1 R) by lia. f_equal; lia.
Qed.
Lemma wrap_cases_neg x : - R <= x < R -> (0 <= x /\ wrap x = x) \/ (x < 0 /\ wrap x = x + R).
Proof.
  intros H. unfold BigNumModel.wrap. destruct (Z_lt_ge_dec x 0).
  - right. split; [lia|]. rewrite <- (Z.mod_small (x + R) R) by lia.
    rewrite <- (Z.mod_add x 1 R) by lia. f_equal; lia.
  - left. split; [lia|]. apply Z.mod_small; lia.
Qed.

Lemma value_cons x u : value (x :: u) = x + R * value u.
Proof. reflexivity. Qed.
Lemma value_app a b : value (a ++ b) = value a + R ^ Z.of_nat (length a) * value b.
Proof. clear Hw.
  induction a as [|x a IH]; cbn [app length].
  - cbn. destruct (value b); reflexivity.
  - rewrite !value_cons, IH, RS. ring.
Qed.
Lemma blocks_app a b : blocks (a ++ b) <-> blocks a /\ blocks b.
Proof. apply Forall_app. Qed.
Lemma blocks_cons x u : blocks (x :: u) <-> (0 <= x < R) /\ blocks u.
Proof. split; intros H; [inversion H; subst; auto | destruct H; constructor; auto]. Qed.
Lemma value_bound u : blocks u -> 0 <= value u < R ^ Z.of_nat (length u).
Proof.
  induction u as [|x u IH]; intros H.
  - cbn. lia.
  - apply blocks_cons in H as [Hx Hu]. specialize (IH Hu). cbn [length]. rewrite value_cons, RS.
    pose proof Rpos. nia.
Qed.
Lemma value_zeroes n : value (repeat 0 n) = 0.
Proof. clear Hw. induction n; cbn [repeat]; [reflexivity|]. rewrite value_cons, IHn. lia. Qed.
Lemma blocks_zeroes n : blocks (repeat 0 n).
Proof. apply Forall_forall. intros x H. apply repeat_spec in H. subst. fold R. pose proof Rpos. lia. Qed.

(** equal values of equal length have equal blocks *)
Lemma value_inj a b : blocks a -> blocks b -> length a = length b -> value a = value b -> a = b.
Proof.
  revert b; induction a as [|x a IH]; intros [|y b] Ha Hb Hl Hv; cbn [length] in *; try discriminate; auto.
  apply blocks_cons in Ha as [Hx Ha]. apply blocks_cons in Hb as [Hy Hb].
  rewrite !value_cons in Hv.
  assert (x = y /\ value a = value b) as [-> E].
  { pose proof Rpos. assert (value a = value b) by nia. split; [nia | auto]. }
  f_equal. apply IH; auto.
Qed.

(** ** zap *)
Lemma drop_zeroes_split l : exists n, l = repeat 0 n ++ drop_zeroes l /\ (match drop_zeroes l with x :: _ => x <> 0 | [] => True end).
Proof. clear Hw.
  induction l as [|x l IH]; cbn.
  - exists 0%nat. auto.
  - destruct (Z.eqb_spec x 0).
    + destruct IH as (n & E & H). exists (S n). subst x. cbn. split; [congruence | auto].
    + exists 0%nat. cbn. auto.
Qed.
Lemma rev_repeat (n : nat) : rev (repeat 0 n) = repeat 0 n.
Proof. clear Hw.
  induction n; cbn; auto. rewrite IHn. change [0] with (repeat 0 1). rewrite <- repeat_app.
  rewrite Nat.add_comm. reflexivity.
Qed.
Lemma zap_split u : exists n, u = zap u ++ repeat 0 n.
Proof.
  destruct (drop_zeroes_split (rev u)) as (n & E & _). exists n. unfold zap.
  rewrite <- rev_repeat, <- rev_app_distr, <- E, rev_involutive. reflexivity.
Qed.
Lemma zap_last u : last (zap u) 1 <> 0.
Proof.
  unfold zap. destruct (drop_zeroes_split (rev u)) as (n & _ & H).
  destruct (drop_zeroes (rev u)); cbn; [lia|]. rewrite last_last. auto.
Qed.
Lemma zap_value u : value (zap u) = value u.
Proof. clear Hw.
  destruct (zap_split u) as (n & E). rewrite E at 2. rewrite value_app, value_zeroes. lia.
Qed.
Lemma zap_blocks u : blocks u -> blocks (zap u).
Proof. destruct (zap_split u) as (n & E). rewrite E at 1. intros H. apply blocks_app in H. tauto. Qed.
Lemma zap_canonical u : blocks u -> canonical w (zap u).
Proof. split; [apply zap_blocks; auto | apply zap_last]. Qed.

(** canonical numbers are determined by their value *)
Lemma canonical_lower u : canonical w u -> u <> [] -> R ^ Z.of_nat (length u - 1) <= value u.
Proof.
  intros [Hb Hl] Hn. destruct (exists_last Hn) as (a & x & ->).
  rewrite last_last in Hl. apply blocks_app in Hb as [Ha Hx]. apply blocks_cons in Hx as [Hx _].
  rewrite app_length. cbn [length]. replace (length a + 1 - 1)%nat with (length a) by lia.
  rewrite value_app. cbn [BigNumSpec.value]. pose proof (value_bound Ha). pose proof (Rkpos (length a)).
  nia.
Qed.
Lemma canonical_zero u : canonical w u -> value u = 0 -> u = [].
Proof.
  intros Hc Hv. destruct u as [|x u]; auto. exfalso.
  assert (x :: u <> []) as Hn by discriminate.
  pose proof (canonical_lower Hc Hn). pose proof (Rkpos (length (x :: u) - 1)). lia.
Qed.
Lemma canonical_length a b : canonical w a -> canonical w b -> value a <= value b -> (length a <= length b)%nat.
Proof.
  intros Ha Hb H. destruct a as [|x a]; [cbn; lia|].
  assert (x :: a <> []) as Hn by discriminate.
  pose proof (canonical_lower Ha Hn). pose proof (value_bound (proj1 Hb)).
  assert (R ^ Z.of_nat (length (x :: a) - 1) < R ^ Z.of_nat (length b)) as L by lia.
  apply Z.pow_lt_mono_r_iff in L; pose proof Rpos; lia.
Qed.
Lemma canonical_inj a b : canonical w a -> canonical w b -> value a = value b -> a = b.
Proof.
  intros Ha Hb H. apply value_inj; try apply Ha; try apply Hb; auto.
  pose proof (canonical_length Ha Hb). pose proof (canonical_length Hb Ha). lia.
Qed.

(** ** blocks of a shifted number *)
Lemma lor_add a b k : 0 <= k -> 0 <= a < 2 ^ k -> b mod 2 ^ k = 0 -> Z.lor a b = a + b.
Proof.
  intros Hk Ha Hb.
  assert (Z.land a b = 0) as E.
  { apply Z.bits_inj'. intros n Hn. rewrite Z.land_spec, Z.bits_0.
    destruct (Z_lt_ge_dec n k).
    - rewrite <- (Z.mod_pow2_bits_low b k n) by lia. rewrite Hb, Z.bits_0. apply andb_false_r.
    - replace a with (a mod 2 ^ k) by (apply Z.mod_small; lia).
      rewrite Z.mod_pow2_bits_high by lia. reflexivity. }
  rewrite Z.add_nocarry_lxor by exact E. rewrite <- Z.lxor_lor by exact E. reflexivity.
Qed.

Definition high_part (prev : Z) (bits : nat) : Z := prev / 2 ^ Z.of_nat (w - bits).
Fixpoint shifted_from (prev : Z) (l : list Z) (bits : nat) : list Z :=
  match l with
  | [] => [high_part prev bits]
  | x :: l' => high_part prev bits + wrap (x * 2 ^ Z.of_nat bits) :: shifted_from x l' bits
  end.

Lemma high_part_0 bits : high_part 0 bits = 0.
Proof. unfold high_part. apply Z.div_0_l. apply Z.pow_nonzero; lia. Qed.
Lemma high_part_range prev bits : 0 <= prev < R -> (bits < w)%nat -> 0 <= high_part prev bits < 2 ^ Z.of_nat bits.
Proof.
  intros Hp Hb. unfold high_part. split.
  - apply Z.div_pos; [lia|]. apply Z.pow_pos_nonneg; lia.
  - apply Z.div_lt_upper_bound; [apply Z.pow_pos_nonneg; lia|].
    rewrite <- Z.pow_add_r by lia. replace (Z.of_nat (w - bits) + Z.of_nat bits) with (Z.of_nat w) by lia.
    apply Hp.
Qed.
Lemma wrap_shift x bits : 0 <= x -> (bits < w)%nat ->
  wrap (x * 2 ^ Z.of_nat bits) = 2 ^ Z.of_nat bits * (x mod 2 ^ Z.of_nat (w - bits)).
Proof.
  intros Hx Hb. unfold BigNumModel.wrap, BigNumModel.R.
  replace (Z.of_nat w) with (Z.of_nat bits + Z.of_nat (w - bits)) by lia.
  rewrite Z.pow_add_r by lia. rewrite (Z.mul_comm x).
  rewrite Z.mul_mod_distr_l by (apply Z.pow_nonzero; lia). reflexivity.
Qed.

Lemma get_shifted_from pre l bits : (bits < w)%nat -> blocks (pre ++ l) ->
  map (fun j => get_shifted_block w (pre ++ l) j bits) (seq (length pre) (S (length l)))
  = shifted_from (last pre 0) l bits.
Proof.
  intros Hb. revert pre. induction l as [|x l IH]; intros pre Hbl.
  - cbn [length seq map shifted_from]. f_equal. unfold get_shifted_block.
    rewrite app_nil_r, Nat.eqb_refl. rewrite Z.lor_0_r.
    apply blocks_app in Hbl as [Hpre _].
    destruct pre as [|y pre] using rev_ind.
    + cbn [length last]. rewrite high_part_0. reflexivity.
    + apply blocks_app in Hpre as [_ Hy]. apply blocks_cons in Hy as [Hy _].
      rewrite last_last, app_length. cbn [length].
      destruct (Nat.eqb_spec (length pre + 1) 0); [lia|]. cbn [orb].
      destruct (Nat.eqb_spec bits 0) as [->|].
      * unfold high_part. rewrite Nat.sub_0_r. fold R. symmetry. apply Z.div_small. auto.
      * rewrite Z.shiftr_div_pow2 by lia. unfold high_part. f_equal.
        replace (length pre + 1 - 1)%nat with (length pre) by lia. rewrite app_nth2, Nat.sub_diag by lia. reflexivity.
  - cbn [length]. replace (seq (length pre) (S (S (length l)))) with (length pre :: seq (S (length pre)) (S (length l))) by reflexivity.
    cbn [map shifted_from]. f_equal.
    + unfold get_shifted_block.
      destruct (Nat.eqb_spec (length pre) (length (pre ++ x :: l))) as [E|_];
        [rewrite app_length in E; cbn in E; lia|].
      rewrite Z.shiftl_mul_pow2 by lia.
      assert (Hn : nth (length pre) (pre ++ x :: l) 0 = x) by (rewrite app_nth2, Nat.sub_diag by lia; reflexivity).
      rewrite Hn.
      apply blocks_app in Hbl as [Hpre Hx]. apply blocks_cons in Hx as [Hx _].
      assert (H1 : (if (length pre =? 0)%nat || (bits =? 0)%nat then 0
               else Z.shiftr (nth (length pre - 1) (pre ++ x :: l) 0) (Z.of_nat (w - bits))) = high_part (last pre 0) bits).
      { destruct pre as [|y pre] using rev_ind.
        - cbn [length last]. rewrite high_part_0. reflexivity.
        - apply blocks_app in Hpre as [_ Hy]. apply blocks_cons in Hy as [Hy _].
          rewrite last_last, app_length. cbn [length].
          destruct (Nat.eqb_spec (length pre + 1) 0); [lia|]. cbn [orb].
          destruct (Nat.eqb_spec bits 0) as [->|].
          * unfold high_part. rewrite Nat.sub_0_r. fold R. symmetry. apply Z.div_small. auto.
          * rewrite Z.shiftr_div_pow2 by lia. unfold high_part. f_equal.
            rewrite <- app_assoc, app_nth2 by lia.
            replace (length pre + 1 - 1 - length pre)%nat with 0%nat by lia. reflexivity. }
      rewrite H1. apply lor_add with (k := Z.of_nat bits); [lia| |].
      * apply high_part_range; auto.
        destruct pre as [|y pre] using rev_ind; [cbn; pose proof Rpos; lia|].
        rewrite last_last. apply blocks_app in Hpre as [_ Hy]. apply blocks_cons in Hy as [Hy _]. auto.
      * rewrite wrap_shift by lia. rewrite Z.mul_comm. apply Z.mod_mul. apply Z.pow_nonzero; lia.
    + specialize (IH (pre ++ [x])). rewrite <- app_assoc in IH. cbn [app] in IH.
      rewrite app_length, last_last in IH. cbn [length] in IH. rewrite Nat.add_1_r in IH. apply IH. auto.
Qed.

Lemma shifted_from_spec prev l bits : (bits < w)%nat -> 0 <= prev < R -> blocks l ->
  blocks (shifted_from prev l bits)
  /\ value (shifted_from prev l bits) = value l * 2 ^ Z.of_nat bits + high_part prev bits.
Proof.
  intros Hb. revert prev. induction l as [|x l IH]; intros prev Hp Hl.
  - cbn [shifted_from]. pose proof (high_part_range Hp Hb).
    assert (2 ^ Z.of_nat bits <= R) by (unfold BigNumModel.R; apply Z.pow_le_mono_r; lia).
    split; [apply blocks_cons; split; [lia | constructor] | cbn; lia].
  - apply blocks_cons in Hl as [Hx Hl]. specialize (IH x Hx Hl) as [IHb IHv].
    cbn [shifted_from]. pose proof (high_part_range Hp Hb).
    assert (ER : R = 2 ^ Z.of_nat bits * 2 ^ Z.of_nat (w - bits)).
    { unfold BigNumModel.R. rewrite <- Z.pow_add_r by lia. f_equal. lia. }
    assert (0 < 2 ^ Z.of_nat bits) by (apply Z.pow_pos_nonneg; lia).
    assert (0 < 2 ^ Z.of_nat (w - bits)) by (apply Z.pow_pos_nonneg; lia).
    rewrite wrap_shift by lia.
    pose proof (Z.mod_pos_bound x (2 ^ Z.of_nat (w - bits)) H1).
    pose proof (Z.div_mod x (2 ^ Z.of_nat (w - bits))).
    split.
    + apply blocks_cons. split; auto. rewrite ER. nia.
    + rewrite !value_cons, IHv. unfold high_part at 2. rewrite ER.
      rewrite H3 at 3 by lia. ring.
Qed.

Lemma shifted_blocks_spec u bits : (bits < w)%nat -> blocks u ->
  blocks (shifted_blocks w u bits) /\ length (shifted_blocks w u bits) = S (length u)
  /\ value (shifted_blocks w u bits) = value u * 2 ^ Z.of_nat bits.
Proof.
  intros Hb Hu. assert (E := @get_shifted_from [] u bits Hb Hu). cbn [app length last] in E.
  unfold shifted_blocks. split; [|split].
  - rewrite E. apply shifted_from_spec; auto. pose proof Rpos. lia.
  - rewrite map_length, seq_length. reflexivity.
  - rewrite E. destruct (@shifted_from_spec 0 u bits Hb) as [_ ->]; auto; [pose proof Rpos; lia|].
    unfold high_part. rewrite Z.div_0_l by (apply Z.pow_nonzero; lia). lia.
Qed.

(** ** Add *)
Notation bz := Z.b2z.
Lemma add_block_spec x y c t co : 0 <= x < R -> 0 <= y < R -> add_block w x y c = (t, co) ->
  0 <= t < R /\ x + y + bz c = t + R * bz co.
Proof.
  intros Hx Hy E. unfold add_block in E. pose proof Rpos.
  destruct (@wrap_cases (x + y)) as [[? Ew]|[? Ew]]; [lia| |]; rewrite Ew in E; destruct c.
  - destruct (@wrap_cases (x + y + 1)) as [[? Ew2]|[? Ew2]]; [lia| |]; rewrite Ew2 in E; inversion E; subst; clear E.
    + destruct (Z.ltb_spec (x + y) x); [lia|]. destruct (Z.eqb_spec (x + y + 1) 0); cbn; lia.
    + destruct (Z.eqb_spec (x + y + 1 - R) 0); rewrite ?orb_true_r; cbn; try lia.
  - inversion E; subst; clear E. destruct (Z.ltb_spec (x + y) x); cbn; lia.
  - destruct (@wrap_cases (x + y - R + 1)) as [[? Ew2]|[? Ew2]]; [lia| |]; rewrite Ew2 in E; inversion E; subst; clear E; try lia.
    destruct (Z.ltb_spec (x + y - R) x); cbn; lia.
  - inversion E; subst; clear E. destruct (Z.ltb_spec (x + y - R) x); cbn; lia.
Qed.

Lemma add_tail_spec l : forall c, blocks l -> blocks (add_tail w l c) /\ value (add_tail w l c) = value l + bz c.
Proof.
  pose proof Rpos.
  induction l as [|x l IH]; intros c Hl; cbn [add_tail].
  - destruct c; (split; [|cbn [BigNumSpec.value Z.b2z]; lia]); [apply blocks_cons; split; [lia|]|]; constructor.
  - apply blocks_cons in Hl as [Hx Hl]. destruct c.
    + destruct (@wrap_cases (x + 1)) as [[? Ew]|[? Ew]]; [lia| |]; rewrite Ew;
        destruct (IH (x + 1 =? 0) Hl) as [A1 A2]; destruct (IH (x + 1 - R =? 0) Hl) as [B1 B2].
      * rewrite blocks_cons, !value_cons, A2. destruct (Z.eqb_spec (x + 1) 0); cbn; repeat split; auto; lia.
      * rewrite blocks_cons, !value_cons, B2. destruct (Z.eqb_spec (x + 1 - R) 0); cbn; repeat split; auto; lia.
    + cbn. rewrite blocks_cons. repeat split; auto; lia.
Qed.
Lemma add_loop_spec l : forall s c, blocks l -> blocks s -> (length s <= length l)%nat ->
  blocks (add_loop w l s c) /\ value (add_loop w l s c) = value l + value s + bz c.
Proof.
  induction l as [|x l IH]; intros [|y s] c Hl Hs Hlen; try (cbn in Hlen; lia).
  - cbn [add_loop]. destruct (@add_tail_spec [] c Hl) as [A B]. split; [auto | rewrite B; cbn [BigNumSpec.value]; lia].
  - cbn [add_loop]. destruct (@add_tail_spec (x :: l) c Hl) as [A B]. split; auto. rewrite B. cbn [BigNumSpec.value]. lia.
  - cbn [add_loop]. destruct (add_block w x y c) as [t co] eqn:E.
    apply blocks_cons in Hl as [Hx Hl]. apply blocks_cons in Hs as [Hy Hs].
    pose proof (add_block_spec _ Hx Hy E) as [Ht Hv]. cbn [length] in Hlen.
    destruct (IH s co Hl Hs ltac:(lia)) as [IHb IHv].
    rewrite blocks_cons, !value_cons, IHv. split; auto. lia.
Qed.

Lemma add_tail_last l c : last (l ++ []) 1 <> 0 -> blocks l -> l <> [] -> last (add_tail w l c) 1 <> 0.
Proof.
  rewrite app_nil_r. revert c. induction l as [|x l IH]; intros c Hl Hb Hn; [congruence|].
  cbn [add_tail]. destruct c; [|auto].
  apply blocks_cons in Hb as [Hx Hb].
  destruct l as [|y l].
  - cbn [add_tail]. cbn [last] in Hl. destruct (Z.eqb_spec (wrap (x + 1)) 0); cbn; lia.
  - assert (last (add_tail w (y :: l) (wrap (x + 1) =? 0)) 1 <> 0) as HH by (apply IH; auto; discriminate).
    cbn [last]. destruct (add_tail w (y :: l) (wrap (x + 1) =? 0)) eqn:E; auto.
    exfalso. cbn [add_tail] in E. destruct (wrap (x + 1) =? 0); discriminate.
Qed.

(** the sum of two non-empty lists has no leading zero if the longer one has none *)
Lemma add_loop_last l : forall s c, blocks l -> blocks s -> (length s <= length l)%nat -> l <> [] ->
  last l 1 <> 0 -> last (add_loop w l s c) 1 <> 0.
Proof.
  induction l as [|x l IH]; intros [|y s] c Hl Hs Hlen Hn Hla; try (cbn in Hlen; lia); try congruence.
  - cbn [add_loop]. apply add_tail_last; auto. rewrite app_nil_r. auto.
  - cbn [add_loop]. destruct (add_block w x y c) as [t co] eqn:E.
    apply blocks_cons in Hl as [Hx Hl]. apply blocks_cons in Hs as [Hy Hs].
    pose proof (add_block_spec _ Hx Hy E) as [Ht Hv]. cbn [length] in Hlen.
    destruct l as [|z l].
    + destruct s; [|cbn in Hlen; lia]. cbn [add_loop add_tail]. cbn in Hla. destruct co; cbn in *; [lia|].
      destruct c; cbn in Hv; lia.
    + assert (last (add_loop w (z :: l) s co) 1 <> 0) as HH by (apply IH; auto; try discriminate; lia).
      cbn [last]. destruct (add_loop w (z :: l) s co) eqn:E2; auto.
      exfalso. destruct s; cbn in E2; destruct co; try discriminate; destruct (add_block w z z0 _); discriminate.
Qed.

(** what a number can look like: canonical, or the single block 0 *)
Definition good (u : list Z) : Prop := canonical w u \/ u = [0].
Lemma good_blocks u : good u -> blocks u.
Proof. intros [[H _]| ->]; auto. apply blocks_cons. pose proof Rpos. split; [lia | constructor]. Qed.
Lemma good_canonical u : canonical w u -> good u. Proof. left; auto. Qed.

Lemma add_value a b : blocks a -> blocks b -> blocks (add w a b) /\ value (add w a b) = value a + value b.
Proof.
  intros Ha Hb. unfold add. destruct a as [|x a]; [cbn; auto|]. destruct b as [|y b]; [cbn -[BigNumSpec.value]; split; auto; cbn; lia|].
  cbn [is_zero]. destruct (Nat.ltb_spec (length (x :: a)) (length (y :: b))).
  - destruct (@add_loop_spec (y :: b) (x :: a) false) as [A B]; auto; [lia|]. split; auto. rewrite B. cbn. lia.
  - destruct (@add_loop_spec (x :: a) (y :: b) false) as [A B]; auto. split; auto. rewrite B. cbn. lia.
Qed.
Lemma add_canonical a b : canonical w a -> canonical w b -> canonical w (add w a b).
Proof.
  intros Ha Hb. split; [apply add_value; [apply Ha | apply Hb]|].
  unfold add. destruct a as [|x a]; [apply Hb|]. destruct b as [|y b]; [apply Ha|]. cbn [is_zero].
  destruct (Nat.ltb_spec (length (x :: a)) (length (y :: b))).
  - apply add_loop_last; try apply Ha; try apply Hb; try discriminate. lia.
  - apply add_loop_last; try apply Ha; try apply Hb; try discriminate. lia.
Qed.
Lemma add_good a b : good a -> good b -> good (add w a b).
Proof.
  intros Ha Hb. destruct Ha as [Ha| ->], Hb as [Hb| ->].
  - left. apply add_canonical; auto.
  - destruct a as [|x a]; [right; reflexivity|]. left. split.
    + apply add_value; [apply Ha|]. apply (good_blocks (or_intror eq_refl)).
    + unfold add. cbn [is_zero]. destruct (Nat.ltb_spec (length (x :: a)) (length [0])); [cbn in *; lia|].
      apply add_loop_last; try apply Ha; try discriminate. apply (good_blocks (or_intror eq_refl)). cbn; lia.
  - destruct b as [|x b]; [right; reflexivity|].
    unfold add. cbn [is_zero]. destruct (Nat.ltb_spec (length [0]) (length (x :: b))).
    + left. split; [apply add_loop_spec; try apply Hb; [apply (good_blocks (or_intror eq_refl)) | lia]|].
      apply add_loop_last; try apply Hb; try discriminate. apply (good_blocks (or_intror eq_refl)). lia.
    + destruct b; [|cbn in *; lia]. left.
      destruct Hb as [Hb Hl]. cbn in Hl.
      assert (blocks [0]) by apply (good_blocks (or_intror eq_refl)).
      destruct (@add_loop_spec [0] [x] false) as [A B]; auto. split; auto.
      cbn [add_loop]. destruct (add_block w 0 x false) as [t c] eqn:E.
      apply blocks_cons in Hb as [Hx _].
      apply add_block_spec in E; [|pose proof Rpos; lia | auto]. destruct E as [Ht Hv].
      destruct c; cbn in *; [lia|]. lia.
  - right. unfold add. cbn [is_zero length Nat.ltb Nat.leb add_loop]. unfold add_block.
    assert (wrap (0 + 0) = 0) as -> by (unfold BigNumModel.wrap; apply Z.mod_0_l; pose proof Rpos; lia). reflexivity.
Qed.

(** ** Subtract *)
Lemma sub_block_spec x y c t co : 0 <= x < R -> 0 <= y < R -> sub_block w x y c = (t, co) ->
  0 <= t < R /\ x - y - bz c = t - R * bz co.
Proof.
  intros Hx Hy E. unfold sub_block in E. pose proof Rpos.
  destruct (@wrap_cases_neg (x - y)) as [[? Ew]|[? Ew]]; [lia| |]; rewrite Ew in E; destruct c.
  - destruct (@wrap_cases_neg (x - y - 1)) as [[? Ew2]|[? Ew2]]; [lia| |]; rewrite Ew2 in E; inversion E; subst; clear E.
    + destruct (Z.ltb_spec x (x - y)); [lia|]. destruct (Z.eqb_spec (x - y) 0); cbn; lia.
    + destruct (Z.eqb_spec (x - y) 0); rewrite ?orb_true_r; cbn; try lia.
  - inversion E; subst; clear E. destruct (Z.ltb_spec x (x - y)); cbn; lia.
  - destruct (@wrap_cases_neg (x - y + R - 1)) as [[? Ew2]|[? Ew2]]; [lia| |]; rewrite Ew2 in E; inversion E; subst; clear E; try lia.
    destruct (Z.ltb_spec x (x - y + R)); cbn; lia.
  - inversion E; subst; clear E. destruct (Z.ltb_spec x (x - y + R)); cbn; lia.
Qed.
Lemma sub_tail_spec m : forall c r b, blocks m -> sub_tail w m c = (r, b) ->
  blocks r /\ length r = length m /\ value r = value m - bz c + R ^ Z.of_nat (length m) * bz b.
Proof.
  pose proof Rpos.
  induction m as [|x m IH]; intros c r b Hm E; cbn [sub_tail] in E.
  - inversion E; subst. repeat split; auto. cbn. destruct b; cbn; lia.
  - destruct c.
    + destruct (sub_tail w m (x =? 0)) as [r' b'] eqn:E2. inversion E; subst; clear E.
      apply blocks_cons in Hm as [Hx Hm]. destruct (IH _ _ _ Hm E2) as (A & B & C).
      destruct (@wrap_cases_neg (x - 1)) as [[? Ew]|[? Ew]]; [lia| |]; rewrite Ew; rewrite blocks_cons, !value_cons, C;
        cbn [length]; rewrite RS; destruct (Z.eqb_spec x 0); cbn [Z.b2z]; repeat split; auto; lia.
    + inversion E; subst. cbn [Z.b2z]. repeat split; auto. lia.
Qed.
Lemma sub_loop_spec m : forall s c r b, blocks m -> blocks s -> (length s <= length m)%nat -> sub_loop w m s c = (r, b) ->
  blocks r /\ length r = length m /\ value r = value m - value s - bz c + R ^ Z.of_nat (length m) * bz b.
Proof.
  induction m as [|x m IH]; intros [|y s] c r b Hm Hs Hlen E; try (cbn in Hlen; lia).
  - cbn [sub_loop] in E. destruct (sub_tail_spec _ Hm E) as (A & B & C). (split; [auto|split; [auto|]]); rewrite C; cbn [BigNumSpec.value]; lia.
  - cbn [sub_loop] in E. apply sub_tail_spec in E as (A & B & C); auto. repeat split; auto. rewrite C. cbn [BigNumSpec.value]. lia.
  - cbn [sub_loop] in E. destruct (sub_block w x y c) as [t co] eqn:E1.
    destruct (sub_loop w m s co) as [r' b'] eqn:E2. inversion E; subst; clear E.
    apply blocks_cons in Hm as [Hx Hm]. apply blocks_cons in Hs as [Hy Hs].
    pose proof (sub_block_spec _ Hx Hy E1) as [Ht Hv]. cbn [length] in Hlen.
    destruct (IH _ _ _ _ Hm Hs ltac:(lia) E2) as (A & B & C).
    rewrite blocks_cons, !value_cons, C. cbn [length]. rewrite RS. repeat split; auto; lia.
Qed.

Lemma subtract_value m s : blocks m -> blocks s -> (length s <= length m)%nat ->
  match subtract w m s with
  | Some r => value r = value m - value s /\ blocks r /\ (s <> [] -> canonical w r)
  | None => value m < value s
  end.
Proof.
  intros Hm Hs Hlen. unfold subtract. destruct s as [|y s].
  - cbn [is_zero]. split; [cbn; lia|]. split; auto. congruence.
  - cbn [is_zero]. destruct (Nat.ltb_spec (length m) (length (y :: s))); [lia|].
    destruct (sub_loop w m (y :: s) false) as [r b] eqn:E.
    apply sub_loop_spec in E as (A & B & C); auto. pose proof (value_bound A). rewrite B in H0.
    destruct b; cbn [Z.b2z] in C.
    + pose proof (value_bound Hm). lia.
    + rewrite zap_value. repeat split; try lia; try apply zap_blocks; auto. apply zap_last.
Qed.

(** ** Multiply *)
Lemma carry_into_spec u : forall c, blocks u -> value u + bz c < R ^ Z.of_nat (length u) ->
  exists r, carry_into w u c = Some r /\ blocks r /\ length r = length u /\ value r = value u + bz c.
Proof.
  pose proof Rpos.
  induction u as [|x u IH]; intros c Hu Hv; destruct c; cbn [carry_into];
    try (eexists; split; [reflexivity|]; cbn [Z.b2z]; repeat split; auto; lia).
  - cbn in Hv. lia.
  - apply blocks_cons in Hu as [Hx Hu]. rewrite value_cons in *. cbn [length] in *. rewrite RS in Hv. cbn [Z.b2z] in *.
    destruct (@wrap_cases (x + 1)) as [[? Ew]|[? Ew]]; [lia| |]; rewrite Ew.
    + destruct (IH (x + 1 =? 0) Hu) as (r & E & A & B & C);
        destruct (Z.eqb_spec (x + 1) 0); cbn [Z.b2z] in *; try lia; [pose proof (value_bound Hu); nia|].
      rewrite E. eexists; split; [reflexivity|]. rewrite blocks_cons, value_cons, C. cbn [length]. repeat split; auto; lia.
    + destruct (IH (x + 1 - R =? 0) Hu) as (r & E & A & B & C);
        destruct (Z.eqb_spec (x + 1 - R) 0); cbn [Z.b2z] in *; try lia; [nia|].
      rewrite E. eexists; split; [reflexivity|]. rewrite blocks_cons, value_cons, C. cbn [length]. repeat split; auto; lia.
Qed.
Lemma add_into_spec bs : forall u c, blocks u -> blocks bs -> (length bs <= length u)%nat ->
  value u + value bs + bz c < R ^ Z.of_nat (length u) ->
  exists r, add_into w u bs c = Some r /\ blocks r /\ length r = length u /\ value r = value u + value bs + bz c.
Proof.
  pose proof Rpos.
  induction bs as [|y bs IH]; intros u c Hu Hb Hlen Hv.
  - cbn [add_into]. cbn [BigNumSpec.value] in *. destruct (@carry_into_spec u c Hu) as (r & E & A & B & C); [lia|].
    exists r. repeat split; auto; [destruct u; exact E | lia].
  - destruct u as [|x u]; [cbn in Hlen; lia|]. cbn [add_into].
    destruct (add_block w x y c) as [t co] eqn:E.
    apply blocks_cons in Hu as [Hx Hu]. apply blocks_cons in Hb as [Hy Hb].
    pose proof (add_block_spec _ Hx Hy E) as [Ht Hvv]. cbn [length] in *. rewrite !value_cons in Hv. rewrite RS in Hv.
    destruct (IH u co Hu Hb) as (r & E2 & A & B & C); [lia | nia |].
    rewrite E2. eexists; split; [reflexivity|]. rewrite blocks_cons, !value_cons, C. cbn [length]. repeat split; auto; lia.
Qed.

(** the low [k] bits of m1 *)
Definition low_bits (v : Z) (k : nat) : Z := v mod 2 ^ Z.of_nat k.
Lemma low_bits_S v k : 0 <= v -> low_bits v (S k) = low_bits v k + (if Z.testbit v (Z.of_nat k) then 2 ^ Z.of_nat k else 0).
Proof.
  intros Hv. unfold low_bits. rewrite Nat2Z.inj_succ, Z.pow_succ_r by lia.
  rewrite (Z.mul_comm 2). rewrite Z.rem_mul_r by (try apply Z.pow_nonzero; lia).
  rewrite <- Z.testbit_spec' by lia. destruct (Z.testbit v (Z.of_nat k)); cbn [Z.b2z]; lia.
Qed.

Lemma value_testbit u : forall index i2, blocks u -> (i2 < w)%nat ->
  Z.testbit (value u) (Z.of_nat (index * w + i2)) = Z.testbit (nth index u 0) (Z.of_nat i2).
Proof.
  induction u as [|x u IH]; intros index i2 Hu Hi.
  - cbn [BigNumSpec.value]. rewrite Z.bits_0. destruct index; cbn; rewrite Z.bits_0; reflexivity.
  - apply blocks_cons in Hu as [Hx Hu]. rewrite value_cons.
    destruct index as [|index].
    + cbn [nth]. replace (0 * w + i2)%nat with i2 by lia.
      rewrite <- (Z.mod_pow2_bits_low _ (Z.of_nat w)) by lia. fold R.
      rewrite (Z.mul_comm R), Z_mod_plus_full, Z.mod_small by auto. reflexivity.
    + cbn [nth]. rewrite <- IH by auto.
      replace (Z.of_nat (S index * w + i2)) with (Z.of_nat (index * w + i2) + Z.of_nat w) by lia.
      rewrite <- Z.div_pow2_bits by lia. fold R. f_equal.
      rewrite (Z.mul_comm R), Z.div_add by (pose proof Rpos; lia). rewrite Z.div_small by auto. lia.
Qed.

Lemma land_pow2 x k : 0 <= x -> (Z.land x (2 ^ Z.of_nat k) =? 0) = negb (Z.testbit x (Z.of_nat k)).
Proof. clear Hw.
  intros Hx. destruct (Z.testbit x (Z.of_nat k)) eqn:E.
  - cbn. apply Z.eqb_neq. intros H. assert (Z.testbit (Z.land x (2 ^ Z.of_nat k)) (Z.of_nat k) = true) as H1.
    { rewrite Z.land_spec, E, Z.pow2_bits_true by lia. reflexivity. }
    rewrite H, Z.bits_0 in H1. discriminate.
  - cbn. apply Z.eqb_eq. apply Z.bits_inj'. intros n Hn. rewrite Z.land_spec, Z.bits_0.
    destruct (Z.eq_dec n (Z.of_nat k)) as [->|]; [rewrite E; reflexivity|].
    rewrite Z.pow2_bits_false by lia. apply andb_false_r.
Qed.
Lemma wrap_bit i2 : (i2 < w)%nat -> wrap (Z.shiftl 1 (Z.of_nat i2)) = 2 ^ Z.of_nat i2.
Proof. clear Hw.
  intros H. rewrite Z.shiftl_mul_pow2, Z.mul_1_l by lia. unfold BigNumModel.wrap, BigNumModel.R. apply Z.mod_small.
  split; [apply Z.pow_nonneg; lia | apply Z.pow_lt_mono_r; lia].
Qed.

(** the positions in order: position number k is (k / w, k mod w) *)
Lemma positions_eq n : positions w n = map (fun k => ((k / w)%nat, (k mod w)%nat)) (seq 0 (n * w)).
Proof.
  unfold positions. assert (forall i, list_prod (seq i n) (seq 0 w) = map (fun k => ((k / w)%nat, (k mod w)%nat)) (seq (i * w) (n * w))) as H.
  { induction n as [|n IH]; intros i; [reflexivity|].
    change (seq i (S n)) with (i :: seq (S i) n). cbn [list_prod]. rewrite IH.
    replace (S n * w)%nat with (w + n * w)%nat by lia. rewrite seq_app, map_app. f_equal.
    - assert (forall m b, (b + m <= w)%nat -> map (fun y : nat => (i, y)) (seq b m) = map (fun k => ((k / w)%nat, (k mod w)%nat)) (seq (i * w + b) m)) as HH.
      { induction m as [|m IHm]; intros b Hb; [reflexivity|]. cbn [seq map]. f_equal.
        - f_equal.
          + rewrite Nat.div_add_l by lia. rewrite Nat.div_small by lia. lia.
          + rewrite Nat.add_comm, Nat.mod_add by lia. rewrite Nat.mod_small by lia. reflexivity.
        - rewrite IHm by lia. do 2 f_equal. lia. }
      rewrite HH by lia. rewrite Nat.add_0_r. reflexivity.
    - do 2 f_equal. lia. }
  rewrite H. reflexivity.
Qed.

Lemma firstn_skipn_value i u : blocks u -> (i <= length u)%nat ->
  value u = value (firstn i u) + R ^ Z.of_nat i * value (skipn i u).
Proof. clear Hw.
  intros Hu Hi. rewrite <- (firstn_skipn i u) at 1. rewrite value_app, firstn_length_le by auto. reflexivity.
Qed.
Lemma blocks_firstn i u : blocks u -> blocks (firstn i u).
Proof. intros H. rewrite <- (firstn_skipn i u) in H. apply blocks_app in H. tauto. Qed.
Lemma blocks_skipn i u : blocks u -> blocks (skipn i u).
Proof. intros H. rewrite <- (firstn_skipn i u) in H. apply blocks_app in H. tauto. Qed.

Lemma pow_split i k : 2 ^ Z.of_nat (i * w + k) = R ^ Z.of_nat i * 2 ^ Z.of_nat k.
Proof. clear Hw. rewrite Rk, <- Z.pow_add_r by lia. f_equal. lia. Qed.

Lemma mul_step_spec m1 m2 u k : blocks m1 -> blocks m2 -> blocks u ->
  length u = (length m1 + length m2)%nat -> (k < length m1 * w)%nat ->
  value u = low_bits (value m1) k * value m2 ->
  exists u', mul_step w m1 m2 u ((k / w)%nat, (k mod w)%nat) = Some u'
    /\ blocks u' /\ length u' = length u /\ value u' = low_bits (value m1) (S k) * value m2.
Proof.
  intros H1 H2 Hu Hl Hk Hv.
  set (i := (k / w)%nat). set (j := (k mod w)%nat).
  assert (Ej : (j < w)%nat) by (apply Nat.mod_upper_bound; lia).
  assert (Ek : k = (i * w + j)%nat) by (unfold i, j; rewrite (Nat.div_mod k w) at 1 by lia; lia).
  assert (Ei : (i < length m1)%nat) by (clearbody i j; nia).
  clearbody i j. unfold mul_step. rewrite wrap_bit by auto.
  assert (Hnth : 0 <= nth i m1 0).
  { unfold BigNumSpec.blocks in H1. rewrite Forall_forall in H1. apply H1. apply nth_In. auto. }
  rewrite land_pow2 by auto. rewrite <- value_testbit by auto. rewrite <- Ek.
  pose proof (value_bound H1) as B1. pose proof (value_bound H2) as B2.
  rewrite low_bits_S by lia.
  destruct (Z.testbit (value m1) (Z.of_nat k)) eqn:Et; cbn [negb].
  2: { exists u. repeat split; auto. lia. }
  destruct (shifted_blocks_spec Ej H2) as (Sb & Sl & Sv).
  assert (Hlow : low_bits (value m1) k + 2 ^ Z.of_nat k <= value m1).
  { assert (low_bits (value m1) (S k) <= value m1) as L by (unfold low_bits; apply Z.mod_le; [lia | apply Z.pow_pos_nonneg; lia]).
    rewrite low_bits_S, Et in L by lia. exact L. }
  assert (Hu' := firstn_skipn_value (i:=i) Hu ltac:(lia)).
  pose proof (value_bound (blocks_firstn i Hu)) as Bf. rewrite firstn_length_le in Bf by lia.
  pose proof (value_bound (blocks_skipn i Hu)) as Bs. rewrite skipn_length in Bs.
  destruct (@add_into_spec (shifted_blocks w m2 j) (skipn i u) false) as (r & E & A & B & C); auto.
  - apply blocks_skipn; auto.
  - rewrite Sl, skipn_length. lia.
  - rewrite Sv, skipn_length. cbn [Z.b2z]. rewrite Z.add_0_r.
    apply Z.mul_lt_mono_pos_l with (p := R ^ Z.of_nat i); [apply Rkpos|].
    rewrite <- Z.pow_add_r by lia. replace (Z.of_nat i + Z.of_nat (length u - i)) with (Z.of_nat (length u)) by lia.
    rewrite Hl, Nat2Z.inj_add, Z.pow_add_r by lia.
    assert (Ep : 2 ^ Z.of_nat k = R ^ Z.of_nat i * 2 ^ Z.of_nat j) by (rewrite Ek; apply pow_split).
    rewrite Ep in Hlow.
    assert (P1 : (low_bits (value m1) k + R ^ Z.of_nat i * 2 ^ Z.of_nat j) * value m2 <= value m1 * value m2)
      by (apply Z.mul_le_mono_nonneg_r; lia).
    assert (P2 : value m1 * value m2 < R ^ Z.of_nat (length m1) * R ^ Z.of_nat (length m2))
      by (pose proof (Rkpos (length m2)); pose proof (Rkpos (length m1)); nia).
    lia.
  - rewrite E. exists (firstn i u ++ r). split; [reflexivity|]. split; [|split].
    + apply blocks_app. split; auto. apply blocks_firstn; auto.
    + rewrite app_length, B, <- app_length, firstn_skipn. reflexivity.
    + rewrite value_app, firstn_length_le by lia. rewrite C, Sv. cbn [Z.b2z].
      assert (Ep : 2 ^ Z.of_nat k = R ^ Z.of_nat i * 2 ^ Z.of_nat j) by (rewrite Ek; apply pow_split).
      rewrite Ep. lia.
Qed.

Lemma multiply_fold m1 m2 : blocks m1 -> blocks m2 -> forall n k u, (k + n = length m1 * w)%nat -> blocks u ->
  length u = (length m1 + length m2)%nat -> value u = low_bits (value m1) k * value m2 ->
  exists u', fold_opt (mul_step w m1 m2) (map (fun k => ((k / w)%nat, (k mod w)%nat)) (seq k n)) u = Some u'
    /\ blocks u' /\ value u' = low_bits (value m1) (length m1 * w) * value m2.
Proof.
  intros H1 H2. induction n as [|n IH]; intros k u Hk Hu Hl Hv.
  - cbn. exists u. replace (length m1 * w)%nat with k by lia. auto.
  - cbn [seq map fold_opt].
    destruct (@mul_step_spec m1 m2 u k) as (u' & E & A & B & C); auto; [lia|].
    rewrite E. apply IH; auto; lia.
Qed.

Lemma multiply_spec a b : blocks a -> blocks b ->
  exists r, multiply w a b = Some r /\ canonical w r /\ value r = value a * value b.
Proof.
  intros Ha Hb. unfold multiply. destruct a as [|x a].
  { cbn. exists []. split; [reflexivity|]. split; [split; [constructor | cbn; lia] | reflexivity]. }
  destruct b as [|y b].
  { cbn -[BigNumSpec.value]. exists []. split; [reflexivity|]. split; [split; [constructor | cbn; lia] | cbn [BigNumSpec.value]; lia]. }
  cbn [is_zero orb]. rewrite positions_eq.
  destruct (@multiply_fold (x :: a) (y :: b) Ha Hb (length (x :: a) * w) 0 (repeat 0 (length (x :: a) + length (y :: b)))) as (u & E & A & B).
  - lia.
  - apply blocks_zeroes.
  - apply repeat_length.
  - rewrite value_zeroes. unfold low_bits. cbn [Z.of_nat]. rewrite Z.pow_0_r, Z.mod_1_r. lia.
  - rewrite E. exists (zap u). split; auto. split; [apply zap_canonical; auto|]. rewrite zap_value, B.
    f_equal. unfold low_bits. apply Z.mod_small. pose proof (value_bound Ha) as V. rewrite Rk in V.
    replace (Z.of_nat (length (x :: a) * w)) with (Z.of_nat w * Z.of_nat (length (x :: a))) by lia. auto.
Qed.
End P.
