(** Proofs about the bit accessors. *)
From Coq Require Import List ZArith Bool Arith Lia ZifyNat ZifyBool.
From Verif Require Import BitsModel BitsSpec.
Import ListNotations.
Ltac Zify.zify_post_hook ::= Z.div_mod_to_equations.

Definition tb (v : Z) (k : nat) : bool := Z.testbit v (Z.of_nat k).

Lemma tb_ext a b : (forall k, tb a k = tb b k) -> a = b.
Proof.
  intros H. apply Z.bits_inj'. intros n Hn. specialize (H (Z.to_nat n)). unfold tb in H.
  rewrite Z2Nat.id in H by lia. exact H.
Qed.
Lemma tb_trunc w v k : tb (trunc w v) k = (k <? w) && tb v k.
Proof.
  unfold tb, trunc. destruct (Nat.ltb_spec k w).
  - rewrite Z.mod_pow2_bits_low by lia. reflexivity.
  - rewrite Z.mod_pow2_bits_high by lia. reflexivity.
Qed.
Lemma tb_shl v n k : tb (shl v n) k = (n <=? k) && tb v (k - n).
Proof.
  unfold tb, shl. rewrite Z.shiftl_spec by lia. destruct (Nat.leb_spec n k); simpl.
  - f_equal. lia.
  - apply Z.testbit_neg_r. lia.
Qed.
Lemma tb_shr v n k : tb (shr v n) k = tb v (k + n).
Proof. unfold tb, shr. rewrite Z.shiftr_spec by lia. f_equal. lia. Qed.
Lemma tb_lor a b k : tb (Z.lor a b) k = tb a k || tb b k.
Proof. apply Z.lor_spec. Qed.
Lemma tb_land a b k : tb (Z.land a b) k = tb a k && tb b k.
Proof. apply Z.land_spec. Qed.
Lemma tb_ones n k : tb (Z.ones (Z.of_nat n)) k = (k <? n).
Proof.
  unfold tb. destruct (Nat.ltb_spec k n).
  - apply Z.ones_spec_low. lia.
  - apply Z.ones_spec_high. lia.
Qed.
Lemma tb_mask t n k : tb (mask t n) k = (k <? t) && (k <? n).
Proof.
  unfold mask. destruct (Nat.leb_spec t n); rewrite tb_ones; lia.
Qed.
Lemma tb_not8 v k : tb (not8 v) k = (k <? 8) && negb (tb v k).
Proof. unfold not8. rewrite tb_trunc. f_equal. unfold tb. rewrite Z.lnot_spec by lia. reflexivity. Qed.
Lemma tb_0 k : tb 0 k = false.
Proof. unfold tb. apply Z.testbit_0_l. Qed.
Lemma tb_small v w k : (0 <= v < 2 ^ Z.of_nat w)%Z -> w <= k -> tb v k = false.
Proof.
  intros H Hk. unfold tb. destruct (Z.eq_dec v 0) as [->|]; [apply Z.testbit_0_l|].
  apply Z.bits_above_log2; [lia|]. apply Z.log2_lt_pow2; [lia|].
  assert (2 ^ Z.of_nat w <= 2 ^ Z.of_nat k)%Z by (apply Z.pow_le_mono_r; lia). lia.
Qed.
Lemma small_of_tb v w : (0 <= v)%Z -> (forall k, w <= k -> tb v k = false) -> (0 <= v < 2 ^ Z.of_nat w)%Z.
Proof.
  intros Hv H. split; [exact Hv|].
  replace v with (trunc w v).
  - unfold trunc. apply Z.mod_pos_bound. apply Z.pow_pos_nonneg; lia.
  - apply tb_ext. intros k. rewrite tb_trunc. destruct (Nat.ltb_spec k w); simpl; [reflexivity|]. symmetry; apply H. lia.
Qed.
Lemma trunc_small w v : (0 <= v < 2 ^ Z.of_nat w)%Z -> trunc w v = v.
Proof. intros. apply Z.mod_small. exact H. Qed.

Ltac sb := cbn [andb orb negb].

(** ** Fields *)
Lemma field_nonneg buf off size : (0 <= field buf off size)%Z.
Proof. induction size; cbn [field]; [lia|]. destruct (bit_at buf (off + size)); unfold Z.b2z; lia. Qed.
Lemma field_tb buf off size k : tb (field buf off size) k = (k <? size) && bit_at buf (off + size - 1 - k).
Proof.
  revert k. induction size as [|n IH]; intros k; cbn [field].
  - rewrite tb_0. destruct k; reflexivity.
  - destruct k as [|k].
    + unfold tb. rewrite Z.add_comm. cbn [Z.of_nat]. rewrite Z.add_b2z_double_bit0. simpl.
      f_equal. lia.
    + unfold tb. rewrite Z.add_comm, Nat2Z.inj_succ, <- Z.div2_bits by lia.
      rewrite Z.add_b2z_double_div2. fold (tb (field buf off n) k). rewrite IH.
      replace (S k <? S n) with (k <? n) by lia. f_equal. f_equal. lia.
Qed.
Lemma field_bound buf off size : (0 <= field buf off size < 2 ^ Z.of_nat size)%Z.
Proof.
  apply small_of_tb; [apply field_nonneg|]. intros k Hk. rewrite field_tb.
  destruct (Nat.ltb_spec k size); [lia|reflexivity].
Qed.

Lemma bit_at_tb buf k : bit_at buf k = tb (byte buf (k / 8)) (7 - k mod 8).
Proof. reflexivity. Qed.
Lemma bit_at_in buf c j : j < 8 -> bit_at buf (8 * c + j) = tb (byte buf c) (7 - j).
Proof.
  intros Hj. rewrite bit_at_tb. f_equal; [f_equal; lia | lia].
Qed.

(** ** The getter *)
Lemma get_loop_spec fuel t buf : 8 <= t -> forall cur msb count result,
  1 <= msb <= 8 -> count < fuel -> count < prom t + msb ->
  exists r, get_loop fuel t buf cur msb count result = Ok r /\
    forall k, tb r k = (if (count =? 0) then true else (k <? t)) && (tb result k || tb (field buf (8 * cur + (8 - msb)) count) k).
Proof.
  intros Ht. induction fuel as [|fuel IH]; intros cur msb count result Hm Hf Hp; [lia|].
  cbn [get_loop]. destruct (Nat.eqb_spec count 0) as [->|Hc].
  - eexists; split; [reflexivity|]. intros k. cbn [field]. rewrite tb_0, orb_false_r. reflexivity.
  - destruct (Nat.leb_spec count msb).
    + eexists; split; [reflexivity|]. intros k.
      rewrite tb_trunc, tb_lor, tb_land, tb_shr, tb_mask, field_tb.
      destruct (Nat.ltb_spec k t); sb; [|reflexivity].
      f_equal. destruct (Nat.ltb_spec k count); [|rewrite andb_false_r; reflexivity].
      rewrite andb_true_r. sb.
      replace (8 * cur + (8 - msb) + count - 1 - k) with (8 * cur + (8 - msb + count - 1 - k)) by lia.
      rewrite bit_at_in by lia. f_equal. lia.
    + destruct (Nat.leb_spec (prom t) (count - msb)); [lia|].
      destruct (IH (S cur) 8 (count - msb)
        (trunc t (Z.lor result (trunc (prom t) (shl (Z.land (byte buf cur) (mask t msb)) (count - msb))))))
        as (r & Hr & Hb); [lia|lia|lia|].
      exists r. split; [exact Hr|]. intros k. rewrite Hb. replace (count - msb =? 0) with false by lia.
      destruct (Nat.ltb_spec k t); sb; [|reflexivity].
      rewrite tb_trunc, tb_lor, tb_trunc, tb_shl, tb_land, tb_mask, !field_tb.
      replace (k <? t) with true by lia. sb. rewrite <- orb_assoc. f_equal.
      destruct (Nat.ltb_spec k (count - msb)).
      * replace (k <? count) with true by lia. replace (count - msb <=? k) with false by lia.
        sb. rewrite andb_false_r. sb. f_equal. lia.
      * replace (count - msb <=? k) with true by lia. sb. rewrite orb_false_r.
        assert (Hlow : (k - (count - msb) <? t) && (k - (count - msb) <? msb) = (k <? count)) by lia.
        rewrite Hlow. destruct (Nat.ltb_spec k count); [|rewrite !andb_false_r; reflexivity].
        replace (k <? prom t) with true by (unfold prom in *; lia). rewrite andb_true_r. sb.
        replace (8 * cur + (8 - msb) + count - 1 - k) with (8 * cur + (8 - msb + count - 1 - k)) by lia.
        rewrite bit_at_in by lia. f_equal. lia.
Qed.

Lemma get_loop_ub fuel t buf cur msb count result :
  1 <= msb <= 8 -> count < fuel -> prom t + msb <= count -> get_loop fuel t buf cur msb count result = UB.
Proof.
  intros Hm Hf Hp. destruct fuel; [lia|]. cbn [get_loop].
  replace (count =? 0) with false by lia. replace (count <=? msb) with false by (unfold prom in *; lia).
  replace (prom t <=? count - msb) with true by lia. reflexivity.
Qed.

Lemma get_bytes_spec t buf : bytes buf -> 8 <= t -> forall count pos result k, pos + count <= length buf ->
  tb (get_bytes t buf pos count result) k =
  (if count =? 0 then true else k <? t) &&
  (if k <? 8 * count then bit_at buf (8 * pos + 8 * count - 1 - k) else tb result (k - 8 * count)).
Proof.
  intros Hb Ht. induction count as [|n IH]; intros pos result k Hlen; cbn [get_bytes].
  - replace (k <? 8 * 0) with false by lia. rewrite Nat.mul_0_r, Nat.sub_0_r. reflexivity.
  - rewrite IH by lia. replace (S n =? 0) with false by lia.
    assert (Hbyte : (0 <= byte buf pos < 2 ^ Z.of_nat 8)%Z).
    { unfold byte. change (2 ^ Z.of_nat 8)%Z with 256%Z.
      apply (proj1 (Forall_forall _ _) Hb). apply nth_In. lia. }
    destruct (Nat.ltb_spec k (8 * n)) as [H1|H1].
    + replace (k <? 8 * S n) with true by lia. replace (n =? 0) with false by lia. f_equal. f_equal. lia.
    + rewrite tb_trunc, tb_lor, tb_trunc, tb_shl.
      destruct (Nat.ltb_spec k (8 * S n)) as [H2|H2].
      * replace (8 <=? k - 8 * n) with false by lia. sb. rewrite andb_false_r. sb.
        replace (8 * pos + 8 * S n - 1 - k) with (8 * pos + (8 * S n - 1 - k)) by lia.
        rewrite bit_at_in by lia. replace (7 - (8 * S n - 1 - k)) with (k - 8 * n) by lia.
        destruct (Nat.ltb_spec k t) as [H3|H3].
        -- replace (k - 8 * n <? t) with true by lia. destruct (n =? 0); reflexivity.
        -- destruct (Nat.eqb_spec n 0) as [E|E]; sb; [lia|reflexivity].
      * rewrite (tb_small _ _ _ Hbyte) by lia. rewrite orb_false_r.
        replace (8 <=? k - 8 * n) with true by lia. sb.
        replace (k - 8 * n - 8) with (k - 8 * S n) by lia.
        destruct (Nat.ltb_spec k t) as [H3|H3].
        -- replace (k - 8 * n <? t) with true by lia. replace (k - 8 * n <? prom t) with true by (unfold prom; lia).
           destruct (n =? 0); reflexivity.
        -- destruct (Nat.eqb_spec n 0) as [E|E]; sb; [|reflexivity].
           replace (k - 8 * n <? t) with false by lia. reflexivity.
Qed.

(** No undefined shift: the first step of the masked loop is the widest. *)
Definition defined (t off size : nat) : Prop := use_masks off size = false \/ size + off mod 8 < prom t + 8.

Definition get_raw (t : nat) (buf : list Z) (base off size : nat) : out Z :=
  if use_masks off size then get_loop (S size) t buf (base + off / 8) (8 - off mod 8) size 0%Z
  else Ok (get_bytes t buf (base + off / 8) (size / 8) 0%Z).

Lemma tb_field_trunc t buf p size k : tb (field buf p size mod 2 ^ Z.of_nat t) k = (k <? t) && tb (field buf p size) k.
Proof. apply tb_trunc. Qed.

Lemma get_raw_spec t buf base off size : bytes buf -> 8 <= t -> defined t off size ->
  8 * base + off + size <= 8 * length buf ->
  get_raw t buf base off size = Ok (field buf (8 * base + off) size mod 2 ^ Z.of_nat t)%Z.
Proof.
  intros Hb Ht Hd Hlen. unfold get_raw. destruct (use_masks off size) eqn:Hu.
  - destruct Hd as [Hd|Hd]; [congruence|].
    destruct (get_loop_spec (S size) t buf Ht (base + off / 8) (8 - off mod 8) size 0%Z) as (r & Hr & Hk); [lia|lia|lia|].
    rewrite Hr. f_equal. apply tb_ext. intros k. rewrite Hk, tb_field_trunc, tb_0. sb.
    replace (8 * (base + off / 8) + (8 - (8 - off mod 8))) with (8 * base + off) by lia.
    destruct (Nat.eqb_spec size 0) as [->|]; sb; [|reflexivity]. rewrite tb_0, andb_false_r. reflexivity.
  - unfold use_masks in Hu. apply orb_false_iff in Hu. destruct Hu as [H1 H2].
    apply negb_false_iff, Nat.eqb_eq in H1, H2.
    f_equal. apply tb_ext. intros k. rewrite get_bytes_spec, tb_field_trunc, field_tb; [|exact Hb|exact Ht|lia].
    replace (8 * (size / 8)) with size by lia. replace (8 * (base + off / 8)) with (8 * base + off) by lia.
    rewrite tb_0.
    destruct (Nat.eqb_spec (size / 8) 0) as [E|E].
    + assert (size = 0) by lia. subst size. sb. rewrite andb_false_r. reflexivity.
    + destruct (k <? size); sb; [reflexivity|]. reflexivity.
Qed.

Lemma get_raw_ub t buf base off size : use_masks off size = true -> prom t + 8 <= size + off mod 8 ->
  get_raw t buf base off size = UB.
Proof. intros Hu H. unfold get_raw. rewrite Hu. apply get_loop_ub; lia. Qed.

Lemma too_short (buf : list Z) base off size :
  (length buf <? base) || (length buf - base <? required off size) = (8 * length buf <? 8 * base + off + size).
Proof. unfold required. lia. Qed.

Lemma get_unfold be t buf base off size : get be t buf base off size =
  if 8 * length buf <? 8 * base + off + size then Throw
  else bind (get_raw t buf base off size) (fun r => if be then Ok r else get_le t size r).
Proof.
  rewrite <- too_short. unfold get, get_raw.
  destruct (length buf <? base); [reflexivity|]. sb.
  destruct (length buf - base <? required off size); reflexivity.
Qed.

(** ** The setter *)
Lemma put_length buf i v : length (put buf i v) = length buf.
Proof. revert i; induction buf; intros [|i]; simpl; congruence. Qed.
Lemma byte_put buf i v j : i < length buf -> byte (put buf i v) j = if i =? j then v else byte buf j.
Proof.
  revert i j; induction buf as [|x l IH]; intros i j Hi; simpl in Hi; [lia|].
  destruct i, j; simpl; try reflexivity. apply IH. lia.
Qed.
Lemma trunc8_byte v : (0 <= trunc 8 v < 256)%Z.
Proof. unfold trunc. apply Z.mod_pos_bound. reflexivity. Qed.
Lemma bytes_put buf i v : bytes buf -> (0 <= v < 256)%Z -> bytes (put buf i v).
Proof.
  intros H Hv. revert i; induction H; intros [|i]; simpl; constructor; auto. apply IHForall.
Qed.
Lemma bit_at_put buf i v k : i < length buf ->
  bit_at (put buf i v) k = if i =? k / 8 then tb v (7 - k mod 8) else bit_at buf k.
Proof. intros Hi. rewrite !bit_at_tb, byte_put by exact Hi. destruct (i =? k / 8); reflexivity. Qed.

Lemma set_loop_spec fuel t v : 8 <= t -> forall buf cur msb count, bytes buf ->
  1 <= msb <= 8 -> count < fuel -> count < prom t + msb -> 8 * cur + (8 - msb) + count <= 8 * length buf ->
  exists buf', set_loop fuel t buf cur msb count v = Ok buf' /\ bytes buf' /\
    replaced buf buf' (8 * cur + (8 - msb)) count v.
Proof.
  intros Ht. induction fuel as [|fuel IH]; intros buf cur msb count Hby Hm Hf Hp Hlen; [lia|].
  cbn [set_loop]. destruct (Nat.eqb_spec count 0) as [->|Hc].
  - eexists; split; [reflexivity|]. split; [exact Hby|]. split; [reflexivity|]. intros k.
    destruct ((8 * cur + (8 - msb) <=? k) && (k <? 8 * cur + (8 - msb) + 0)) eqn:E; [lia|reflexivity].
  - destruct (Nat.leb_spec count msb) as [Hle|Hgt].
    + eexists; split; [reflexivity|]. split; [apply bytes_put; [exact Hby|apply trunc8_byte]|].
      split; [apply put_length|]. intros k. rewrite bit_at_put by lia.
      destruct (Nat.eqb_spec cur (k / 8)) as [Ek|Ek].
      * rewrite tb_trunc, tb_lor, !tb_land, tb_not8, tb_trunc, !tb_shl, tb_mask, (bit_at_tb buf), <- Ek.
        replace (7 - k mod 8 <? 8) with true by lia. replace (7 - k mod 8 <? prom t) with true by (unfold prom; lia). sb.
        destruct ((8 * cur + (8 - msb) <=? k) && (k <? 8 * cur + (8 - msb) + count)) eqn:E.
        -- replace (msb - count <=? 7 - k mod 8) with true by lia.
           replace (7 - k mod 8 - (msb - count) <? t) with true by lia.
           replace (7 - k mod 8 - (msb - count) <? count) with true by lia. sb.
           rewrite andb_false_r, andb_true_r. sb. unfold tb. f_equal. lia.
        -- assert (F : (msb - count <=? 7 - k mod 8) && ((7 - k mod 8 - (msb - count) <? t) && (7 - k mod 8 - (msb - count) <? count)) = false) by lia.
           rewrite F. rewrite andb_false_r, orb_false_r. sb. rewrite andb_true_r. reflexivity.
      * destruct ((8 * cur + (8 - msb) <=? k) && (k <? 8 * cur + (8 - msb) + count)) eqn:E; [lia|reflexivity].
    + destruct (Nat.leb_spec (prom t) (count - msb)); [lia|].
      set (b1 := put buf cur (trunc 8 (Z.lor (Z.land (byte buf cur) (not8 (mask t msb))) (Z.land (shr v (count - msb)) (mask t msb))))).
      destruct (IH b1 (S cur) 8 (count - msb)) as (buf' & Hr & Hby' & Hl & Hk).
      { apply bytes_put; [exact Hby|apply trunc8_byte]. }
      { lia. } { lia. } { lia. } { unfold b1. rewrite put_length. lia. }
      exists buf'. split; [exact Hr|]. split; [exact Hby'|].
      split; [unfold b1 in Hl; rewrite put_length in Hl; exact Hl|].
      intros k. rewrite Hk. unfold b1. rewrite bit_at_put by lia.
      replace (8 - 8) with 0 by lia.
      destruct ((8 * S cur + 0 <=? k) && (k <? 8 * S cur + 0 + (count - msb))) eqn:E1.
      * replace ((8 * cur + (8 - msb) <=? k) && (k <? 8 * cur + (8 - msb) + count)) with true by lia.
        f_equal. lia.
      * destruct (Nat.eqb_spec cur (k / 8)) as [Ek|Ek].
        -- rewrite tb_trunc, tb_lor, !tb_land, tb_not8, tb_shr, tb_mask, (bit_at_tb buf), <- Ek.
           replace (7 - k mod 8 <? 8) with true by lia. sb.
           destruct ((8 * cur + (8 - msb) <=? k) && (k <? 8 * cur + (8 - msb) + count)) eqn:E.
           ++ replace (7 - k mod 8 <? t) with true by lia.
              replace (7 - k mod 8 <? msb) with true by lia. sb.
              rewrite andb_false_r, andb_true_r. sb. unfold tb. f_equal. lia.
           ++ replace (7 - k mod 8 <? msb) with false by lia.
              rewrite !andb_false_r, orb_false_r. sb. rewrite andb_true_r. reflexivity.
        -- destruct ((8 * cur + (8 - msb) <=? k) && (k <? 8 * cur + (8 - msb) + count)) eqn:E; [lia|reflexivity].
Qed.

Lemma set_loop_ub fuel t buf cur msb count v :
  1 <= msb <= 8 -> count < fuel -> prom t + msb <= count -> set_loop fuel t buf cur msb count v = UB.
Proof.
  intros Hm Hf Hp. destruct fuel; [lia|]. cbn [set_loop].
  replace (count =? 0) with false by lia. replace (count <=? msb) with false by (unfold prom in *; lia).
  replace (prom t <=? count - msb) with true by lia. reflexivity.
Qed.

Lemma set_bytes_spec : forall count buf pos v, bytes buf -> pos + count <= length buf ->
  bytes (set_bytes buf pos count v) /\ replaced buf (set_bytes buf pos count v) (8 * pos) (8 * count) v.
Proof.
  induction count as [|n IH]; intros buf pos v Hby Hlen; cbn [set_bytes].
  - split; [exact Hby|]. split; [reflexivity|]. intros k.
    destruct ((8 * pos <=? k) && (k <? 8 * pos + 8 * 0)) eqn:E; [lia|reflexivity].
  - destruct (IH (put buf (pos + n) (trunc 8 v)) pos (shr v 8)) as (H1 & H2 & H3).
    + apply bytes_put; [exact Hby|apply trunc8_byte].
    + rewrite put_length. lia.
    + rewrite put_length in H2. split; [exact H1|]. split; [exact H2|].
      intros k. rewrite H3, bit_at_put by lia.
      destruct ((8 * pos <=? k) && (k <? 8 * pos + 8 * n)) eqn:E1.
      * replace ((8 * pos <=? k) && (k <? 8 * pos + 8 * S n)) with true by lia.
        fold (tb (shr v 8) (8 * pos + 8 * n - 1 - k)). rewrite tb_shr. unfold tb. f_equal. lia.
      * destruct (Nat.eqb_spec (pos + n) (k / 8)) as [Ek|Ek].
        -- replace ((8 * pos <=? k) && (k <? 8 * pos + 8 * S n)) with true by lia.
           rewrite tb_trunc. replace (7 - k mod 8 <? 8) with true by lia. sb. unfold tb. f_equal. lia.
        -- replace ((8 * pos <=? k) && (k <? 8 * pos + 8 * S n)) with false by lia. reflexivity.
Qed.

Definition set_raw (t : nat) (buf : list Z) (base off size : nat) (v : Z) : out (list Z) :=
  if use_masks off size then set_loop (S size) t buf (base + off / 8) (8 - off mod 8) size v
  else Ok (set_bytes buf (base + off / 8) (size / 8) v).

Lemma set_raw_spec t buf base off size v : bytes buf -> 8 <= t -> defined t off size ->
  8 * base + off + size <= 8 * length buf ->
  exists buf', set_raw t buf base off size v = Ok buf' /\ bytes buf' /\ replaced buf buf' (8 * base + off) size v.
Proof.
  intros Hb Ht Hd Hlen. unfold set_raw. destruct (use_masks off size) eqn:Hu.
  - destruct Hd as [Hd|Hd]; [congruence|].
    destruct (set_loop_spec (S size) t v Ht buf (base + off / 8) (8 - off mod 8) size) as (b & H1 & H2 & H3); [exact Hb|lia|lia|lia|lia|].
    exists b. split; [exact H1|]. split; [exact H2|].
    replace (8 * (base + off / 8) + (8 - (8 - off mod 8))) with (8 * base + off) in H3 by lia. exact H3.
  - unfold use_masks in Hu. apply orb_false_iff in Hu. destruct Hu as [H1 H2].
    apply negb_false_iff, Nat.eqb_eq in H1, H2.
    destruct (set_bytes_spec (size / 8) buf (base + off / 8) v Hb) as [H3 H4]; [lia|].
    eexists; split; [reflexivity|]. split; [exact H3|].
    replace (8 * (size / 8)) with size in H4 by lia. replace (8 * (base + off / 8)) with (8 * base + off) in H4 by lia.
    exact H4.
Qed.

Lemma set_raw_ub t buf base off size v : use_masks off size = true -> prom t + 8 <= size + off mod 8 ->
  set_raw t buf base off size v = UB.
Proof. intros Hu H. unfold set_raw. rewrite Hu. apply set_loop_ub; lia. Qed.

Lemma require_length buf n : length (require_size true buf n) = Nat.max (length buf) n.
Proof. unfold require_size. rewrite app_length, repeat_length. lia. Qed.
Lemma require_twice buf n m : n <= m -> require_size true (require_size true buf n) m = require_size true buf m.
Proof.
  intros H. unfold require_size. rewrite <- app_assoc, <- repeat_app, app_length, repeat_length. do 2 f_equal. lia.
Qed.
Lemma require_bytes grow buf n : bytes buf -> bytes (require_size grow buf n).
Proof.
  intros H. destruct grow; [|exact H]. apply Forall_app. split; [exact H|].
  apply Forall_forall. intros x Hx. apply repeat_spec in Hx. subst x. lia.
Qed.
Lemma require_bit_at grow buf n k : bit_at (require_size grow buf n) k = bit_at buf k.
Proof.
  destruct grow; [|reflexivity]. unfold bit_at, require_size.
  destruct (Nat.lt_ge_cases (k / 8) (length buf)).
  - rewrite app_nth1 by lia. reflexivity.
  - rewrite app_nth2 by lia. rewrite (nth_overflow buf) by lia. f_equal.
    destruct (nth_in_or_default (k / 8 - length buf) (repeat 0%Z (n - length buf)) 0%Z) as [Hi|Hi]; [|exact Hi].
    apply repeat_spec in Hi. exact Hi.
Qed.

Definition set_value (be : bool) (t size : nat) (v : Z) : Z :=
  if be then v else trunc t (swap (minimal size) (trunc (minimal size) v)).

Lemma set_unfold be grow t buf base off size v : set be grow t buf base off size v =
  if negb grow && (8 * length buf <? 8 * base + off + size) then Throw
  else set_raw t (require_size grow buf (base + required off size)) base off size (set_value be t size v).
Proof.
  unfold set. fold (set_value be t size v). cbv zeta.
  destruct grow; sb; sb.
  - rewrite require_twice by lia. rewrite !require_length.
    replace (Nat.max (length buf) base <? base) with false by lia.
    replace (Nat.max (length buf) (base + required off size) - base <? required off size) with false by lia. reflexivity.
  - rewrite <- too_short. simpl require_size.
    destruct (length buf <? base); [reflexivity|]. sb.
    destruct (length buf - base <? required off size); reflexivity.
Qed.

(** Length of the buffer after a write: unchanged, or what the write needs if it grows. *)
Definition new_length (grow : bool) (buf : list Z) (stop : nat) : nat :=
  if grow then Nat.max (length buf) ((stop + 7) / 8) else length buf.

Lemma require_new_length grow buf base off size :
  length (require_size grow buf (base + required off size)) = new_length grow buf (8 * base + off + size).
Proof. destruct grow; [|reflexivity]. rewrite require_length. unfold new_length, required. f_equal. lia. Qed.

Lemma set_spec be grow t buf base off size v : bytes buf -> 8 <= t -> defined t off size ->
  grow = true \/ 8 * base + off + size <= 8 * length buf ->
  exists buf', set be grow t buf base off size v = Ok buf' /\ bytes buf' /\
    length buf' = new_length grow buf (8 * base + off + size) /\
    forall k, bit_at buf' k = if (8 * base + off <=? k) && (k <? 8 * base + off + size)
      then tb (set_value be t size v) (8 * base + off + size - 1 - k) else bit_at buf k.
Proof.
  intros Hb Ht Hd Hlen. rewrite set_unfold.
  replace (negb grow && (8 * length buf <? 8 * base + off + size)) with false
    by (destruct grow; sb; [reflexivity|]; destruct Hlen; [discriminate|]; lia).
  destruct (set_raw_spec t (require_size grow buf (base + required off size)) base off size (set_value be t size v))
    as (b & H1 & H2 & H3 & H4).
  - apply require_bytes. exact Hb.
  - exact Ht.
  - exact Hd.
  - rewrite require_new_length. destruct grow; unfold new_length; [lia|]. destruct Hlen; [discriminate|]. lia.
  - exists b. split; [exact H1|]. split; [exact H2|]. rewrite require_new_length in H3. split; [exact H3|].
    intros k. rewrite H4, require_bit_at. reflexivity.
Qed.
