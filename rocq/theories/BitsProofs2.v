(** Little-endian accessors and bit streams. *)
From Coq Require Import List ZArith Bool Arith Lia ZifyNat ZifyBool.
From Verif Require Import BitsModel BitsSpec BitsProofs.
Import ListNotations.
Ltac Zify.zify_post_hook ::= Z.div_mod_to_equations.

(** ** Byte swapping *)
Lemma tb_255 k : tb 255 k = (k <? 8).
Proof. change 255%Z with (Z.ones (Z.of_nat 8)). apply tb_ones. Qed.

Lemma swap_loop_spec m v : forall i r k, i <= m / 8 ->
  tb (swap_loop m i v r) k = tb r k ||
    ((k / 8 <? m / 8) && (m / 8 - 1 - k / 8 <? i) && tb v (8 * (m / 8 - 1 - k / 8) + k mod 8)).
Proof.
  induction i as [|i IH]; intros r k Hi; cbn [swap_loop].
  - replace (m / 8 - 1 - k / 8 <? 0) with false by lia. rewrite andb_false_r. sb. rewrite orb_false_r. reflexivity.
  - rewrite IH by lia. rewrite tb_lor, tb_shl, tb_land, tb_shr, tb_255, <- orb_assoc. f_equal.
    destruct (Nat.ltb_spec (k / 8) (m / 8)) as [H1|H1]; sb.
    + destruct (Nat.eq_dec (m / 8 - 1 - k / 8) i) as [E|E].
      * replace (m / 8 - 1 - k / 8 <? i) with false by lia. replace (m / 8 - 1 - k / 8 <? S i) with true by lia.
        replace ((m / 8 - i - 1) * 8 <=? k) with true by lia. sb. rewrite orb_false_r.
        replace (k - (m / 8 - i - 1) * 8 <? 8) with true by lia. rewrite andb_true_r. f_equal. lia.
      * replace (m / 8 - 1 - k / 8 <? S i) with (m / 8 - 1 - k / 8 <? i) by lia.
        replace (((m / 8 - i - 1) * 8 <=? k) && (tb v (k - (m / 8 - i - 1) * 8 + 8 * i) && (k - (m / 8 - i - 1) * 8 <? 8))) with false.
        -- reflexivity.
        -- destruct (Nat.leb_spec ((m / 8 - i - 1) * 8) k); sb; [|reflexivity].
           replace (k - (m / 8 - i - 1) * 8 <? 8) with false by lia. rewrite andb_false_r. reflexivity.
    + rewrite orb_false_r. replace (k - (m / 8 - i - 1) * 8 <? 8) with false by lia. rewrite !andb_false_r. reflexivity.
Qed.

Lemma swap_tb m v k : tb (swap m v) k = (k <? 8 * (m / 8)) && tb v (8 * (m / 8 - 1 - k / 8) + k mod 8).
Proof.
  unfold swap. rewrite swap_loop_spec by lia. rewrite tb_0. sb.
  destruct (Nat.ltb_spec k (8 * (m / 8))).
  - replace (k / 8 <? m / 8) with true by lia. replace (m / 8 - 1 - k / 8 <? m / 8) with true by lia. reflexivity.
  - replace (k / 8 <? m / 8) with false by lia. reflexivity.
Qed.

Lemma minimal_word size : word (minimal size).
Proof. unfold minimal, word. destruct (4 <? _); [lia|]. destruct (2 <? _); [lia|]. destruct (1 <? _); lia. Qed.
Lemma minimal_ge size : size <= 64 -> size <= minimal size.
Proof.
  intros H. unfold minimal. destruct (Nat.ltb_spec 4 ((size + 7) / 8)); [lia|].
  destruct (Nat.ltb_spec 2 ((size + 7) / 8)); [lia|]. destruct (Nat.ltb_spec 1 ((size + 7) / 8)); lia.
Qed.
Lemma minimal_le size t : word t -> size <= t -> minimal size <= t.
Proof.
  intros [H|[H|[H|H]]] Hs; unfold minimal; destruct (Nat.ltb_spec 4 ((size + 7) / 8)); try lia;
  destruct (Nat.ltb_spec 2 ((size + 7) / 8)); try lia; destruct (Nat.ltb_spec 1 ((size + 7) / 8)); lia.
Qed.
Lemma minimal_of_word m : word m -> minimal m = m.
Proof. intros [H|[H|[H|H]]]; subst m; reflexivity. Qed.
Lemma word_le64 t : word t -> 8 <= t <= 64.
Proof. unfold word; lia. Qed.
Lemma word_mod8 t : word t -> t mod 8 = 0.
Proof. intros [H|[H|[H|H]]]; subst t; reflexivity. Qed.

Lemma defined_small t off size : word t -> size <= t -> defined t off size.
Proof.
  intros Hw H. unfold defined. destruct (use_masks off size) eqn:Hu; [right|left; reflexivity].
  unfold prom. lia.
Qed.
Lemma defined_32 t off size : size <= 32 -> defined t off size.
Proof.
  intros H. unfold defined. destruct (use_masks off size) eqn:Hu; [right|left; reflexivity].
  unfold prom. lia.
Qed.

(** ** Little-endian reads *)
Lemma get_le_spec t size r : word t -> size <= t -> (0 <= r < 2 ^ Z.of_nat size)%Z ->
  exists x, get_le t size r = Ok x /\
    forall k, tb x k = (7 + 8 * (k / 8) - k mod 8 <? size) && tb r (size - 1 - (7 + 8 * (k / 8) - k mod 8)).
Proof.
  intros Hw Hs Hr. pose proof (minimal_word size) as Hm. pose proof (minimal_le size t Hw Hs) as Hmt.
  pose proof (word_le64 t Hw). pose proof (minimal_ge size ltac:(lia)) as Hge. pose proof (word_mod8 _ Hm) as H8.
  unfold get_le. set (m := minimal size) in *.
  assert (Hp : prom t > m - size).
  { unfold prom, m, minimal. destruct (Nat.ltb_spec 4 ((size + 7) / 8)); [lia|].
    destruct (Nat.ltb_spec 2 ((size + 7) / 8)); [lia|]. destruct (Nat.ltb_spec 1 ((size + 7) / 8)); lia. }
  replace (m <? size) with false by lia. replace (prom t <=? m - size) with false by lia. sb.
  eexists; split; [reflexivity|]. intros k.
  rewrite tb_trunc, swap_tb, !tb_trunc, tb_shl.
  destruct (Nat.ltb_spec (7 + 8 * (k / 8) - k mod 8) size) as [H1|H1]; sb.
  - replace (k <? t) with true by lia. replace (k <? 8 * (m / 8)) with true by lia. sb.
    replace (8 * (m / 8 - 1 - k / 8) + k mod 8 <? m) with true by lia.
    replace (8 * (m / 8 - 1 - k / 8) + k mod 8 <? prom t) with true by (unfold prom; lia).
    replace (m - size <=? 8 * (m / 8 - 1 - k / 8) + k mod 8) with true by lia. sb. f_equal. lia.
  - destruct (Nat.ltb_spec k (8 * (m / 8))); sb; [|rewrite andb_false_r; reflexivity].
    destruct (Nat.leb_spec (m - size) (8 * (m / 8 - 1 - k / 8) + k mod 8)); sb; [lia|].
    rewrite !andb_false_r. reflexivity.
Qed.

Lemma get_le_ok_nonneg t size r x : get_le t size r = Ok x -> (0 <= x)%Z.
Proof.
  unfold get_le. destruct (_ || _); [discriminate|]. intros H. injection H as <-.
  unfold trunc. apply Z.mod_pos_bound. apply Z.pow_pos_nonneg; lia.
Qed.

Lemma tb_add_byte a b k : (0 <= a < 256)%Z -> tb (a + 256 * b) k = if k <? 8 then tb a k else tb b (k - 8).
Proof.
  intros Ha. replace (a + 256 * b)%Z with (Z.lor a (shl b 8)).
  - rewrite tb_lor, tb_shl. destruct (Nat.ltb_spec k 8).
    + replace (8 <=? k) with false by lia. sb. apply orb_false_r.
    + replace (8 <=? k) with true by lia. sb. rewrite (tb_small a 8) by (cbn; lia). reflexivity.
  - assert (Hl : Z.land a (shl b 8) = 0%Z).
    { apply tb_ext. intros j. rewrite tb_land, tb_shl, tb_0. destruct (Nat.leb_spec 8 j); sb.
      - rewrite (tb_small a 8) by (cbn; lia). reflexivity.
      - apply andb_false_r. }
    rewrite <- Z.lxor_lor, <- Z.add_nocarry_lxor by exact Hl. unfold shl. rewrite Z.shiftl_mul_pow2 by lia. cbn [Z.of_nat]. lia.
Qed.

Lemma field_le_tb buf : forall n off k,
  tb (field_le buf off n) k = (k <? 8 * n) && bit_at buf (off + (7 + 8 * (k / 8) - k mod 8)).
Proof.
  induction n as [|n IH]; intros off k; cbn [field_le].
  - rewrite tb_0. replace (k <? 8 * 0) with false by lia. reflexivity.
  - rewrite tb_add_byte by (apply (field_bound buf off 8)).
    destruct (Nat.ltb_spec k 8).
    + rewrite field_tb. replace (k <? 8) with true by lia. replace (k <? 8 * S n) with true by lia. sb.
      f_equal. lia.
    + rewrite IH. replace (k <? 8 * S n) with (k - 8 <? 8 * n) by lia. f_equal. f_equal. lia.
Qed.

(** The value read, for big- and little-endian accessors. *)
Definition readable (be : bool) (t size : nat) : Prop := word t /\ size <= t /\ (be = true \/ size mod 8 = 0).

Lemma get_spec be t buf base off size : bytes buf -> readable be t size ->
  get be t buf base off size =
  if 8 * length buf <? 8 * base + off + size then Throw else Ok (number be buf (8 * base + off) size).
Proof.
  intros Hb (Hw & Hs & He). rewrite get_unfold.
  destruct (Nat.ltb_spec (8 * length buf) (8 * base + off + size)) as [H|H]; [reflexivity|].
  rewrite get_raw_spec; [|exact Hb|unfold word in Hw; lia|apply defined_small; assumption|exact H].
  pose proof (field_bound buf (8 * base + off) size) as Hf.
  assert (2 ^ Z.of_nat size <= 2 ^ Z.of_nat t)%Z by (apply Z.pow_le_mono_r; lia).
  rewrite Z.mod_small by lia. cbn [bind]. destruct be; [reflexivity|].
  destruct He as [He|He]; [discriminate|].
  destruct (get_le_spec t size _ Hw Hs Hf) as (x & Hx & Hk). rewrite Hx. f_equal.
  apply tb_ext. intros k. rewrite Hk, field_tb. cbn [number]. rewrite field_le_tb.
  replace (8 * (size / 8)) with size by lia.
  replace (k <? size) with (7 + 8 * (k / 8) - k mod 8 <? size) by lia.
  destruct (Nat.ltb_spec (7 + 8 * (k / 8) - k mod 8) size); sb; [|reflexivity].
  replace (size - 1 - (7 + 8 * (k / 8) - k mod 8) <? size) with true by lia. sb. f_equal. lia.
Qed.

Lemma number_ext be buf buf' off size : be = true \/ size mod 8 = 0 ->
  (forall k, off <= k < off + size -> bit_at buf' k = bit_at buf k) -> number be buf' off size = number be buf off size.
Proof.
  intros He H. apply tb_ext. intros k. unfold number. destruct be.
  - rewrite !field_tb. destruct (Nat.ltb_spec k size); sb; [|reflexivity]. apply H. lia.
  - destruct He as [He|He]; [discriminate|]. rewrite !field_le_tb.
    destruct (Nat.ltb_spec k (8 * (size / 8))); sb; [|reflexivity]. apply H. lia.
Qed.

Lemma number_bound be buf off size : be = true \/ size mod 8 = 0 -> (0 <= number be buf off size < 2 ^ Z.of_nat size)%Z.
Proof.
  intros He. destruct be; [apply field_bound|]. destruct He as [He|He]; [discriminate|].
  apply small_of_tb.
  - cbn [number]. generalize (size / 8). intros n. revert off. induction n as [|n IH]; intros off; cbn [field_le]; [lia|].
    pose proof (field_bound buf off 8). specialize (IH (off + 8)). lia.
  - intros k Hk. cbn [number]. rewrite field_le_tb. replace (k <? 8 * (size / 8)) with false by lia. reflexivity.
Qed.

(** ** What a write leaves *)
Lemma number_be_after buf off size v :
  (forall k, off <= k < off + size -> bit_at buf k = tb v (off + size - 1 - k)) ->
  field buf off size = (v mod 2 ^ Z.of_nat size)%Z.
Proof.
  intros H. apply tb_ext. intros k. fold (trunc size v). rewrite tb_trunc, field_tb.
  destruct (Nat.ltb_spec k size); sb; [|reflexivity]. rewrite H by lia. f_equal. lia.
Qed.

(** little-endian: what a Get of the same size sees after a Set of [v] *)
Lemma number_le_after t buf off size v : word t -> size <= t -> size mod 8 = 0 -> 0 < size ->
  (forall k, off <= k < off + size -> bit_at buf k = tb (set_value false t size v) (off + size - 1 - k)) ->
  field_le buf off (size / 8) = ((v mod 2 ^ Z.of_nat (minimal size)) / 2 ^ Z.of_nat (minimal size - size))%Z.
Proof.
  intros Hw Hs H8 Hpos H. pose proof (minimal_word size) as Hm. pose proof (minimal_le size t Hw Hs) as Hmt.
  pose proof (word_le64 t Hw). pose proof (minimal_ge size ltac:(lia)) as Hge. pose proof (word_mod8 _ Hm) as Hm8.
  apply tb_ext. intros k. rewrite field_le_tb. replace (8 * (size / 8)) with size by lia.
  fold (trunc (minimal size) v). rewrite <- Z.shiftr_div_pow2 by lia.
  fold (shr (trunc (minimal size) v) (minimal size - size)). rewrite tb_shr, tb_trunc.
  destruct (Nat.ltb_spec k size); sb.
  - replace (k + (minimal size - size) <? minimal size) with true by lia. sb.
    rewrite H by lia. unfold set_value. rewrite tb_trunc, swap_tb, tb_trunc.
    set (j := off + size - 1 - (off + (7 + 8 * (k / 8) - k mod 8))).
    assert (Hj : j = size - 8 - 8 * (k / 8) + k mod 8) by (unfold j; lia).
    replace (j <? t) with true by lia. replace (j <? 8 * (minimal size / 8)) with true by lia. sb.
    assert (E : 8 * (minimal size / 8 - 1 - j / 8) + j mod 8 = k + (minimal size - size)) by lia.
    rewrite E. replace (k + (minimal size - size) <? minimal size) with true by lia. reflexivity.
  - replace (k + (minimal size - size) <? minimal size) with false by lia. reflexivity.
Qed.

(** ** Streams *)
(** an access of [size] bits that round-trips in the given byte order *)
Definition symmetric (be : bool) (t size : nat) : Prop :=
  word t /\ (be = true \/ (word size /\ size <= t)).

Lemma spos_split n : 8 * (n / 8) + n mod 8 = n.
Proof. lia. Qed.

Lemma read_spec be t size s : bytes (sbuf s) -> readable be t size ->
  read be t size s = (skip size s,
    if can_read size s then Ok (number be (sbuf s) (spos s) size) else Throw).
Proof.
  intros Hb Hr. unfold read, skip, can_read. f_equal. rewrite get_spec by assumption.
  rewrite spos_split, Nat.ltb_antisym. destruct (spos s + size <=? 8 * length (sbuf s)); reflexivity.
Qed.

Lemma write_ok be grow t size v s s' : bytes (sbuf s) -> word t ->
  write be grow t size v s = (s', Ok tt) ->
  bytes (sbuf s') /\ spos s' = spos s + size /\
  spos s + size <= 8 * length (sbuf s') /\ length (sbuf s) <= length (sbuf s') /\
  length (sbuf s') = new_length grow (sbuf s) (spos s + size) /\
  forall k, bit_at (sbuf s') k = if (spos s <=? k) && (k <? spos s + size)
    then tb (set_value be t size v) (spos s + size - 1 - k) else bit_at (sbuf s) k.
Proof.
  intros Hb Hw. unfold write. destruct (set be grow t (sbuf s) (spos s / 8) (spos s mod 8) size v) as [b| |] eqn:E;
    intros H; injection H as <-; try discriminate.
  assert (Hlen : grow = true \/ 8 * (spos s / 8) + spos s mod 8 + size <= 8 * length (sbuf s)).
  { destruct grow; [left; reflexivity|right]. rewrite set_unfold in E. cbn [negb andb] in E.
    destruct (Nat.ltb_spec (8 * length (sbuf s)) (8 * (spos s / 8) + spos s mod 8 + size)) as [X|X]; [discriminate|exact X]. }
  assert (Hd : defined t (spos s mod 8) size).
  { unfold defined. destruct (use_masks (spos s mod 8) size) eqn:Hu; [right|left; reflexivity].
    destruct (Nat.lt_ge_cases (size + (spos s mod 8) mod 8) (prom t + 8)) as [X|X]; [exact X|].
    rewrite set_unfold in E. destruct (negb grow && _); [discriminate|].
    rewrite set_raw_ub in E by assumption. discriminate. }
  destruct (set_spec be grow t (sbuf s) (spos s / 8) (spos s mod 8) size v Hb ltac:(unfold word in Hw; lia) Hd Hlen)
    as (b' & H1 & H2 & H3 & H4).
  rewrite E in H1. injection H1 as <-. rewrite spos_split in *. cbn [sbuf spos].
  repeat split; auto.
  - rewrite H3. unfold new_length. destruct grow; [lia|]. destruct Hlen; [discriminate|]. lia.
  - rewrite H3. unfold new_length. destruct grow; lia.
Qed.

Lemma write_number be grow t size v s s' : bytes (sbuf s) -> symmetric be t size ->
  write be grow t size v s = (s', Ok tt) ->
  number be (sbuf s') (spos s) size = (v mod 2 ^ Z.of_nat size)%Z.
Proof.
  intros Hb [Hw He] H. destruct (write_ok _ _ _ _ _ _ _ Hb Hw H) as (H1 & H2 & H3 & H4 & H5 & H6).
  destruct be; cbn [number].
  - apply number_be_after. intros k Hk. rewrite H6.
    replace ((spos s <=? k) && (k <? spos s + size)) with true by lia. reflexivity.
  - destruct He as [He|[He Hle]]; [discriminate|].
    rewrite (number_le_after t _ _ size v Hw Hle).
    + rewrite (minimal_of_word size He), Nat.sub_diag. apply Z.div_1_r.
    + apply word_mod8. exact He.
    + unfold word in He; lia.
    + intros k Hk. rewrite H6. replace ((spos s <=? k) && (k <? spos s + size)) with true by lia. reflexivity.
Qed.

(** What stays readable: everything before the position. *)
Definition same_before (n : nat) (b b' : list Z) : Prop :=
  length b <= length b' /\ forall k, k < n -> bit_at b' k = bit_at b k.

Lemma write_before be grow t size v s s' : bytes (sbuf s) -> word t ->
  write be grow t size v s = (s', Ok tt) -> same_before (spos s) (sbuf s) (sbuf s').
Proof.
  intros Hb Hw H. destruct (write_ok _ _ _ _ _ _ _ Hb Hw H) as (H1 & H2 & H3 & H4 & H5 & H6).
  split; [exact H4|]. intros k Hk. rewrite H6.
  replace (spos s <=? k) with false by lia. reflexivity.
Qed.

Lemma same_before_trans n m b1 b2 b3 : n <= m -> same_before n b1 b2 -> same_before m b2 b3 -> same_before n b1 b3.
Proof.
  intros Hnm [H1 H2] [H3 H4]. split; [lia|]. intros k Hk. rewrite H4 by lia. apply H2. exact Hk.
Qed.

Lemma same_before_number be n b b' off size : be = true \/ size mod 8 = 0 -> off + size <= n ->
  same_before n b b' -> number be b' off size = number be b off size.
Proof. intros He Hn [_ H]. apply number_ext; [exact He|]. intros k Hk. apply H. lia. Qed.

(** Sequences of writes and of reads. *)
Record item := mk_item { i_wt : nat; i_rt : nat; i_size : nat; i_val : Z }.
Fixpoint write_all (be grow : bool) (l : list item) (s : stream) : stream * out unit :=
  match l with
  | [] => (s, Ok tt)
  | i :: l => andthen (write be grow (i_wt i) (i_size i) (i_val i) s) (fun s _ => write_all be grow l s)
  end.
Fixpoint read_all (be : bool) (l : list item) (s : stream) : stream * out (list Z) :=
  match l with
  | [] => (s, Ok [])
  | i :: l => andthen (read be (i_rt i) (i_size i) s) (fun s v =>
      andthen (read_all be l s) (fun s r => (s, Ok (v :: r))))
  end.
Definition item_ok (be : bool) (i : item) : Prop :=
  symmetric be (i_wt i) (i_size i) /\ word (i_rt i) /\ i_size i <= i_rt i.

Lemma item_readable be i : item_ok be i -> readable be (i_rt i) (i_size i).
Proof.
  intros ((_ & H) & Hw & Hs). split; [exact Hw|]. split; [exact Hs|].
  destruct H as [H|[H _]]; [left; exact H|right; apply word_mod8; exact H].
Qed.

Lemma andthen_ok {A B} (x : stream * out A) (f : stream -> A -> stream * out B) s' b :
  andthen x f = (s', Ok b) -> exists s a, x = (s, Ok a) /\ f s a = (s', Ok b).
Proof. destruct x as [s [a| |]]; cbn [andthen]; intros H; try discriminate. exists s, a. split; [reflexivity|exact H]. Qed.

Lemma write_all_ok be grow l : forall s s', Forall (item_ok be) l -> bytes (sbuf s) ->
  write_all be grow l s = (s', Ok tt) -> bytes (sbuf s') /\ same_before (spos s) (sbuf s) (sbuf s') /\
    spos s <= spos s' /\ (l = [] \/ spos s' <= 8 * length (sbuf s')).
Proof.
  induction l as [|i l IH]; intros s s' Hok Hb H; cbn [write_all] in H.
  - injection H as <-. split; [exact Hb|]. split; [split; auto|]. split; [lia|left; reflexivity].
  - inversion Hok as [|? ? Hi Hl]; subst. apply andthen_ok in H. destruct H as (s1 & [] & H1 & H2).
    assert (Hw : word (i_wt i)) by apply Hi.
    destruct (write_ok _ _ _ _ _ _ _ Hb Hw H1) as (B1 & P1 & L1 & L2 & _ & _).
    pose proof (write_before _ _ _ _ _ _ _ Hb Hw H1) as S1.
    destruct (IH _ _ Hl B1 H2) as (B2 & S2 & P2 & L3).
    split; [exact B2|]. split.
    + eapply same_before_trans; [|exact S1|exact S2]. lia.
    + split; [lia|right]. destruct L3 as [->|L3]; [|exact L3]. injection H2 as <-. lia.
Qed.

Lemma read_written be grow l : forall s s', Forall (item_ok be) l -> bytes (sbuf s) ->
  write_all be grow l s = (s', Ok tt) ->
  forall b, bytes b -> same_before (spos s') (sbuf s') b ->
  read_all be l (mk_stream b (spos s)) =
    (mk_stream b (spos s'), Ok (map (fun i => i_val i mod 2 ^ Z.of_nat (i_size i))%Z l)).
Proof.
  induction l as [|i l IH]; intros s s' Hok Hb H b Hbb Hs; cbn [write_all read_all map] in *.
  - injection H as <-. reflexivity.
  - inversion Hok as [|? ? Hi Hl]; subst. apply andthen_ok in H. destruct H as (s1 & [] & H1 & H2).
    assert (Hw : word (i_wt i)) by apply Hi.
    destruct (write_ok _ _ _ _ _ _ _ Hb Hw H1) as (B1 & P1 & L1 & L2 & _ & _).
    destruct (write_all_ok _ _ _ _ _ Hl B1 H2) as (B2 & S2 & P2 & _).
    rewrite read_spec; [|exact Hbb|apply item_readable; exact Hi]. cbn [sbuf spos].
    replace (can_read (i_size i) (mk_stream b (spos s))) with true.
    2: { unfold can_read. cbn [sbuf spos]. destruct S2 as [LL _]. destruct Hs as [LS _]. lia. }
    cbn [andthen]. unfold skip. cbn [sbuf spos]. rewrite <- P1.
    rewrite (IH s1 s' Hl B1 H2 b Hbb Hs). cbn [andthen]. do 3 f_equal.
    assert (He : be = true \/ i_size i mod 8 = 0) by (apply (item_readable be i Hi)).
    assert (Hsb : same_before (spos s1) (sbuf s1) b)
      by (eapply same_before_trans; [|exact S2|exact Hs]; lia).
    rewrite (same_before_number be (spos s1) (sbuf s1) b) by (auto; lia).
    apply (write_number be grow (i_wt i) (i_size i) (i_val i) s s1 Hb (proj1 Hi) H1).
Qed.

(** Arrays as sequences *)
Definition items (wt rt size : nat) (l : list Z) : list item := map (mk_item wt rt size) l.
Lemma write_array_all be grow t rt size l : forall s, write_array be grow t size l s = write_all be grow (items t rt size l) s.
Proof.
  induction l as [|v l IH]; intros s; cbn [write_array write_all items map]; [reflexivity|].
  cbn [i_wt i_size i_val]. destruct (write be grow t size v s) as [s1 [[]| |]]; cbn [andthen]; [apply IH|reflexivity|reflexivity].
Qed.
Lemma read_array_all be wt t size l : forall s, read_array be t size (length l) s = read_all be (items wt t size l) s.
Proof.
  induction l as [|v l IH]; intros s; cbn [length read_array read_all items map]; [reflexivity|].
  cbn [i_rt i_size]. destruct (read be t size s) as [s1 [w| |]]; cbn [andthen]; [|reflexivity|reflexivity].
  rewrite IH. reflexivity.
Qed.

Lemma item8_ok be v : item_ok be (mk_item 8 8 8 v).
Proof. unfold item_ok, symmetric, word; cbn. repeat split; try lia; auto. Qed.
Lemma items8_ok be l : Forall (item_ok be) (items 8 8 8 l).
Proof. apply Forall_forall. intros i Hi. apply in_map_iff in Hi. destruct Hi as (v & <- & _). apply item8_ok. Qed.
Lemma map_bytes l : bytes l -> map (fun i => i_val i mod 2 ^ Z.of_nat (i_size i))%Z (items 8 8 8 l) = l.
Proof.
  intros H. unfold items. rewrite map_map. cbn [i_val i_size]. induction H; cbn [map]; [reflexivity|].
  rewrite IHForall. f_equal. apply Z.mod_small. exact H.
Qed.

Lemma write_all_app be grow l1 : forall l2 s, write_all be grow (l1 ++ l2) s =
  andthen (write_all be grow l1 s) (fun s _ => write_all be grow l2 s).
Proof.
  induction l1 as [|i l1 IH]; intros l2 s; cbn [app write_all]; [reflexivity|].
  destruct (write be grow (i_wt i) (i_size i) (i_val i) s) as [s1 [[]| |]]; cbn [andthen]; [apply IH|reflexivity|reflexivity].
Qed.

(** Reading a shorter array than was written *)
Lemma read_prefix be grow str n : forall s s', bytes str -> n <= length str -> bytes (sbuf s) ->
  write_array be grow 8 8 str s = (s', Ok tt) ->
  read_array be 8 8 n (mk_stream (sbuf s') (spos s)) = (mk_stream (sbuf s') (spos s + 8 * n), Ok (firstn n str)).
Proof.
  intros s s' Hstr Hn Hb H. rewrite (write_array_all be grow 8 8 8) in H.
  rewrite <- (firstn_skipn n str) in H. unfold items in H. rewrite map_app, write_all_app in H.
  apply andthen_ok in H. destruct H as (s1 & [] & H1 & H2). fold (items 8 8 8 (firstn n str)) in H1. fold (items 8 8 8 (skipn n str)) in H2.
  destruct (write_all_ok _ _ _ _ _ (items8_ok be _) Hb H1) as (B1 & _ & _).
  destruct (write_all_ok _ _ _ _ _ (items8_ok be _) B1 H2) as (B2 & S2 & _).
  pose proof (read_written _ _ _ _ _ (items8_ok be _) Hb H1 (sbuf s') B2 S2) as R.
  rewrite <- (read_array_all be 8 8 8), firstn_length_le in R by exact Hn.
  assert (Hf : bytes (firstn n str)) by (apply Forall_forall; intros x Hx; apply (proj1 (Forall_forall _ _) Hstr); rewrite <- (firstn_skipn n str); apply in_or_app; left; exact Hx).
  rewrite map_bytes in R by exact Hf. rewrite R. do 2 f_equal.
  (* position *)
  clear - H1 Hb Hn. assert (G : forall l s s1, bytes (sbuf s) -> write_all be grow (items 8 8 8 l) s = (s1, Ok tt) -> spos s1 = spos s + 8 * length l).
  { induction l as [|v l IH]; intros t t1 Ht H; cbn [items map write_all] in H.
    - injection H as <-. cbn [length]. lia.
    - apply andthen_ok in H. destruct H as (t2 & [] & Ha & Hc). cbn [i_wt i_size i_val] in Ha.
      destruct (write_ok be grow 8 8 v t t2 Ht ltac:(unfold word; lia) Ha) as (Y1 & Y2 & _).
      rewrite (IH _ _ Y1 Hc), Y2. cbn [length]. lia. }
  rewrite (G _ _ _ Hb H1), firstn_length_le by exact Hn. reflexivity.
Qed.

(** Length-prefixed strings *)
Lemma prefixed_round_trip be grow prefix str s s' : bytes str -> bytes (sbuf s) ->
  symmetric be 64 prefix -> prefix <= 64 -> (Z.of_nat (length str) < 2 ^ 64)%Z ->
  write_prefixed be grow prefix str s = (s', Ok tt) ->
  exists pos, snd (read_prefixed be prefix (mk_stream (sbuf s') (spos s))) =
    Ok (firstn (Z.to_nat (Z.of_nat (length str) mod 2 ^ Z.of_nat prefix)) str) /\
    fst (read_prefixed be prefix (mk_stream (sbuf s') (spos s))) = mk_stream (sbuf s') pos /\
    pos = spos s + prefix + 8 * Z.to_nat (Z.of_nat (length str) mod 2 ^ Z.of_nat prefix).
Proof.
  intros Hstr Hb Hsym Hp Hl H. unfold write_prefixed in H. apply andthen_ok in H. destruct H as (s1 & [] & H1 & H2).
  assert (Hi : item_ok be (mk_item 64 64 prefix (Z.of_nat (length str)))).
  { split; [exact Hsym|]. split; [cbn; unfold word; lia|exact Hp]. }
  assert (Hw : word 64) by (unfold word; lia).
  destruct (write_ok _ _ _ _ _ _ _ Hb Hw H1) as (B1 & P1 & L1 & L2 & _ & _).
  assert (H2' := H2). rewrite (write_array_all be grow 8 8 8) in H2'.
  destruct (write_all_ok _ _ _ _ _ (items8_ok be _) B1 H2') as (B2 & S2 & P2 & _).
  unfold read_prefixed. rewrite read_spec; [|exact B2|apply (item_readable be _ Hi)]. cbn [sbuf spos].
  replace (can_read prefix (mk_stream (sbuf s') (spos s))) with true.
  2: { unfold can_read. cbn [sbuf spos]. destruct S2 as [LL _]. lia. }
  cbn [andthen]. unfold skip. cbn [sbuf spos].
  assert (He : be = true \/ prefix mod 8 = 0) by (apply (item_readable be _ Hi)).
  rewrite (same_before_number be (spos s1) (sbuf s1) (sbuf s')) by (auto; lia).
  rewrite (write_number be grow 64 prefix _ s s1 Hb Hsym H1).
  rewrite <- P1. rewrite (read_prefix be grow str _ s1 s'); [|exact Hstr| |exact B1|exact H2].
  - eexists. cbn [fst snd]. split; [reflexivity|]. split; [reflexivity|]. rewrite P1. lia.
  - assert (0 < 2 ^ Z.of_nat prefix)%Z by (apply Z.pow_pos_nonneg; lia).
    pose proof (Z.mod_le (Z.of_nat (length str)) (2 ^ Z.of_nat prefix) ltac:(lia) H). lia.
Qed.

(** Terminated strings *)
Lemma read_until_mono be term : forall n m s r, n <= m ->
  read_until n be term s = r -> snd r <> UB -> read_until m be term s = r.
Proof.
  induction n as [|n IH]; intros m s r Hnm H Hu; [cbn in H; subst r; cbn in Hu; congruence|].
  destruct m as [|m]; [lia|]. cbn [read_until] in *.
  destruct (read be 8 8 s) as [s1 [c| |]] eqn:E; cbn [andthen] in *; [|exact H|exact H].
  destruct (c =? term)%Z; [exact H|].
  destruct (read_until n be term s1) as [s2 o] eqn:E2.
  rewrite (IH m s1 (s2, o)) by (auto; try lia; destruct o; cbn in *; subst r; cbn in *; congruence). exact H.
Qed.

Lemma read_until_written be grow term : (0 <= term < 256)%Z -> forall str s s', bytes str -> bytes (sbuf s) ->
  write_terminated be grow term str s = (s', Ok tt) ->
  read_until (S (length str)) be term (mk_stream (sbuf s') (spos s)) =
    (mk_stream (sbuf s') (spos s + 8 * S (length (until term str))), Ok (until term str)).
Proof.
  intros Hterm. assert (Hw : word 8) by (unfold word; lia).
  assert (Hr : forall b p, bytes b -> read be 8 8 (mk_stream b p) = (mk_stream b (p + 8), if p + 8 <=? 8 * length b then Ok (number be b p 8) else Throw)).
  { intros b p Hbb. rewrite read_spec; [reflexivity|exact Hbb|]. split; [exact Hw|]. split; [lia|right; reflexivity]. }
  assert (Hsym : symmetric be 8 8) by (split; [exact Hw|right; split; [exact Hw|lia]]).
  induction str as [|c str IH]; intros s s' Hstr Hb H; unfold write_terminated in H; cbn [write_array] in H.
  - cbn [andthen] in H. destruct (write_ok _ _ _ _ _ _ _ Hb Hw H) as (B1 & P1 & L1 & _).
    cbn [length until read_until]. rewrite Hr by exact B1. replace (spos s + 8 <=? 8 * length (sbuf s')) with true by lia.
    cbn [andthen]. rewrite (write_number be grow 8 8 term s s' Hb Hsym H).
    rewrite Z.mod_small by (cbn; lia). rewrite Z.eqb_refl. reflexivity.
  - inversion Hstr as [|? ? Hc Hstr']; subst.
    destruct (write be grow 8 8 c s) as [s1 o] eqn:E. destruct o as [[]| |]; cbn [andthen] in H; try discriminate.
    destruct (write_ok _ _ _ _ _ _ _ Hb Hw E) as (B1 & P1 & L1 & L2 & _).
    assert (Hok : exists s2, write_all be grow (items 8 8 8 str ++ [mk_item 8 8 8 term]) s1 = (s2, Ok tt) /\ s2 = s').
    { exists s'. split; [|reflexivity]. rewrite write_all_app, <- write_array_all. rewrite <- H.
      destruct (write_array be grow 8 8 str s1) as [s3 [[]| |]]; cbn [andthen write_all]; [|reflexivity|reflexivity].
      cbn [i_wt i_size i_val]. destruct (write be grow 8 8 term s3) as [s4 [[]| |]]; reflexivity. }
    destruct Hok as (s2 & Hok & ->).
    assert (Hall : Forall (item_ok be) (items 8 8 8 str ++ [mk_item 8 8 8 term])).
    { apply Forall_app. split; [apply items8_ok|]. constructor; [apply item8_ok|constructor]. }
    destruct (write_all_ok be grow _ s1 s' Hall B1 Hok) as (B2 & S2 & _).
    assert (N : number be (sbuf s') (spos s) 8 = c).
    { rewrite (same_before_number be (spos s1) (sbuf s1) (sbuf s')); [|right; reflexivity|lia|exact S2].
      rewrite (write_number be grow 8 8 c s s1 Hb Hsym E). apply Z.mod_small. exact Hc. }
    cbn [length]. change (read_until (S (S (length str))) be term (mk_stream (sbuf s') (spos s))) with
      (andthen (read be 8 8 (mk_stream (sbuf s') (spos s))) (fun s c =>
        if (c =? term)%Z then (s, Ok []) else andthen (read_until (S (length str)) be term s) (fun s l => (s, Ok (c :: l))))).
    rewrite Hr by exact B2. replace (spos s + 8 <=? 8 * length (sbuf s')) with true by (destruct S2 as [LL _]; lia).
    cbn [andthen]. rewrite N. cbn [until]. destruct (c =? term)%Z.
    + cbn [length]. do 2 f_equal; lia.
    + rewrite <- P1. rewrite (IH s1 s' Hstr' B1 H). cbn [andthen length]. do 2 f_equal; lia.
Qed.

Lemma until_length term str : length (until term str) <= length str.
Proof. induction str as [|c l IH]; cbn [until length]; [lia|]. destruct (c =? term)%Z; cbn [length]; lia. Qed.
Lemma until_absent term str : ~ In term str -> until term str = str.
Proof.
  induction str as [|c l IH]; intros H; cbn [until]; [reflexivity|]. destruct (Z.eqb_spec c term) as [->|].
  - exfalso. apply H. left. reflexivity.
  - f_equal. apply IH. intros X. apply H. right. exact X.
Qed.
Lemma until_present term str : until term str = str -> ~ In term str.
Proof.
  induction str as [|c l IH]; cbn [until]; intros H; [intros []|]. destruct (Z.eqb_spec c term) as [->|N]; [discriminate|].
  injection H as H. intros [X|X]; [congruence|]. exact (IH H X).
Qed.

Lemma terminated_round_trip be grow term str s s' : (0 <= term < 256)%Z -> bytes str -> bytes (sbuf s) ->
  write_terminated be grow term str s = (s', Ok tt) ->
  read_terminated be term (mk_stream (sbuf s') (spos s)) =
    (mk_stream (sbuf s') (spos s + 8 * S (length (until term str))), Ok (until term str)).
Proof.
  intros Ht Hstr Hb H. unfold read_terminated. cbn [sbuf].
  apply (read_until_mono be term (S (length str))).
  - (* the string fits the buffer *)
    assert (Hw : word 8) by (unfold word; lia).
    unfold write_terminated in H. apply andthen_ok in H. destruct H as (s1 & [] & H1 & H2).
    rewrite (write_array_all be grow 8 8 8) in H1.
    assert (G : forall l s s1, bytes (sbuf s) -> write_all be grow (items 8 8 8 l) s = (s1, Ok tt) -> bytes (sbuf s1) /\ spos s1 = spos s + 8 * length l).
    { induction l as [|v l IH]; intros t t1 Hbt X; cbn [items map write_all] in X.
      - injection X as <-. cbn [length]. split; [exact Hbt|lia].
      - apply andthen_ok in X. destruct X as (t2 & [] & Ha & Hc). cbn [i_wt i_size i_val] in Ha.
        destruct (write_ok _ _ _ _ _ _ _ Hbt Hw Ha) as (Y1 & Y2 & _).
        destruct (IH _ _ Y1 Hc) as [Z1 Z2]. split; [exact Z1|]. cbn [length]. lia. }
    destruct (G _ _ _ Hb H1) as [B1 P1].
    destruct (write_ok _ _ _ _ _ _ _ B1 Hw H2) as (_ & _ & L & _). lia.
  - apply (read_until_written be grow term Ht str s s' Hstr Hb H).
  - cbn. discriminate.
Qed.
