(** Properties C28 (bit accessors), C29 (little-endian round trip), C30 (bit streams). *)
From Coq Require Import List ZArith Bool Arith Lia ZifyNat ZifyBool.
From Verif Require Import BitsModel BitsSpec BitsProofs BitsProofs2.
Import ListNotations.
Ltac Zify.zify_post_hook ::= Z.div_mod_to_equations.

(** ** C28 *)
(** Get<Offset, Size> into a type of at least Size bits: throws iff the addressed bits are not
    all inside the buffer, otherwise gives the number they form. *)
Theorem C28_get t buf base off size : bytes buf -> word t -> size <= t ->
  get true t buf base off size =
    (if 8 * length buf <? 8 * base + off + size then Throw else Ok (field buf (8 * base + off) size)).
Proof. intros Hb Hw Hs. apply (get_spec true); [exact Hb|]. split; [exact Hw|]. split; [exact Hs|left; reflexivity]. Qed.
Print Assumptions C28_get.

(** Into a narrower type the low bits of that number are delivered, unless the widest shift of
    the loop does not fit the promoted type, which is undefined behaviour. *)
Theorem C28_get_narrow t buf base off size : bytes buf -> word t -> 8 * base + off + size <= 8 * length buf ->
  get true t buf base off size =
    (if use_masks off size && (Nat.max t 32 + 8 <=? size + off mod 8) then UB
     else Ok (field buf (8 * base + off) size mod 2 ^ Z.of_nat t)%Z).
Proof.
  intros Hb Hw Hlen. rewrite get_unfold. replace (8 * length buf <? 8 * base + off + size) with false by lia.
  destruct (use_masks off size && (Nat.max t 32 + 8 <=? size + off mod 8)) eqn:E.
  - apply andb_true_iff in E. destruct E as [E1 E2]. rewrite get_raw_ub; [reflexivity|exact E1|].
    apply Nat.leb_le in E2. exact E2.
  - rewrite get_raw_spec; [reflexivity|exact Hb|unfold word in Hw; lia| |exact Hlen].
    unfold defined. destruct (use_masks off size); [right|left; reflexivity]. cbn [andb] in E.
    apply Nat.leb_gt in E. exact E.
Qed.
Print Assumptions C28_get_narrow.

(** The bits a number obtained by Get consists of. *)
Theorem C28_field_bits buf off size :
  (0 <= field buf off size < 2 ^ Z.of_nat size)%Z /\
  forall i, i < size -> Z.testbit (field buf off size) (Z.of_nat (size - 1 - i)) = bit_at buf (off + i).
Proof.
  split; [apply field_bound|]. intros i Hi. fold (tb (field buf off size) (size - 1 - i)). rewrite field_tb.
  replace (size - 1 - i <? size) with true by lia. cbn [andb]. f_equal. lia.
Qed.
Print Assumptions C28_field_bits.

(** Set<Offset, Size>(v) throws iff the bits are not all inside a buffer that cannot grow, and
    otherwise replaces exactly the addressed bits. *)
Theorem C28_set grow t buf base off size v : bytes buf -> word t -> size <= Nat.max t 32 ->
  match set true grow t buf base off size v with
  | Ok buf' => (grow = true \/ 8 * base + off + size <= 8 * length buf) /\ bytes buf' /\
      length buf' = (if grow then Nat.max (length buf) ((8 * base + off + size + 7) / 8) else length buf) /\
      forall k, bit_at buf' k =
        if (8 * base + off <=? k) && (k <? 8 * base + off + size)
        then Z.testbit v (Z.of_nat (8 * base + off + size - 1 - k)) else bit_at buf k
  | Throw => grow = false /\ 8 * length buf < 8 * base + off + size
  | UB => False
  end.
Proof.
  intros Hb Hw Hs.
  destruct (negb grow && (8 * length buf <? 8 * base + off + size)) eqn:E.
  - rewrite set_unfold, E. apply andb_true_iff in E. destruct E as [E1 E2].
    split; [destruct grow; [discriminate|reflexivity]|lia].
  - assert (Hlen : grow = true \/ 8 * base + off + size <= 8 * length buf).
    { destruct grow; [left; reflexivity|right]. cbn [negb andb] in E. lia. }
    destruct (set_spec true grow t buf base off size v Hb) as (b & H1 & H2 & H3 & H4).
    + unfold word in Hw; lia.
    + unfold defined. destruct (use_masks off size); [right; unfold prom; lia|left; reflexivity].
    + exact Hlen.
    + rewrite H1. split; [exact Hlen|]. split; [exact H2|]. split; [exact H3|exact H4].
Qed.
Print Assumptions C28_set.

(** Get after Set gives v mod 2^Size. *)
Theorem C28_set_get grow t t' buf base off size v buf' : bytes buf -> word t -> word t' -> size <= t' -> size <= Nat.max t 32 ->
  set true grow t buf base off size v = Ok buf' ->
  get true t' buf' base off size = Ok (v mod 2 ^ Z.of_nat size)%Z.
Proof.
  intros Hb Hw Hw' Hs Hst H. pose proof (C28_set grow t buf base off size v Hb Hw Hst) as S. rewrite H in S.
  destruct S as (Hl & Hb' & Hlen & Hk). rewrite C28_get by assumption.
  replace (8 * length buf' <? 8 * base + off + size) with false.
  2: { rewrite Hlen. destruct grow; [lia|]. destruct Hl; [discriminate|]. lia. }
  f_equal. apply number_be_after. intros k Hk'. rewrite Hk.
  replace ((8 * base + off <=? k) && (k <? 8 * base + off + size)) with true by lia. reflexivity.
Qed.
Print Assumptions C28_set_get.

(** A Get of bits disjoint from those of a Set is not affected by it. *)
Theorem C28_set_frame grow t t' buf base off size v buf' base2 off2 size2 : bytes buf -> word t -> word t' -> size2 <= t' ->
  size <= Nat.max t 32 ->
  set true grow t buf base off size v = Ok buf' ->
  8 * base2 + off2 + size2 <= 8 * length buf ->
  8 * base2 + off2 + size2 <= 8 * base + off \/ 8 * base + off + size <= 8 * base2 + off2 ->
  get true t' buf' base2 off2 size2 = get true t' buf base2 off2 size2.
Proof.
  intros Hb Hw Hw' Hs Hst H Hin Hdis. pose proof (C28_set grow t buf base off size v Hb Hw Hst) as S. rewrite H in S.
  destruct S as (Hl & Hb' & Hlen & Hk). rewrite !C28_get by assumption.
  replace (8 * length buf' <? 8 * base2 + off2 + size2) with false by (rewrite Hlen; destruct grow; lia).
  replace (8 * length buf <? 8 * base2 + off2 + size2) with false by lia.
  f_equal. apply (number_ext true); [left; reflexivity|]. intros k Hk'. rewrite Hk.
  replace ((8 * base + off <=? k) && (k <? 8 * base + off + size)) with false by lia. reflexivity.
Qed.
Print Assumptions C28_set_frame.

Example C28_case_get : get true 16 [171; 205; 239]%Z 0 4 12 = Ok 3021%Z.   (* 0xBCD of AB CD EF *)
Proof. vm_compute. reflexivity. Qed.
Example C28_case_set : set true false 16 [255; 255; 255]%Z 0 3 11 5%Z = Ok [224; 23; 255]%Z.
Proof. vm_compute. reflexivity. Qed.
Example C28_case_throw : get true 32 [1; 2; 3]%Z 1 7 10 = Throw /\ set true false 32 [1; 2; 3]%Z 1 7 10 0%Z = Throw.
Proof. vm_compute. split; reflexivity. Qed.
Example C28_case_grow : set true true 32 [1]%Z 1 7 10 1023%Z = Ok [1; 1; 255; 128]%Z.
Proof. vm_compute. reflexivity. Qed.
Example C28_case_ub : get true 32 [1; 2; 3; 4; 5; 6]%Z 0 1 40 = UB.
Proof. vm_compute. reflexivity. Qed.

(** ** C29 *)
(** A little-endian Get of whole bytes gives the number whose least significant byte comes first. *)
Theorem C29_get t buf base off size : bytes buf -> word t -> size <= t -> size mod 8 = 0 ->
  get false t buf base off size =
    (if 8 * length buf <? 8 * base + off + size then Throw else Ok (field_le buf (8 * base + off) (size / 8))).
Proof. intros Hb Hw Hs H8. apply (get_spec false); [exact Hb|]. split; [exact Hw|]. split; [exact Hs|right; exact H8]. Qed.
Print Assumptions C29_get.

(** For any size the field is left-aligned in its byte sequence before the bytes are reversed. *)
Theorem C29_get_bits t buf base off size : bytes buf -> word t -> size <= t -> 8 * base + off + size <= 8 * length buf ->
  exists r, get false t buf base off size = Ok r /\
    forall i j, j < 8 -> Z.testbit r (Z.of_nat (8 * i + j)) = (8 * i + (7 - j) <? size) && bit_at buf (8 * base + off + 8 * i + (7 - j)).
Proof.
  intros Hb Hw Hs Hlen. rewrite get_unfold. replace (8 * length buf <? 8 * base + off + size) with false by lia.
  rewrite get_raw_spec; [|exact Hb|unfold word in Hw; lia|apply defined_small; assumption|exact Hlen].
  pose proof (field_bound buf (8 * base + off) size) as Hf.
  assert (2 ^ Z.of_nat size <= 2 ^ Z.of_nat t)%Z by (apply Z.pow_le_mono_r; lia).
  rewrite Z.mod_small by lia. cbn [bind].
  destruct (get_le_spec t size _ Hw Hs Hf) as (x & Hx & Hk). exists x. split; [exact Hx|].
  intros i j Hj. fold (tb x (8 * i + j)). rewrite Hk, field_tb.
  replace ((8 * i + j) / 8) with i by lia. replace ((8 * i + j) mod 8) with j by lia.
  replace (7 + 8 * i - j) with (8 * i + (7 - j)) by lia.
  destruct (Nat.ltb_spec (8 * i + (7 - j)) size); cbn [andb]; [|reflexivity].
  replace (size - 1 - (8 * i + (7 - j)) <? size) with true by lia. cbn [andb]. f_equal. lia.
Qed.
Print Assumptions C29_get_bits.

(** What Get returns after a little-endian Set of the same whole-byte field: the value as a word
    of 8, 16, 32 or 64 bits, shifted right by the bits that word has more than the field. *)
Theorem C29_set_get_exact grow t t' buf base off size v buf' : bytes buf -> word t -> word t' -> size <= t -> size <= t' ->
  size mod 8 = 0 -> 0 < size ->
  set false grow t buf base off size v = Ok buf' ->
  get false t' buf' base off size =
    Ok ((v mod 2 ^ Z.of_nat (minimal size)) / 2 ^ Z.of_nat (minimal size - size))%Z.
Proof.
  intros Hb Hw Hw' Hs Hs' H8 Hpos H.
  assert (Hlen : grow = true \/ 8 * base + off + size <= 8 * length buf).
  { destruct grow; [left; reflexivity|right]. rewrite set_unfold in H. cbn [negb andb] in H.
    destruct (Nat.ltb_spec (8 * length buf) (8 * base + off + size)); [discriminate|assumption]. }
  destruct (set_spec false grow t buf base off size v Hb ltac:(unfold word in Hw; lia) (defined_small t off size Hw Hs) Hlen)
    as (b & H1 & H2 & H3 & H4).
  rewrite H in H1. injection H1 as <-. rewrite C29_get by assumption.
  replace (8 * length buf' <? 8 * base + off + size) with false.
  2: { rewrite H3. unfold new_length. destruct grow; [lia|]. destruct Hlen; [discriminate|]. lia. }
  f_equal. apply (number_le_after t' buf' (8 * base + off) size v Hw' Hs' H8 Hpos).
  intros k Hk. rewrite H4. replace ((8 * base + off <=? k) && (k <? 8 * base + off + size)) with true by lia.
  unfold set_value. rewrite !tb_trunc. replace (8 * base + off + size - 1 - k <? t) with true by lia.
  replace (8 * base + off + size - 1 - k <? t') with true by lia. reflexivity.
Qed.
Print Assumptions C29_set_get_exact.

(** So fields of 8, 16, 32 and 64 bits round-trip ... *)
Theorem C29_round_trip_partial grow t t' buf base off size v buf' : bytes buf -> word t -> word t' -> word size -> size <= t -> size <= t' ->
  set false grow t buf base off size v = Ok buf' ->
  get false t' buf' base off size = Ok (v mod 2 ^ Z.of_nat size)%Z.
Proof.
  intros Hb Hw Hw' Hws Hs Hs' H.
  rewrite (C29_set_get_exact grow t t' buf base off size v buf') by first [assumption | apply word_mod8; exact Hws | unfold word in Hws; lia].
  rewrite (minimal_of_word size Hws), Nat.sub_diag. f_equal. apply Z.div_1_r.
Qed.
Print Assumptions C29_round_trip_partial.

(** ... and the other whole-byte sizes do not: 24, 40, 48 and 56 bits. *)
Theorem C29_round_trip_refuted : forall size, In size [24; 40; 48; 56] ->
  exists v buf', (0 <= v < 2 ^ Z.of_nat size)%Z /\
    set false false 64 (repeat 0%Z 8) 0 0 size v = Ok buf' /\ get false 64 buf' 0 0 size = Ok 0%Z /\ v = 1%Z.
Proof.
  intros size H. exists 1%Z. cbn [In] in H.
  destruct H as [<-|[<-|[<-|[<-|[]]]]];
  match goal with |- context [set ?a ?b ?c ?d ?e ?f ?g ?h] =>
    let x := eval vm_compute in (set a b c d e f g h) in
    match x with Ok ?l => exists l end end;
  (repeat apply conj; [lia | lia | vm_compute; reflexivity | vm_compute; reflexivity | reflexivity]).
Qed.
Print Assumptions C29_round_trip_refuted.

(** A value held in a type narrower than the field is lost altogether: Set<0, 16>(u8(5)). *)
Theorem C29_narrow_value_refuted :
  set false false 8 [170; 170]%Z 0 0 16 5%Z = Ok [0; 0]%Z /\ set true false 8 [170; 170]%Z 0 0 16 5%Z = Ok [0; 5]%Z.
Proof. vm_compute. split; reflexivity. Qed.
Print Assumptions C29_narrow_value_refuted.

Example C29_case : set false false 32 [0; 0; 0; 0; 0]%Z 0 3 32 305419896%Z = Ok [15; 10; 198; 130; 64]%Z /\
  get false 32 [15; 10; 198; 130; 64]%Z 0 3 32 = Ok 305419896%Z.
Proof. vm_compute. split; reflexivity. Qed.
Example C29_case_24 : get false 32 [17; 34; 51]%Z 0 0 24 = Ok (17 + 256 * 34 + 65536 * 51)%Z.
Proof. vm_compute. reflexivity. Qed.

(** ** C30 *)
(** Read delivers the next Size bits and moves by Size, whether or not it throws; Peek does not
    move; CanRead says whether a read of that size will throw. *)
Theorem C30_read be t size s : bytes (sbuf s) -> word t -> size <= t -> be = true \/ size mod 8 = 0 ->
  read be t size s = (mk_stream (sbuf s) (spos s + size),
    if can_read size s then Ok (number be (sbuf s) (spos s) size) else Throw) /\
  peek be t size s = snd (read be t size s) /\
  (can_read size s = true <-> spos s + size <= 8 * length (sbuf s)).
Proof.
  intros Hb Hw Hs He. split; [apply read_spec; [exact Hb|]; split; [exact Hw|]; split; assumption|].
  split; [reflexivity|]. apply Nat.leb_le.
Qed.
Print Assumptions C30_read.

(** Write replaces the next Size bits and moves by Size; if it throws (exactly when the bits do
    not fit a buffer that cannot grow) nothing has changed. *)
Theorem C30_write grow t size v s : bytes (sbuf s) -> word t -> size <= Nat.max t 32 ->
  match write true grow t size v s with
  | (s', Ok _) => (grow = true \/ spos s + size <= 8 * length (sbuf s)) /\ spos s' = spos s + size /\ bytes (sbuf s') /\
      forall k, bit_at (sbuf s') k =
        if (spos s <=? k) && (k <? spos s + size) then Z.testbit v (Z.of_nat (spos s + size - 1 - k)) else bit_at (sbuf s) k
  | (s', Throw) => s' = s /\ grow = false /\ 8 * length (sbuf s) < spos s + size
  | (_, UB) => False
  end.
Proof.
  intros Hb Hw Hs. unfold write.
  pose proof (C28_set grow t (sbuf s) (spos s / 8) (spos s mod 8) size v Hb Hw Hs) as H.
  destruct (set true grow t (sbuf s) (spos s / 8) (spos s mod 8) size v) as [b| |]; [|split; [reflexivity|]|exact H].
  - rewrite spos_split in H. cbn [sbuf spos]. destruct H as (H1 & H2 & H3 & H4). repeat split; assumption.
  - rewrite spos_split in H. exact H.
Qed.
Print Assumptions C30_write.

(** A sequence of writes, read back with the same sizes from where it started, gives the same
    values (mod 2^Size) and ends where the writes ended. *)
Theorem C30_sequence_round_trip be grow l s s' : bytes (sbuf s) ->
  Forall (fun i => (word (i_wt i) /\ (be = true \/ (word (i_size i) /\ i_size i <= i_wt i))) /\
                   word (i_rt i) /\ i_size i <= i_rt i) l ->
  write_all be grow l s = (s', Ok tt) ->
  read_all be l (seek (spos s) s') = (s', Ok (map (fun i => i_val i mod 2 ^ Z.of_nat (i_size i))%Z l)).
Proof.
  intros Hb Hok H. pose proof (write_all_ok be grow l s s' Hok Hb H) as (B & _).
  pose proof (read_written be grow l s s' Hok Hb H (sbuf s') B (conj (le_n _) (fun k _ => eq_refl))) as R.
  destruct s'. exact R.
Qed.
Print Assumptions C30_sequence_round_trip.

(** The sequence of big-endian writes into a fixed buffer succeeds when it fits. *)
Theorem C30_sequence_fits l : forall s, bytes (sbuf s) ->
  Forall (fun i => word (i_wt i) /\ i_size i <= Nat.max (i_wt i) 32) l ->
  spos s + list_sum (map i_size l) <= 8 * length (sbuf s) ->
  exists s', write_all true false l s = (s', Ok tt) /\ spos s' = spos s + list_sum (map i_size l) /\ length (sbuf s') = length (sbuf s).
Proof.
  induction l as [|i l IH]; intros s Hb Hok Hfit.
  - exists s. cbn. repeat split. lia.
  - inversion Hok as [|? ? [Hw Hs] Hl]; subst.
    change (list_sum (map i_size (i :: l))) with (i_size i + list_sum (map i_size l)) in *.
    pose proof (C30_write false (i_wt i) (i_size i) (i_val i) s Hb Hw Hs) as W.
    destruct (write true false (i_wt i) (i_size i) (i_val i) s) as [s1 [[]| |]] eqn:E; [| lia | contradiction].
    destruct W as (_ & P1 & B1 & _).
    pose proof (write_ok _ _ _ _ _ _ _ Hb Hw E) as (_ & _ & _ & _ & L & _). cbn [new_length] in L.
    destruct (IH s1 B1 Hl) as (s' & H1 & H2 & H3); [lia|].
    exists s'. cbn [write_all]. rewrite E. cbn [andthen]. split; [exact H1|]. split; lia.
Qed.
Print Assumptions C30_sequence_fits.

(** Length-prefixed strings and arrays: what comes back is the string cut to its length modulo
    2^prefix; so it round-trips iff the length fits the prefix. *)
Theorem C30_length_prefixed be grow prefix str s s' : bytes str -> bytes (sbuf s) -> prefix <= 64 ->
  be = true \/ word prefix -> (Z.of_nat (length str) < 2 ^ 64)%Z ->
  write_prefixed be grow prefix str s = (s', Ok tt) ->
  snd (read_prefixed be prefix (seek (spos s) s')) = Ok (firstn (Z.to_nat (Z.of_nat (length str) mod 2 ^ Z.of_nat prefix)) str) /\
  (snd (read_prefixed be prefix (seek (spos s) s')) = Ok str <-> (Z.of_nat (length str) < 2 ^ Z.of_nat prefix)%Z) /\
  sbuf (fst (read_prefixed be prefix (seek (spos s) s'))) = sbuf s'.
Proof.
  intros Hstr Hb Hp He Hl H.
  assert (Hsym : symmetric be 64 prefix).
  { split; [unfold word; lia|]. destruct He as [He|He]; [left; exact He|right; split; assumption]. }
  destruct (prefixed_round_trip be grow prefix str s s' Hstr Hb Hsym Hp Hl H) as (pos & H1 & H2 & _).
  unfold seek. rewrite H1, H2. split; [reflexivity|]. split; [|reflexivity].
  assert (Hpow : (0 < 2 ^ Z.of_nat prefix)%Z) by (apply Z.pow_pos_nonneg; lia).
  pose proof (Z.mod_pos_bound (Z.of_nat (length str)) (2 ^ Z.of_nat prefix) Hpow) as Hmod.
  split.
  - intros E. injection E as E. apply (f_equal (@length Z)) in E. rewrite firstn_length in E.
    pose proof (Z.mod_le (Z.of_nat (length str)) (2 ^ Z.of_nat prefix) ltac:(lia) Hpow). lia.
  - intros E. f_equal. rewrite Z.mod_small by lia. rewrite Nat2Z.id. apply firstn_all.
Qed.
Print Assumptions C30_length_prefixed.

Theorem C30_length_prefix_refuted : exists str s s', bytes str /\ length str = 256 /\
  write_prefixed true true 8 str s = (s', Ok tt) /\ snd (read_prefixed true 8 (seek (spos s) s')) = Ok [].
Proof.
  exists (repeat 65%Z 256), (mk_stream [] 0), (fst (write_prefixed true true 8 (repeat 65%Z 256) (mk_stream [] 0))).
  split; [|split; [reflexivity|]].
  - apply Forall_forall. intros x Hx. apply repeat_spec in Hx. subst x. lia.
  - split; vm_compute; reflexivity.
Qed.
Print Assumptions C30_length_prefix_refuted.

(** Terminated strings come back up to their first terminator, so they round-trip iff they
    contain none. *)
Theorem C30_null_terminated be grow str s s' : bytes str -> bytes (sbuf s) ->
  write_terminated be grow 0 str s = (s', Ok tt) ->
  snd (read_terminated be 0 (seek (spos s) s')) = Ok (until 0 str) /\
  (snd (read_terminated be 0 (seek (spos s) s')) = Ok str <-> ~ In 0%Z str) /\
  (~ In 0%Z str -> spos (fst (read_terminated be 0 (seek (spos s) s'))) = spos s + 8 * (length str + 1)).
Proof.
  intros Hstr Hb H. unfold seek. rewrite (terminated_round_trip be grow 0%Z str s s' ltac:(lia) Hstr Hb H).
  cbn [fst snd spos]. split; [reflexivity|]. split; [split|].
  - intros E. injection E as E. apply until_present. exact E.
  - intros E. f_equal. apply until_absent. exact E.
  - intros E. rewrite until_absent by exact E. lia.
Qed.
Print Assumptions C30_null_terminated.

Example C30_case_sequence :
  let l := [mk_item 8 8 3 5%Z; mk_item 32 32 17 70000%Z; mk_item 64 64 33 (2 ^ 33 - 2)%Z; mk_item 8 32 1 1%Z] in
  exists s', write_all true false l (mk_stream (repeat 170%Z 7) 2) = (s', Ok tt) /\
    spos s' = 56 /\ snd (read_all true l (seek 2 s')) = Ok [5; 70000; 2 ^ 33 - 2; 1]%Z.
Proof. eexists. split; [vm_compute; reflexivity|]. split; vm_compute; reflexivity. Qed.
Example C30_case_prefixed : exists s', write_prefixed false true 16 [104; 105]%Z (mk_stream [] 0) = (s', Ok tt) /\
  sbuf s' = [2; 0; 104; 105]%Z.
Proof. eexists. split; vm_compute; reflexivity. Qed.
Example C30_case_terminated : exists s', write_terminated true false 0 [104; 105]%Z (mk_stream (repeat 1%Z 4) 4) = (s', Ok tt) /\
  snd (read_terminated true 0 (seek 4 s')) = Ok [104; 105]%Z.
Proof. eexists. split; [vm_compute; reflexivity|]. vm_compute. reflexivity. Qed.
Example C30_case_throw : write true false 8 8 0 (mk_stream [1; 2]%Z 9) = (mk_stream [1; 2]%Z 9, Throw) /\
  read true 8 8 (mk_stream [1; 2]%Z 9) = (mk_stream [1; 2]%Z 17, Throw).
Proof. vm_compute. split; reflexivity. Qed.

(** AtEnd says that the last byte has been passed *)
Theorem C30_at_end s : at_end s = true <-> 8 * length (sbuf s) <= spos s.
Proof.
  unfold at_end. rewrite Nat.leb_le. split; intros H.
  - pose proof (Nat.div_mod (spos s) 8). lia.
  - apply Nat.div_le_lower_bound; lia.
Qed.
Print Assumptions C30_at_end.
