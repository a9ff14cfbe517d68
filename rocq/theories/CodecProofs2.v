(** * Proofs about StringCodec: character sets, whole texts, comparison *)
From Verif Require Import Base Utf8Spec.
From Verif Require Utf8Model Utf8Proofs.
From Verif Require Import CodecModel CodecSpec CodecProofs.
Import Utf8Proofs.
Local Open Scope Z_scope.

(** ** One-byte encodings *)
Definition byte_fun (e : encoding) : option (Z -> Z) :=
  match e with
  | CP1251 => Some u_CP1251 | ISO_8859_1 => Some u_ISO_8859_1 | ISO_8859_2 => Some u_ISO_8859_2 | ISO_8859_3 => Some u_ISO_8859_3
  | ISO_8859_4 => Some u_ISO_8859_4 | ISO_8859_5 => Some u_ISO_8859_5 | ISO_8859_6 => Some u_ISO_8859_6 | ISO_8859_7 => Some u_ISO_8859_7
  | ISO_8859_8 => Some u_ISO_8859_8 | ISO_8859_9 => Some u_ISO_8859_9 | ISO_8859_10 => Some u_ISO_8859_10 | ISO_8859_11 => Some u_ISO_8859_11
  | ISO_8859_13 => Some u_ISO_8859_13 | ISO_8859_14 => Some u_ISO_8859_14 | ISO_8859_15 => Some u_ISO_8859_15
  | ISO_8859_16 => Some u_ISO_8859_16 | _ => None
  end.
Lemma byte_fun_unpack e s : charset e = Some s -> exists f, byte_fun e = Some f /\ unpack_of e = Some (one f).
Proof. destruct e; cbn; intros H; try discriminate; eexists; split; reflexivity. Qed.
Definition scalarb (c : Z) : bool := (0 <=? c) && (c <? 0x110000) && negb ((0xd800 <=? c) && (c <? 0xe000)).
Lemma scalarb_ok c : scalarb c = true -> scalar c.
Proof. unfold scalarb, scalar. rewrite !andb_true_iff, negb_true_iff, andb_false_iff. rewrite !Z.leb_le, !Z.ltb_lt, Z.leb_gt, Z.ltb_ge. lia. Qed.
Definition set_check (e : encoding) (f s : Z -> Z) (b : Z) : bool :=
  (f b =? (if s b =? -1 then unassigned_as e b Invalid else s b)) &&
  (if s b =? -1 then (unassigned_as e b Invalid =? Invalid) || scalarb (unassigned_as e b Invalid) else scalarb (s b)).
Lemma charset_fun e s f : charset e = Some s -> byte_fun e = Some f -> forall b, 0 <= b <= 255 -> set_check e f s b = true.
Proof. destruct e; cbn [charset byte_fun]; intros S F; try discriminate; inversion S; inversion F; subst; apply byte_cases; vm_compute; reflexivity. Qed.
Lemma charset_value e s f b : charset e = Some s -> byte_fun e = Some f -> 0 <= b <= 255 ->
  f b = (if s b =? -1 then unassigned_as e b Invalid else s b) /\
  (s b <> -1 -> scalar (s b)) /\
  (f b <> Invalid -> scalar (f b)).
Proof.
  intros S F B. pose proof (charset_fun e s f S F b B) as C. unfold set_check in C. rewrite andb_true_iff, Z.eqb_eq in C. destruct C as [C1 C2].
  split; [exact C1 | ]. split.
  - intros N. destruct (Z.eqb_spec (s b) (-1)); [congruence | ]. apply scalarb_ok; assumption.
  - intros N. rewrite C1. destruct (s b =? -1); [ | apply scalarb_ok; assumption].
    apply orb_prop in C2. rewrite Z.eqb_eq in C2. destruct C2 as [C2 | C2]; [congruence | apply scalarb_ok; assumption].
Qed.
Lemma unassigned_repl e b repl : (if unassigned_as e b Invalid =? Invalid then repl else unassigned_as e b Invalid) = unassigned_as e b repl \/ 255 < b \/ b < 0.
Proof.
  destruct (Z_lt_dec 255 b); [auto | ]. destruct (Z_lt_dec b 0); [auto | ]. left. unfold unassigned_as. destruct e; try reflexivity.
  destruct (is_one_of _ b); [ | reflexivity]. replace (b + 0xd60 =? Invalid) with false; [reflexivity | ]. symmetry. apply Z.eqb_neq. unfold Invalid. lia.
Qed.

(** ** What the values can be *)
Definition in_range (v : Z) : Prop := v = Invalid \/ 0 <= v < 0x200000.
Lemma lor_bound a b k : 0 <= k -> 0 <= a < 2 ^ k -> 0 <= b < 2 ^ k -> 0 <= Z.lor a b < 2 ^ k.
Proof.
  intros K A B. split; [apply Z.lor_nonneg; lia | ].
  destruct (Z.eq_dec (Z.lor a b) 0) as [-> | N]; [lia | ]. assert (0 <= Z.lor a b) by (apply Z.lor_nonneg; lia).
  apply Z.log2_lt_pow2; [lia | ]. rewrite Z.log2_lor by lia.
  assert (forall x, 0 <= x < 2 ^ k -> 0 < k -> Z.log2 x < k).
  { intros x X P. destruct (Z.eq_dec x 0) as [-> | ]; [cbn; lia | ]. apply Z.log2_lt_pow2; lia. }
  destruct (Z.eq_dec k 0) as [-> | ]; [assert (a = 0) by lia; assert (b = 0) by lia; subst; cbn in N; lia | ].
  apply Z.max_lub_lt; auto with zarith.
Qed.
Lemma land_bound a m k : 0 <= k -> m = 2 ^ k - 1 -> 0 <= Z.land a m < 2 ^ k.
Proof. intros K ->. rewrite land_mod by assumption. apply Z.mod_pos_bound. lia. Qed.
Lemma shl_bound a i k : 0 <= i -> 0 <= k -> 0 <= a < 2 ^ k -> forall n, n = k + i -> 0 <= Z.shiftl a i < 2 ^ n.
Proof. intros I K A n ->. rewrite Z.shiftl_mul_pow2 by assumption. rewrite Z.pow_add_r by assumption. assert (0 < 2 ^ i) by lia. split; nia. Qed.
Lemma pow_le a k n : 0 <= a < 2 ^ k -> 0 <= k <= n -> 0 <= a < 2 ^ n.
Proof. intros A K. assert (2 ^ k <= 2 ^ n) by (apply Z.pow_le_mono_r; lia). lia. Qed.
Lemma utf8_range l : bytes l -> l <> [] -> in_range (fst (unpack_utf8 l)).
Proof.
  intros B N. unfold bytes in B. unfold unpack_utf8. destruct l as [ | a l]; [congruence | ]. inversion B as [ | ? ? Ha B']; subst.
  assert (I : in_range Invalid) by (left; reflexivity).
  destruct (a <=? 0x7f); [right; cbn; lia | ].
  destruct l as [ | b l]; [exact I | ]. destruct ((a =? 0xc0) || (a =? 0xc1) || (0xf5 <=? a)); [exact I | ].
  pose proof (land_bound a 0x1f 5 ltac:(lia) eq_refl). pose proof (land_bound a 0x0f 4 ltac:(lia) eq_refl). pose proof (land_bound a 0x07 3 ltac:(lia) eq_refl).
  assert (M : forall x, 0 <= Z.land x 0x3f < 2 ^ 6) by (intros; apply land_bound; [lia | reflexivity]).
  assert (M6 : forall x, 0 <= Z.shiftl (Z.land x 0x3f) 6 < 2 ^ 12) by (intros; apply (shl_bound _ _ 6); try apply M; lia).
  assert (M12 : forall x, 0 <= Z.shiftl (Z.land x 0x3f) 12 < 2 ^ 18) by (intros; apply (shl_bound _ _ 6); try apply M; lia).
  destruct ((0xc2 <=? a) && (a <=? 0xdf)).
  { right. cbn [fst]. change 0x200000 with (2 ^ 21). apply lor_bound; [lia | | ].
    - apply (pow_le _ 11); [ | lia]. apply (shl_bound _ _ 5); lia.
    - apply (pow_le _ 6); [apply M | lia]. }
  destruct l as [ | c l]; [exact I | ]. destruct ((0xe0 <=? a) && (a <=? 0xef)).
  { right. cbn [fst]. change 0x200000 with (2 ^ 21). apply lor_bound; [lia | apply lor_bound; [lia | | ] | ].
    - apply (pow_le _ 16); [ | lia]. apply (shl_bound _ _ 4); lia.
    - apply (pow_le _ 12); [apply M6 | lia].
    - apply (pow_le _ 6); [apply M | lia]. }
  destruct l as [ | d l]; [exact I | ]. destruct ((0xf0 <=? a) && (a <=? 0xf4)); [ | exact I].
  right. cbn [fst]. change 0x200000 with (2 ^ 21). apply lor_bound; [lia | apply lor_bound; [lia | apply lor_bound; [lia | | ] | ] | ].
    - apply (shl_bound _ _ 3); lia.
    - apply (pow_le _ 18); [apply M12 | lia].
    - apply (pow_le _ 12); [apply M6 | lia].
    - apply (pow_le _ 6); [apply M | lia].
Qed.
Lemma pair_range a b c d : 0 <= a <= 255 -> 0 <= b <= 255 -> 0 <= c <= 255 -> 0 <= d <= 255 ->
  0 <= Z.lor (Z.lor (Z.lor (Z.shiftl (Z.land a 0x03) 18) (Z.shiftl b 10)) (Z.shiftl (Z.land c 0x03) 8)) d < 0x200000.
Proof.
  intros. change 0x200000 with (2 ^ 21). pose proof (land_bound a 0x03 2 ltac:(lia) eq_refl). pose proof (land_bound c 0x03 2 ltac:(lia) eq_refl).
  apply lor_bound; [lia | apply lor_bound; [lia | apply lor_bound; [lia | | ] | ] | ].
  - apply (pow_le _ 20); [ | lia]. apply (shl_bound _ _ 2); lia.
  - apply (pow_le _ 18); [ | lia]. apply (shl_bound _ _ 8); [lia | lia | cbn; lia | lia].
  - apply (pow_le _ 10); [ | lia]. apply (shl_bound _ _ 2); lia.
  - apply (pow_le _ 8); [cbn; lia | lia].
Qed.
Lemma unit_range a b : 0 <= a <= 255 -> 0 <= b <= 255 -> 0 <= Z.lor (Z.shiftl a 8) b < 0x200000.
Proof. intros. rewrite lor_shift by (cbn; lia). lia. Qed.
Ltac invb := repeat match goal with H : Forall _ (_ :: _) |- _ => inversion H; clear H; subst end.
Lemma utf16be_range l : bytes l -> l <> [] -> in_range (fst (unpack_utf16be l)).
Proof.
  intros B N. unfold bytes in B. unfold unpack_utf16be. assert (I : in_range Invalid) by (left; reflexivity).
  destruct l as [ | a [ | b l]]; [congruence | exact I | ].
  destruct ((a <? 0xd8) || (0xdf <? a)); [right; invb; apply unit_range; assumption | ].
  destruct l as [ | c l]; [exact I | ]. destruct (0xdb <? a); [exact I | ]. destruct l as [ | d l]; [exact I | ].
  destruct ((c <? 0xdc) || (0xdf <? c)); [exact I | ]. right. invb. apply pair_range; assumption.
Qed.
Lemma utf16le_range l : bytes l -> l <> [] -> in_range (fst (unpack_utf16le l)).
Proof.
  intros B N. unfold bytes in B. unfold unpack_utf16le. assert (I : in_range Invalid) by (left; reflexivity).
  destruct l as [ | a [ | b l]]; [congruence | exact I | ].
  destruct ((b <? 0xd8) || (0xdf <? b)); [right; invb; apply unit_range; assumption | ].
  destruct l as [ | c l]; [exact I | ]. destruct (0xdb <? b); [exact I | ]. destruct l as [ | d l]; [exact I | ].
  destruct ((d <? 0xdc) || (0xdf <? d)); [exact I | ]. right. invb. apply pair_range; assumption.
Qed.
Lemma loop32be_range n : forall v l, 0 <= v -> bytes l -> in_range (fst (loop32be n v l)).
Proof.
  induction n as [ | n IH]; intros v l V B; cbn [loop32be].
  - cbn. destruct (Z.ltb_spec v 0x110000); [right; lia | left; reflexivity].
  - destruct l as [ | c l]; [left; reflexivity | ]. unfold bytes in B. inversion B; subst. apply IH; [ | assumption].
    apply Z.lor_nonneg. split; [ | lia]. pose proof (Z.mod_pos_bound (Z.shiftl v 8) (2 ^ 32) ltac:(lia)). lia.
Qed.
Lemma loop32le_range k : forall n v l, 0 <= v -> 0 <= n -> bytes l -> in_range (fst (loop32le k n v l)).
Proof.
  induction k as [ | k IH]; intros n v l V N B; cbn [loop32le].
  - cbn. destruct (Z.ltb_spec v 0x110000); [right; lia | left; reflexivity].
  - destruct l as [ | c l]; [left; reflexivity | ]. unfold bytes in B. inversion B; subst. apply IH; [ | lia | assumption].
    apply Z.lor_nonneg. split; [lia | ]. apply Z.shiftl_nonneg. lia.
Qed.
Lemma unpack_range e u l : unpack_of e = Some u -> bytes l -> l <> [] -> in_range (fst (u l)).
Proof.
  intros U B N. destruct (charset e) as [s | ] eqn:S.
  - destruct (byte_fun_unpack e s S) as (f & F & U'). rewrite U in U'. inversion U'; subst. destruct l as [ | c l]; [congruence | ].
    unfold bytes in B. inversion B; subst. cbn. destruct (charset_value e s f c S F ltac:(assumption)) as (_ & _ & V).
    destruct (Z.eq_dec (f c) Invalid) as [E | E]; [left; exact E | ]. right. destruct (V E). lia.
  - destruct e; cbn [charset unpack_of] in S, U; try discriminate; inversion U; subst; auto using utf8_range, utf16be_range, utf16le_range.
    + apply loop32be_range; [lia | assumption].
    + apply loop32le_range; [lia | lia | assumption].
Qed.
Lemma suffix_bytes l p r : bytes l -> l = p ++ r -> bytes r.
Proof. unfold bytes. intros B ->. apply Forall_app in B. tauto. Qed.
Lemma unpacked_range e u : unpack_of e = Some u -> forall l, bytes l -> Forall in_range (unpacked u l).
Proof.
  intros U. pose proof (unpack_progress e u U) as P.
  assert (G : forall n l, (length l <= n)%nat -> bytes l -> Forall in_range (unpacked u l)).
  { induction n as [ | n IH]; intros l L B; (destruct l as [ | c l]; [rewrite unpacked_nil; constructor | ]); [cbn in L; lia | ].
    rewrite unpacked_cons; [ | assumption | discriminate]. constructor; [apply (unpack_range e); [assumption | assumption | discriminate] | ].
    destruct (P (c :: l) ltac:(discriminate)) as (p & E & Lp). apply IH.
    - assert (length (c :: l) = (length p + length (snd (u (c :: l))))%nat) by (rewrite <- app_length, <- E; reflexivity). lia.
    - eapply suffix_bytes; eassumption. }
  intros l B. apply (G (length l)); auto.
Qed.

(** ** Byte order marks *)
Lemma word4 a b c d : 0 <= a <= 255 -> 0 <= b <= 255 -> 0 <= c <= 255 -> 0 <= d <= 255 ->
  Z.lor (Z.lor (Z.lor (Z.shiftl a 24) (Z.shiftl b 16)) (Z.shiftl c 8)) d = a * 2 ^ 24 + b * 2 ^ 16 + c * 2 ^ 8 + d.
Proof.
  intros. replace (Z.shiftl a 24) with (Z.shiftl (Z.shiftl a 8) 16) by (rewrite Z.shiftl_shiftl by lia; reflexivity).
  rewrite <- Z.shiftl_lor. rewrite (lor_shift a b 8) by (cbn; lia).
  replace (Z.shiftl (a * 2 ^ 8 + b) 16) with (Z.shiftl (Z.shiftl (a * 2 ^ 8 + b) 8) 8) by (rewrite Z.shiftl_shiftl by lia; reflexivity).
  rewrite <- Z.shiftl_lor. rewrite (lor_shift (a * 2 ^ 8 + b) c 8) by (cbn; lia). rewrite lor_shift by (cbn; lia). lia.
Qed.
Lemma word2 a b : 0 <= a <= 255 -> 0 <= b <= 255 -> Z.lor (Z.shiftl a 8) b = a * 2 ^ 8 + b.
Proof. intros. apply lor_shift; cbn; lia. Qed.
Definition encoding_of (u : ucs) : encoding :=
  match u with U8 => UTF8 | U16BE => UTF16BE | U16LE => UTF16LE | U32BE => UTF32BE | U32LE => UTF32LE end.
Lemma get_encoding_marked u t : bytes t -> (u = U16LE -> forall r, t <> 0 :: 0 :: r) ->
  get_encoding (mark u ++ t) = (Some (encoding_of u), length (mark u)).
Proof.
  intros B N. unfold bytes in B.
  destruct u; [change (mark U8) with [0xef; 0xbb; 0xbf] | change (mark U16BE) with [0xfe; 0xff] | change (mark U16LE) with [0xff; 0xfe] | |].
  - cbn [app length]. unfold get_encoding. destruct t as [ | d t]; [reflexivity | ]. invb. rewrite word4 by lia. zbool. reflexivity.
  - cbn [app length]. unfold get_encoding. destruct t as [ | c [ | d t]]; [reflexivity | reflexivity | ]. invb. rewrite word4 by lia. zbool. reflexivity.
  - cbn [app length]. unfold get_encoding. destruct t as [ | c [ | d t]]; [reflexivity | reflexivity | ]. invb. rewrite word4 by lia.
    specialize (N eq_refl t). assert (c <> 0 \/ d <> 0) by (destruct (Z.eq_dec c 0), (Z.eq_dec d 0); subst; auto).
    zbool. reflexivity.
  - reflexivity.
  - reflexivity.
Qed.
Lemma bytes_app a b : bytes a -> bytes b -> bytes (a ++ b).
Proof. unfold bytes. intros. apply Forall_app. auto. Qed.
Lemma enc_bytes c : 0 <= c < 0x110000 -> bytes (enc c).
Proof. intros H. apply symbol_bytes, enc_symbol, H. Qed.
Lemma enc_in_bytes u c : carries u c -> bytes (enc_in u c).
Proof.
  intros C. destruct u; cbn [carries enc_in] in C |- *.
  - destruct C. apply enc_bytes. assumption.
  - destruct (bmp_unit c C) as (A & B & _). unfold enc16be, units16. destruct C as [[H S] L]. zbool. cbn [flat_map be16 app]. repeat constructor; lia.
  - destruct (bmp_unit c C) as (A & B & _). unfold enc16le, units16. destruct C as [[H S] L]. zbool. cbn [flat_map le16 app]. repeat constructor; lia.
  - destruct C as [H _]. destruct (bytes32 c ltac:(lia)) as (x & y & z & w & E & Q). rewrite E. repeat constructor; lia.
  - destruct C as [H _]. destruct (bytes32 c ltac:(lia)) as (x & y & z & w & E & Q). unfold enc32le. rewrite E. cbn [rev app]. repeat constructor; lia.
Qed.
Lemma encs_in_bytes u cs : Forall (carries u) cs -> bytes (flat_map (enc_in u) cs).
Proof. intros F. induction F; cbn [flat_map]; [constructor | ]. apply bytes_app; [apply enc_in_bytes; assumption | assumption]. Qed.

(** ** What a spelled text decodes to *)
Lemma unpack_form e u : form e = Some u -> exists f, unpack_of e = Some f /\ forall cs, Forall (carries u) cs -> unpacked f (flat_map (enc_in u) cs) = cs.
Proof.
  intros F. destruct e; cbn in F; inversion F; subst; eexists; (split; [reflexivity | ]); intros cs C; rewrite <- (map_id cs) at 2.
  - apply (unpacked_spelled _ utf8_progress _ _ (carries U8)); [ | assumption]. intros c t [H S]. split; [apply enc_nonempty | apply unpack_utf8_enc; assumption].
  - apply (unpacked_spelled _ utf16be_progress _ _ (carries U16BE)); [ | assumption]. intros c t H. split; [ | apply unpack_utf16be_bmp; exact H].
    cbn [enc_in]. unfold enc16be, units16. destruct (c <? 0x10000); discriminate.
  - apply (unpacked_spelled _ utf16le_progress _ _ (carries U16LE)); [ | assumption]. intros c t H. split; [ | apply unpack_utf16le_bmp; exact H].
    cbn [enc_in]. unfold enc16le, units16. destruct (c <? 0x10000); discriminate.
  - apply (unpacked_spelled _ utf32be_progress _ _ (carries U32BE)); [ | assumption]. intros c t [H S]. split; [discriminate | ].
    cbn [enc_in]. rewrite unpack_utf32be_enc by lia. zbool. reflexivity.
  - apply (unpacked_spelled _ utf32le_progress _ _ (carries U32LE)); [ | assumption]. intros c t [H S]. split; [discriminate | ].
    cbn [enc_in]. rewrite unpack_utf32le_enc by lia. zbool. reflexivity.
Qed.
Lemma form_encoding_of u : form (encoding_of u) = Some u.
Proof. destruct u; reflexivity. Qed.
Lemma unpack_for_plain x : enc_of x <> ISO_10646 -> unpack_for x = (unpack_of (enc_of x), 0%nat).
Proof. intros N. destruct x as [e b]. cbn in N. unfold unpack_for. cbn [enc_of]. destruct e; try reflexivity. congruence. Qed.
Lemma le_head cs : Forall (carries U16LE) cs -> hd_error cs <> Some 0 -> forall r, flat_map (enc_in U16LE) cs <> 0 :: 0 :: r.
Proof.
  intros F N r. destruct cs as [ | c cs]; [discriminate | ]. inversion F as [ | ? ? C F']; subst. cbn [flat_map enc_in]. unfold enc16le at 1, units16.
  cbn [carries] in C. destruct C as [[H S] L]. zbool. cbn [flat_map le16 app]. intros E. inversion E as [[E1 E2]]. apply N. cbn. f_equal.
  pose proof (Z.div_mod c 256 ltac:(lia)). lia.
Qed.
Lemma be_plain cs : Forall bmp cs -> hd_error cs <> Some 0xfeff -> hd_error cs <> Some 0xfffe ->
  (forall d r, cs = 0 :: d :: r -> d <> 0xfeff) -> (forall d r, cs = 0xefbb :: d :: r -> d / 256 <> 0xbf) ->
  fst (get_encoding (flat_map enc16be cs)) = None.
Proof.
  intros F N1 N2 N3 N4. destruct cs as [ | c cs]; [reflexivity | ]. inversion F as [ | ? ? C F']; subst. cbn [flat_map]. destruct (bmp_unit c C) as (A & B & _).
  unfold enc16be at 1, units16. destruct C as [[H S] L]. zbool. cbn [flat_map be16 app].
  assert (X1 : c <> 0xfeff) by (intros ->; apply N1; reflexivity). assert (X2 : c <> 0xfffe) by (intros ->; apply N2; reflexivity).
  pose proof (Z.div_mod c 256 ltac:(lia)) as Ec.
  destruct cs as [ | d cs].
  { cbn [flat_map]. unfold get_encoding. rewrite word2 by lia. set (p := c / 256) in *. set (q := c mod 256) in *. clearbody p q. zbool. reflexivity. }
  inversion F' as [ | ? ? D F'']; subst. cbn [flat_map]. destruct (bmp_unit d D) as (A' & B' & _).
  unfold enc16be at 1, units16. destruct D as [[H' S'] L']. zbool. cbn [flat_map be16 app].
  pose proof (Z.div_mod d 256 ltac:(lia)) as Ed.
  assert (X3 : c = 0 -> d <> 0xfeff) by (intros ->; eapply N3; reflexivity). assert (X4 : c = 0xefbb -> d / 256 <> 0xbf) by (intros ->; eapply N4; reflexivity).
  unfold get_encoding. rewrite word4, word2 by lia. set (p := c / 256) in *. set (q := c mod 256) in *. set (v := d / 256) in *. set (w := d mod 256) in *. clearbody p q v w.
  replace (p * 2 ^ 24 + q * 2 ^ 16 + v * 2 ^ 8 + w =? 0x0000feff) with false by (symmetry; apply Z.eqb_neq; lia).
  replace (p * 2 ^ 24 + q * 2 ^ 16 + v * 2 ^ 8 + w =? 0xfffe0000) with false by (symmetry; apply Z.eqb_neq; lia).
  replace ((p =? 0xef) && (q =? 0xbb) && (v =? 0xbf)) with false.
  2: { symmetry. apply not_true_is_false. rewrite !andb_true_iff, !Z.eqb_eq. intros [[-> ->] ->]. apply X4; lia. }
  replace (p * 2 ^ 8 + q =? 0xfeff) with false by (symmetry; apply Z.eqb_neq; lia).
  replace (p * 2 ^ 8 + q =? 0xfffe) with false by (symmetry; apply Z.eqb_neq; lia). reflexivity.
Qed.
Lemma decode_spelled x cs : spells x cs -> exists u n e, unpack_for x = (Some u, n) /\ unpack_of e = Some u /\ unpacked u (skipn n (bytes_of x)) = cs.
Proof.
  intros S. destruct S as [e u cs F C | e s bs S C | u cs C N | cs C N1 N2 N3 N4].
  - destruct (unpack_form e u F) as (f & U & D). exists f, 0%nat, e. rewrite unpack_for_plain by (cbn; intros ->; discriminate). cbn [enc_of bytes_of skipn].
    rewrite U, D by assumption. auto.
  - destruct (byte_fun_unpack e s S) as (f & F & U). exists (one f), 0%nat, e. rewrite unpack_for_plain by (cbn; intros ->; discriminate). cbn [enc_of bytes_of skipn].
    split; [rewrite U; reflexivity | ]. split; [assumption | ]. rewrite unpacked_one. apply map_ext_in. intros b Hb. rewrite Forall_forall in C. destruct (C b Hb) as [B Nb].
    destruct (charset_value e s f b S F B) as (V & _). rewrite V. destruct (Z.eqb_spec (s b) (-1)); [congruence | reflexivity].
  - destruct (unpack_form _ u (form_encoding_of u)) as (f & U & D). exists f, (length (mark u)), (encoding_of u). unfold unpack_for. cbn [enc_of bytes_of].
    rewrite get_encoding_marked; [ | apply encs_in_bytes; assumption | ].
    + rewrite U. split; [reflexivity | ]. split; [reflexivity | ]. rewrite skipn_app_all. apply D. assumption.
    + intros ->. apply le_head; auto.
  - destruct (unpack_form UTF16BE U16BE eq_refl) as (f & U & D). inversion U; subst f. exists unpack_utf16be, 0%nat, ISO_10646. unfold unpack_for. cbn [enc_of bytes_of skipn].
    pose proof (be_plain cs C N1 N2 N3 N4) as G. destruct (get_encoding (flat_map enc16be cs)) as [o k]. cbn in G. subst o.
    split; [reflexivity | ]. split; [reflexivity | ]. apply D. exact C.
Qed.
Lemma spelled_scalars x cs : spells x cs -> Forall scalar cs.
Proof.
  assert (G : forall u c, carries u c -> scalar c) by (intros [] c H; cbn in H; try assumption; destruct H; assumption).
  intros S. destruct S as [e u cs F C | e s bs S C | u cs C N | cs C].
  - eapply Forall_impl; [ | exact C]. apply G.
  - apply Forall_forall. intros c Hc. apply in_map_iff in Hc. destruct Hc as (b & <- & Hb). rewrite Forall_forall in C. destruct (C b Hb) as [B N].
    destruct (byte_fun_unpack e s S) as (f & F & U). destruct (charset_value e s f b S F B) as (_ & V & _). auto.
  - eapply Forall_impl; [ | exact C]. apply G.
  - eapply Forall_impl; [ | exact C]. intros c Hb. apply Hb.
Qed.

(** ** ToUtf8 *)
Lemma not_invalid c : scalar c -> (c =? Invalid) = false.
Proof. intros [H _]. apply Z.eqb_neq. unfold Invalid. lia. Qed.
Lemma pack_scalars repl cs : Forall scalar cs -> flat_map (fun c => pack_utf8 (if c =? Invalid then repl else c) repl) cs = encs cs.
Proof.
  intros F. induction F as [ | c cs S F IH]; [reflexivity | ]. cbn [flat_map encs]. rewrite not_invalid by assumption. destruct S.
  rewrite pack_utf8_enc by assumption. fold (encs cs). rewrite IH. reflexivity.
Qed.
Lemma to_utf8_spelled x cs repl : spells x cs -> to_utf8 x repl = Some (encs cs).
Proof.
  intros S. destruct (decode_spelled x cs S) as (u & n & e & U & _ & D). pose proof (spelled_scalars x cs S) as F.
  unfold to_utf8. destruct (encoding_eqb (enc_of x) UTF8) eqn:E.
  - destruct S as [e' u' cs F' C | e' s bs S C | u' cs C N | cs C]; cbn [enc_of] in *; try discriminate.
    + destruct e'; cbn in F'; try discriminate. inversion F'; subst. reflexivity.
    + destruct e'; discriminate.
  - rewrite U, D. rewrite pack_scalars by assumption. destruct (enc_of x); try reflexivity. discriminate.
Qed.
Lemma to_utf8_bytes e s bs repl : charset e = Some s -> bytes bs -> scalar repl ->
  to_utf8 (Text e bs) repl = Some (encs (map (fun b => if s b =? -1 then unassigned_as e b repl else s b) bs)).
Proof.
  intros S B R. destruct (byte_fun_unpack e s S) as (f & F & U). unfold to_utf8. cbn [enc_of bytes_of].
  assert (G : flat_map (fun c => pack_utf8 (if c =? Invalid then repl else c) repl) (unpacked (one f) (skipn 0 bs)) = encs (map (fun b => if s b =? -1 then unassigned_as e b repl else s b) bs)).
  { cbn [skipn]. rewrite unpacked_one. unfold bytes in B. induction B as [ | b bs Hb B IH]; [reflexivity | ]. cbn [map flat_map encs].
    fold (encs (map (fun b => if s b =? -1 then unassigned_as e b repl else s b) bs)). rewrite IH. f_equal.
    destruct (charset_value e s f b S F Hb) as (V & Sc & Sf).
    assert (X : (if f b =? Invalid then repl else f b) = (if s b =? -1 then unassigned_as e b repl else s b)).
    { rewrite V. destruct (Z.eqb_spec (s b) (-1)); [ | rewrite not_invalid by auto; reflexivity].
      destruct (unassigned_repl e b repl) as [Q | Q]; [exact Q | lia]. }
    rewrite <- X. destruct (Z.eqb_spec (f b) Invalid) as [E | E].
    - destruct R. apply pack_utf8_enc. assumption.
    - destruct (Sf E). apply pack_utf8_enc. assumption. }
  rewrite (unpack_for_plain (Text e bs)) by (cbn; intros ->; discriminate). cbn [enc_of]. rewrite U, G.
  destruct e; try reflexivity. discriminate.
Qed.

(** ** Compare *)
Lemma compare_loop_spec ua ub (Pa : progress ua) (Pb : progress ub) : forall fuel a b, (length a < fuel)%nat ->
  (compare_loop ua ub fuel a b ?= 0) = lexcmp (map to_int (unpacked ua a)) (map to_int (unpacked ub b)).
Proof.
  induction fuel as [ | f IH]; intros a b L; [lia | ]. cbn [compare_loop].
  destruct a as [ | x a], b as [ | y b]; [reflexivity | | | ].
  - rewrite (unpacked_cons ub Pb) by discriminate. reflexivity.
  - rewrite (unpacked_cons ua Pa) by discriminate. reflexivity.
  - rewrite (unpacked_cons ub Pb), (unpacked_cons ua Pa) by discriminate. destruct (Pa (x :: a) ltac:(discriminate)) as (p & E & Lp).
    destruct (ua (x :: a)) as [ca ra], (ub (y :: b)) as [cb rb]. cbn [fst snd map lexcmp] in *.
    assert (length (x :: a) = (length p + length ra)%nat) by (rewrite <- app_length, <- E; reflexivity).
    destruct (Z.eqb_spec (to_int ca) (to_int cb)) as [Q | Q].
    + rewrite Q, Z.compare_refl. apply IH. lia.
    + destruct (Z.compare_spec (to_int ca) (to_int cb)); [congruence | apply Z.compare_lt_iff; lia | apply Z.compare_gt_iff; lia].
Qed.
Lemma to_int_range v : in_range v -> -1 <= to_int v < 0x200000.
Proof. unfold to_int, in_range, Invalid. intros [-> | H]; [cbn; lia | ]. zbool. lia. Qed.
Lemma compare_loop_range ea eb ua ub : unpack_of ea = Some ua -> unpack_of eb = Some ub -> forall fuel a b, bytes a -> bytes b ->
  - 0x200000 <= compare_loop ua ub fuel a b <= 0x200000.
Proof.
  intros Ua Ub. induction fuel as [ | f IH]; intros a b Ba Bb; cbn [compare_loop]; [lia | ].
  destruct a as [ | x a], b as [ | y b]; try lia.
  pose proof (to_int_range _ (unpack_range ea ua (x :: a) Ua Ba ltac:(discriminate))). pose proof (to_int_range _ (unpack_range eb ub (y :: b) Ub Bb ltac:(discriminate))).
  destruct (unpack_progress ea ua Ua (x :: a) ltac:(discriminate)) as (p & E & _). destruct (unpack_progress eb ub Ub (y :: b) ltac:(discriminate)) as (q & E' & _).
  pose proof (suffix_bytes _ _ _ Ba E). pose proof (suffix_bytes _ _ _ Bb E').
  destruct (ua (x :: a)) as [ca ra], (ub (y :: b)) as [cb rb]. cbn [fst snd] in *.
  destruct (to_int ca =? to_int cb); [apply IH; assumption | lia].
Qed.
Lemma to_int_scalars cs : Forall scalar cs -> map to_int cs = cs.
Proof. intros F. induction F as [ | c cs [H _] F IH]; [reflexivity | ]. cbn. rewrite IH. unfold to_int. zbool. reflexivity. Qed.

(** lexicographic comparison is a total order *)
Lemma lexcmp_refl x : lexcmp x x = Eq.
Proof. induction x; [reflexivity | ]. cbn. rewrite Z.compare_refl. assumption. Qed.
Lemma lexcmp_eq : forall x y, lexcmp x y = Eq -> x = y.
Proof. induction x as [ | a x IH]; intros [ | b y] H; cbn in H; try discriminate; [reflexivity | ]. destruct (Z.compare_spec a b); try discriminate. subst. f_equal. auto. Qed.
Lemma lexcmp_opp : forall x y, lexcmp y x = CompOpp (lexcmp x y).
Proof.
  induction x as [ | a x IH]; intros [ | b y]; cbn; try reflexivity. rewrite (Z.compare_antisym a b). destruct (a ?= b); cbn; auto.
Qed.
Lemma lexcmp_trans : forall x y z, lexcmp x y = Lt -> lexcmp y z = Lt -> lexcmp x z = Lt.
Proof.
  induction x as [ | a x IH]; intros [ | b y] [ | c z] H1 H2; cbn in *; try discriminate; try reflexivity.
  destruct (Z.compare_spec a b), (Z.compare_spec b c); try discriminate; subst.
  - rewrite Z.compare_refl. eauto.
  - replace (b ?= c) with Lt by (symmetry; apply Z.compare_lt_iff; lia). reflexivity.
  - replace (a ?= c) with Lt by (symmetry; apply Z.compare_lt_iff; lia). reflexivity.
  - replace (a ?= c) with Lt by (symmetry; apply Z.compare_lt_iff; lia). reflexivity.
Qed.

(** ** Code pages *)
Lemma cp866_back b : 0 <= b <= 255 -> s_CP866 b <> -2 -> pack_CP866 (s_CP866 b) 0x3f = b /\ u_CP866 b = s_CP866 b /\ scalar (s_CP866 b).
Proof.
  intros B. assert (X : ((s_CP866 b =? -2) || ((pack_CP866 (s_CP866 b) 0x3f =? b) && (u_CP866 b =? s_CP866 b) && scalarb (s_CP866 b))) = true).
  { revert b B. apply byte_cases. vm_compute. reflexivity. }
  intros N. apply orb_prop in X. rewrite !andb_true_iff, !Z.eqb_eq in X. destruct X as [X | [[X1 X2] X3]]; [congruence | ]. auto using scalarb_ok.
Qed.
Lemma cp866_box b : 0 <= b <= 255 -> s_CP866 b = -2 -> u_CP866 b = Invalid /\ 0xb0 <= b <= 0xdf.
Proof.
  intros B. assert (X : (negb (s_CP866 b =? -2) || ((u_CP866 b =? Invalid) && (0xb0 <=? b) && (b <=? 0xdf))) = true).
  { revert b B. apply byte_cases. vm_compute. reflexivity. }
  intros N. apply orb_prop in X. rewrite negb_true_iff, !andb_true_iff, !Z.eqb_eq, Z.eqb_neq, !Z.leb_le in X. tauto.
Qed.
Lemma pack866_spec c : 0 <= c -> 0 <= pack_CP866 c 0x3f <= 255 /\
  (s_CP866 (pack_CP866 c 0x3f) = c \/ pack_CP866 c 0x3f = 0x3f /\ forall b, 0 <= b <= 255 -> s_CP866 b <> c).
Proof.
  intros H. 
  destruct (Z_lt_dec c 0x80) as [L | L].
  { unfold pack_CP866. zbool. split; [lia | ]. left. unfold s_CP866. zbool. reflexivity. }
  destruct (in_dec Z.eq_dec (pack_CP866 c 0x3f) [0x3f]) as [I | I].
  - destruct I as [I | []]. rewrite <- I. split; [lia | ]. right. split; [reflexivity | ]. intros b B E.
    assert (N : s_CP866 b <> -2) by lia. destruct (cp866_back b B N) as (P & _). rewrite E, <- I in P. subst b. change (s_CP866 0x3f) with 0x3f in E. lia.
  - unfold pack_CP866 in *. replace (c <? 0x80) with false in * by (symmetry; apply Z.ltb_ge; lia).
    destruct ((0x0410 <=? c) && (c <=? 0x043f)) eqn:E1.
    { apply andb_prop in E1. rewrite !Z.leb_le in E1. unfold chr. rewrite Z.mod_small by lia. split; [lia | ]. left. unfold s_CP866. zbool. lia. }
    destruct ((0x0440 <=? c) && (c <=? 0x044f)) eqn:E2.
    { apply andb_prop in E2. rewrite !Z.leb_le in E2. unfold chr. rewrite Z.mod_small by lia. split; [lia | ]. left. unfold s_CP866. zbool. lia. }
    repeat (match goal with |- context [if c =? ?k then _ else _] => destruct (Z.eqb_spec c k) as [-> | ?]; [split; [lia | left; reflexivity] | ] end).
    exfalso. apply I. left. reflexivity.
Qed.
