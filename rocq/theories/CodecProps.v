(** * Properties of StringCodec and LocaleString *)
From Verif Require Import Base Utf8Spec.
From Verif Require Utf8Model Utf8Proofs.
From Verif Require Import CodecModel CodecSpec CodecProofs CodecProofs2.
Local Open Scope Z_scope.

(** ** Decoding never reads past the end, always moves on, and gives a value of at most 21 bits or the invalid mark *)
Theorem C72_unpack_in_bounds e u l : unpack_of e = Some u -> bytes l -> l <> [] ->
  exists p, l = p ++ snd (u l) /\ (1 <= length p <= 4)%nat /\ (fst (u l) = Invalid \/ 0 <= fst (u l) < 0x200000).
Proof.
  intros U B N. destruct (unpack_progress e u U l N) as (p & E & L). exists p. split; [exact E | ]. split; [exact L | ]. exact (unpack_range e u l U B N).
Qed.
Print Assumptions C72_unpack_in_bounds.
(** a table read out of bounds would show as -7: there is none, for any byte and any one-byte encoding *)
Theorem C72_tables_in_bounds e s b : charset e = Some s -> 0 <= b <= 255 -> forall u, unpack_of e = Some u -> fst (u [b]) <> -7.
Proof.
  intros S B u U. destruct (C72_unpack_in_bounds e u [b] U ltac:(repeat constructor; lia) ltac:(discriminate)) as (p & _ & _ & V). unfold Invalid in V. lia.
Qed.
Print Assumptions C72_tables_in_bounds.

(** ** ToUtf8 *)
(** a text that is the standard encoding of some characters becomes their UTF-8 *)
Theorem C72_to_utf8 x cs repl : spells x cs -> to_utf8 x repl = Some (encs cs).
Proof. apply to_utf8_spelled. Qed.
Print Assumptions C72_to_utf8.
(** any bytes at all, in a one-byte encoding: valid UTF-8, one character for each byte, the standard one where the byte is assigned *)
Theorem C72_to_utf8_one_byte e s bs repl : charset e = Some s -> bytes bs -> scalar repl ->
  let cs := map (fun b => if s b =? -1 then unassigned_as e b repl else s b) bs in
  to_utf8 (Text e bs) repl = Some (encs cs) /\ Forall scalar cs.
Proof.
  intros S B R cs. split; [apply to_utf8_bytes; assumption | ]. unfold cs. apply Forall_forall. intros c Hc. apply in_map_iff in Hc. destruct Hc as (b & <- & Hb).
  unfold bytes in B. rewrite Forall_forall in B. destruct (byte_fun_unpack e s S) as (f & F & U). destruct (charset_value e s f b S F (B b Hb)) as (V & Sc & Sf).
  destruct (Z.eqb_spec (s b) (-1)) as [E | E]; [ | auto].
  destruct (unassigned_repl e b repl) as [Q | Q]; [ | specialize (B b Hb); lia]. rewrite <- Q, <- V.
  destruct (Z.eqb_spec (f b) Invalid); auto.
Qed.
Print Assumptions C72_to_utf8_one_byte.
(** encodings without a decoder are refused by every operation *)
Theorem C72_unsupported e bs y repl page : e = ISO_8859_12 \/ e = KSX1001_2004 \/ e = GB_2312_1980 \/ e = ISO_10646_big5 ->
  to_utf8 (Text e bs) repl = None /\ compare (Text e bs) y = None /\ compare y (Text e bs) = None /\ to_code_page (Text e bs) page = None.
Proof.
  intros H. assert (U : unpack_for (Text e bs) = (None, 0%nat)) by (destruct H as [-> | [-> | [-> | ->]]]; reflexivity).
  unfold to_utf8, compare, to_code_page. rewrite U. repeat split; [ | destruct (unpack_for y) as [[] ?]; reflexivity].
  destruct H as [-> | [-> | [-> | ->]]]; reflexivity.
Qed.
Print Assumptions C72_unsupported.
(** FromUtf8 and ToUtf8 are inverse on any bytes *)
Theorem C72_utf8_identity s repl : to_utf8 (from_utf8 s) repl = Some s.
Proof. reflexivity. Qed.
Print Assumptions C72_utf8_identity.
(** equal characters, equal UTF-8: ToUtf8 forgets the encoding and nothing else *)
Theorem C72_to_utf8_injective x y cs ds repl : spells x cs -> spells y ds -> to_utf8 x repl = to_utf8 y repl -> cs = ds.
Proof.
  intros X Y E. rewrite (C72_to_utf8 x cs repl X), (C72_to_utf8 y ds repl Y) in E. inversion E as [E'].
  pose proof (spelled_scalars x cs X) as Fx. pose proof (spelled_scalars y ds Y) as Fy.
  apply CodecProofs2.lexcmp_eq. rewrite <- (Utf8Proofs.cmp_encs cs ds) by assumption. rewrite E', (Utf8Proofs.cmp_encs ds ds) by assumption. apply lexcmp_refl.
Qed.
Print Assumptions C72_to_utf8_injective.

(** ** UTF-16 and UTF-32 *)
(** every scalar value in UTF-32; a larger number is invalid *)
Theorem C72_utf32 c t : 0 <= c < 2 ^ 32 ->
  unpack_utf32be (enc32be c ++ t) = (if c <? 0x110000 then c else Invalid, t) /\
  unpack_utf32le (enc32le c ++ t) = (if c <? 0x110000 then c else Invalid, t).
Proof. intros H. split; [apply unpack_utf32be_enc | apply unpack_utf32le_enc]; assumption. Qed.
Print Assumptions C72_utf32.
(** UTF-16: right in the BMP; a surrogate pair gives the code point less 0x10000 *)
Theorem C72_utf16_partial c t : scalar c ->
  unpack_utf16be (enc16be c ++ t) = (if c <? 0x10000 then c else c - 0x10000, t) /\
  unpack_utf16le (enc16le c ++ t) = (if c <? 0x10000 then c else c - 0x10000, t).
Proof.
  intros S. destruct (Z.ltb_spec c 0x10000).
  - split; [apply unpack_utf16be_bmp | apply unpack_utf16le_bmp]; split; assumption.
  - destruct S. split; [apply unpack_utf16be_sup | apply unpack_utf16le_sup]; lia.
Qed.
Print Assumptions C72_utf16_partial.
(** so the claim for all characters is false: U+1F600 in UTF-16 comes out as U+F600, and is the same text as U+F600 *)
Theorem C72_utf16_refuted : scalar 0x1f600 /\ to_utf8 (Text UTF16BE (enc16be 0x1f600)) 0x3f = Some (encs [0xf600]) /\
  to_utf8 (Text UTF16LE (enc16le 0x1f600)) 0x3f = Some (encs [0xf600]) /\
  compare (Text UTF16BE (enc16be 0x1f600)) (Text UTF16BE (enc16be 0xf600)) = Some 0 /\ encs [0xf600] <> encs [0x1f600].
Proof. split; [apply scalarb_ok; reflexivity | ]. repeat split; try (vm_compute; reflexivity). discriminate. Qed.
Print Assumptions C72_utf16_refuted.

(** malformed UTF-16: a low surrogate alone, a high surrogate at the end or before anything but a low surrogate, an odd byte *)
Theorem C72_utf16_malformed u v t : 0 <= u < 0x10000 -> 0 <= v < 0x10000 ->
  (0xdc00 <= u < 0xe000 -> unpack_utf16be (be16 u ++ t) = (Invalid, t) /\ unpack_utf16le (le16 u ++ t) = (Invalid, t)) /\
  (0xd800 <= u < 0xdc00 -> unpack_utf16be (be16 u) = (Invalid, []) /\ unpack_utf16le (le16 u) = (Invalid, [])) /\
  (0xd800 <= u < 0xdc00 -> ~ (0xdc00 <= v < 0xe000) ->
     unpack_utf16be (be16 u ++ be16 v ++ t) = (Invalid, t) /\ unpack_utf16le (le16 u ++ le16 v ++ t) = (Invalid, t)) /\
  (forall b, unpack_utf16be [b] = (Invalid, []) /\ unpack_utf16le [b] = (Invalid, [])).
Proof.
  intros Hu Hv. unfold be16, le16. pose proof (Z.mod_pos_bound u 256 ltac:(lia)). pose proof (Z.mod_pos_bound v 256 ltac:(lia)).
  pose proof (Z.div_mod u 256 ltac:(lia)). pose proof (Z.div_mod v 256 ltac:(lia)).
  set (a := u / 256) in *. set (b := u mod 256) in *. set (c := v / 256) in *. set (d := v mod 256) in *. clearbody a b c d. subst u v.
  cbn [app]. unfold unpack_utf16be, unpack_utf16le. split; [ | split; [ | split]].
  - intros L. Utf8Proofs.zbool. destruct t as [ | x [ | y t]]; split; reflexivity.
  - intros L. Utf8Proofs.zbool. split; reflexivity.
  - intros L N. Utf8Proofs.zbool. replace ((c <? 0xdc) || (0xdf <? c)) with true by (symmetry; apply orb_true_iff; rewrite !Z.ltb_lt; lia). split; reflexivity.
  - split; reflexivity.
Qed.
Print Assumptions C72_utf16_malformed.

(** ** Byte order marks *)
Theorem C72_bom u cs repl : Forall (carries u) cs -> (u = U16LE -> hd_error cs <> Some 0) ->
  to_utf8 (Text ISO_10646 (mark u ++ flat_map (enc_in u) cs)) repl = Some (encs cs).
Proof. intros F N. apply C72_to_utf8. constructor; assumption. Qed.
Print Assumptions C72_bom.
(** the exception is real: a marked UTF-16LE text of U+0000 'A' is read as UTF-32LE and loses the U+0000 *)
Theorem C72_bom_refuted : Forall (carries U16LE) [0; 0x41] /\
  to_utf8 (Text ISO_10646 (mark U16LE ++ flat_map (enc_in U16LE) [0; 0x41])) 0x3f = Some (encs [0x3f]).
Proof. split; [ | vm_compute; reflexivity]. repeat (apply Forall_cons; [split; [split; lia | lia] | ]). apply Forall_nil. Qed.
Print Assumptions C72_bom_refuted.

(** ** Compare, < and == *)
Definition supported (x : text) : Prop := ~ In (enc_of x) [ISO_8859_12; KSX1001_2004; GB_2312_1980; ISO_10646_big5].
(** Compare orders texts lexicographically by a list of numbers that depends on the one text only; for a standard text, its characters *)
Theorem C72_compare : exists key : text -> list Z,
  (forall x cs, spells x cs -> key x = cs) /\
  (forall a b, supported a -> supported b -> exists z, compare a b = Some z /\ (z ?= 0) = lexcmp (key a) (key b) /\
    (bytes (bytes_of a) -> bytes (bytes_of b) -> - 0x200000 <= z <= 0x200000)).
Proof.
  exists (fun x => match unpack_for x with (Some u, n) => map to_int (unpacked u (skipn n (bytes_of x))) | _ => [] end). split.
  - intros x cs S. destruct (decode_spelled x cs S) as (u & n & e & U & _ & D). rewrite U, D. apply to_int_scalars. apply (spelled_scalars x); assumption.
  - assert (G : forall x, supported x -> exists e u n, unpack_for x = (Some u, n) /\ unpack_of e = Some u).
    { intros x S. destruct (encoding_eqb (enc_of x) ISO_10646) eqn:E.
      - destruct x as [e b]. cbn in E. destruct e; try discriminate. unfold unpack_for. cbn [enc_of bytes_of].
        assert (K : forall e n, get_encoding b = (Some e, n) -> exists u, form e = Some u).
        { intros e n. unfold get_encoding. destruct b as [ | b0 [ | b1 [ | b2 [ | b3 b]]]];
          repeat match goal with |- context [if ?t then _ else _] => destruct t end; intros K; inversion K; eexists; reflexivity. }
        destruct (get_encoding b) as [[e | ] n].
        + destruct (K e n eq_refl) as [u F]. destruct (unpack_form e u F) as (f & U & _). exists e, f, n. rewrite U. auto.
        + exists ISO_10646, unpack_utf16be, 0%nat. auto.
      - exists (enc_of x). destruct x as [e b]. unfold supported in S. cbn in S.
        rewrite unpack_for_plain by (cbn; intros X; rewrite X in E; discriminate). cbn [enc_of].
        destruct e; try (do 2 eexists; split; [reflexivity | reflexivity]); exfalso; tauto. }
    intros a b Sa Sb. destruct (G a Sa) as (ea & ua & na & Ua & Va). destruct (G b Sb) as (eb & ub & nb & Ub & Vb).
    unfold compare. rewrite Ua, Ub. eexists. split; [reflexivity | ]. split.
    + apply compare_loop_spec; eauto using unpack_progress.
    + intros Ba Bb. eapply compare_loop_range; try eassumption.
      * eapply suffix_bytes; [exact Ba | symmetry; apply firstn_skipn].
      * eapply suffix_bytes; [exact Bb | symmetry; apply firstn_skipn].
Qed.
Print Assumptions C72_compare.
(** for standard texts: by their characters, whatever the two encodings *)
Theorem C72_compare_spelled a b cs ds : spells a cs -> spells b ds -> exists z, compare a b = Some z /\ (z ?= 0) = lexcmp cs ds.
Proof.
  intros Sa Sb. destruct C72_compare as (key & K & C).
  assert (G : forall x l, spells x l -> supported x).
  { intros x l S. unfold supported. destruct S as [e u l' F | e s bs F | |]; cbn [enc_of]; try (cbn; intuition discriminate);
      destruct e; cbn in F; try discriminate; cbn; intuition discriminate. }
  destruct (C a b (G _ _ Sa) (G _ _ Sb)) as (z & E & L & _). exists z. rewrite (K a cs Sa), (K b ds Sb) in L. auto.
Qed.
Print Assumptions C72_compare_spelled.
(** < is a strict weak order on supported texts *)
Theorem C72_less_strict_weak_order a b c : supported a -> supported b -> supported c ->
  less a a = Some false /\
  (less a b = Some true -> less b a = Some false) /\
  (less a b = Some true -> less b c = Some true -> less a c = Some true) /\
  (less a b = Some false -> less b a = Some false -> less b c = Some false -> less c b = Some false -> less a c = Some false /\ less c a = Some false).
Proof.
  intros Sa Sb Sc. destruct C72_compare as (key & _ & C).
  assert (G : forall x y, supported x -> supported y -> less x y = Some (match lexcmp (key x) (key y) with Lt => true | _ => false end)).
  { intros x y Sx Sy. destruct (C x y Sx Sy) as (z & E & L & _). unfold less. rewrite E. cbn. f_equal. rewrite <- L. reflexivity. }
  rewrite !G by assumption. split; [rewrite lexcmp_refl; reflexivity | ]. split; [ | split].
  - rewrite (lexcmp_opp (key a) (key b)). destruct (lexcmp (key a) (key b)); intros H; try discriminate; reflexivity.
  - destruct (lexcmp (key a) (key b)) eqn:E1; intros H1; try discriminate. destruct (lexcmp (key b) (key c)) eqn:E2; intros H2; try discriminate.
    rewrite (lexcmp_trans _ _ _ E1 E2). reflexivity.
  - rewrite (lexcmp_opp (key a) (key b)), (lexcmp_opp (key b) (key c)). 
    destruct (lexcmp (key a) (key b)) eqn:E1; intros H1 H2; try discriminate. destruct (lexcmp (key b) (key c)) eqn:E2; intros H3 H4; try discriminate.
    apply lexcmp_eq in E1, E2. rewrite <- E2, <- E1. rewrite lexcmp_refl. auto.
Qed.
Print Assumptions C72_less_strict_weak_order.
(** == : bytes in one encoding; in two encodings, equal characters and equal sizes in bytes *)
Theorem C72_equal a b cs ds : spells a cs -> spells b ds ->
  exists r, equal a b = Some r /\
  (r = true -> cs = ds) /\
  (enc_of a = enc_of b -> r = true <-> bytes_of a = bytes_of b) /\
  (enc_of a <> enc_of b -> r = true <-> cs = ds /\ length (bytes_of a) = length (bytes_of b)).
Proof.
  intros Sa Sb. assert (Q : encoding_eqb (enc_of a) (enc_of b) = true <-> enc_of a = enc_of b).
  { split; [destruct (enc_of a), (enc_of b); intros X; try reflexivity; discriminate | intros ->; destruct (enc_of b); reflexivity]. }
  unfold equal. destruct (encoding_eqb (enc_of a) (enc_of b)) eqn:E.
  - destruct Q as [Q _]. specialize (Q eq_refl). eexists. split; [reflexivity | ]. destruct (list_eq_dec Z.eq_dec (bytes_of a) (bytes_of b)) as [L | L].
    + split; [ | split; [tauto | congruence]]. intros _. destruct a as [ea ba], b as [eb bb]. cbn in Q, L. subst.
      destruct (decode_spelled _ cs Sa) as (u & n & e & U & _ & D). destruct (decode_spelled _ ds Sb) as (u' & n' & e' & U' & _ & D').
      rewrite U in U'. inversion U'; subst. reflexivity.
    + split; [discriminate | ]. split; [ | congruence]. intros _. split; [discriminate | congruence].
  - assert (N : enc_of a <> enc_of b) by (intros X; apply Q in X; discriminate).
    destruct (Nat.eqb_spec (length (bytes_of a)) (length (bytes_of b))) as [L | L]; cbn [negb].
    + destruct (C72_compare_spelled a b cs ds Sa Sb) as (z & C & Z). rewrite C. cbn. eexists. split; [reflexivity | ]. rewrite Z.eqb_eq.
      assert (X : z = 0 <-> cs = ds).
      { rewrite <- Z.compare_eq_iff, Z. split; [apply lexcmp_eq | intros ->; apply lexcmp_refl]. }
      rewrite X. split; [auto | ]. split; [congruence | tauto].
    + eexists. split; [reflexivity | ]. split; [discriminate | ]. split; [congruence | ]. intros _. split; [discriminate | tauto].
Qed.
Print Assumptions C72_equal.
(** so == is not "Compare gives 0": one letter in two encodings, sizes 1 and 2 *)
Theorem C72_equal_is_compare_refuted : exists a b cs, spells a cs /\ spells b cs /\ compare a b = Some 0 /\ equal a b = Some false.
Proof.
  exists (Text ISO_8859_1 [0xe9]), (Text UTF8 (flat_map (enc_in U8) [0xe9])), [0xe9]. split; [ | split; [ | split; vm_compute; reflexivity]].
  - apply (Sp_set ISO_8859_1 s_8859_1 [0xe9]); [reflexivity | ]. apply Forall_cons; [unfold s_8859_1; lia | apply Forall_nil].
  - apply (Sp_form UTF8 U8 [0xe9]); [reflexivity | ]. apply Forall_cons; [split; lia | apply Forall_nil].
Qed.
Print Assumptions C72_equal_is_compare_refuted.
(** and on malformed texts == is not transitive *)
Theorem C72_equal_transitive_refuted : exists a b c, equal a b = Some true /\ equal b c = Some true /\ equal a c = Some false.
Proof. exists (Text UTF8 [0xc0]), (Text ISO_8859_3 [0xa5]), (Text UTF8 [0xc1]). repeat split; vm_compute; reflexivity. Qed.
Print Assumptions C72_equal_transitive_refuted.

(** ** Code pages *)
(** ToCodePage 866: each character becomes the byte that stands for it, or '?' if none does *)
Theorem C72_to_cp866 x cs : spells x cs -> exists bs, to_code_page x 866 = Some bs /\
  Forall2 (fun c b => 0 <= b <= 255 /\ (s_CP866 b = c \/ b = 0x3f /\ forall k, 0 <= k <= 255 -> s_CP866 k <> c)) cs bs.
Proof.
  intros S. destruct (decode_spelled x cs S) as (u & n & e & U & _ & D). unfold to_code_page. rewrite U, D. eexists. split; [reflexivity | ].
  pose proof (spelled_scalars x cs S) as F. clear - F. induction F as [ | c cs [H _] F IH]; [constructor | ]. cbn [map]. constructor; [ | exact IH].
  cbn [page_pack]. change (page_pack 866 c 63) with (pack_CP866 c 0x3f). apply pack866_spec. lia.
Qed.
Print Assumptions C72_to_cp866.
(** any other page: ASCII or '?' *)
Theorem C72_to_other_page x cs page : spells x cs -> page <> 866 -> to_code_page x page = Some (map (fun c => if c <? 0x80 then c else 0x3f) cs).
Proof.
  intros S N. destruct (decode_spelled x cs S) as (u & n & e & U & _ & D). unfold to_code_page. rewrite U, D. f_equal. apply map_ext. intros c.
  unfold page_pack. rewrite (proj2 (Z.eqb_neq page 866)) by assumption. reflexivity.
Qed.
Print Assumptions C72_to_other_page.
(** FromCodePage: the standard characters; a replacement where the page has none (866: also for the box drawing characters) *)
Definition page_char (page b repl : Z) : Z :=
  if page =? 866 then (if s_CP866 b =? -2 then repl else s_CP866 b)
  else if page =? 1251 then (if s_CP1251 b =? -1 then 0 else s_CP1251 b)
  else if b <? 0x80 then b else repl.
Theorem C72_from_code_page bs page repl : bytes bs -> scalar repl ->
  spells (from_code_page bs page repl) (map (fun b => page_char page b repl) bs).
Proof.
  intros B R.
  assert (V : forall b, 0 <= b <= 255 -> scalar (page_char page b repl) /\
     (if page_unpack page b =? Invalid then repl else page_unpack page b) = page_char page b repl).
  { intros b Hb. unfold page_char, page_unpack. destruct (page =? 866); [ | destruct (page =? 1251)].
    - destruct (Z.eqb_spec (s_CP866 b) (-2)) as [E | E].
      + destruct (cp866_box b Hb E) as [-> _]. split; [assumption | reflexivity].
      + destruct (cp866_back b Hb E) as (_ & -> & S). split; [assumption | ]. rewrite not_invalid by assumption. reflexivity.
    - destruct (charset_value CP1251 s_CP1251 u_CP1251 b eq_refl eq_refl Hb) as (V & S1 & S2). rewrite V. cbn [unassigned_as].
      destruct (Z.eqb_spec (s_CP1251 b) (-1)) as [E | E]; [split; [ | reflexivity] | ].
      + apply scalarb_ok. reflexivity.
      + split; [auto | rewrite not_invalid by auto; reflexivity].
    - unfold u_ASCII. destruct (Z.ltb_spec b 0x80).
      + assert (scalar b) by (split; lia). split; [assumption | rewrite not_invalid by assumption; reflexivity].
      + split; [assumption | reflexivity]. }
  unfold from_code_page. rewrite unpacked_one.
  assert (E : flat_map (fun ucs => pack_utf8 (if ucs =? Invalid then repl else ucs) repl) (map (page_unpack page) bs) =
              flat_map (enc_in U8) (map (fun b => page_char page b repl) bs)).
  { unfold bytes in B. induction B as [ | b bs Hb B IH]; [reflexivity | ]. cbn [map flat_map]. rewrite IH. f_equal. destruct (V b Hb) as [S ->].
    cbn [enc_in]. destruct S. apply pack_utf8_enc. assumption. }
  rewrite E. apply Sp_form; [reflexivity | ]. apply Forall_forall. intros c Hc. apply in_map_iff in Hc. destruct Hc as (b & <- & Hb).
  unfold bytes in B. rewrite Forall_forall in B. apply (V b (B b Hb)).
Qed.
Print Assumptions C72_from_code_page.
(** so 866 text survives FromCodePage and ToCodePage, but for its box drawing characters *)
Theorem C72_cp866_round_trip bs repl : bytes bs -> scalar repl -> Forall (fun b => ~ (0xb0 <= b <= 0xdf)) bs ->
  to_code_page (from_code_page bs 866 repl) 866 = Some bs.
Proof.
  intros B R N. pose proof (C72_from_code_page bs 866 repl B R) as S. destruct (decode_spelled _ _ S) as (u & n & e & U & _ & D).
  unfold to_code_page. rewrite U, D. f_equal. rewrite map_map. rewrite <- (map_id bs) at 2. apply map_ext_in. intros b Hb.
  unfold bytes in B. rewrite Forall_forall in B, N. specialize (B b Hb). specialize (N b Hb). unfold page_char. cbn [Z.eqb Pos.eqb].
  change (page_pack 866) with pack_CP866. destruct (Z.eqb_spec (s_CP866 b) (-2)) as [E | E].
  - destruct (cp866_box b B E). lia.
  - apply (cp866_back b B E).
Qed.
Print Assumptions C72_cp866_round_trip.
(** 1251 text does not: ToCodePage has no 1251 and gives '?' for every letter *)
Theorem C72_cp1251_round_trip_refuted : to_code_page (from_code_page [0xcf] 1251 0x3f) 1251 = Some [0x3f].
Proof. vm_compute. reflexivity. Qed.
Print Assumptions C72_cp1251_round_trip_refuted.

(** ** Malformed input *)
(** "malformed UTF-8 gives the invalid mark" is false: an overlong form, and a lead byte without a continuation, decode as characters *)
Theorem C72_utf8_strict_refuted : fst (unpack_utf8 [0xe0; 0x80; 0x80]) = 0 /\ fst (unpack_utf8 [0xc2; 0x41]) = 0x81 /\
  compare (Text UTF8 [0xe0; 0x80; 0x80]) (Text UTF8 [0]) = Some 0.
Proof. repeat split; vm_compute; reflexivity. Qed.
Print Assumptions C72_utf8_strict_refuted.
(** "ToUtf8 gives UTF-8" is false for UTF-32 with a surrogate: no list of scalar values has that encoding *)
Theorem C72_to_utf8_valid_refuted : to_utf8 (Text UTF32BE (enc32be 0xd800)) 0x3f = Some [0xed; 0xa0; 0x80] /\
  ~ exists cs, Forall scalar cs /\ encs cs = [0xed; 0xa0; 0x80].
Proof.
  split; [vm_compute; reflexivity | ]. intros (cs & F & E). assert (X : unpacked unpack_utf8 (encs cs) = cs).
  { destruct (unpack_form UTF8 U8 eq_refl) as (f & U & D). inversion U; subst f. apply D. exact F. }
  rewrite E in X. vm_compute in X. subst cs. inversion F as [ | c l S]; subst. destruct S as [_ S]. apply S. lia.
Qed.
Print Assumptions C72_to_utf8_valid_refuted.
(** "an unassigned byte becomes the replacement" is false in four character sets *)
Theorem C72_unassigned_refuted :
  s_8859_11 0xdd = -1 /\ to_utf8 (Text ISO_8859_11 [0xdd]) 0x3f = Some (encs [0xe3d]) /\
  s_CP1251 0x98 = -1 /\ to_utf8 (Text CP1251 [0x98]) 0x3f = Some (encs [0]) /\
  s_8859_7 0xd2 = -1 /\ to_utf8 (Text ISO_8859_7 [0xd2]) 0x3f = Some (encs [0xfffd]) /\
  s_8859_8 0xa1 = -1 /\ to_utf8 (Text ISO_8859_8 [0xa1]) 0x3f = Some (encs [0xfffd]).
Proof. repeat split; vm_compute; reflexivity. Qed.
Print Assumptions C72_unassigned_refuted.

(** ** Non-vacuity *)
Example C72_ex_spells : spells (Text CP1251 [0xcf; 0xf0; 0x21]) [0x41f; 0x440; 0x21].
Proof. apply (Sp_set CP1251 s_CP1251 [0xcf; 0xf0; 0x21]); [reflexivity | ]. repeat (apply Forall_cons; [split; [lia | discriminate] | ]). apply Forall_nil. Qed.
Example C72_ex_spells_marked : spells (Text ISO_10646 [0xff; 0xfe; 0x1f; 0x04; 0x40; 0x04; 0x21; 0x00]) [0x41f; 0x440; 0x21].
Proof. apply (Sp_marked U16LE [0x41f; 0x440; 0x21]); [ | discriminate]. repeat (apply Forall_cons; [split; [split; lia | lia] | ]). apply Forall_nil. Qed.
Example C72_ex_same : compare (Text CP1251 [0xcf; 0xf0; 0x21]) (Text ISO_10646 [0xff; 0xfe; 0x1f; 0x04; 0x40; 0x04; 0x21; 0x00]) = Some 0
  /\ to_utf8 (Text CP1251 [0xcf; 0xf0; 0x21]) 0x3f = Some [0xd0; 0x9f; 0xd1; 0x80; 0x21].
Proof. split; vm_compute; reflexivity. Qed.
Example C72_ex_866 : to_code_page (Text CP1251 [0xcf; 0xf0; 0x80]) 866 = Some [0x8f; 0xe0; 0x3f].
Proof. vm_compute. reflexivity. Qed.
