(** C55: hexadecimal text and UUIDs. *)
From Verif Require Import Base HexModel HexSpec HexProofs.
Local Open Scope Z_scope.

(** FromHex of an integer type whose greatest value is 2^n - 1 (n = 8, 16, 32, 64, or 7, 15, 31, 63 for the signed types):
    the value if the text is a numeral that fits, out of range if it is one that doesn't, and a format error otherwise. *)
Theorem C55_from_hex n s : 4 <= n ->
  from_hex (2 ^ n - 1) s =
    match s, digits s with
    | [], _ => HArgument
    | _, None => HFormat
    | _, Some ds => if value 0 ds <? 2 ^ n then HOk (value 0 ds) else HRange
    end.
Proof.
  intros Hn. destruct s as [ | c s]; [reflexivity | ]. destruct (digits (c :: s)) as [ds | ] eqn:D.
  - apply from_hex_spec; [assumption | discriminate | assumption].
  - apply from_hex_bad; [discriminate | assumption].
Qed.
Print Assumptions C55_from_hex.
(** ToHex of a type of W digits writes the value (of a negative one the two's complement) in the least number of digits, at least [width] and one. *)
Theorem C55_to_hex W v width cap : (1 <= W)%nat ->
  exists n, to_hex W v width cap = numeral cap n (v mod 16 ^ Z.of_nat W) /\ (Nat.max 1 width <= n)%nat /\
    v mod 16 ^ Z.of_nat W < 16 ^ Z.of_nat n /\ (n = Nat.max 1 width \/ 16 ^ Z.of_nat (n - 1) <= v mod 16 ^ Z.of_nat W).
Proof. apply to_hex_spec. Qed.
Print Assumptions C55_to_hex.
(** What ToHex writes of an unsigned value, with any width and case, FromHex reads back, into this type or a greater one. *)
Theorem C55_round_trip n W v width cap : 4 <= n -> (1 <= W)%nat -> 16 ^ Z.of_nat W <= 2 ^ n -> 0 <= v < 16 ^ Z.of_nat W ->
  from_hex (2 ^ n - 1) (to_hex W v width cap) = HOk v.
Proof. apply round_trip. Qed.
Print Assumptions C55_round_trip.
(** Of a signed value of W digits (2^(4W-1) - 1 the greatest) exactly the nonnegative ones come back; all the others are refused. *)
Theorem C55_signed_round_trip_refuted W v width cap : (2 <= W)%nat -> let n := 4 * Z.of_nat W - 1 in - 2 ^ n <= v < 2 ^ n ->
  from_hex (2 ^ n - 1) (to_hex W v width cap) = if 0 <=? v then HOk v else HRange.
Proof.
  intros HW n Hv. assert (Hn : 4 <= n) by lia. destruct (to_hex_spec W v width cap ltac:(lia)) as (m & -> & H1 & H2 & _).
  assert (E16 : 16 ^ Z.of_nat W = 2 * 2 ^ n). { change 16 with (2 ^ 4). rewrite <- Z.pow_mul_r by lia. rewrite <- Z.pow_succ_r by lia. f_equal. lia. }
  pose proof (Z.pow_pos_nonneg 2 n ltac:(lia) ltac:(lia)) as P.
  rewrite (from_hex_spec n _ (dlist m (v mod 16 ^ Z.of_nat W))); [ | assumption | | apply digits_numeral].
  2: { intros E. apply (f_equal (@length Z)) in E. rewrite numeral_length in E. cbn in E. lia. }
  rewrite value_dlist. rewrite (Z.mod_small _ (16 ^ Z.of_nat m)) by (split; [apply Z.mod_pos_bound; lia | assumption]).
  destruct (Z.leb_spec 0 v).
  - rewrite Z.mod_small by lia. zb. f_equal.
  - replace (v mod 16 ^ Z.of_nat W) with (v + 16 ^ Z.of_nat W). + zb. reflexivity. + apply (Z.mod_unique _ _ (-1)); lia.
Qed.
Print Assumptions C55_signed_round_trip_refuted.

(** Bytes: FromHex<ByteArray> takes numerals with or without 0x, an odd first digit alone; ToHex comes back, padded with zero bytes for the width. *)
Theorem C55_bytes_round_trip l width cap add : Forall is_byte l ->
  from_hex_bytes (prefixed add (to_hex_bytes l width cap)) = HOk (repeat 0 ((width - length l * 2 + 1) / 2)%nat ++ l).
Proof. apply bytes_round_trip. Qed.
Print Assumptions C55_bytes_round_trip.
Theorem C55_bytes_from_hex s : (forall t, s <> 48 :: 120 :: t) ->
  (forall d, digits s = Some d -> from_hex_bytes s = from_hex_bytes (48 :: 120 :: s) /\
     (Nat.even (length s) = true -> from_hex_bytes s = HOk (pairs d)) /\ (Nat.odd (length s) = true -> from_hex_bytes s = from_hex_bytes (48 :: s))) /\
  (digits s = None -> from_hex_bytes s = HFormat /\ from_hex_bytes (48 :: 120 :: s) = HFormat).
Proof.
  intros Hs. assert (St : strip s = s).
  { unfold strip. destruct s as [ | a [ | b s]]; try reflexivity. destruct (Z.eqb_spec a 48), (Z.eqb_spec b 120); try reflexivity. subst. exfalso. apply (Hs s). reflexivity. }
  rewrite !from_hex_bytes_spec. change (strip (48 :: 120 :: s)) with s. rewrite St. split.
  - intros d D. rewrite D. rewrite (digits_length _ _ D). split; [reflexivity | ]. split; [intros E; rewrite <- Nat.negb_even, E; reflexivity | ].
    intros O. rewrite O.
    assert (D0 : digits (48 :: s) = Some (0 :: d)) by (cbn [digits]; rewrite D; reflexivity). rewrite (strip_digits _ _ D0), D0. cbn [length]. rewrite (digits_length _ _ D), Nat.odd_succ, <- Nat.negb_odd, O. cbn [negb].
    destruct d as [ | x d]; [apply digits_length in D; rewrite <- D in O; discriminate O | ]. cbn [pairs]. f_equal; f_equal; lia.
  - intros D. rewrite D. split; reflexivity.
Qed.
Print Assumptions C55_bytes_from_hex.

(** HexDump of up to 2^32 bytes, with a positive width: the lines of the dump, nothing left out. *)
Theorem C55_hex_dump width cs : (1 <= width)%nat -> lines width cs -> Forall is_byte (concat cs) -> Z.of_nat (length (concat cs)) <= 2 ^ 32 ->
  dump_loop (length (concat cs)) (concat cs) 0 (length (concat cs)) width = Some (dump_spec width 0 cs).
Proof.
  intros Hw Hl Hb Hz.
  assert (B : forall W c, (2 <= W)%nat -> Forall is_byte c -> flat_map (fun b => to_hex W b 2 false ++ [32]) c = flat_map (fun b => numeral false 2 b ++ [32]) c).
  { intros W c HW F. induction F as [ | b c Hbb F IH]; [reflexivity | ]. cbn [flat_map]. rewrite IH. destruct Hbb. rewrite to_hex_exact by (try change (16 ^ Z.of_nat 2) with 256; lia). reflexivity. }
  assert (Pr : forall c, Forall is_byte c -> map (fun b => if (0x20 <=? b) && (b <? 0x7f) then b else 46) c = map (fun b => if (0x20 <=? b) && (b <=? 0x7e) then b else 46) c).
  { intros c _. apply map_ext. intros b. destruct (Z.ltb_spec b 0x7f), (Z.leb_spec b 0x7e); try lia; reflexivity. }
  assert (G : forall cs F off size, lines width cs -> Forall is_byte (concat cs) -> size = (off + length (concat cs))%nat -> Z.of_nat size <= 2 ^ 32 -> (length (concat cs) <= F)%nat ->
    dump_loop F (concat cs) off size width = Some (dump_spec width off cs)).
  { clear - Hw B Pr. induction cs as [ | c cs IH]; intros F off size Hl Hb Hs Hz HF.
    - cbn in Hs. destruct F; cbn [dump_loop]; (destruct (Nat.ltb_spec off size); [lia | reflexivity]).
    - cbn [concat] in *. rewrite app_length in *. rewrite Forall_app in Hb. destruct Hb as [Hc Hcs].
      assert (Lc : (1 <= length c <= width)%nat). { destruct cs; [exact Hl | destruct Hl; lia]. }
      destruct F as [ | F]; [lia | ]. cbn [dump_loop]. destruct (Nat.ltb_spec off size); [ | lia].
      assert (Ln : Nat.min (size - off) width = length c). { destruct cs as [ | c2 cs]; [cbn in Hs; lia | destruct Hl; lia]. }
      assert (Sk : skipn width (c ++ concat cs) = concat cs). { rewrite skipn_app. destruct cs as [ | c2 cs]; [cbn [concat]; rewrite skipn_nil, app_nil_r; apply skipn_all2; lia | ].
        destruct Hl as [Hl _]. rewrite <- Hl, skipn_all, Nat.sub_diag. reflexivity. }
      assert (Tx : dump_line (c ++ concat cs) off size width = dump_text width off c ++ (if Nat.ltb (off + width) size then [10] else [])).
      { unfold dump_line, dump_text. rewrite Ln, firstn_app, firstn_all, Nat.sub_diag, firstn_O, app_nil_r. rewrite B, Pr by (assumption || lia).
        rewrite to_hex_exact by (try change (16 ^ Z.of_nat 8) with (2 ^ 32); lia). rewrite <- !app_assoc. do 3 f_equal.
        destruct (Nat.ltb_spec (length c) width); [rewrite (Nat.mul_comm 3); reflexivity | ]. replace (3 * (width - length c))%nat with 0%nat by lia. reflexivity. }
      rewrite Tx, Sk. destruct cs as [ | c2 cs].
      + cbn in Hs. cbn [concat dump_spec]. destruct (Nat.ltb_spec (off + width) size); [lia | ]. destruct F; cbn [dump_loop]; (destruct (Nat.ltb_spec (off + width) size); [lia | ]); cbn [option_map]; rewrite !app_nil_r; reflexivity.
      + destruct Hl as [Hl1 Hl2]. assert (L2 : (1 <= length (concat (c2 :: cs)))%nat). { cbn [concat]. rewrite app_length. destruct cs; [cbn in Hl2; lia | destruct Hl2; lia]. }
        destruct (Nat.ltb_spec (off + width) size); [ | lia].
        rewrite IH by (assumption || lia). cbn [option_map]. cbn [dump_spec]. rewrite <- app_assoc. reflexivity. }
  apply G; try assumption; lia.
Qed.
Print Assumptions C55_hex_dump.
(** With width 0 it never ends. *)
Theorem C55_hex_dump_zero_width_refuted data size fuel : (0 < size)%nat -> dump_loop fuel data 0 size 0 = None.
Proof.
  intros H. revert data. induction fuel; intros data; cbn [dump_loop]; (destruct (Nat.ltb_spec 0 size); [ | lia]); [reflexivity | ]. cbn [skipn Nat.add]. rewrite IHfuel. reflexivity.
Qed.
Print Assumptions C55_hex_dump_zero_width_refuted.
(** ShortHexDump over a pointer shows that bytes are left out; over a collection it never does: the dump is that of the first bytes alone. *)
Theorem C55_short_dump data limit : Forall is_byte data ->
  short_dump_raw data limit = [123; 32] ++ flat_map (fun b => numeral false 2 b ++ [32]) (firstn limit data) ++ (if Nat.ltb limit (length data) then [46; 46; 46; 32] else []) ++ [125].
Proof.
  intros F. unfold short_dump_raw, short_dump. do 2 f_equal.
  - assert (F2 : Forall is_byte (firstn (Nat.min (length data) limit) data)). { rewrite <- (firstn_skipn (Nat.min (length data) limit) data), Forall_app in F. apply F. }
    replace (firstn limit data) with (firstn (Nat.min (length data) limit) data).
    + induction F2 as [ | b c Hbb F2 IH]; [reflexivity | ]. cbn [flat_map]. rewrite IH. destruct Hbb. rewrite to_hex_exact by (try change (16 ^ Z.of_nat 2) with 256; lia). reflexivity.
    + destruct (Nat.min_spec (length data) limit) as [[L ->] | [L ->]]; [ | reflexivity]. rewrite firstn_all, firstn_all2 by lia. reflexivity.
  - f_equal. destruct (Nat.ltb_spec (Nat.min (length data) limit) (length data)), (Nat.ltb_spec limit (length data)); try reflexivity; lia.
Qed.
Print Assumptions C55_short_dump.
Theorem C55_short_dump_collection_refuted data limit : short_dump_coll data limit = short_dump_coll (firstn limit data) limit.
Proof.
  unfold short_dump_coll, short_dump. rewrite firstn_length. rewrite !firstn_firstn. replace (Nat.min limit (Nat.min limit (length data))) with (Nat.min limit (length data)) by lia.
  replace (Nat.min (Nat.min (Nat.min limit (length data)) limit) limit) with (Nat.min (Nat.min limit (length data)) limit) by lia. reflexivity.
Qed.
Print Assumptions C55_short_dump_collection_refuted.

(** UUID: FromString accepts exactly the 36 characters of the format, with digits of either case, and ToString gives them back in lower case. *)
Lemma Forall2_len {A B} (R : A -> B -> Prop) l m : Forall2 R l m -> length l = length m.
Proof. induction 1; cbn; congruence. Qed.
Definition shape (s : list Z) : Prop := Forall2 (fun (x : bool) c => if x then hexval c <> None else c = 45) uuid_format s.
Theorem C55_uuid_from s :
  (shape s -> exists d, uuid_from s = HOk d /\ length d = 16%nat /\ Forall is_byte d /\ uuid_to d = map lower s) /\ (~ shape s -> uuid_from s = HFormat).
Proof.
  unfold uuid_from, shape. split; intros H.
  - rewrite <- (Forall2_len _ _ _ H), Nat.eqb_refl. apply (uuid_from_ok _ _ uuid_wf s H).
  - destruct (Nat.eqb_spec (length s) (length uuid_format)) as [E | ]; [ | reflexivity]. apply (uuid_from_bad _ _ uuid_wf); assumption.
Qed.
Print Assumptions C55_uuid_from.
Theorem C55_uuid_round_trip d : length d = 16%nat -> Forall is_byte d -> uuid_from (uuid_to d) = HOk d.
Proof. intros L F. destruct (uuid_to_ok _ _ uuid_wf d L F) as [E1 E2]. unfold uuid_from, uuid_to. rewrite E2, Nat.eqb_refl. exact E1. Qed.
Print Assumptions C55_uuid_round_trip.
(** UUIDs are ordered as their texts are. *)
Theorem C55_uuid_order d e : length d = 16%nat -> length e = 16%nat -> Forall is_byte d -> Forall is_byte e ->
  (lex_less d e = true <-> lex_lt d e) /\ (lex_lt d e <-> lex_lt (uuid_to d) (uuid_to e)).
Proof. intros L1 L2 F1 F2. split; [apply lex_less_spec | ]. symmetry. apply (uuid_order _ _ uuid_wf); assumption. Qed.
Print Assumptions C55_uuid_order.
(** Marked as random it reads xxxxxxxx-xxxx-4xxx-Nxxx-xxxxxxxxxxxx with N one of 8, 9, a, b, and all other bits are those given. *)
Lemma upd_nth : forall d i f j, nth j (upd d i f) 0 = if Nat.eqb j i && Nat.ltb i (length d) then f (nth j d 0) else nth j d 0.
Proof.
  induction d as [ | x d IH]; intros i f j; cbn [upd length].
  - rewrite andb_false_r. reflexivity.
  - destruct i, j; cbn [nth Nat.eqb]; try reflexivity. rewrite IH. reflexivity.
Qed.
Lemma upd_length d i f : length (upd d i f) = length d.
Proof. revert i; induction d; intros [ | i]; cbn; auto. Qed.
Lemma upd_bytes d i f : Forall is_byte d -> (forall x, is_byte x -> is_byte (f x)) -> Forall is_byte (upd d i f).
Proof. intros F Hf. revert i. induction F; intros [ | i]; cbn [upd]; constructor; auto. Qed.
Definition all_bytes : list Z := map Z.of_nat (seq 0 256).
Lemma byte_cases (P : Z -> bool) : forallb P all_bytes = true -> forall b, is_byte b -> P b = true.
Proof.
  intros H b Hb. rewrite forallb_forall in H. apply H. unfold all_bytes. apply in_map_iff. unfold is_byte in Hb. exists (Z.to_nat b). split; [lia | ]. apply in_seq. lia.
Qed.
Theorem C55_uuid_version data : Forall is_byte data ->
  (length data <> 16%nat -> uuid_make data true = None /\ uuid_make data false = None) /\
  (length data = 16%nat -> uuid_make data false = Some data /\
     exists d, uuid_make data true = Some d /\ length d = 16%nat /\ Forall is_byte d /\
       nth 14 (uuid_to d) 0 = 52 /\ In (nth 19 (uuid_to d) 0) [56; 57; 97; 98] /\
       (forall i, i <> 6%nat -> i <> 8%nat -> nth i d 0 = nth i data 0) /\ nth 6 d 0 mod 16 = nth 6 data 0 mod 16 /\ nth 8 d 0 mod 64 = nth 8 data 0 mod 64).
Proof.
  intros F. unfold uuid_make. split; intros L.
  - rewrite (proj2 (Nat.eqb_neq _ _) L). split; reflexivity.
  - rewrite L. cbn [Nat.eqb]. split; [reflexivity | ]. exists (set_version data). split; [reflexivity | ].
    set (f := fun x => Z.lor (Z.land x 0x0f) 0x40). set (g := fun x => Z.lor (Z.land x 0x3f) 0x80).
    assert (Pf : forall b, is_byte b -> (0 <=? f b) && (f b <=? 255) && (f b / 16 =? 4) && (f b mod 16 =? b mod 16) = true).
    { apply (byte_cases (fun b => (0 <=? f b) && (f b <=? 255) && (f b / 16 =? 4) && (f b mod 16 =? b mod 16))). vm_compute. reflexivity. }
    assert (Pg : forall b, is_byte b -> (0 <=? g b) && (g b <=? 255) && (8 <=? g b / 16) && (g b / 16 <=? 11) && (g b mod 64 =? b mod 64) = true).
    { apply (byte_cases (fun b => (0 <=? g b) && (g b <=? 255) && (8 <=? g b / 16) && (g b / 16 <=? 11) && (g b mod 64 =? b mod 64))). vm_compute. reflexivity. }
    assert (Bf : forall b, is_byte b -> is_byte (f b)). { intros b Hb. specialize (Pf b Hb). rewrite !andb_true_iff, !Z.leb_le in Pf. unfold is_byte. tauto. }
    assert (Bg : forall b, is_byte b -> is_byte (g b)). { intros b Hb. specialize (Pg b Hb). rewrite !andb_true_iff, !Z.leb_le in Pg. unfold is_byte. tauto. }
    assert (Ld : length (set_version data) = 16%nat) by (unfold set_version; rewrite !upd_length; exact L).
    assert (Fd : Forall is_byte (set_version data)) by (apply upd_bytes; [apply upd_bytes; assumption | assumption]).
    assert (N : forall j, nth j (set_version data) 0 = if Nat.eqb j 8 then g (nth j data 0) else if Nat.eqb j 6 then f (nth j data 0) else nth j data 0).
    { intros j. unfold set_version. fold f g. rewrite !upd_nth, upd_length, L. cbn [Nat.ltb Nat.leb]. rewrite !andb_true_r. destruct (Nat.eqb_spec j 8); [subst; reflexivity | reflexivity]. }
    split; [exact Ld | ]. split; [exact Fd | ].
    assert (S6 : is_byte (nth 6 data 0)) by (rewrite Forall_forall in F; apply F, nth_In; lia).
    assert (S8 : is_byte (nth 8 data 0)) by (rewrite Forall_forall in F; apply F, nth_In; lia).
    specialize (Pf _ S6). specialize (Pg _ S8). rewrite !andb_true_iff, !Z.leb_le, !Z.eqb_eq in Pf. rewrite !andb_true_iff, !Z.leb_le, !Z.eqb_eq in Pg.
    assert (T : forall d, length d = 16%nat -> Forall is_byte d -> nth 14 (uuid_to d) 0 = hchar false (nth 6 d 0 / 16) /\ nth 19 (uuid_to d) 0 = hchar false (nth 8 d 0 / 16)).
    { clear. intros d L F. do 17 (destruct d as [ | ? d]; [try discriminate L | ]); [ | discriminate L].
      unfold uuid_to. cbn [uuid_format repeat app uuid_to_loop nth]. repeat (inversion F as [ | ? ? ? F']; clear F; subst; rename F' into F).
      rewrite !to_hex_byte by (assumption || lia). split; reflexivity. }
    destruct (T _ Ld Fd) as [T1 T2]. rewrite T1, T2, !N. cbn [Nat.eqb].
    split; [rewrite (proj2 (proj1 Pf)); reflexivity | ]. split.
    + assert (E : g (nth 8 data 0) / 16 = 8 \/ g (nth 8 data 0) / 16 = 9 \/ g (nth 8 data 0) / 16 = 10 \/ g (nth 8 data 0) / 16 = 11) by lia.
      destruct E as [-> | [-> | [-> | ->]]]; cbn; auto.
    + split; [ | split; [exact (proj2 Pf) | exact (proj2 Pg)]]. intros i H1 H2. rewrite N. rewrite (proj2 (Nat.eqb_neq _ _) H1), (proj2 (Nat.eqb_neq _ _) H2). reflexivity.
Qed.
Print Assumptions C55_uuid_version.

(** non-vacuity *)
Example C55_values : from_hex (2 ^ 8 - 1) [102; 70] = HOk 255 /\ from_hex (2 ^ 8 - 1) [49; 48; 48] = HRange /\ from_hex (2 ^ 7 - 1) [102; 102] = HRange
  /\ to_hex 4 0xabc 0 true = [65; 66; 67] /\ to_hex 2 (-1) 4 false = [48; 48; 102; 102].
Proof. repeat split; reflexivity. Qed.
Example C55_lines : lines 2 [[1; 2]; [65]] /\ dump_spec 2 0 [[1; 2]; [65]] = [48;48;48;48;48;48;48;48;58;32;48;49;32;48;50;32;46;46;10;48;48;48;48;48;48;48;50;58;32;52;49;32;32;32;32;65].
Proof. split; [cbn; lia | reflexivity]. Qed.
Example C55_uuid : Forall is_byte (map Z.of_nat (seq 1 16)) /\ shape (uuid_to (map Z.of_nat (seq 1 16))).
Proof. split; [repeat constructor; cbn; lia | ]. repeat (constructor; [cbn; (reflexivity || discriminate) | ]). constructor. Qed.
