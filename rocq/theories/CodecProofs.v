(** * Proofs about StringCodec: unpacking and packing one character *)
From Verif Require Import Base Utf8Spec.
From Verif Require Utf8Model Utf8Proofs.
From Verif Require Import CodecModel CodecSpec.
Import Utf8Proofs.
Local Open Scope Z_scope.

(** ** Progress *)
Definition progress (u : unpack) : Prop := forall l, l <> [] -> exists p, l = p ++ snd (u l) /\ (1 <= length p <= 4)%nat.
Lemma one_progress f : progress (one f).
Proof. intros [ | c r] H; [congruence | ]. exists [c]. cbn. split; [reflexivity | lia]. Qed.
Ltac pro := match goal with |- exists p, ?a :: ?b :: ?c :: ?d :: ?r = p ++ ?r /\ _ => exists [a; b; c; d]; cbn; split; [reflexivity | lia]
  | |- exists p, ?a :: ?b :: ?c :: ?r = p ++ ?r /\ _ => exists [a; b; c]; cbn; split; [reflexivity | lia]
  | |- exists p, ?a :: ?b :: ?r = p ++ ?r /\ _ => exists [a; b]; cbn; split; [reflexivity | lia]
  | |- exists p, ?a :: ?r = p ++ ?r /\ _ => exists [a]; cbn; split; [reflexivity | lia] end.
Ltac split_if := match goal with |- context [if ?b then _ else _] => destruct b end.
Lemma utf8_progress : progress unpack_utf8.
Proof.
  intros [ | a r] H; [congruence | ]. unfold unpack_utf8. destruct r as [ | b [ | c [ | d r]]];
    repeat split_if; cbn [snd]; pro.
Qed.
Lemma utf16be_progress : progress unpack_utf16be.
Proof. intros [ | a r] H; [congruence | ]. unfold unpack_utf16be. destruct r as [ | b [ | c [ | d r]]]; repeat split_if; cbn [snd]; pro. Qed.
Lemma utf16le_progress : progress unpack_utf16le.
Proof. intros [ | a r] H; [congruence | ]. unfold unpack_utf16le. destruct r as [ | b [ | c [ | d r]]]; repeat split_if; cbn [snd]; pro. Qed.
Lemma utf32be_progress : progress unpack_utf32be.
Proof. intros [ | a r] H; [congruence | ]. unfold unpack_utf32be. destruct r as [ | b [ | c [ | d r]]]; cbn [loop32be snd]; pro. Qed.
Lemma utf32le_progress : progress unpack_utf32le.
Proof. intros [ | a r] H; [congruence | ]. unfold unpack_utf32le. destruct r as [ | b [ | c [ | d r]]]; cbn [loop32le snd]; pro. Qed.
Lemma unpack_progress e u : unpack_of e = Some u -> progress u.
Proof.
  destruct e; cbn; intros H; inversion H; subst; auto using one_progress, utf8_progress, utf16be_progress, utf16le_progress, utf32be_progress, utf32le_progress.
Qed.

(** ** The loop over a text *)
Lemma unpack_all_fuel u (P : progress u) : forall f l, (length l <= f)%nat -> unpack_all u f l = unpacked u l.
Proof.
  assert (G : forall n f f' l, (length l <= n)%nat -> (length l <= f)%nat -> (length l <= f')%nat -> unpack_all u f l = unpack_all u f' l).
  { induction n as [ | n IH]; intros f f' l Hn Hf Hf'.
    - destruct l; [ | cbn in Hn; lia]. destruct f, f'; reflexivity.
    - destruct l as [ | c l]; [destruct f, f'; reflexivity | ].
      destruct f as [ | f]; [cbn in Hf; lia | ]. destruct f' as [ | f']; [cbn in Hf'; lia | ].
      cbn [unpack_all]. destruct (P (c :: l) ltac:(discriminate)) as (p & E & L).
      destruct (u (c :: l)) as [x r]. cbn [snd] in E.
      assert (S (length l) = (length p + length r)%nat) by (rewrite <- app_length, <- E; reflexivity).
      f_equal. apply IH; cbn in *; lia. }
  intros f l H. unfold unpacked. apply (G (length l)); auto.
Qed.
Lemma unpacked_nil u : unpacked u [] = [].
Proof. reflexivity. Qed.
Lemma unpacked_cons u (P : progress u) l : l <> [] -> unpacked u l = fst (u l) :: unpacked u (snd (u l)).
Proof.
  intros N. destruct (P l N) as (p & E & L). unfold unpacked at 1. destruct l as [ | c l]; [congruence | ]. cbn [length unpack_all].
  destruct (u (c :: l)) as [x r]. cbn [snd fst] in *. f_equal. apply unpack_all_fuel; [assumption | ].
  assert (S (length l) = (length p + length r)%nat) by (rewrite <- app_length, <- E; reflexivity). lia.
Qed.
Lemma unpacked_spelled u (P : progress u) (f : Z -> list Z) (g : Z -> Z) (Q : Z -> Prop) :
  (forall c t, Q c -> f c <> [] /\ u (f c ++ t) = (g c, t)) -> forall cs, Forall Q cs -> unpacked u (flat_map f cs) = map g cs.
Proof.
  intros H cs F. induction F as [ | c cs Hc F IH]; [reflexivity | ]. cbn [flat_map map].
  destruct (H c (flat_map f cs) Hc) as [N E]. rewrite unpacked_cons; [ | assumption | intros X; apply app_eq_nil in X; tauto].
  rewrite E. cbn [fst snd]. rewrite IH. reflexivity.
Qed.
Lemma unpacked_one f l : unpacked (one f) l = map f l.
Proof. induction l as [ | c l IH]; [reflexivity | ]. rewrite unpacked_cons; [ | apply one_progress | discriminate]. cbn [one fst snd map]. rewrite IH. reflexivity. Qed.

(** ** UTF-8 *)
Lemma enc_nonempty c : enc c <> [].
Proof. unfold enc. repeat split_if; discriminate. Qed.
Lemma unpack_utf8_enc c t : 0 <= c < 0x110000 -> unpack_utf8 (enc c ++ t) = (c, t).
Proof.
  intros H. destruct (enc_forms c H) as [[L E] | [(L & E & M) | [(L & E & M) | (L & E & M)]]]; rewrite E; cbn [app]; unfold unpack_utf8.
  - zbool. reflexivity.
  - destruct (cont_6 c ltac:(lia)) as (A & _ & B). zbool. f_equal. rewrite A.
    change 0x1f with (2 ^ 5 - 1). rewrite land_mod by lia. replace (0xc0 + c / 64) with (c / 64 + 6 * 2 ^ 5) by lia. rewrite Z.mod_add by lia.
    rewrite (Z.mod_small (c / 64)) by lia. rewrite lor_shift by lia. pose proof (Z.div_mod c 64). lia.
  - destruct (cont_6 c ltac:(lia)) as (A & _ & B). assert (0 <= c / 64) by (apply Z.div_pos; lia).
    destruct (cont_6 (c / 64) ltac:(lia)) as (A' & _ & B'). zbool. f_equal. rewrite A, A'.
    change 0x0f with (2 ^ 4 - 1). rewrite land_mod by lia. replace (0xe0 + c / 4096) with (c / 4096 + 14 * 2 ^ 4) by lia. rewrite Z.mod_add by lia.
    rewrite (Z.mod_small (c / 4096)) by lia.
    assert (c / 4096 = c / 64 / 64) by (rewrite Z.div_div by lia; reflexivity).
    pose proof (Z.div_mod c 64). pose proof (Z.div_mod (c / 64) 64).
    set (q := c / 4096) in *. set (y := (c / 64) mod 64) in *. set (z := c mod 64) in *. clearbody y z.
    replace (Z.shiftl q 12) with (Z.shiftl (Z.shiftl q 6) 6) by (rewrite Z.shiftl_shiftl by lia; reflexivity).
    rewrite <- Z.shiftl_lor. rewrite (lor_shift q y 6) by lia. rewrite lor_shift by lia. lia.
  - destruct (cont_6 c ltac:(lia)) as (A & _ & B). assert (0 <= c / 64) by (apply Z.div_pos; lia). assert (0 <= c / 4096) by (apply Z.div_pos; lia).
    destruct (cont_6 (c / 64) ltac:(lia)) as (A' & _ & B'). destruct (cont_6 (c / 4096) ltac:(lia)) as (A'' & _ & B'').
    zbool. f_equal. rewrite A, A', A''.
    change 0x07 with (2 ^ 3 - 1). rewrite land_mod by lia. replace (0xf0 + c / 262144) with (c / 262144 + 30 * 2 ^ 3) by lia. rewrite Z.mod_add by lia.
    rewrite (Z.mod_small (c / 262144)) by lia.
    assert (c / 4096 = c / 64 / 64) by (rewrite Z.div_div by lia; reflexivity).
    assert (c / 262144 = c / 4096 / 64) by (rewrite Z.div_div by lia; reflexivity).
    pose proof (Z.div_mod c 64). pose proof (Z.div_mod (c / 64) 64). pose proof (Z.div_mod (c / 4096) 64).
    set (q := c / 262144) in *. set (x := (c / 4096) mod 64) in *. set (y := (c / 64) mod 64) in *. set (z := c mod 64) in *. clearbody x y z.
    replace (Z.shiftl q 18) with (Z.shiftl (Z.shiftl q 6) 12) by (rewrite Z.shiftl_shiftl by lia; reflexivity).
    rewrite <- Z.shiftl_lor. rewrite (lor_shift q x 6) by lia.
    replace (Z.shiftl (q * 2 ^ 6 + x) 12) with (Z.shiftl (Z.shiftl (q * 2 ^ 6 + x) 6) 6) by (rewrite Z.shiftl_shiftl by lia; reflexivity).
    rewrite <- Z.shiftl_lor. rewrite (lor_shift (q * 2 ^ 6 + x) y 6) by lia. rewrite lor_shift by lia. lia.
Qed.

(** ** UTF-16 *)
Lemma sup16 v t a b : (* the value of a surrogate pair *)
  0 <= v < 2 ^ 20 -> a = 0xd800 + v / 1024 -> b = 0xdc00 + v mod 1024 ->
  0xd8 <= a / 256 <= 0xdb /\ 0xdc <= b / 256 <= 0xdf /\
  Z.lor (Z.lor (Z.lor (Z.shiftl (Z.land (a / 256) 0x03) 18) (Z.shiftl (a mod 256) 10)) (Z.shiftl (Z.land (b / 256) 0x03) 8)) (b mod 256) = v /\ t = t :> list Z.
Proof.
  intros H -> ->.
  assert (D : 0 <= v / 1024 < 1024) by (split; [apply Z.div_pos; lia | apply Z.div_lt_upper_bound; lia]).
  pose proof (Z.mod_pos_bound v 1024 ltac:(lia)) as M.
  set (h := v / 1024) in *. set (w := v mod 1024) in *. assert (V : v = 1024 * h + w) by (apply Z.div_mod; lia). clearbody h w.
  replace ((0xd800 + h) / 256) with (0xd8 + h / 256) by (replace (0xd800 + h) with (h + 0xd8 * 256) by lia; rewrite Z.div_add by lia; lia).
  replace ((0xd800 + h) mod 256) with (h mod 256) by (replace (0xd800 + h) with (h + 0xd8 * 256) by lia; rewrite Z.mod_add by lia; reflexivity).
  replace ((0xdc00 + w) / 256) with (0xdc + w / 256) by (replace (0xdc00 + w) with (w + 0xdc * 256) by lia; rewrite Z.div_add by lia; lia).
  replace ((0xdc00 + w) mod 256) with (w mod 256) by (replace (0xdc00 + w) with (w + 0xdc * 256) by lia; rewrite Z.mod_add by lia; reflexivity).
  assert (0 <= h / 256 < 4) by (split; [apply Z.div_pos; lia | apply Z.div_lt_upper_bound; lia]).
  assert (0 <= w / 256 < 4) by (split; [apply Z.div_pos; lia | apply Z.div_lt_upper_bound; lia]).
  pose proof (Z.mod_pos_bound h 256 ltac:(lia)). pose proof (Z.mod_pos_bound w 256 ltac:(lia)).
  split; [lia | ]. split; [lia | ]. split; [ | reflexivity].
  change 0x03 with (2 ^ 2 - 1). rewrite !land_mod by lia.
  replace (0xd8 + h / 256) with (h / 256 + 0x36 * 2 ^ 2) by lia. replace (0xdc + w / 256) with (w / 256 + 0x37 * 2 ^ 2) by lia.
  rewrite !Z.mod_add by lia. rewrite (Z.mod_small (h / 256)), (Z.mod_small (w / 256)) by lia.
  assert (EH : h = 256 * (h / 256) + h mod 256) by (apply Z.div_mod; lia).
  assert (EW : w = 256 * (w / 256) + w mod 256) by (apply Z.div_mod; lia).
  set (h1 := h / 256) in *. set (h0 := h mod 256) in *. set (w1 := w / 256) in *. set (w0 := w mod 256) in *. clearbody h1 h0 w1 w0.
  replace (Z.shiftl h1 18) with (Z.shiftl (Z.shiftl h1 8) 10) by (rewrite Z.shiftl_shiftl by lia; reflexivity).
  rewrite <- Z.shiftl_lor. rewrite (lor_shift h1 h0 8) by lia.
  replace (Z.shiftl (h1 * 2 ^ 8 + h0) 10) with (Z.shiftl (Z.shiftl (h1 * 2 ^ 8 + h0) 2) 8) by (rewrite Z.shiftl_shiftl by lia; reflexivity).
  rewrite <- Z.shiftl_lor. rewrite (lor_shift (h1 * 2 ^ 8 + h0) w1 2) by lia. rewrite lor_shift by lia. lia.
Qed.
Lemma bmp_unit c : bmp c -> 0 <= c / 256 <= 255 /\ 0 <= c mod 256 <= 255 /\ ((c / 256 <? 0xd8) || (0xdf <? c / 256)) = true /\
  Z.lor (Z.shiftl (c / 256) 8) (c mod 256) = c.
Proof.
  intros [[H S] L]. pose proof (Z.mod_pos_bound c 256 ltac:(lia)).
  assert (0 <= c / 256 < 256) by (split; [apply Z.div_pos; lia | apply Z.div_lt_upper_bound; lia]).
  assert (E : c = 256 * (c / 256) + c mod 256) by (apply Z.div_mod; lia).
  split; [lia | ]. split; [lia | ]. split; [ | rewrite lor_shift; lia].
  apply orb_true_iff. rewrite !Z.ltb_lt. lia.
Qed.
Lemma unpack_utf16be_bmp c t : bmp c -> unpack_utf16be (enc16be c ++ t) = (c, t).
Proof.
  intros B. destruct (bmp_unit c B) as (_ & _ & C & E). unfold enc16be, units16. destruct B as [[H S] L]. zbool.
  cbn [flat_map be16 app]. unfold unpack_utf16be. rewrite C, E. reflexivity.
Qed.
Lemma unpack_utf16le_bmp c t : bmp c -> unpack_utf16le (enc16le c ++ t) = (c, t).
Proof.
  intros B. destruct (bmp_unit c B) as (_ & _ & C & E). unfold enc16le, units16. destruct B as [[H S] L]. zbool.
  cbn [flat_map le16 app]. unfold unpack_utf16le. rewrite C, E. reflexivity.
Qed.
Lemma unpack_utf16be_sup c t : 0x10000 <= c < 0x110000 -> unpack_utf16be (enc16be c ++ t) = (c - 0x10000, t).
Proof.
  intros H. unfold enc16be, units16. replace (c <? 0x10000) with false by (symmetry; apply Z.ltb_ge; lia). cbn [flat_map be16 app].
  destruct (sup16 (c - 0x10000) t _ _ ltac:(lia) eq_refl eq_refl) as (A & B & E & _). unfold unpack_utf16be. rewrite E. 
  set (a := (55296 + (c - 65536) / 1024) / 256) in *. set (b := (56320 + (c - 65536) mod 1024) / 256) in *. clearbody a b. zbool. reflexivity.
Qed.
Lemma unpack_utf16le_sup c t : 0x10000 <= c < 0x110000 -> unpack_utf16le (enc16le c ++ t) = (c - 0x10000, t).
Proof.
  intros H. unfold enc16le, units16. replace (c <? 0x10000) with false by (symmetry; apply Z.ltb_ge; lia). cbn [flat_map le16 app].
  destruct (sup16 (c - 0x10000) t _ _ ltac:(lia) eq_refl eq_refl) as (A & B & E & _). unfold unpack_utf16le. rewrite E.
  set (a := (55296 + (c - 65536) / 1024) / 256) in *. set (b := (56320 + (c - 65536) mod 1024) / 256) in *. clearbody a b. zbool. reflexivity.
Qed.

(** ** UTF-32 *)
Lemma bytes32 c : 0 <= c < 2 ^ 32 -> exists a b d e, enc32be c = [a; b; d; e] /\ 0 <= a <= 255 /\ 0 <= b <= 255 /\ 0 <= d <= 255 /\ 0 <= e <= 255 /\
  c = a * 2 ^ 24 + b * 2 ^ 16 + d * 2 ^ 8 + e.
Proof.
  intros H. unfold enc32be. exists (c / 2 ^ 24), ((c / 2 ^ 16) mod 256), ((c / 2 ^ 8) mod 256), (c mod 256). split; [reflexivity | ].
  pose proof (Z.mod_pos_bound c 256 ltac:(lia)). pose proof (Z.mod_pos_bound (c / 2 ^ 8) 256 ltac:(lia)). pose proof (Z.mod_pos_bound (c / 2 ^ 16) 256 ltac:(lia)).
  assert (0 <= c / 2 ^ 24 < 256) by (split; [apply Z.div_pos; lia | apply Z.div_lt_upper_bound; lia]).
  pose proof (Z.div_mod c 256 ltac:(lia)). pose proof (Z.div_mod (c / 2 ^ 8) 256 ltac:(lia)). pose proof (Z.div_mod (c / 2 ^ 16) 256 ltac:(lia)).
  assert (c / 2 ^ 24 = c / 2 ^ 16 / 256) by (rewrite Z.div_div by lia; f_equal; lia).
  assert (c / 2 ^ 16 = c / 2 ^ 8 / 256) by (rewrite Z.div_div by lia; f_equal; lia).
  change (2 ^ 24) with 16777216 in *. change (2 ^ 16) with 65536 in *. change (2 ^ 8) with 256 in *.
  repeat split; lia.
Qed.
Lemma unpack_utf32be_enc c t : 0 <= c < 2 ^ 32 -> unpack_utf32be (enc32be c ++ t) = (if c <? 0x110000 then c else Invalid, t).
Proof.
  intros H. destruct (bytes32 c H) as (a & b & d & e & E & Ha & Hb & Hd & He & V). rewrite E. cbn [app]. unfold unpack_utf32be, loop32be.
  assert (X : Z.lor (Z.shiftl (Z.lor (Z.shiftl (Z.lor (Z.shiftl (Z.lor (Z.shiftl 0 8 mod 2 ^ 32) a) 8 mod 2 ^ 32) b) 8 mod 2 ^ 32) d) 8 mod 2 ^ 32) e = c).
  { replace (Z.lor (Z.shiftl 0 8 mod 2 ^ 32) a) with a by (change (Z.shiftl 0 8 mod 2 ^ 32) with 0; rewrite Z.lor_0_l; reflexivity).
    assert (S : forall x y, 0 <= x < 2 ^ 24 -> 0 <= y <= 255 -> Z.lor (Z.shiftl x 8 mod 2 ^ 32) y = x * 2 ^ 8 + y).
    { intros x y Hx Hy. rewrite Z.mod_small by (rewrite Z.shiftl_mul_pow2; lia). apply lor_shift; lia. }
    rewrite (S a b) by lia. rewrite (S (a * 2 ^ 8 + b) d) by lia. rewrite S by lia. lia. }
  rewrite X. reflexivity.
Qed.
Lemma unpack_utf32le_enc c t : 0 <= c < 2 ^ 32 -> unpack_utf32le (enc32le c ++ t) = (if c <? 0x110000 then c else Invalid, t).
Proof.
  intros H. destruct (bytes32 c H) as (a & b & d & e & E & Ha & Hb & Hd & He & V). unfold enc32le. rewrite E. cbn [rev app].
  unfold unpack_utf32le, loop32le.
  assert (X : Z.lor (Z.lor (Z.lor (Z.lor 0 (Z.shiftl e (0 * 8))) (Z.shiftl d ((0 + 1) * 8))) (Z.shiftl b ((0 + 1 + 1) * 8))) (Z.shiftl a ((0 + 1 + 1 + 1) * 8)) = c).
  { change ((0 + 1) * 8) with 8. change ((0 + 1 + 1) * 8) with 16. change ((0 + 1 + 1 + 1) * 8) with 24. change (0 * 8) with 0.
    rewrite Z.lor_0_l. replace (Z.shiftl e 0) with e by (rewrite Z.shiftl_0_r; reflexivity).
    rewrite (Z.lor_comm e), lor_shift by lia. rewrite (Z.lor_comm (d * 2 ^ 8 + e)), lor_shift by lia.
    rewrite (Z.lor_comm (b * 2 ^ 16 + (d * 2 ^ 8 + e))), lor_shift by lia. lia. }
  rewrite X. reflexivity.
Qed.

(** ** PackUtf8 *)
Lemma lor_0x80 x : 0 <= x < 64 -> Z.lor x 0x80 = 0x80 + x.
Proof. intros H. rewrite Z.lor_comm. change 0x80 with (Z.shiftl 2 6) at 1. rewrite lor_shift; lia. Qed.
Lemma pack_utf8_enc c repl : 0 <= c < 0x110000 -> pack_utf8 c repl = enc c.
Proof.
  intros H. unfold pack_utf8, chr.
  assert (L : forall k x, 0 <= k -> Z.land x (2 ^ k - 1) = x mod 2 ^ k) by (intros; apply land_mod; assumption).
  assert (L6 : forall x, Z.land x 0x3f = x mod 64) by (intros x; change 0x3f with (2 ^ 6 - 1); rewrite L by lia; reflexivity).
  assert (S : forall x k, 0 <= k -> Z.shiftr (Z.land x (0x3f * 2 ^ k)) k = (x / 2 ^ k) mod 64).
  { intros x k Hk. rewrite Z.shiftr_land. rewrite (Z.shiftr_div_pow2 (63 * 2 ^ k)) by assumption. rewrite Z.div_mul by lia.
    rewrite Z.shiftr_div_pow2 by assumption. apply L6. }
  unfold enc. destruct (Z.ltb_spec c 0x80); [rewrite Z.mod_small by lia; reflexivity | ].
  pose proof (Z.mod_pos_bound c 64 ltac:(lia)). pose proof (Z.mod_pos_bound (c / 64) 64 ltac:(lia)). pose proof (Z.mod_pos_bound (c / 4096) 64 ltac:(lia)).
  destruct (Z.ltb_spec c 0x800).
  { assert (0 <= c / 64 < 32) by (split; [apply Z.div_pos; lia | apply Z.div_lt_upper_bound; lia]).
    rewrite L6, lor_0x80 by lia. rewrite Z.shiftr_div_pow2 by lia. change (2 ^ 6) with 64. rewrite Z.lor_comm.
    change 0xc0 with (Z.shiftl 6 5) at 1. rewrite lor_shift by lia. rewrite !Z.mod_small by lia. reflexivity. }
  destruct (Z.ltb_spec c 0x10000).
  { assert (0 <= c / 4096 < 16) by (split; [apply Z.div_pos; lia | apply Z.div_lt_upper_bound; lia]).
    change 0x0fc0 with (0x3f * 2 ^ 6). rewrite S by lia. rewrite L6. change (2 ^ 6) with 64. rewrite !lor_0x80 by lia.
    rewrite Z.shiftr_div_pow2 by lia. change (2 ^ 12) with 4096. rewrite Z.lor_comm.
    change 0xe0 with (Z.shiftl 14 4) at 1. rewrite lor_shift by lia. rewrite (Z.mod_small (14 * 2 ^ 4 + _)) by lia.
    rewrite (Z.mod_small (128 + _)) by lia. rewrite (Z.mod_small (128 + _)) by lia. reflexivity. }
  replace (c <? 0x110000) with true by (symmetry; apply Z.ltb_lt; lia).
  { assert (0 <= c / 262144 < 8) by (split; [apply Z.div_pos; lia | apply Z.div_lt_upper_bound; lia]).
    change 0x03f000 with (0x3f * 2 ^ 12). change 0x000fc0 with (0x3f * 2 ^ 6). rewrite !S by lia. rewrite L6. change (2 ^ 6) with 64. change (2 ^ 12) with 4096.
    rewrite !lor_0x80 by lia. rewrite Z.shiftr_div_pow2 by lia. change (2 ^ 18) with 262144. rewrite Z.lor_comm.
    change 0xf0 with (Z.shiftl 30 3) at 1. rewrite lor_shift by lia. rewrite (Z.mod_small (30 * 2 ^ 3 + _)) by lia.
    rewrite !(Z.mod_small (128 + _)) by lia. reflexivity. }
Qed.
