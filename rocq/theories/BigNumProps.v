(** C25, C26, C27: BigUnsignedInteger.  [w] is the width of a block in bits. *)
From Coq Require Import List ZArith Bool Lia.
From Verif Require Import BigNumModel BigNumSpec BigNumProofs BigNumProofs2 BigNumProofs3.
Import ListNotations.
Local Open Scope Z_scope.
Set Implicit Arguments.

Lemma single_value w d : value w [d] = d.
Proof. cbn [value]. lia. Qed.
Lemma pos_w w : (16 <= w)%nat -> (0 < w)%nat. Proof. lia. Qed.

(** ** C25 *)
(** a number made through the interface has no leading zero block, unless it is the single block 0 *)
Theorem C25_shape w u : (16 <= w)%nat -> api w u -> canonical w u \/ u = [0].
Proof. intros Hw H. exact (api_good Hw H). Qed.
Print Assumptions C25_shape.

Theorem C25_add_exact w a b : (16 <= w)%nat -> api w a -> api w b ->
  value w (add w a b) = value w a + value w b /\ (canonical w a -> canonical w b -> canonical w (add w a b)).
Proof.
  intros Hw Ha Hb. pose proof (pos_w Hw) as H0. split.
  - apply (add_value H0); apply (good_blocks H0); apply (api_good Hw); auto.
  - apply (add_canonical H0).
Qed.
Print Assumptions C25_add_exact.

(** throws iff the result would be negative (see the refutation below for the excluded case) *)
Theorem C25_subtract_exact w a b : (16 <= w)%nat -> api w a -> api w b -> ~ (a = [] /\ b = [0]) ->
  match subtract w a b with
  | Some r => value w b <= value w a /\ value w r = value w a - value w b
              /\ (canonical w a -> canonical w r) /\ (b <> [] -> canonical w r)
  | None => value w a < value w b
  end.
Proof.
  intros Hw Ha Hb Hx. pose proof (pos_w Hw) as H0. apply (api_good Hw) in Ha, Hb.
  destruct (le_lt_dec (length b) (length a)) as [Hl|Hl].
  - pose proof (@subtract_value w H0 a b (good_blocks H0 Ha) (good_blocks H0 Hb) Hl) as S.
    destruct (subtract w a b) as [r|] eqn:E; auto. destruct S as (S1 & S2 & S3).
    pose proof (value_bound H0 S2). split; [lia|]. split; [auto|]. split; auto.
    intros Ca. destruct b; [cbn in E; inversion E; subst; auto | apply S3; discriminate].
  - unfold subtract. destruct b as [|y b]; [cbn in Hl; lia|]. cbn [is_zero].
    destruct (Nat.ltb_spec (length a) (length (y :: b))); [|lia].
    destruct Hb as [Hb|Hb].
    + pose proof (canonical_lower H0 Hb ltac:(discriminate)).
      pose proof (value_bound H0 (good_blocks H0 Ha)).
      eapply Z.lt_le_trans; [apply H2|]. eapply Z.le_trans; [|apply H1].
      apply Z.pow_le_mono_r; [pose proof (Rpos H0); lia | lia].
    + inversion Hb; subst. destruct a; [exfalso; apply Hx; auto | cbn in Hl; lia].
Qed.
Print Assumptions C25_subtract_exact.

(** 0 - 0 throws when the left zero is default-constructed and the right one is BigUnsignedInteger(0) *)
Theorem C25_subtract_exact_refuted :
  exists a b, api 64 a /\ api 64 b /\ value 64 a = value 64 b /\ subtract 64 a b = None.
Proof.
  exists [], [0]. split; [constructor|]. split; [apply api_primitive with (x := 0); [lia | reflexivity]|].
  split; reflexivity.
Qed.
Print Assumptions C25_subtract_exact_refuted.

Theorem C25_multiply_exact w a b : (16 <= w)%nat -> api w a -> api w b ->
  exists r, multiply w a b = Some r /\ value w r = value w a * value w b /\ canonical w r.
Proof.
  intros Hw Ha Hb. pose proof (pos_w Hw) as H0. apply (api_good Hw) in Ha, Hb.
  destruct (@multiply_spec w H0 a b (good_blocks H0 Ha) (good_blocks H0 Hb)) as (r & E & A & B). eauto.
Qed.
Print Assumptions C25_multiply_exact.

Theorem C25_divide_exact w a b : (16 <= w)%nat -> api w a -> api w b -> value w b <> 0 ->
  exists q r, op_div w a b = Some q /\ op_mod w a b = Some r
    /\ value w a = value w q * value w b + value w r /\ 0 <= value w r < value w b
    /\ canonical w q /\ (canonical w a -> canonical w r).
Proof.
  intros Hw Ha Hb Hn. pose proof (pos_w Hw) as H0. apply (api_good Hw) in Ha, Hb.
  destruct Hb as [Hb| ->]; [|exfalso; apply Hn; rewrite single_value; reflexivity].
  assert (b <> []) as Hne by (intros ->; apply Hn; reflexivity).
  destruct (@divide_spec w H0 a b (good_blocks H0 Ha) Hb Hne) as (D1 & D2 & D3 & D4 & D5 & D6).
  unfold op_div, op_mod. destruct b as [|y b]; [congruence|]. cbn [is_zero].
  eexists _, _. split; [reflexivity|]. split; [reflexivity|].
  pose proof (value_bound H0 (proj1 Hb)).
  rewrite D1, D2. pose proof (Z.div_mod (value w a) (value w (y :: b)) Hn).
  pose proof (Z.mod_pos_bound (value w a) (value w (y :: b)) ltac:(lia)). split; [lia|]. split; [lia|]. split; auto.
Qed.
Print Assumptions C25_divide_exact.

(** the internal DivideWithRemainder gives quotient 0 and remainder a for a default-constructed zero,
    operator / and % throw *)
Theorem C25_divide_by_empty w a : divide w a [] = ([], a) /\ op_div w a [] = None /\ op_mod w a [] = None.
Proof. repeat split. Qed.
Print Assumptions C25_divide_by_empty.

(** dividing by BigUnsignedInteger(0) neither throws nor gives 0: it gives all ones *)
Theorem C25_divide_by_zero_refuted :
  exists a b, api 64 a /\ api 64 b /\ value 64 b = 0 /\ op_div 64 a b = Some [2 ^ 64 - 1] /\ value 64 a = 5.
Proof.
  exists [5], [0]. split; [apply api_primitive with (x := 5); [lia | reflexivity]|].
  split; [apply api_primitive with (x := 0); [lia | reflexivity]|].
  split; [reflexivity|]. split; [vm_compute; reflexivity | reflexivity].
Qed.
Print Assumptions C25_divide_by_zero_refuted.

Theorem C25_bitwise_exact w a b : (16 <= w)%nat -> api w a -> api w b ->
  value w (bit_and a b) = Z.land (value w a) (value w b) /\ canonical w (bit_and a b)
  /\ value w (bit_or a b) = Z.lor (value w a) (value w b) /\ (canonical w a -> canonical w b -> canonical w (bit_or a b))
  /\ value w (bit_xor a b) = Z.lxor (value w a) (value w b) /\ canonical w (bit_xor a b).
Proof.
  intros Hw Ha Hb. pose proof (pos_w Hw) as H0. apply (api_good Hw) in Ha, Hb.
  pose proof (good_blocks H0 Ha) as Ba. pose proof (good_blocks H0 Hb) as Bb.
  destruct (@and_spec w H0 a b Ba Bb) as [A1 A2]. destruct (@or_spec w H0 a b Ba Bb) as (O1 & O2 & O3).
  destruct (@xor_spec w H0 a b Ba Bb) as [X1 X2].
  split; [auto|]. split; [auto|]. split; [auto|]. split; [apply (or_good H0); auto|]. auto.
Qed.
Print Assumptions C25_bitwise_exact.

(** a negative number of bits shifts the other way *)
Theorem C25_shift_exact w a k : (16 <= w)%nat -> api w a ->
  value w (shift_left w a k) = Z.shiftl (value w a) k /\ canonical w (shift_left w a k)
  /\ value w (shift_right w a k) = Z.shiftr (value w a) k /\ canonical w (shift_right w a k).
Proof.
  intros Hw Ha. pose proof (pos_w Hw) as H0. apply (api_good Hw) in Ha. pose proof (good_blocks H0 Ha) as Ba.
  unfold shift_left, shift_right. destruct (Z.ltb_spec k 0).
  - destruct (@shift_right_spec w H0 a (Z.to_nat (- k)) Ba) as [A B].
    destruct (@shift_left_spec w H0 a (Z.to_nat (- k)) Ba) as [C D].
    rewrite A, C. rewrite Z2Nat.id by lia. split; [rewrite Z.shiftl_div_pow2 by lia; reflexivity|]. split; [auto|].
    split; [rewrite Z.shiftr_mul_pow2 by lia; reflexivity | auto].
  - destruct (@shift_right_spec w H0 a (Z.to_nat k) Ba) as [A B].
    destruct (@shift_left_spec w H0 a (Z.to_nat k) Ba) as [C D].
    rewrite A, C. rewrite Z2Nat.id by lia. split; [rewrite Z.shiftl_mul_pow2 by lia; reflexivity|]. split; [auto|].
    split; [rewrite Z.shiftr_div_pow2 by lia; reflexivity | auto].
Qed.
Print Assumptions C25_shift_exact.

(** construction from an integer, and back to an unsigned type of t bits: exact or an exception *)
Theorem C25_of_primitive w x : (16 <= w)%nat -> x < 2 ^ Z.of_nat w ->
  (0 <= x -> exists u, of_primitive x = Some u /\ value w u = x) /\ (x < 0 -> of_primitive x = None).
Proof.
  intros Hw Hx. unfold of_primitive. destruct (Z.leb_spec 0 x); split; intros; try lia.
  - eexists. split; [reflexivity|]. apply single_value.
  - reflexivity.
Qed.
Print Assumptions C25_of_primitive.

Theorem C25_of_wide w n x : (16 <= w)%nat -> 0 <= x < 2 ^ Z.of_nat (8 * n) ->
  exists u, of_wide w n x = Some u /\ value w u = x.
Proof.
  intros Hw Hx. destruct (@bytes_of_spec w Hw n x Hx) as [A B].
  destruct (load_data_spec Hw A) as (r & E & G & V). exists r. unfold of_wide.
  destruct (Z.leb_spec 0 x); [|lia]. split; [auto | lia].
Qed.
Print Assumptions C25_of_wide.

Theorem C25_to_unsigned w t u : (16 <= w)%nat -> (t <= w)%nat -> api w u ->
  to_unsigned t u = if value w u <? 2 ^ Z.of_nat t then Some (value w u) else None.
Proof.
  intros Hw Ht Hu. pose proof (pos_w Hw) as H0. apply (api_good Hw) in Hu. pose proof (good_blocks H0 Hu) as Bu.
  assert (0 < 2 ^ Z.of_nat t) by (apply Z.pow_pos_nonneg; lia).
  destruct u as [|x u].
  - cbn [to_unsigned value]. destruct (Z.ltb_spec 0 (2 ^ Z.of_nat t)); [reflexivity | lia].
  - destruct u as [|y u].
    + rewrite single_value. cbn [to_unsigned]. apply blocks_cons in Bu as [Bx _].
      destruct (Z.ltb_spec x (2 ^ Z.of_nat t)).
      * rewrite Z.mod_small by lia. rewrite Z.eqb_refl. reflexivity.
      * pose proof (Z.mod_pos_bound x (2 ^ Z.of_nat t)). destruct (Z.eqb_spec (x mod 2 ^ Z.of_nat t) x); [lia | reflexivity].
    + cbn [to_unsigned]. destruct Hu as [Hu|Hu]; [|discriminate].
      pose proof (canonical_lower H0 Hu ltac:(discriminate)) as L. cbn [length] in L.
      replace (S (S (length u)) - 1)%nat with (S (length u)) in L by lia. rewrite (RS w) in L. pose proof (Rkpos H0 (length u)).
      assert (2 ^ Z.of_nat t <= R w) by (apply Z.pow_le_mono_r; lia). pose proof (Rpos H0).
      destruct (Z.ltb_spec (value w (x :: y :: u)) (2 ^ Z.of_nat t)); [nia | reflexivity].
Qed.
Print Assumptions C25_to_unsigned.

(** ToPrimitive<int> of 2^64 - 1 returns -1 instead of throwing *)
Theorem C25_to_signed_refuted : exists u, api 64 u /\ value 64 u = 2 ^ 64 - 1 /\ to_signed 64 32 u = Some (-1).
Proof.
  exists [2 ^ 64 - 1]. split; [apply api_primitive with (x := 2 ^ 64 - 1); [lia | reflexivity]|].
  split; vm_compute; reflexivity.
Qed.
Print Assumptions C25_to_signed_refuted.

(** ... which is the only kind of failure: below 2^(t-1) the result is exact *)
Theorem C25_to_signed_partial w t u r : (16 <= w)%nat -> (1 <= t <= w)%nat -> api w u ->
  (value w u < 2 ^ (Z.of_nat t - 1) -> to_signed w t u = Some (value w u))
  /\ (to_signed w t u = Some r -> 0 <= r -> r = value w u).
Proof.
  intros Hw Ht Hu. pose proof (pos_w Hw) as H0. apply (api_good Hw) in Hu. pose proof (good_blocks H0 Hu) as Bu.
  assert (0 < 2 ^ (Z.of_nat t - 1)) by (apply Z.pow_pos_nonneg; lia).
  assert (ET : 2 ^ Z.of_nat t = 2 * 2 ^ (Z.of_nat t - 1)).
  { rewrite <- Z.pow_succ_r by lia. f_equal. lia. }
  assert (LE : 2 ^ Z.of_nat t <= R w) by (apply Z.pow_le_mono_r; lia).
  destruct u as [|x u].
  - cbn. split; [auto | congruence].
  - destruct u as [|y u].
    + rewrite single_value. cbn [to_signed]. apply blocks_cons in Bu as [Bx _]. split.
      * intros Hx. rewrite Z.mod_small by lia. destruct (Z.ltb_spec x (2 ^ (Z.of_nat t - 1))); [|lia].
        unfold wrap. rewrite Z.mod_small by lia. rewrite Z.eqb_refl. reflexivity.
      * set (m := x mod 2 ^ Z.of_nat t). pose proof (Z.mod_pos_bound x (2 ^ Z.of_nat t) ltac:(lia)). fold m in H1.
        destruct (Z.ltb_spec m (2 ^ (Z.of_nat t - 1))).
        -- unfold wrap. rewrite Z.mod_small by lia. destruct (Z.eqb_spec m x); [|discriminate]. intros [= <-] _. auto.
        -- destruct (_ =? x); [|discriminate]. intros [= <-]. lia.
    + cbn [to_signed]. split; [|discriminate]. destruct Hu as [Hu|Hu]; [|discriminate].
      pose proof (canonical_lower H0 Hu ltac:(discriminate)) as L. cbn [length] in L.
      replace (S (S (length u)) - 1)%nat with (S (length u)) in L by lia. rewrite (RS w) in L. pose proof (Rkpos H0 (length u)).
      pose proof (Rpos H0). intros. nia.
Qed.
Print Assumptions C25_to_signed_partial.

(** ** C26 *)
(** == is exact on canonical numbers *)
Theorem C26_equal_exact w a b : (16 <= w)%nat -> canonical w a -> canonical w b ->
  equal a b = true <-> value w a = value w b.
Proof.
  intros Hw Ha Hb. rewrite (equal_eq (pos_w Hw)). split; [congruence | apply (canonical_inj (pos_w Hw) Ha Hb)].
Qed.
Print Assumptions C26_equal_exact.

(** a < b holds whenever the value of a is less; and it is exact when the numbers of blocks differ or are at most one *)
Theorem C26_less_partial w a b : (16 <= w)%nat -> canonical w a -> canonical w b ->
  (value w a < value w b -> less a b = true)
  /\ (length a <> length b \/ (length a <= 1)%nat -> less a b = true -> value w a < value w b).
Proof.
  intros Hw Ha Hb. pose proof (pos_w Hw) as H0. split; [apply (less_complete H0 Ha Hb)|].
  intros [H|H].
  - apply (less_length H0 Ha Hb H).
  - destruct (Nat.eq_dec (length a) (length b)) as [E|E]; [|apply (less_length H0 Ha Hb E)].
    destruct a as [|x [|]], b as [|y [|]]; cbn in E, H; try lia; [discriminate|].
    rewrite !single_value. unfold less. cbn. destruct (Z.ltb_spec x y); [auto | discriminate].
Qed.
Print Assumptions C26_less_partial.

(** ... but the numeric order is not what operator < computes: both a < b and b < a hold here *)
Theorem C26_less_refuted :
  exists a b, api 64 a /\ api 64 b /\ canonical 64 a /\ canonical 64 b /\ value 64 b < value 64 a
    /\ less a b = true /\ less b a = true.
Proof.
  assert (A : forall x, 0 <= x < 2 ^ Z.of_nat 64 -> api 64 [x]).
  { intros x Hx. apply api_primitive with (x := x); [lia|]. unfold of_primitive. destruct (Z.leb_spec 0 x); [reflexivity | lia]. }
  exists [1; 2], [2; 1].
  assert (E1 : bit_or (shift_left 64 [2] 64) [1] = [1; 2]) by (vm_compute; reflexivity).
  assert (E2 : bit_or (shift_left 64 [1] 64) [2] = [2; 1]) by (vm_compute; reflexivity).
  split; [rewrite <- E1; apply api_or; [apply api_shl|]; apply A; lia|].
  split; [rewrite <- E2; apply api_or; [apply api_shl|]; apply A; lia|].
  assert (C : forall x y, 0 <= x < 2 ^ Z.of_nat 64 -> 0 < y < 2 ^ Z.of_nat 64 -> canonical 64 [x; y]).
  { intros x y Hx Hy. split; [repeat constructor; lia | cbn; lia]. }
  split; [apply C; lia|]. split; [apply C; lia|]. repeat split; vm_compute; reflexivity.
Qed.
Print Assumptions C26_less_refuted.

(** and the two zeroes are not equal *)
Theorem C26_equal_refuted : exists a b, api 64 a /\ api 64 b /\ value 64 a = value 64 b /\ equal a b = false /\ less a b = true.
Proof.
  exists [], [0]. split; [constructor|]. split; [apply api_primitive with (x := 0); [lia | reflexivity]|].
  repeat split.
Qed.
Print Assumptions C26_equal_refuted.

(** ** C27 *)
(** the text is the digits of the value, without leading zeroes, in upper case *)
Theorem C27_to_string w base u : (16 <= w)%nat -> 2 <= base <= 36 -> api w u ->
  exists s ds, to_string w u base = Some s /\ Forall2 char_digit s ds /\ Forall (fun d => 0 <= d < base) ds
    /\ digits_value base ds = value w u /\ (ds = [0] \/ hd 0 ds <> 0) /\ Forall (fun c => c <= 90) s.
Proof.
  intros Hw Hb Hu. destruct (to_string_spec Hw Hb (api_good Hw Hu)) as (ds & E & Hn & A & B & C).
  exists (map char_of ds), ds. split; [auto|].
  destruct (@chars_digits w Hw ds base) as [F1 F2]; [lia | auto|].
  split; [auto|]. split; [auto|]. split; [auto|]. split.
  - destruct C as [C|C]; [auto | right]. destruct ds; [congruence | exact C].
  - apply Forall_map. eapply Forall_impl; [|exact A]. cbn. intros d Hd. unfold char_of. destruct (d <? 10) eqn:?; lia.
Qed.
Print Assumptions C27_to_string.

(** loading a string gives its value; an invalid character or a digit >= base throws *)
Theorem C27_load_string w base s : (16 <= w)%nat -> 0 <= base < 2 ^ Z.of_nat w ->
  (forall ds, Forall2 char_digit s ds -> Forall (fun d => d < base) ds ->
     exists u, load_string w s base = Some u /\ value w u = digits_value base ds)
  /\ ((forall ds, Forall2 char_digit s ds -> ~ Forall (fun d => d < base) ds) -> load_string w s base = None).
Proof.
  intros Hw Hb. split.
  - intros ds H1 H2. destruct (@load_string_fold w Hw base s Hb [] ds H1 H2) as (r & E & G & V); [left; apply (nil_canonical Hw)|].
    exists r. auto.
  - intros H. apply load_string_bad. auto.
Qed.
Print Assumptions C27_load_string.

(** "0x..." is base 16, "0b..." is base 2, anything else base 10 *)
Theorem C27_load_prefix w s :
  load_auto w (48 :: 120 :: s) = load_string w s 16 /\ load_auto w (48 :: 98 :: s) = load_string w s 2
  /\ (forall t, (forall s, t <> 48 :: 120 :: s /\ t <> 48 :: 98 :: s) -> load_auto w t = load_string w t 10).
Proof.
  repeat split. intros t Ht. unfold load_auto.
  destruct t as [|c t]; [reflexivity|]. destruct t as [|d t].
  { repeat match goal with |- context [match ?x with _ => _ end] => destruct x; try reflexivity end. }
  destruct (Ht t) as [H1 H2]. 
  destruct (Z.eq_dec c 48) as [->|Hc].
  - destruct (Z.eq_dec d 120) as [->|Hd]; [congruence|]. destruct (Z.eq_dec d 98) as [->|Hd']; [congruence|].
    repeat match goal with |- context [match ?x with _ => _ end] => is_var x; destruct x; try reflexivity; try congruence end.
  - repeat match goal with |- context [match ?x with _ => _ end] => is_var x; destruct x; try reflexivity; try congruence end.
Qed.
Print Assumptions C27_load_prefix.

(** string round trip: same value, and the same number unless it is the default-constructed zero *)
Theorem C27_string_round_trip_partial w base u : (16 <= w)%nat -> 2 <= base <= 36 -> api w u ->
  exists s u', to_string w u base = Some s /\ load_string w s base = Some u' /\ value w u' = value w u /\ (u <> [] -> u' = u).
Proof.
  intros Hw Hb Hu. destruct (round_trip Hw Hb (api_good Hw Hu)) as (s & u' & A & B & C & D & E). exists s, u'. auto.
Qed.
Print Assumptions C27_string_round_trip_partial.

(** for the default-constructed zero the loaded number compares different *)
Theorem C27_string_round_trip_refuted :
  exists u s u', api 64 u /\ to_string 64 u 10 = Some s /\ load_string 64 s 10 = Some u' /\ equal u u' = false.
Proof. exists [], [48], [0]. split; [constructor|]. vm_compute. auto. Qed.
Print Assumptions C27_string_round_trip_refuted.

(** text round trip: digits without leading zeroes, upper case *)
Theorem C27_text_round_trip w base ds : (16 <= w)%nat -> 2 <= base <= 36 -> ds <> [] ->
  Forall (fun d => 0 <= d < base) ds -> ds = [0] \/ hd 0 ds <> 0 ->
  exists u, load_string w (map char_of ds) base = Some u /\ to_string w u base = Some (map char_of ds).
Proof.
  intros Hw Hb Hn H Hl. apply (round_trip_string Hw Hb Hn H). destruct Hl as [Hl|Hl]; [auto | right].
  destruct ds; [congruence | exact Hl].
Qed.
Print Assumptions C27_text_round_trip.

(** ToByteArray gives the big-endian bytes; constructing from them gives the same value *)
Theorem C27_bytes_round_trip w u : (16 <= w)%nat -> api w u ->
  exists bytes u', dump w u 256 = Some bytes /\ Forall (fun b => 0 <= b < 256) bytes
    /\ digits_value 256 bytes = value w u /\ load_data w bytes = Some u' /\ value w u' = value w u.
Proof.
  intros Hw Hu. destruct (bytes_round_trip Hw (api_good Hw Hu)) as (b & u' & A & B & C & D & E & F). exists b, u'. auto.
Qed.
Print Assumptions C27_bytes_round_trip.

(** ** Concrete cases *)
Definition two64 : list Z := [0; 1].
Example two64_api : api 64 two64.
Proof.
  assert (A : api 64 [1]) by (apply api_primitive with (x := 1); [lia | reflexivity]).
  assert (E : shift_left 64 [1] 64 = two64) by (vm_compute; reflexivity).
  rewrite <- E. apply api_shl. auto.
Qed.
Example ex_carry : add 64 [2 ^ 64 - 1; 2 ^ 64 - 1] [1] = [0; 0; 1]. Proof. vm_compute. reflexivity. Qed.
Example ex_borrow : subtract 64 two64 [1] = Some [2 ^ 64 - 1]. Proof. vm_compute. reflexivity. Qed.
Example ex_mul : multiply 64 [2 ^ 64 - 1] [2 ^ 64 - 1] = Some [1; 2 ^ 64 - 2]. Proof. vm_compute. reflexivity. Qed.
Example ex_div : op_div 64 [7; 5] [3] = Some [(5 * 2 ^ 64 + 7) / 3 mod 2 ^ 64; 1]. Proof. vm_compute. reflexivity. Qed.
Example ex_text : to_string 64 two64 10 = Some [49; 56; 52; 52; 54; 55; 52; 52; 48; 55; 51; 55; 48; 57; 53; 53; 49; 54; 49; 54].
Proof. vm_compute. reflexivity. Qed.
Example ex_unsigned : to_unsigned 8 [300] = None /\ to_unsigned 16 [300] = Some 300. Proof. vm_compute. auto. Qed.
