(** Proofs about UTF-8. *)
From Verif Require Import Base Utf8Model Utf8Spec.
Local Open Scope Z_scope.

(** Facts about bytes, by looking at all 256 of them. *)
Definition all_bytes : list Z := map Z.of_nat (seq 0 256).
Lemma byte_cases (P : Z -> bool) : forallb P all_bytes = true -> forall b, 0 <= b <= 255 -> P b = true.
Proof.
  intros H b Hb. rewrite forallb_forall in H. apply H. unfold all_bytes. apply in_map_iff. exists (Z.to_nat b). split; [lia | ]. apply in_seq. lia.
Qed.
Ltac bytewise := match goal with |- forall b, 0 <= b <= 255 -> @?P b = true => exact (byte_cases P eq_refl) end.

Lemma is_cont_spec b : 0 <= b <= 255 -> is_cont b = (0x80 <=? b) && (b <=? 0xbf).
Proof. intros H. apply eqb_prop. revert b H. apply (byte_cases (fun b => Bool.eqb (is_cont b) ((0x80 <=? b) && (b <=? 0xbf)))). vm_compute. reflexivity. Qed.
Lemma land_mod k x : 0 <= k -> Z.land x (2 ^ k - 1) = x mod 2 ^ k.
Proof. intros. rewrite <- Z.land_ones by assumption. f_equal. rewrite Z.ones_equiv. lia. Qed.
Lemma lor_shift a b k : 0 <= k -> 0 <= a -> 0 <= b < 2 ^ k -> Z.lor (Z.shiftl a k) b = a * 2 ^ k + b.
Proof.
  intros Hk Ha Hb. rewrite Z.shiftl_mul_pow2 by assumption.
  assert (N : Z.land (a * 2 ^ k) b = 0).
  { apply Z.bits_inj'. intros n Hn. rewrite Z.land_spec, Z.bits_0.
    destruct (Z.ltb_spec n k).
    - rewrite Z.mul_pow2_bits_low by assumption. reflexivity.
    - replace (Z.testbit b n) with false; [apply andb_false_r | ]. symmetry. 
      destruct (Z.eq_dec b 0) as [-> | Nb]; [apply Z.bits_0 | ]. apply Z.bits_above_log2; [lia | ]. apply Z.log2_lt_pow2; [lia | ].
      apply Z.lt_le_trans with (2 ^ k); [lia | ]. apply Z.pow_le_mono_r; lia. }
  rewrite (Z.add_nocarry_lxor _ _ N). symmetry. apply Z.lxor_lor; exact N.
Qed.

Lemma cont_6 x : 0 <= x -> Z.land (0x80 + x mod 64) 0x3f = x mod 64 /\ is_cont (0x80 + x mod 64) = true /\ 0x80 <= 0x80 + x mod 64 <= 0xbf.
Proof.
  intros H. pose proof (Z.mod_pos_bound x 64 ltac:(lia)). split; [ | split; [ | lia]].
  - change 0x3f with (2 ^ 6 - 1). rewrite land_mod by lia. change (2 ^ 6) with 64. replace (0x80 + x mod 64) with (x mod 64 + 2 * 64) by lia.
    rewrite Z.mod_add, Z.mod_mod by lia. reflexivity.
  - rewrite is_cont_spec by lia. apply andb_true_iff. split; apply Z.leb_le; lia.
Qed.

Ltac zbool := repeat match goal with
  | |- context [?a <=? ?b] => first [replace (a <=? b) with true by (symmetry; apply Z.leb_le; lia) | replace (a <=? b) with false by (symmetry; apply Z.leb_gt; lia)]
  | |- context [?a <? ?b] => first [replace (a <? b) with true by (symmetry; apply Z.ltb_lt; lia) | replace (a <? b) with false by (symmetry; apply Z.ltb_ge; lia)]
  | |- context [?a =? ?b] => first [replace (a =? b) with true by (symmetry; apply Z.eqb_eq; lia) | replace (a =? b) with false by (symmetry; apply Z.eqb_neq; lia)]
  end; cbn [andb orb negb].

Lemma lead_ok_spec b : 0xc2 <= b <= 0xf4 -> lead_ok b = true /\ is_cont b = false.
Proof. intros H. unfold lead_ok. rewrite is_cont_spec by lia. zbool. auto. Qed.

Lemma enc_forms c : 0 <= c < 0x110000 ->
  (c < 0x80 /\ enc c = [c]) \/
  (0x80 <= c < 0x800 /\ enc c = [0xc0 + c / 64; 0x80 + c mod 64] /\ 2 <= c / 64 <= 31) \/
  (0x800 <= c < 0x10000 /\ enc c = [0xe0 + c / 4096; 0x80 + (c / 64) mod 64; 0x80 + c mod 64] /\ 0 <= c / 4096 <= 15) \/
  (0x10000 <= c /\ enc c = [0xf0 + c / 262144; 0x80 + (c / 4096) mod 64; 0x80 + (c / 64) mod 64; 0x80 + c mod 64] /\ 0 <= c / 262144 <= 4).
Proof.
  intros H. unfold enc. destruct (Z.ltb_spec c 0x80); [auto | right]. destruct (Z.ltb_spec c 0x800); [left | right].
  - split; [lia | ]. split; [reflexivity | ]. split; [apply Z.div_le_lower_bound; lia | apply Z.lt_succ_r, Z.div_lt_upper_bound; lia].
  - destruct (Z.ltb_spec c 0x10000); [left | right].
    + split; [lia | ]. split; [reflexivity | ]. split; [apply Z.div_pos; lia | apply Z.lt_succ_r, Z.div_lt_upper_bound; lia].
    + split; [lia | ]. split; [reflexivity | ]. split; [apply Z.div_pos; lia | apply Z.lt_succ_r, Z.div_lt_upper_bound; lia].
Qed.

Lemma enc_symbol c : 0 <= c < 0x110000 -> symbol (enc c).
Proof.
  intros H. pose proof (cont_6 c ltac:(lia)) as (_ & _ & C1). pose proof (cont_6 (c / 64) ltac:(apply Z.div_pos; lia)) as (_ & _ & C2).
  pose proof (cont_6 (c / 4096) ltac:(apply Z.div_pos; lia)) as (_ & _ & C3).
  destruct (enc_forms c H) as [[Hc E] | [(Hc & E & B) | [(Hc & E & B) | (Hc & E & B)]]]; rewrite E.
  - left. exists c. split; [reflexivity | lia].
  - right; left. do 2 eexists. split; [reflexivity | ]. unfold cont. lia.
  - right; right; left. do 3 eexists. split; [reflexivity | ]. unfold cont. lia.
  - right; right; right. do 4 eexists. split; [reflexivity | ]. unfold cont. lia.
Qed.

Lemma div_chain c a b : 0 < a -> 0 < b -> c / (a * b) = c / a / b.
Proof. intros. symmetry. apply Z.div_div; lia. Qed.

Lemma get_enc c t : 0 <= c < 0x110000 -> get (enc c ++ t) = Some c.
Proof.
  intros H. pose proof (cont_6 c ltac:(lia)) as (L1 & K1 & C1). pose proof (cont_6 (c / 64) ltac:(apply Z.div_pos; lia)) as (L2 & K2 & C2).
  pose proof (cont_6 (c / 4096) ltac:(apply Z.div_pos; lia)) as (L3 & K3 & C3).
  pose proof (Z.div_mod c 64 ltac:(lia)) as D1. pose proof (Z.div_mod (c / 64) 64 ltac:(lia)) as D2.
  pose proof (Z.div_mod (c / 4096) 64 ltac:(lia)) as D3.
  rewrite <- (div_chain c 64 64) in D2 by lia. change (64 * 64) with 4096 in D2. 
  rewrite <- (div_chain c 4096 64) in D3 by lia. change (4096 * 64) with 262144 in D3.
  pose proof (Z.mod_pos_bound c 64 ltac:(lia)). pose proof (Z.mod_pos_bound (c / 64) 64 ltac:(lia)). pose proof (Z.mod_pos_bound (c / 4096) 64 ltac:(lia)).
  destruct (enc_forms c H) as [[Hc E] | [(Hc & E & B) | [(Hc & E & B) | (Hc & E & B)]]]; rewrite E; cbn [app get].
  - zbool. reflexivity.
  - destruct (lead_ok_spec (0xc0 + c / 64) ltac:(lia)) as [-> _]. rewrite K1, L1. zbool.
    f_equal. change 0x1f with (2 ^ 5 - 1). rewrite land_mod by lia. change (2 ^ 5) with 32.
    replace ((0xc0 + c / 64) mod 32) with (c / 64).
    + rewrite lor_shift by lia. change (2 ^ 6) with 64. lia.
    + replace (0xc0 + c / 64) with (c / 64 + 6 * 32) by lia. rewrite Z.mod_add, Z.mod_small by lia. reflexivity.
  - destruct (lead_ok_spec (0xe0 + c / 4096) ltac:(lia)) as [-> _]. rewrite K1, K2, L1, L2. zbool.
    f_equal. change 0x0f with (2 ^ 4 - 1). rewrite land_mod by lia. change (2 ^ 4) with 16.
    replace ((0xe0 + c / 4096) mod 16) with (c / 4096).
    + set (q := c / 4096) in *. set (y := (c / 64) mod 64) in *.
      replace (Z.shiftl q 12) with (Z.shiftl (Z.shiftl q 6) 6) by (rewrite Z.shiftl_shiftl by lia; reflexivity).
      rewrite <- Z.shiftl_lor. rewrite (lor_shift q y 6) by lia. rewrite lor_shift by lia. change (2 ^ 6) with 64. lia.
    + replace (0xe0 + c / 4096) with (c / 4096 + 14 * 16) by lia. rewrite Z.mod_add, Z.mod_small by lia. reflexivity.
  - destruct (lead_ok_spec (0xf0 + c / 262144) ltac:(lia)) as [-> _]. rewrite K1, K2, K3, L1, L2, L3. zbool.
    f_equal. change 0x07 with (2 ^ 3 - 1). rewrite land_mod by lia. change (2 ^ 3) with 8.
    replace ((0xf0 + c / 262144) mod 8) with (c / 262144).
    + set (q := c / 262144) in *. set (x := (c / 4096) mod 64) in *. set (y := (c / 64) mod 64) in *.
      replace (Z.shiftl q 18) with (Z.shiftl (Z.shiftl q 6) 12) by (rewrite Z.shiftl_shiftl by lia; reflexivity).
      rewrite <- Z.shiftl_lor. rewrite (lor_shift q x 6) by lia.
      replace (Z.shiftl (q * 2 ^ 6 + x) 12) with (Z.shiftl (Z.shiftl (q * 2 ^ 6 + x) 6) 6) by (rewrite Z.shiftl_shiftl by lia; reflexivity).
      rewrite <- Z.shiftl_lor. rewrite (lor_shift (q * 2 ^ 6 + x) y 6) by lia. rewrite lor_shift by lia. change (2 ^ 6) with 64. lia.
    + replace (0xf0 + c / 262144) with (c / 262144 + 30 * 8) by lia. rewrite Z.mod_add, Z.mod_small by lia. reflexivity.
Qed.

Lemma next_symbol u t : symbol u -> next (u ++ t) = (true, length u).
Proof.
  intros [(a & -> & Ha) | [(a & b & -> & Ha & Hb) | [(a & b & c & -> & Ha & Hb & Hc) | (a & b & c & d & -> & Ha & Hb & Hc & Hd)]]]; cbn [app next length]; unfold cont in *.
  - zbool. reflexivity.
  - destruct (lead_ok_spec a ltac:(lia)) as [-> _]. rewrite !is_cont_spec by lia. zbool. reflexivity.
  - destruct (lead_ok_spec a ltac:(lia)) as [-> _]. rewrite !is_cont_spec by lia. zbool. reflexivity.
  - destruct (lead_ok_spec a ltac:(lia)) as [-> _]. rewrite !is_cont_spec by lia. zbool. reflexivity.
Qed.
Lemma next_sound s k : bytes s -> next s = (true, k) -> exists u t, s = u ++ t /\ symbol u /\ length u = k.
Proof.
  intros B H. destruct s as [ | a s]; cbn [next] in H; [discriminate | ]. inversion B as [ | ? ? Ba Bs]; subst.
  destruct (Z.leb_spec a 0x7f). { injection H as <-. exists [a], s. split; [reflexivity | ]. split; [left; exists a; split; [reflexivity | lia] | reflexivity]. }
  destruct (lead_ok a) eqn:L; cbn [negb] in H; [ | discriminate].
  unfold lead_ok in L. rewrite is_cont_spec in L by assumption. rewrite !andb_true_iff in L. destruct L as [[[L1 L2] L3] L4].
  apply Z.ltb_lt in L4. apply negb_true_iff in L1, L2, L3. apply Z.eqb_neq in L2, L3. apply andb_false_iff in L1.
  assert (La : 0xc2 <= a). { destruct L1 as [L1 | L1]; apply Z.leb_gt in L1; lia. }
  destruct s as [ | b s]; [discriminate | ]. inversion Bs as [ | ? ? Bb Bs2]; subst. rewrite is_cont_spec in H by assumption.
  destruct (Z.leb_spec 0x80 b), (Z.leb_spec b 0xbf); cbn [andb negb] in H; try discriminate.
  destruct (Z.leb_spec 0xc2 a), (Z.leb_spec a 0xdf); cbn [andb] in H; try lia.
  { injection H as <-. exists [a; b], s. split; [reflexivity | ]. split; [right; left; exists a, b; unfold cont; split; [reflexivity | lia] | reflexivity]. }
  destruct s as [ | c s]; [discriminate | ]. inversion Bs2 as [ | ? ? Bc Bs3]; subst. rewrite is_cont_spec in H by assumption.
  destruct (Z.leb_spec 0x80 c), (Z.leb_spec c 0xbf); cbn [andb negb] in H; try discriminate.
  destruct (Z.leb_spec 0xe0 a), (Z.leb_spec a 0xef); cbn [andb] in H; try lia.
  { injection H as <-. exists [a; b; c], s. split; [reflexivity | ]. split; [right; right; left; exists a, b, c; unfold cont; split; [reflexivity | lia] | reflexivity]. }
  destruct s as [ | d s]; [discriminate | ]. inversion Bs3 as [ | ? ? Bd Bs4]; subst. rewrite is_cont_spec in H by assumption.
  destruct (Z.leb_spec 0x80 d), (Z.leb_spec d 0xbf); cbn [andb negb] in H; try discriminate.
  injection H as Hx <-. exists [a; b; c; d], s. split; [reflexivity | ]. split; [ | reflexivity]. right; right; right. exists a, b, c, d. unfold cont. split; [reflexivity | lia].
Qed.
Lemma next_get s : bytes s -> (exists c, get s = Some c) <-> fst (next s) = true.
Proof.
  intros B. destruct s as [ | a s]; cbn [next get]; [split; [intros (c & H); discriminate | discriminate] | ].
  repeat match goal with
  | |- context [if ?b then _ else _] => destruct b
  | |- context [match ?l with [] => _ | _ :: _ => _ end] => destruct l
  end; cbn [fst]; split; intros; try discriminate; eauto; try match goal with H : exists c, None = Some c |- _ => destruct H; discriminate end.
  all: destruct ((0xf0 <=? a) && (a <=? 0xf4)); try discriminate; eauto; destruct H; discriminate.
Qed.
Lemma prev_symbol u r : symbol u -> prev (rev u ++ r) = (true, length u).
Proof.
  intros [(a & -> & Ha) | [(a & b & -> & Ha & Hb) | [(a & b & c & -> & Ha & Hb & Hc) | (a & b & c & d & -> & Ha & Hb & Hc & Hd)]]]; cbn [rev app prev prev_loop length]; unfold cont in *;
    rewrite ?is_cont_spec by lia; zbool; rewrite ?is_cont_spec by lia; zbool; rewrite ?is_cont_spec by lia; zbool; rewrite ?is_cont_spec by lia; zbool; reflexivity.
Qed.
Lemma symbol_nonempty u : symbol u -> (1 <= length u)%nat.
Proof. intros [(a & -> & _) | [(a & b & -> & _) | [(a & b & c & -> & _) | (a & b & c & d & -> & _)]]]; cbn; lia. Qed.
Lemma symbol_bytes u : symbol u -> bytes u.
Proof.
  unfold cont. intros [(a & -> & Ha) | [(a & b & -> & Ha & Hb) | [(a & b & c & -> & Ha & Hb & Hc) | (a & b & c & d & -> & Ha & Hb & Hc & Hd)]]]; unfold cont, bytes in *; repeat constructor; lia.
Qed.

Lemma skipn_app_all {A} (u t : list A) : skipn (length u) (u ++ t) = t.
Proof. rewrite skipn_app, skipn_all, Nat.sub_diag. reflexivity. Qed.
Lemma firstn_app_all {A} (u t : list A) : firstn (length u) (u ++ t) = u.
Proof. rewrite firstn_app, firstn_all, Nat.sub_diag. cbn. apply app_nil_r. Qed.

Lemma strlen_symbols : forall us F n, Forall symbol us -> (length us < F)%nat -> strlen_loop F (concat us) n = Some (n + length us)%nat.
Proof.
  induction us as [ | u us IH]; intros F n Fu HF; (destruct F; [cbn in HF; lia | ]).
  - cbn. f_equal. lia.
  - inversion Fu as [ | ? ? Hu Hus]; subst. pose proof (symbol_nonempty u Hu) as Ne. cbn [concat strlen_loop].
    destruct (u ++ concat us) as [ | x l] eqn:E; [apply (f_equal (@length Z)) in E; rewrite app_length in E; cbn in E; lia | ].
    rewrite <- E, next_symbol by assumption. rewrite skipn_app_all, IH; [f_equal; cbn; lia | assumption | cbn in HF; lia].
Qed.
Lemma strlen_sound : forall F s n m, bytes s -> strlen_loop F s n = Some m -> exists us, s = concat us /\ Forall symbol us /\ m = (n + length us)%nat.
Proof.
  induction F; intros s n m B H; cbn [strlen_loop] in H; [discriminate | ]. destruct s as [ | x s].
  - injection H as <-. exists []. split; [reflexivity | ]. split; [constructor | cbn; lia].
  - destruct (next (x :: s)) as [[ | ] k] eqn:E; [ | discriminate]. destruct (next_sound _ _ B E) as (u & t & Es & Su & Lu).
    rewrite Es, <- Lu, skipn_app_all in H. rewrite Es in B. unfold bytes in B. rewrite Forall_app in B. destruct B as [_ Bt].
    destruct (IHF _ _ _ Bt H) as (us & -> & Fus & ->). exists (u :: us). split; [rewrite Es; reflexivity | ]. split; [constructor; assumption | cbn; lia].
Qed.
Lemma symbols_len us : Forall symbol us -> (length us <= length (concat us))%nat.
Proof. induction 1; cbn; [lia | ]. rewrite app_length. pose proof (symbol_nonempty x H). lia. Qed.

(** Substrings, over symbols *)
Lemma skip_symbols_sym : forall us F pos index dist, Forall symbol us -> (pos - index <= length us)%nat -> (length us < F)%nat ->
  skip_loop F true pos index dist (concat us) = Some (concat (skipn (pos - index) us)).
Proof.
  induction us as [ | u us IH]; intros F pos index dist Fu Hp HF; (destruct F; [cbn in HF; lia | ]); cbn [skip_loop].
  - destruct (Nat.ltb_spec index pos); [cbn in Hp; lia | ]. rewrite skipn_nil. reflexivity.
  - destruct (Nat.ltb_spec index pos).
    + inversion Fu as [ | ? ? Hu Hus]; subst. cbn [concat]. rewrite next_symbol by assumption. rewrite skipn_app_all, IH; [ | assumption | cbn in Hp; lia | cbn in HF; lia].
      replace (pos - index)%nat with (S (pos - S index)) by lia. reflexivity.
    + replace (pos - index)%nat with 0%nat by lia. reflexivity.
Qed.
Lemma skip_symbols_short : forall us F pos index dist, Forall symbol us -> (length us < pos - index)%nat -> (length us < F)%nat ->
  skip_loop F true pos index dist (concat us) = None.
Proof.
  induction us as [ | u us IH]; intros F pos index dist Fu Hp HF; (destruct F; [cbn in HF; lia | ]); cbn [skip_loop]; (destruct (Nat.ltb_spec index pos); [ | cbn in Hp; lia]).
  - reflexivity.
  - inversion Fu as [ | ? ? Hu Hus]; subst. cbn [concat]. rewrite next_symbol by assumption. rewrite skipn_app_all. apply IH; [assumption | cbn in Hp; lia | cbn in HF; lia].
Qed.
Lemma take_symbols_sym : forall us F count index got, Forall symbol us -> (length us < F)%nat -> (index <= count)%nat ->
  take_loop F true count index got (concat us) = Some (got ++ concat (firstn (count - index) us)).
Proof.
  induction us as [ | u us IH]; intros F count index got Fu HF Hi; (destruct F; [cbn in HF; lia | ]); cbn [take_loop].
  - rewrite firstn_nil. cbn. rewrite app_nil_r. reflexivity.
  - inversion Fu as [ | ? ? Hu Hus]; subst. pose proof (symbol_nonempty u Hu) as Ne. cbn [concat].
    destruct (u ++ concat us) as [ | x l] eqn:E; [apply (f_equal (@length Z)) in E; rewrite app_length in E; cbn in E; lia | ].
    rewrite <- E, next_symbol by assumption. destruct (Nat.ltb_spec count (S index)).
    + replace (count - index)%nat with 0%nat by lia. cbn. rewrite app_nil_r. reflexivity.
    + rewrite firstn_app_all, skipn_app_all, IH; [ | assumption | cbn in HF; lia | lia].
      replace (count - index)%nat with (S (count - S index)) by lia. cbn [firstn concat]. rewrite app_assoc. reflexivity.
Qed.
(** by bytes *)
Lemma skip_symbols_byte : forall us F pos index dist, Forall symbol us -> (length us < F)%nat -> (pos - dist <= length (concat us))%nat ->
  exists a b, us = a ++ b /\ skip_loop F false pos index dist (concat us) = Some (concat b) /\ (pos <= dist + length (concat a))%nat /\
    (forall a' u, a = a' ++ [u] -> (dist + length (concat a') < pos)%nat).
Proof.
  induction us as [ | u us IH]; intros F pos index dist Fu HF Hp; (destruct F; [cbn in HF; lia | ]); cbn [skip_loop].
  - destruct (Nat.ltb_spec dist pos); [cbn in Hp; lia | ]. exists [], []. split; [reflexivity | ]. split; [reflexivity | ]. split; [cbn; lia | ]. intros a' u E. destruct a'; discriminate.
  - destruct (Nat.ltb_spec dist pos).
    + inversion Fu as [ | ? ? Hu Hus]; subst. cbn [concat] in *. rewrite app_length in Hp. rewrite next_symbol by assumption. rewrite skipn_app_all.
      destruct (IH F pos (S index) (dist + length u)%nat Hus ltac:(cbn in HF; lia) ltac:(lia)) as (a & b & -> & Hs & Ha & Hm).
      exists (u :: a), b. split; [reflexivity | ]. split; [exact Hs | ]. split; [cbn [concat]; rewrite app_length; lia | ].
      intros a' v E. destruct a' as [ | w a']; cbn [app] in E; [cbn; lia | ]. injection E as <- E. cbn [concat]. rewrite app_length. specialize (Hm _ _ E). lia.
    + exists [], (u :: us). split; [reflexivity | ]. split; [reflexivity | ]. split; [cbn; lia | ]. intros a' v E. destruct a'; discriminate.
Qed.
Lemma take_symbols_byte : forall us F count index got, Forall symbol us -> (length us < F)%nat -> (length got <= count)%nat ->
  exists b c, us = b ++ c /\ take_loop F false count index got (concat us) = Some (got ++ concat b) /\ (length got + length (concat b) <= count)%nat /\
    (forall u c', c = u :: c' -> (count < length got + length (concat b) + length u)%nat).
Proof.
  induction us as [ | u us IH]; intros F count index got Fu HF Hg; (destruct F; [cbn in HF; lia | ]); cbn [take_loop].
  - exists [], []. cbn. rewrite app_nil_r. split; [reflexivity | ]. split; [reflexivity | ]. split; [lia | discriminate].
  - inversion Fu as [ | ? ? Hu Hus]; subst. pose proof (symbol_nonempty u Hu) as Ne. cbn [concat].
    destruct (u ++ concat us) as [ | x l] eqn:E; [apply (f_equal (@length Z)) in E; rewrite app_length in E; cbn in E; lia | ].
    rewrite <- E, next_symbol by assumption. destruct (Nat.ltb_spec count (length got + length u)).
    + exists [], (u :: us). cbn. rewrite app_nil_r. split; [reflexivity | ]. split; [reflexivity | ]. split; [lia | ]. intros v c' Ev. injection Ev as <- <-. lia.
    + rewrite firstn_app_all, skipn_app_all. destruct (IH F count (S index) (got ++ u) Hus ltac:(cbn in HF; lia) ltac:(rewrite app_length; lia)) as (b & c & -> & H1 & H2 & H3).
      exists (u :: b), c. split; [reflexivity | ]. cbn [concat]. rewrite H1, <- app_assoc. rewrite app_length in H2. rewrite app_length. split; [reflexivity | ]. split; [lia | ].
      intros v c' Ev. specialize (H3 v c' Ev). rewrite app_length in H3. lia.
Qed.

(** Lower case *)
Lemma low_range c : scalar c -> scalar (low c).
Proof.
  unfold scalar, low. intros [H1 H2].
  destruct (Z.leb_spec 0x41 c), (Z.leb_spec c 0x5a), (Z.leb_spec 0x410 c), (Z.leb_spec c 0x42f), (Z.leb_spec 0x401 c), (Z.leb_spec c 0x40f); cbn [andb]; lia.
Qed.
Lemma low_idem c : low (low c) = low c.
Proof.
  unfold low.
  destruct (Z.leb_spec 0x41 c), (Z.leb_spec c 0x5a), (Z.leb_spec 0x410 c), (Z.leb_spec c 0x42f), (Z.leb_spec 0x401 c), (Z.leb_spec c 0x40f); cbn [andb]; zbool; try reflexivity; lia.
Qed.
Definition d0_test (b : Z) : bool :=
  let c := 0x400 + (b - 0x80) in
  let d := if (0x410 <=? c) && (c <=? 0x42f) then c + 0x20 else if (0x401 <=? c) && (c <=? 0x40f) then c + 0x50 else c in
  implb ((0x80 <=? b) && (b <=? 0xbf))
    ((Z.lor (Z.shiftl (Z.land 0xD0 0x1f) 6) (Z.land b 0x3f) =? c) && (Z.lor 0xD0 (Z.shiftr d 6) =? 0xc0 + d / 64) && (Z.lor (Z.land d 0x3f) 0x80 =? 0x80 + d mod 64)).
Lemma d0_ok b : 0x80 <= b <= 0xbf -> d0_test b = true.
Proof. intros H. apply (byte_cases d0_test); [vm_compute; reflexivity | lia]. Qed.

Lemma lower_plain : forall l t, Forall (fun b => 0x80 <= b /\ b <> 0xD0) l -> to_lower (l ++ t) = option_map (app l) (to_lower t).
Proof.
  induction l as [ | b l IH]; intros t F; cbn [app].
  - destruct (to_lower t); reflexivity.
  - inversion F as [ | ? ? [Hb1 Hb2] Fl]; subst. cbn [to_lower]. zbool. rewrite IH by assumption. destruct (to_lower t); reflexivity.
Qed.
Lemma lower_enc c t : scalar c -> to_lower (enc c ++ t) = option_map (app (enc (low c))) (to_lower t).
Proof.
  intros [H Hs]. pose proof (cont_6 c ltac:(lia)) as (_ & _ & C1). pose proof (cont_6 (c / 64) ltac:(apply Z.div_pos; lia)) as (_ & _ & C2).
  pose proof (cont_6 (c / 4096) ltac:(apply Z.div_pos; lia)) as (_ & _ & C3).
  destruct (enc_forms c H) as [[Hc E] | [(Hc & E & B) | [(Hc & E & B) | (Hc & E & B)]]].
  - rewrite E. cbn [app to_lower]. unfold low. destruct (Z.leb_spec 0x41 c), (Z.leb_spec c 0x5a); try (exfalso; lia); cbn [andb]; zbool.
    2-3: rewrite E; destruct (to_lower t); reflexivity.
    replace (c + 97 - 65) with (c + 32) by lia. unfold enc. zbool. destruct (to_lower t); reflexivity.
  - destruct (Z.eq_dec (c / 64) 16) as [Eq | Nq].
    + pose proof (Z.div_mod c 64 ltac:(lia)) as D. pose proof (Z.mod_pos_bound c 64 ltac:(lia)) as M.
      rewrite E, Eq. change (0xc0 + 16) with 0xd0. cbn [app to_lower]. change (0x41 <=? 0xd0) with true. change (0xd0 <=? 0x5a) with false. change (0xd0 =? 0xd0) with true. cbn [andb].
      pose proof (d0_ok (0x80 + c mod 64) ltac:(lia)) as T. unfold d0_test in T. rewrite (proj2 (Z.leb_le 0x80 (0x80 + c mod 64))) in T by lia.
      rewrite (proj2 (Z.leb_le (0x80 + c mod 64) 0xbf)) in T by lia. cbn [andb implb] in T. rewrite !andb_true_iff, !Z.eqb_eq in T. destruct T as [[T1 T2] T3].
      cbv zeta. rewrite T1. replace (0x400 + (0x80 + c mod 64 - 0x80)) with c in * by lia.
      set (d := if (0x410 <=? c) && (c <=? 0x42f) then c + 0x20 else if (0x401 <=? c) && (c <=? 0x40f) then c + 0x50 else c) in *.
      rewrite T2, T3. assert (Ed : low c = d). { unfold low. zbool. rewrite ?andb_false_r. reflexivity. }
      assert (Rd : 0x80 <= d < 0x800). { unfold d. destruct (0x410 <=? c), (c <=? 0x42f), (0x401 <=? c), (c <=? 0x40f); cbn [andb]; lia. }
      rewrite Ed. unfold enc. zbool. destruct (to_lower t); reflexivity.
    + assert (El : low c = c).
      { unfold low. assert (~ (0x400 <= c < 0x440)). { intros X. apply Nq. symmetry. apply (Z.div_unique c 64 16 (c - 1024)); lia. }
        destruct (Z.leb_spec 0x410 c), (Z.leb_spec c 0x42f), (Z.leb_spec 0x401 c), (Z.leb_spec c 0x40f); cbn [andb]; zbool; rewrite ?andb_false_r; try reflexivity; lia. }
      rewrite El, E. apply (lower_plain [0xc0 + c / 64; 0x80 + c mod 64]). repeat constructor; lia.
  - assert (El : low c = c). { unfold low. zbool. rewrite ?andb_false_r. reflexivity. }
    rewrite El, E. apply (lower_plain [_; _; _]). repeat constructor; lia.
  - assert (El : low c = c). { unfold low. zbool. rewrite ?andb_false_r. reflexivity. }
    rewrite El, E. apply (lower_plain [_; _; _; _]). repeat constructor; lia.
Qed.
Lemma lower_encs cs : Forall scalar cs -> to_lower (encs cs) = Some (encs (map low cs)).
Proof.
  induction 1 as [ | c cs Hc _ IH]; [reflexivity | ]. cbn [encs flat_map map]. fold (encs cs) (encs (map low cs)). rewrite lower_enc by assumption. rewrite IH. reflexivity.
Qed.

(** Comparison of the bytes is comparison of the code points. *)
Lemma cmp_app_same u x y : cmp (u ++ x) (u ++ y) = cmp x y.
Proof. induction u; cbn; [reflexivity | ]. rewrite Z.compare_refl. exact IHu. Qed.
Lemma cmp_head a b x y : a < b -> cmp (a :: x) (b :: y) = Lt.
Proof. intros H. cbn. rewrite (proj2 (Z.compare_lt_iff a b) H). reflexivity. Qed.
Lemma cmp_anti : forall x y, cmp y x = CompOpp (cmp x y).
Proof.
  induction x as [ | a x IH]; intros [ | b y]; cbn; try reflexivity. rewrite Z.compare_antisym. destruct (a ?= b) eqn:E; cbn; auto.
Qed.
Lemma cmp_cons_eq a x y : cmp (a :: x) (a :: y) = cmp x y.
Proof. cbn. rewrite Z.compare_refl. reflexivity. Qed.
Ltac hide1 t := let x := fresh "z" in let E := fresh "E" in remember t as x eqn:E in *; clear E.
Ltac hide c := hide1 (c mod 64); hide1 ((c / 64) mod 64); hide1 ((c / 4096) mod 64); hide1 (c / 64); hide1 (c / 4096); hide1 (c / 262144).
Lemma enc_lt c d x y : 0 <= c -> c < d -> d < 0x110000 -> cmp (enc c ++ x) (enc d ++ y) = Lt.
Proof.
  intros Hc Hcd Hd.
  pose proof (Z.div_mod c 64 ltac:(lia)) as C1. pose proof (Z.div_mod (c / 64) 64 ltac:(lia)) as C2. pose proof (Z.div_mod (c / 4096) 64 ltac:(lia)) as C3.
  pose proof (Z.div_mod d 64 ltac:(lia)) as D1. pose proof (Z.div_mod (d / 64) 64 ltac:(lia)) as D2. pose proof (Z.div_mod (d / 4096) 64 ltac:(lia)) as D3.
  rewrite <- (div_chain c 64 64) in C2 by lia. rewrite <- (div_chain d 64 64) in D2 by lia. change (64 * 64) with 4096 in *.
  rewrite <- (div_chain c 4096 64) in C3 by lia. rewrite <- (div_chain d 4096 64) in D3 by lia. change (4096 * 64) with 262144 in *.
  pose proof (Z.mod_pos_bound c 64 ltac:(lia)). pose proof (Z.mod_pos_bound (c / 64) 64 ltac:(lia)). pose proof (Z.mod_pos_bound (c / 4096) 64 ltac:(lia)).
  pose proof (Z.mod_pos_bound d 64 ltac:(lia)). pose proof (Z.mod_pos_bound (d / 64) 64 ltac:(lia)). pose proof (Z.mod_pos_bound (d / 4096) 64 ltac:(lia)).
  destruct (enc_forms c ltac:(lia)) as [[Rc Ec] | [(Rc & Ec & Bc) | [(Rc & Ec & Bc) | (Rc & Ec & Bc)]]];
  destruct (enc_forms d ltac:(lia)) as [[Rd Ed] | [(Rd & Ed & Bd) | [(Rd & Ed & Bd) | (Rd & Ed & Bd)]]]; try lia; rewrite Ec, Ed; cbn [app]; clear Ec Ed; hide c; hide d;
  repeat (first [ apply cmp_head; lia
                | match goal with |- cmp (?a :: _) (?b :: _) = Lt =>
                    let H1 := fresh "L" in let H2 := fresh "Q" in let H3 := fresh "G" in
                    destruct (Z.lt_trichotomy a b) as [H1 | [H2 | H3]];
                    [apply cmp_head; exact H1 | rewrite <- H2, cmp_cons_eq | exfalso; lia] end ]); exfalso; lia.
Qed.
Lemma cmp_encs : forall cs ds, Forall scalar cs -> Forall scalar ds -> cmp (encs cs) (encs ds) = lexcmp cs ds.
Proof.
  induction cs as [ | c cs IH]; intros [ | d ds] F1 F2.
  - reflexivity.
  - inversion F2 as [ | ? ? [H2 _] _]; subst. cbn [encs flat_map lexcmp]. pose proof (symbol_nonempty _ (enc_symbol d H2)). destruct (enc d); [cbn in *; lia | reflexivity].
  - inversion F1 as [ | ? ? [H1 _] _]; subst. cbn [encs flat_map lexcmp]. pose proof (symbol_nonempty _ (enc_symbol c H1)). destruct (enc c); [cbn in *; lia | reflexivity].
  - inversion F1 as [ | ? ? [H1 _] F1']; subst. inversion F2 as [ | ? ? [H2 _] F2']; subst. cbn [encs flat_map lexcmp]. fold (encs cs) (encs ds).
    destruct (Z.lt_trichotomy c d) as [L | [-> | L]].
    + rewrite (proj2 (Z.compare_lt_iff c d) L). apply enc_lt; lia.
    + rewrite Z.compare_refl, cmp_app_same. apply IH; assumption.
    + rewrite (proj2 (Z.compare_gt_iff c d) L). rewrite cmp_anti, enc_lt by lia. reflexivity.
Qed.
