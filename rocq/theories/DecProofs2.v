(** Proofs for C66: decimals as text *)
From Coq Require Import QArith.
From Verif Require Import Base ITextModel ITextSpec ITextProofs DecModel DecSpec DecProofs.
Local Open Scope Z_scope.

Lemma drop_zeros_repeat : forall n l, drop_zeros (repeat 48 n ++ l) = drop_zeros l.
Proof. induction n as [|n IH]; intros l; [reflexivity|]. cbn [repeat app drop_zeros Z.eqb Pos.eqb]. apply IH. Qed.
Lemma remove_zeros_exact : forall f z, (f <> [] -> last f 0 <> 48) -> remove_zeros (f ++ repeat 48 z) = f.
Proof.
  intros f z H. unfold remove_zeros. rewrite rev_app_distr, rev_repeat, drop_zeros_repeat. destruct f as [|x f _] using rev_ind; [reflexivity|].
  rewrite rev_app_distr. cbn [rev app drop_zeros]. rewrite last_last in H. destruct (Z.eqb_spec x 48) as [->|N]; [exfalso; apply H; [destruct f; discriminate|reflexivity]|].
  cbn [rev]. rewrite rev_involutive. reflexivity.
Qed.
Lemma zlen_zero_iff : forall (l : list Z), (zlen l =? 0) = match l with [] => true | _ => false end.
Proof. intros [|c l]; [reflexivity|]. rewrite zlen_cons. apply Z.eqb_neq. pose proof (zlen_nonneg l). lia. Qed.
Lemma app_not_nil : forall (a b : list Z), a <> [] -> a ++ b <> []. Proof. intros [|? ?] b H; [congruence|discriminate]. Qed.

Theorem read_exact : forall g i f z, i ++ f <> [] -> Forall digit_char i -> Forall digit_char f -> (f <> [] -> last f 0 <> 48) ->
  num (i ++ f) <= 2 ^ 53 -> (length f <= 308)%nat ->
  exists d, decimal_from_string (sign_text g ++ i ++ 46 :: f ++ repeat 48 z) = DOk d /\ mant d = signed_num g (i ++ f) /\ ex d = Z.of_nat (length f).
Proof.
  intros g i f z Hne Hi Hf Hlast Hb Hl. pose proof (num_bounds i Hi) as Bi. pose proof (num_bounds f Hf) as Bf.
  rewrite num_app in Hb by exact Hf. set (k := Z.of_nat (length f)) in *. pose proof (pow10_pos k ltac:(lia)) as P.
  assert (B63 : 2 ^ 53 < 2 ^ 63 - 1) by reflexivity.
  assert (Hi2 : num i <= 2 ^ 53) by nia.
  unfold decimal_from_string. rewrite (app_assoc (sign_text g)). set (ri := sign_text g ++ i) in *.
  assert (Np : Forall (fun c => c <> 46) ri) by (apply Forall_app; split; [apply sign_no_point|apply digits_no_point; exact Hi]).
  destruct (ri ++ 46 :: f ++ repeat 48 z) as [|c0 s0] eqn:ES; [destruct ri; discriminate|]. rewrite <- ES. clear ES c0 s0.
  rewrite (cut_point_spec ri _ Np). rewrite remove_zeros_exact by exact Hlast. rewrite !zlen_zero_iff.
  assert (C1 : (match ri with [] => true | _ => false end) && (match f ++ repeat 48 z with [] => true | _ => false end) = false).
  { destruct ri as [|? ?] eqn:R; [|reflexivity]. destruct g, i; try discriminate R. destruct f; [cbn in Hne; congruence|reflexivity]. }
  rewrite C1.
  assert (C2 : (if match ri with [] => true | _ => false end then DOk 0 else parse_s64 ri) = DOk (signed_num g i)).
  { destruct ri as [|c r] eqn:R; [destruct g, i; try discriminate R; reflexivity|]. rewrite <- R. unfold ri. apply parse_ok; [exact Hi|unfold ri in R; rewrite R; discriminate|lia]. }
  rewrite C2. cbn [dbind].
  assert (C3 : (if match f with [] => true | _ => false end then DOk 0 else parse_s64 f) = DOk (num f)).
  { destruct f as [|c r] eqn:F; [reflexivity|]. rewrite <- F in *. pose proof (parse_ok NoSign f Hf) as X. cbn [sign_text app signed_num] in X. apply X; [congruence|].
    pose proof (num_bounds i Hi). nia. }
  rewrite C3. cbn [dbind].
  assert (C4 : zlen f mod 2 ^ 16 = k) by (unfold zlen; fold k; apply Z.mod_small; assert (308 < 2 ^ 16) by reflexivity; lia).
  rewrite C4. rewrite times_pow_exact by (destruct g; cbn [signed_num]; nia). cbn [dbind].
  assert (HD : match ri with c :: _ => if (c =? 45) && (signed_num g i =? 0) then -1 else 1 | [] => 1 end = if match g with Minus => num i =? 0 | _ => false end then -1 else 1).
  { unfold ri. destruct g; cbn [sign_text app signed_num].
    - reflexivity.
    - cbn [Z.eqb Pos.eqb andb]. destruct (Z.eqb_spec (num i) 0) as [->|N]; [reflexivity|]. destruct (Z.eqb_spec (- num i) 0); [lia|reflexivity].
    - destruct i as [|c r]; [reflexivity|]. inversion Hi as [|? ? Hc _]; subst. unfold digit_char in Hc. destruct (Z.eqb_spec c 45); [lia|reflexivity]. }
  rewrite HD. eexists (Dec (signed_num g (i ++ f)) k). split; [|split; reflexivity].
  assert (FM : (if 0 <=? signed_num g i then DOk (num f) else s64 (- num f)) = DOk (if 0 <=? signed_num g i then num f else - num f)).
  { destruct (0 <=? signed_num g i); [reflexivity|]. apply s64_ok. nia. }
  rewrite FM. cbn [dbind]. destruct g; cbn [signed_num] in *.
  - replace (0 <=? num i) with true by (symmetry; apply Z.leb_le; lia). rewrite s64_ok by nia. cbn [dbind]. rewrite s64_ok by nia. cbn [dbind].
    rewrite num_app by exact Hf. fold k. do 2 f_equal. ring.
  - destruct (Z.eqb_spec (num i) 0) as [E|E].
    + rewrite E. cbn [Z.opp Z.leb Z.compare]. rewrite Z.mul_0_l, Z.add_0_l. rewrite s64_ok by nia. cbn [dbind]. rewrite s64_ok by nia. cbn [dbind].
      rewrite num_app by exact Hf. rewrite E. do 2 f_equal. ring.
    + destruct (Z.leb_spec 0 (- num i)); [lia|]. rewrite s64_ok by nia. cbn [dbind]. rewrite s64_ok by nia. cbn [dbind].
      rewrite num_app by exact Hf. fold k. do 2 f_equal. ring.
  - replace (0 <=? num i) with true by (symmetry; apply Z.leb_le; lia). rewrite s64_ok by nia. cbn [dbind]. rewrite s64_ok by nia. cbn [dbind].
    rewrite num_app by exact Hf. fold k. do 2 f_equal. ring.
Qed.
Theorem read_whole : forall g i, i <> [] -> Forall digit_char i -> num i <= 2 ^ 63 - 1 -> decimal_from_string (sign_text g ++ i) = DOk (Dec (signed_num g i) 0).
Proof.
  intros g i Hne Hi Hb. unfold decimal_from_string. destruct (sign_text g ++ i) as [|c s] eqn:E; [destruct g, i; try discriminate E; congruence|]. rewrite <- E.
  rewrite cut_point_none by (apply Forall_app; split; [apply sign_no_point|apply digits_no_point; exact Hi]).
  rewrite parse_ok; [reflexivity|exact Hi|rewrite E; discriminate|exact Hb].
Qed.

Lemma remove_prefix_app : forall a b, remove_prefix (a ++ b) a = b.
Proof.
  intros a b. unfold remove_prefix. rewrite firstn_app, Nat.sub_diag, firstn_all, firstn_O, app_nil_r. destruct (list_eq_dec Z.eq_dec a a); [|congruence].
  rewrite skipn_app, skipn_all, Nat.sub_diag. reflexivity.
Qed.
Lemma write_shape : forall d t i r, to_string 64 (mant d) = Some t -> add_zeros t (ex d) = i ++ r -> zlen r = ex d ->
  decimal_to_string d = DOk (match i with [] => [48] | [45] => [45; 48] | _ => i end ++ match remove_zeros r with [] => [] | _ => 46 :: remove_zeros r end).
Proof.
  intros d t i r T A L. unfold decimal_to_string. rewrite T, A. unfold extract_prefix. rewrite zlen_app. replace (Z.to_nat (zlen i + zlen r - ex d)) with (length i) by (unfold zlen in *; lia).
  rewrite firstn_app, Nat.sub_diag, firstn_all, firstn_O, app_nil_r, remove_prefix_app. reflexivity.
Qed.
Lemma int_part : forall i, Forall digit_char i -> (match i with [] => [48] | [45] => [45; 48] | _ => i end) = match i with [] => [48] | _ => i end.
Proof. intros [|c [|c' r]] H; try reflexivity; inversion H as [|? ? Hc _]; subst; unfold digit_char in Hc; [|destruct c as [|c|]; try reflexivity; do 6 (destruct c; try reflexivity)].
  destruct c as [|c|]; try reflexivity. do 6 (destruct c as [c|c|]; try reflexivity). lia. Qed.
Lemma digits_of : forall m, - 2 ^ 63 <= m <= 2 ^ 63 - 1 -> exists d, to_string 64 m = Some ((if m <? 0 then [45] else []) ++ d) /\ d <> [] /\ Forall digit_char d /\ num d = Z.abs m /\ (hd 0 d = 48 -> length d = 1%nat).
Proof.
  intros m Hm. destruct (to_string_canonical 64 m) as [s [T [g [d [E [N [D [V [G1 [G2 G3]]]]]]]]]]; [lia|right; unfold fits, signed_t; cbn [t_min t_max]; change (64 - 1) with 63; lia|].
  exists d. rewrite T, E. pose proof (num_bounds d D) as B. destruct g; cbn [signed_num sign_text] in *; [congruence| |]; (destruct (Z.ltb_spec m 0); [|]); try lia; repeat split; auto; try lia; try (exfalso; apply G2; [reflexivity|lia]).
Qed.

(** the integral part that is written: at least one digit *)
Definition at_least_one (i : list Z) : list Z := match i with [] => [48] | _ => i end.
Lemma at_least_one_num : forall i f, num (at_least_one i ++ f) = num (i ++ f).
Proof. intros [|c i] f; reflexivity. Qed.
Lemma signed_cat : forall g i r, (notation_value g (at_least_one i) (remove_zeros r) == signed_num g (i ++ r) # Z.to_pos (10 ^ zlen r))%Q.
Proof.
  intros g i r. destruct (remove_zeros_spec r) as [n [E _]]. rewrite <- (notation_value_crop g (at_least_one i) (remove_zeros r) n). rewrite <- E.
  unfold notation_value, zlen. apply Qeq_same_den. destruct g; cbn [signed_num]; rewrite at_least_one_num; reflexivity.
Qed.

Theorem write_exact : forall d, proper d -> 0 <= mant d \/ ex d = 0 \/ 10 ^ (ex d - 1) <= - mant d ->
  exists g i f, decimal_to_string d = DOk (notation g i f) /\ shortest g i f /\ (g = Minus <-> mant d < 0) /\ (notation_value g i f == val d)%Q /\ (Z.of_nat (length f) <= ex d).
Proof.
  intros d [Hm He] Hc. destruct (digits_of (mant d) Hm) as [s [T [N [D [V C]]]]]. set (g := if mant d <? 0 then Minus else NoSign).
  set (pad := repeat 48 (Z.to_nat (ex d - zlen s))).
  assert (Dp : Forall digit_char (pad ++ s)) by (apply Forall_app; split; [apply zeros_digits|exact D]).
  assert (SG : (if mant d <? 0 then [45] else []) = sign_text g) by (unfold g; destruct (mant d <? 0); reflexivity).
  assert (Ls : mant d < 0 -> ex d <= zlen s).
  { intros Neg. destruct Hc as [Hc|[Hc|Hc]]; [lia|rewrite Hc; apply zlen_nonneg|]. destruct (Z_lt_le_dec (zlen s) (ex d)) as [L|L]; [|exact L].
    pose proof (num_bounds s D) as B. rewrite V in B. assert (10 ^ Z.of_nat (length s) <= 10 ^ (ex d - 1)) by (apply Z.pow_le_mono_r; unfold zlen in L; lia). lia. }
  assert (A : add_zeros (sign_text g ++ s) (ex d) = sign_text g ++ pad ++ s).
  { unfold add_zeros, g. destruct (Z.ltb_spec (mant d) 0) as [Neg|Pos].
    - specialize (Ls Neg). cbn [sign_text app]. rewrite zlen_cons. destruct (Z.ltb_spec (1 + zlen s) (ex d)); [lia|]. unfold pad. replace (Z.to_nat (ex d - zlen s)) with 0%nat by lia. reflexivity.
    - cbn [sign_text app]. unfold pad. destruct (Z.ltb_spec (zlen s) (ex d)); [reflexivity|]. replace (Z.to_nat (ex d - zlen s)) with 0%nat by lia. reflexivity. }
  assert (Lp : ex d <= zlen (pad ++ s)) by (rewrite zlen_app; unfold pad, zlen at 1; rewrite repeat_length; pose proof (zlen_nonneg s); lia).
  destruct (@Base.split_at Z (zlen (pad ++ s) - ex d) (pad ++ s)) as [i [r [E Li]]]; [lia|].
  assert (Lr : zlen r = ex d) by (rewrite E, zlen_app in Li; lia).
  assert (Di : Forall digit_char i /\ Forall digit_char r) by (rewrite E in Dp; apply Forall_app in Dp; exact Dp). destruct Di as [Di Dr].
  assert (NV : num (i ++ r) = Z.abs (mant d)).
  { rewrite <- E. rewrite num_app by exact D. unfold pad. rewrite num_zeros. lia. }
  assert (W : decimal_to_string d = DOk (notation g (at_least_one i) (remove_zeros r))).
  { rewrite SG in T. rewrite (write_shape d _ (sign_text g ++ i) r T) by (try exact Lr; rewrite A, E; apply app_assoc). f_equal. unfold notation. rewrite app_assoc. f_equal.
    unfold g. destruct (mant d <? 0); cbn [sign_text app].
    - destruct i as [|c i']; reflexivity.
    - rewrite int_part by exact Di. reflexivity. }
  exists g, (at_least_one i), (remove_zeros r). split; [exact W|].
  destruct (remove_zeros_spec r) as [n [En Hn]].
  split.
  - split; [destruct i; discriminate|]. split; [destruct i; [repeat constructor; unfold digit_char; lia|exact Di]|].
    split; [rewrite En in Dr; apply Forall_app in Dr; tauto|]. split; [|split; [exact Hn|unfold g; destruct (mant d <? 0); discriminate]].
    destruct i as [|c i']; [reflexivity|]. cbn [at_least_one hd]. intros ->.
    (* some digits before the point: no zeros were added *)
    assert (P0 : pad = []).
    { unfold pad. assert (Z.to_nat (ex d - zlen s) = 0%nat); [|rewrite H; reflexivity]. rewrite zlen_cons in Li. rewrite zlen_app in Li. unfold pad, zlen at 2 in Li. rewrite repeat_length in Li. pose proof (zlen_nonneg i'). lia. }
    rewrite P0 in E. cbn [app] in E. rewrite E in C. cbn [hd app] in C. specialize (C eq_refl). cbn [length] in *. rewrite app_length in C. lia.
  - split; [unfold g; destruct (Z.ltb_spec (mant d) 0); split; intros; try discriminate; try lia; reflexivity|]. split.
    + rewrite signed_cat. unfold val. rewrite Lr. apply Qeq_same_den. unfold g. destruct (Z.ltb_spec (mant d) 0); cbn [signed_num]; rewrite NV; lia.
    + rewrite <- Lr. rewrite En at 2. rewrite zlen_app. pose proof (zlen_nonneg (repeat 48 n)). unfold zlen in *. lia.
Qed.

(** a negative number with zeros right after the point *)
Theorem write_negative : forall d, proper d -> mant d < 0 -> - mant d < 10 ^ (ex d - 1) -> exists r, decimal_to_string d = DOk (48 :: 46 :: r) /\ In 45 r.
Proof.
  intros d [Hm He] Neg Hs. destruct (digits_of (mant d) Hm) as [s [T [N [D [V C]]]]]. replace (mant d <? 0) with true in T by (symmetry; apply Z.ltb_lt; lia). cbn [app] in T.
  assert (Hh : hd 0 s <> 48).
  { intros X. specialize (C X). destruct s as [|c [|c' s]]; try discriminate C. cbn [hd] in X. subst c. cbn in V. lia. }
  assert (L : zlen s <= ex d - 1).
  { pose proof (num_lead s D N Hh) as B. rewrite V in B. destruct (Z_lt_le_dec (ex d - 1) (zlen s)) as [L|L]; [|exact L].
    assert (1 <= ex d). { destruct (Z_lt_le_dec (ex d) 1); [|lia]. replace (ex d - 1) with (-1) in Hs by lia. cbn in Hs. lia. }
    assert (10 ^ (ex d - 1) <= 10 ^ Z.of_nat (length s - 1)) by (apply Z.pow_le_mono_r; unfold zlen in L; lia). lia. }
  set (r := repeat 48 (Z.to_nat (ex d - zlen (45 :: s))) ++ 45 :: s).
  assert (A : add_zeros (45 :: s) (ex d) = [] ++ r).
  { unfold add_zeros. destruct (Z.ltb_spec (zlen (45 :: s)) (ex d)); [reflexivity|]. unfold r. rewrite zlen_cons in *. replace (Z.to_nat (ex d - (1 + zlen s))) with 0%nat by lia. reflexivity. }
  assert (Lr : zlen r = ex d) by (unfold r; rewrite zlen_app, zlen_cons; unfold zlen at 1; rewrite repeat_length; lia).
  rewrite (write_shape d _ [] r T A Lr). destruct (remove_zeros_spec r) as [n [En _]].
  assert (I : In 45 (remove_zeros r)).
  { assert (I : In 45 (remove_zeros r ++ repeat 48 n)) by (rewrite <- En; unfold r; apply in_or_app; right; left; reflexivity).
    apply in_app_or in I. destruct I as [I|I]; [exact I|]. apply repeat_spec in I. discriminate. }
  destruct (remove_zeros r) as [|c x] eqn:E; [contradiction|]. exists (c :: x). split; [reflexivity|exact I].
Qed.
