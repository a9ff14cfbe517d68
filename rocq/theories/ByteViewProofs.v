(** Proofs about byte views. *)
From Verif Require Import Base ByteViewModel ByteViewSpec.
Local Open Scope Z_scope.

Lemma wrap_id x : word x -> wrap x = x.
Proof. intros H. unfold wrap. apply Z.mod_small. exact H. Qed.
Lemma zlen_nonneg {A} (l : list A) : 0 <= zlen l. Proof. unfold zlen. lia. Qed.
Lemma W_val : W = 18446744073709551616. Proof. reflexivity. Qed.

Lemma slice_len l o n : 0 <= o -> 0 <= n -> o + n <= zlen l -> zlen (slice l o n) = n.
Proof. intros H1 H2 H3. unfold slice, zlen in *. rewrite firstn_length, skipn_length. lia. Qed.
Lemma skipn_skipn' {A} (l : list A) a b : skipn a (skipn b l) = skipn (b + a) l.
Proof.
  revert l. induction b; intros l; [reflexivity | ]. destruct l; cbn; [apply skipn_nil | apply IHb].
Qed.
Lemma slice_slice l o n o2 n2 : 0 <= o -> 0 <= n -> 0 <= o2 -> 0 <= n2 -> o2 + n2 <= n ->
  slice (slice l o n) o2 n2 = slice l (o + o2) n2.
Proof.
  intros. unfold slice. rewrite skipn_firstn_comm, firstn_firstn, skipn_skipn'. f_equal; [lia | ]. f_equal. lia.
Qed.
Lemma nth_slice l o n i : 0 <= o -> 0 <= i < n -> nth_error (slice l o n) (Z.to_nat i) = nth_error l (Z.to_nat (o + i)).
Proof.
  intros H1 H2. unfold slice. 
  assert (G : forall (A : Type) (l : list A) k m, (k < m)%nat -> nth_error (firstn m l) k = nth_error l k).
  { intros A. induction l0; intros [ | k] [ | m] H; cbn; auto; try lia. apply IHl0. lia. }
  rewrite G by lia.
  assert (G2 : forall (A : Type) (l : list A) k m, nth_error (skipn m l) k = nth_error l (m + k)).
  { intros A. induction l0; intros k [ | m]; cbn; auto. destruct k; reflexivity. }
  rewrite G2. f_equal. lia.
Qed.

(** * BasicByteArray *)
Lemma ba_size_word v a : fits v -> okba a -> 0 <= ba_size v a <= zlen v /\ ba_size v a <= a_lim a.
Proof.
  intros F [[O1 O2] [L1 L2]]. unfold ba_size. pose proof (zlen_nonneg v). destruct (Z.leb_spec (a_off a) (zlen v)); lia.
Qed.
Lemma ba_bytes_slice v a : ba_bytes v a = slice v (a_off a) (ba_size v a). Proof. reflexivity. Qed.
Lemma ba_bytes_len v a : fits v -> okba a -> zlen (ba_bytes v a) = ba_size v a.
Proof.
  intros F [[O1 O2] [L1 L2]]. rewrite ba_bytes_slice. unfold ba_size. pose proof (zlen_nonneg v).
  destruct (Z.leb_spec (a_off a) (zlen v)); [apply slice_len; lia | ]. unfold slice. cbn. reflexivity.
Qed.
Lemma ba_at_ok v a i : fits v -> okba a -> 0 <= i ->
  ba_at v a i = if i <? ba_size v a then Some (nth_error (ba_bytes v a) (Z.to_nat i)) else None.
Proof.
  intros F Ok Hi. destruct (ba_size_word v a F Ok) as [S1 S2]. destruct Ok as [[O1 O2] [L1 L2]]. unfold ba_at.
  destruct (Z.ltb_spec i (ba_size v a)); [ | reflexivity].
  assert (a_off a + ba_size v a <= zlen v) by (unfold ba_size in *; destruct (Z.leb_spec (a_off a) (zlen v)); lia).
  unfold fits in F. rewrite wrap_id by (unfold word; lia). rewrite ba_bytes_slice, nth_slice by lia. do 3 f_equal. lia.
Qed.

Lemma ba_from_ok v o offset : fits v -> okba o -> a_off o <= zlen v -> 0 <= offset <= ba_size v o ->
  exists a, ba_from v o offset = Some a /\ okba a /\ ba_bytes v a = skipn (Z.to_nat offset) (ba_bytes v o)
    /\ a_off a <= zlen v.
Proof.
  intros F Ok Ho Hf. destruct (ba_size_word v o F Ok) as [S1 S2]. destruct Ok as [[O1 O2] [L1 L2]]. unfold fits in F.
  assert (Sz : ba_size v o = Z.min (zlen v - a_off o) (a_lim o)) by (unfold ba_size; destruct (Z.leb_spec (a_off o) (zlen v)); lia).
  unfold ba_from. rewrite (wrap_id (a_off o + offset)) by (unfold word; lia). cbn [a_off].
  destruct (Z.leb_spec (a_off o + offset) (zlen v)); [ | lia].
  eexists. split; [reflexivity | ]. unfold okba. cbn [a_off a_lim].
  assert (Hl : word (if a_lim o =? no_limit then no_limit else wrap (a_lim o - offset))).
  { destruct (Z.eqb_spec (a_lim o) no_limit); [unfold word, no_limit; pose proof W_val; lia | ]. rewrite wrap_id; unfold word; lia. }
  split; [split; [unfold word; lia | exact Hl] | ]. split; [ | lia].
  rewrite !ba_bytes_slice. cbn [a_off]. unfold slice. rewrite skipn_firstn_comm, skipn_skipn'.
  replace (Z.to_nat (a_off o + offset)) with (Z.to_nat (a_off o) + Z.to_nat offset)%nat by lia.
  assert (E : forall (l : list byte) a b, Nat.min a (length l) = Nat.min b (length l) -> firstn a l = firstn b l).
  { induction l; intros [ | x] [ | y] E; cbn in *; try lia; auto. f_equal. apply IHl. lia. }
  apply E. rewrite skipn_length. unfold ba_size. cbn [a_off a_lim]. unfold zlen in *.
  destruct (Z.leb_spec (a_off o + offset) (Z.of_nat (length v))); [ | lia]. destruct (Z.leb_spec (a_off o) (Z.of_nat (length v))); [ | lia].
  destruct (Z.eqb_spec (a_lim o) no_limit) as [E1 | E1]; [rewrite E1; unfold no_limit; lia | ]. rewrite wrap_id by (unfold word; lia). lia.
Qed.
Lemma ba_sub_ok v o offset limit : fits v -> okba o -> a_off o <= zlen v -> 0 <= offset -> 0 <= limit -> offset + limit <= ba_size v o ->
  exists a, ba_sub v o offset limit = Some a /\ okba a /\ ba_bytes v a = slice (ba_bytes v o) offset limit /\ ba_size v a = limit.
Proof.
  intros F Ok Ho H1 H2 H3. destruct (ba_size_word v o F Ok) as [S1 S2]. destruct Ok as [[O1 O2] [L1 L2]]. unfold fits in F.
  assert (Sz : ba_size v o = Z.min (zlen v - a_off o) (a_lim o)) by (unfold ba_size; destruct (Z.leb_spec (a_off o) (zlen v)); lia).
  unfold ba_sub. rewrite (wrap_id (a_off o + offset)) by (unfold word; lia). cbn [a_off a_lim].
  rewrite (wrap_id (limit + offset)) by (unfold word; lia).
  destruct (Z.leb_spec (a_off o + offset) (zlen v)); [ | lia].
  destruct (Z.leb_spec (limit + offset) (zlen v)); [ | lia]. rewrite orb_true_r.
  destruct (Z.leb_spec (limit + offset) (a_lim o)); [ | lia].
  eexists. split; [reflexivity | ].
  assert (Sa : ba_size v (mkBA (a_off o + offset) limit) = limit).
  { unfold ba_size. cbn [a_off a_lim]. destruct (Z.leb_spec (a_off o + offset) (zlen v)); lia. }
  split; [split; cbn; unfold word; lia | ]. split; [ | exact Sa].
  rewrite !ba_bytes_slice, Sa. cbn [a_off]. rewrite slice_slice by lia. reflexivity.
Qed.

(** Growing *)
Lemma ba_append_ok v a d : fits (v ++ d) -> okba a -> a_off a <= zlen v -> a_lim a = no_limit ->
  exists v', ba_append v a d = Some v' /\ ba_bytes v' a = ba_bytes v a ++ d.
Proof.
  intros F [[O1 O2] _] Ho El. unfold ba_append. rewrite El, Z.eqb_refl. eexists. split; [reflexivity | ].
  unfold fits, zlen in *. rewrite app_length in F. unfold ba_bytes, ba_size, zlen. rewrite El, app_length. unfold no_limit.
  destruct (Z.leb_spec (a_off a) (Z.of_nat (length v + length d))); [ | lia].
  destruct (Z.leb_spec (a_off a) (Z.of_nat (length v))); [ | lia].
  rewrite skipn_app. replace (Z.to_nat (a_off a) - length v)%nat with 0%nat by lia. cbn [skipn].
  rewrite !firstn_all2; [reflexivity | rewrite skipn_length; lia | rewrite app_length, skipn_length; lia].
Qed.
Lemma ba_require_ok v a size : okba a -> a_off a <= zlen v -> a_lim a = no_limit -> fits v -> 0 <= size -> size + a_off a < W - 1 ->
  exists v', ba_require v a size = Some v' /\ ba_bytes v' a = ba_bytes v a ++ repeat O (Z.to_nat (size - ba_size v a)).
Proof.
  intros [[O1 O2] L] Ho El F H1 H2. unfold ba_require. rewrite El, Z.eqb_refl. rewrite (wrap_id (size + a_off a)) by (unfold word; lia).
  eexists. split; [reflexivity | ].
  assert (Sz : ba_size v a = zlen v - a_off a).
  { unfold fits in F. unfold ba_size. rewrite El. unfold no_limit. destruct (Z.leb_spec (a_off a) (zlen v)); lia. }
  destruct (Z.ltb_spec (zlen v) (size + a_off a)).
  - rewrite Sz. replace (Z.to_nat (size - (zlen v - a_off a))) with (Z.to_nat (size + a_off a - zlen v)) by lia.
    destruct (ba_append_ok v a (repeat O (Z.to_nat (size + a_off a - zlen v)))) as (v' & E & B); auto.
    + unfold fits, zlen in *. rewrite app_length, repeat_length. lia.
    + split; [split; assumption | exact L].
    + unfold ba_append in E. rewrite El, Z.eqb_refl in E. injection E as <-. exact B.
  - replace (Z.to_nat (size - ba_size v a)) with 0%nat by lia. cbn. rewrite app_nil_r. reflexivity.
Qed.
(** A limited view that has all its bytes does not change when the vector grows. *)
Lemma ba_limited_stable v a d : okba a -> 0 <= a_off a -> a_off a + a_lim a <= zlen v -> ba_bytes (v ++ d) a = ba_bytes v a.
Proof.
  intros [[O1 O2] [L1 L2]] _ H. unfold ba_bytes, ba_size, zlen in *. rewrite app_length.
  destruct (Z.leb_spec (a_off a) (Z.of_nat (length v + length d))); [ | lia].
  destruct (Z.leb_spec (a_off a) (Z.of_nat (length v))); [ | lia].
  rewrite skipn_app, firstn_app, skipn_length.
  replace (Z.to_nat (Z.min (Z.of_nat (length v + length d) - a_off a) (a_lim a)) - (length v - Z.to_nat (a_off a)))%nat with 0%nat by lia.
  cbn [firstn]. rewrite app_nil_r. f_equal. lia.
Qed.

(** Comparisons *)
Lemma eq_bytes_spec : forall x y, length x = length y -> eq_bytes x y = true <-> x = y.
Proof.
  induction x as [ | a x IH]; intros [ | b y] L; try discriminate L; cbn; [tauto | ].
  rewrite andb_true_iff, Nat.eqb_eq, IH by (injection L as L; exact L). split; [intros [-> ->]; reflexivity | ]. intros E. injection E as -> ->. auto.
Qed.
Lemma lex_less_spec : forall x y, lex_less x y = true <-> lex x y.
Proof.
  induction x as [ | a x IH]; intros [ | b y]; cbn [lex_less].
  - split; [discriminate | ]. intros (p & [(c & z & E1 & E2) | (c & d & u & z & E1 & E2 & _)]); destruct p; discriminate.
  - split; [ | auto]. intros _. exists []. left. exists b, y. auto.
  - split; [discriminate | ]. intros (p & [(c & z & E1 & E2) | (c & d & u & z & E1 & E2 & _)]); destruct p; discriminate.
  - destruct (Nat.ltb_spec a b).
    { split; auto. intros _. exists []. right. exists a, b, x, y. auto. }
    destruct (Nat.ltb_spec b a).
    { split; [discriminate | ]. intros (p & [(c & z & E1 & E2) | (c & d & u & z & E1 & E2 & Hl)]); destruct p as [ | q p]; cbn in *; try discriminate;
        injection E1; injection E2; intros; subst; lia. }
    assert (b = a) by lia. subst b. rewrite IH. split.
    + intros (p & [(c & z & -> & ->) | (c & d & u & z & -> & -> & Hl)]); exists (a :: p).
      * left. exists c, z. auto.
      * right. exists c, d, u, z. auto.
    + intros (p & [(c & z & E1 & E2) | (c & d & u & z & E1 & E2 & Hl)]); destruct p as [ | q p]; cbn in *; try discriminate.
      * injection E1 as E0 E1. injection E2 as E2 E3. exists p. left. exists c, z. auto.
      * injection E1 as <- ->. injection E2 as <- ->. lia.
      * injection E1 as E0 E1. injection E2 as E2 E3. exists p. right. exists c, d, u, z. auto.
Qed.
Lemma lex_irrefl x : ~ lex x x.
Proof.
  intros (p & [(c & z & E1 & E2) | (c & d & u & z & E1 & E2 & Hl)]).
  - subst x. apply (f_equal (@length _)) in E2. rewrite app_length in E2. cbn in E2. lia.
  - rewrite E1 in E2. apply app_inv_head in E2. injection E2 as ->. lia.
Qed.
Lemma lex_less_trans : forall x y z, lex_less x y = true -> lex_less y z = true -> lex_less x z = true.
Proof.
  induction x as [ | a x IH]; intros [ | b y] [ | c z]; cbn [lex_less]; auto; try discriminate.
  intros H1 H2. repeat match goal with |- context [Nat.ltb ?m ?n] => destruct (Nat.ltb_spec m n) | H : context [Nat.ltb ?m ?n] |- _ => destruct (Nat.ltb_spec m n) end;
    auto; try discriminate; try lia. exact (IH _ _ H1 H2).
Qed.
Lemma lex_total : forall x y, lex_less x y = true \/ x = y \/ lex_less y x = true.
Proof.
  induction x as [ | a x IH]; intros [ | b y]; cbn [lex_less]; auto.
  destruct (Nat.ltb_spec a b), (Nat.ltb_spec b a); auto; try lia. assert (b = a) by lia. subst.
  destruct (IH y) as [H1 | [-> | H1]]; auto.
Qed.

(** * BasicByteData *)
Lemma bd_at_ok blk d i : fits blk -> inside blk d -> 0 <= i ->
  bd_at blk d i = if i <? d_size d then Some (nth_error (bd_bytes blk d) (Z.to_nat i)) else None.
Proof.
  intros F (I1 & I2 & I3) Hi. unfold bd_at. destruct (Z.ltb_spec i (d_size d)); [ | reflexivity].
  unfold fits in F. rewrite wrap_id by (unfold word; lia). change (bd_bytes blk d) with (slice blk (d_ptr d) (d_size d)).
  rewrite nth_slice by lia. reflexivity.
Qed.
Lemma bd_from_ok blk d o : fits blk -> inside blk d -> 0 <= o ->
  match bd_from d o with
  | Some d' => o <= d_size d /\ inside blk d' /\ bd_bytes blk d' = skipn (Z.to_nat o) (bd_bytes blk d)
  | None => d_size d < o
  end.
Proof.
  intros F (I1 & I2 & I3) Ho. unfold bd_from. destruct (Z.leb_spec o (d_size d)); [ | lia]. unfold fits in F.
  rewrite !wrap_id by (unfold word; lia). split; [lia | ]. split; [unfold inside; cbn; lia | ].
  unfold bd_bytes. cbn [d_ptr d_size]. rewrite skipn_firstn_comm, skipn_skipn'. f_equal; [lia | f_equal; lia].
Qed.
Lemma bd_sub_ok blk d o n : fits blk -> inside blk d -> 0 <= o -> 0 <= n -> o + n < W ->
  match bd_sub d o n with
  | Some d' => o + n <= d_size d /\ inside blk d' /\ bd_bytes blk d' = slice (bd_bytes blk d) o n /\ d_size d' = n
  | None => d_size d < o + n
  end.
Proof.
  intros F (I1 & I2 & I3) Ho Hn Hw. unfold bd_sub. rewrite (wrap_id (o + n)) by (unfold word; lia).
  destruct (Z.leb_spec (o + n) (d_size d)); [ | lia]. unfold fits in F. rewrite wrap_id by (unfold word; lia).
  split; [lia | ]. split; [unfold inside; cbn; lia | ]. split; [ | reflexivity].
  change (bd_bytes blk d) with (slice blk (d_ptr d) (d_size d)). rewrite slice_slice by lia. reflexivity.
Qed.
Lemma bd_bytes_len blk d : inside blk d -> zlen (bd_bytes blk d) = d_size d.
Proof. intros (I1 & I2 & I3). apply slice_len; assumption. Qed.

Lemma narrow_ok blk : fits blk -> forall ops d, inside blk d -> Forall (fun on => 0 <= fst on /\ match snd on with Some n => 0 <= n /\ fst on + n < W | None => True end) ops ->
  match narrow d ops with
  | Some d' => inside blk d' /\ nslice (bd_bytes blk d) ops = Some (bd_bytes blk d')
  | None => nslice (bd_bytes blk d) ops = None
  end.
Proof.
  intros F. induction ops as [ | [o [n | ]] ops IH]; intros d I Fa; cbn [narrow nslice]; [auto | | ]; inversion Fa as [ | ? ? Hh Ht]; subst; cbn [fst snd] in Hh.
  - destruct Hh as (H1 & H2 & H3). pose proof (bd_sub_ok blk d o n F I H1 H2 H3) as S. rewrite (bd_bytes_len blk d I).
    destruct (bd_sub d o n) as [d' | ].
    + destruct S as (S1 & S2 & S3 & S4). destruct (Z.leb_spec (o + n) (d_size d)); [ | lia]. rewrite <- S3. apply IH; assumption.
    + destruct (Z.leb_spec (o + n) (d_size d)); [lia | reflexivity].
  - destruct Hh as [H1 _]. pose proof (bd_from_ok blk d o F I H1) as S. rewrite (bd_bytes_len blk d I).
    destruct (bd_from d o) as [d' | ].
    + destruct S as (S1 & S2 & S3). destruct (Z.leb_spec o (d_size d)); [ | lia]. rewrite <- S3. apply IH; assumption.
    + destruct (Z.leb_spec o (d_size d)); [lia | reflexivity].
Qed.
Lemma bd_of_array_ok v a : fits v -> okba a -> inside v (bd_of_array v a) /\ bd_bytes v (bd_of_array v a) = ba_bytes v a.
Proof.
  intros F Ok. destruct (ba_size_word v a F Ok) as [S1 S2]. destruct Ok as [[O1 O2] _]. unfold bd_of_array, inside, bd_bytes, ba_bytes. cbn [d_ptr d_size].
  destruct (Z.eqb_spec (ba_size v a) 0) as [E | E].
  - rewrite E. pose proof (zlen_nonneg v). split; [lia | reflexivity].
  - split; [ | reflexivity]. unfold ba_size in *. destruct (Z.leb_spec (a_off a) (zlen v)); lia.
Qed.
