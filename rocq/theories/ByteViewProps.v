(** C53: byte views show exactly the bytes they were cut to. *)
From Verif Require Import Base ByteViewModel ByteViewSpec ByteViewProofs.
Local Open Scope Z_scope.

(** * ByteArray *)
(** operator[] gives the byte of the view or throws; it never goes outside of the vector, whatever the view,
    also after the vector has been cleared or replaced. *)
Theorem C53_array_access : forall v a i, fits v -> okba a -> 0 <= i ->
  zlen (ba_bytes v a) = ba_size v a /\
  (if i <? ba_size v a then exists b, ba_at v a i = Some (Some b) /\ nth_error (ba_bytes v a) (Z.to_nat i) = Some b
   else ba_at v a i = None).
Proof.
  intros v a i F Ok Hi. pose proof (ba_bytes_len v a F Ok) as L. split; [exact L | ]. rewrite ba_at_ok by assumption.
  destruct (Z.ltb_spec i (ba_size v a)); [ | reflexivity].
  destruct (nth_error (ba_bytes v a) (Z.to_nat i)) as [b | ] eqn:E; [eauto | ].
  apply nth_error_None in E. unfold zlen in L. lia.
Qed.
(** ByteArray(a, offset) and ByteArray(a, offset, n) with arguments inside of a: the bytes from offset on, the
    n bytes from offset on; they can be cut again. *)
Theorem C53_array_from : forall v o offset, fits v -> okba o -> a_off o <= zlen v -> 0 <= offset <= ba_size v o ->
  exists a, ba_from v o offset = Some a /\ okba a /\ a_off a <= zlen v /\ ba_bytes v a = skipn (Z.to_nat offset) (ba_bytes v o).
Proof. intros v o offset F Ok Ho H. destruct (ba_from_ok v o offset F Ok Ho H) as (a & A & B & C & D). eauto. Qed.
Theorem C53_array_sub : forall v o offset n, fits v -> okba o -> a_off o <= zlen v -> 0 <= offset -> 0 <= n -> offset + n <= ba_size v o ->
  exists a, ba_sub v o offset n = Some a /\ okba a /\ ba_size v a = n /\ ba_bytes v a = slice (ba_bytes v o) offset n.
Proof. intros v o offset n F Ok Ho H1 H2 H3. destruct (ba_sub_ok v o offset n F Ok Ho H1 H2 H3) as (a & A & B & C & D). eauto. Qed.
(** append and RequireSize add at the end of an unlimited view and keep what is there; on a limited one they
    throw; a limited view that has its bytes does not change when another grows the vector. *)
Theorem C53_append : forall v a d, fits (v ++ d) -> okba a -> a_off a <= zlen v ->
  (a_lim a = no_limit -> exists v', ba_append v a d = Some v' /\ ba_bytes v' a = ba_bytes v a ++ d) /\
  (a_lim a <> no_limit -> ba_append v a d = None).
Proof.
  intros v a d F Ok Ho. split; [apply ba_append_ok; assumption | ]. intros N. unfold ba_append. destruct (Z.eqb_spec (a_lim a) no_limit); [congruence | reflexivity].
Qed.
Theorem C53_require_size : forall v a n, fits v -> okba a -> a_off a <= zlen v -> a_lim a = no_limit -> 0 <= n -> n + a_off a < W - 1 ->
  exists v' more, ba_require v a n = Some v' /\ ba_bytes v' a = ba_bytes v a ++ more /\ zlen (ba_bytes v' a) = Z.max n (ba_size v a).
Proof.
  intros v a n F Ok Ho El H1 H2. destruct (ba_require_ok v a n Ok Ho El F H1 H2) as (v' & E & B). exists v'. eexists. split; [exact E | ]. split; [exact B | ].
  rewrite B. pose proof (ba_bytes_len v a F Ok) as L. unfold zlen in *. rewrite app_length, repeat_length. lia.
Qed.
Theorem C53_limited_stable : forall v a o d, okba a -> a_off a + a_lim a <= zlen v -> okba o ->
  forall v', ba_append v o d = Some v' -> ba_bytes v' a = ba_bytes v a.
Proof.
  intros v a o d Ok H _ v' E. unfold ba_append in E. destruct (a_lim o =? no_limit); [ | discriminate]. injection E as <-.
  apply ba_limited_stable; auto. apply Ok.
Qed.
(** Comparisons: equality of the bytes; < is the lexicographic order, strict and total. *)
Theorem C53_equal : forall v a w b, fits v -> fits w -> okba a -> okba b -> ba_equal v a w b = true <-> ba_bytes v a = ba_bytes w b.
Proof.
  intros v a w b F1 F2 O1 O2. pose proof (ba_bytes_len v a F1 O1) as L1. pose proof (ba_bytes_len w b F2 O2) as L2. unfold zlen in *.
  unfold ba_equal. rewrite andb_true_iff, Z.eqb_eq. split.
  - intros [H1 H2]. apply eq_bytes_spec in H2; [exact H2 | lia].
  - intros E. assert (ba_size v a = ba_size w b) by (rewrite <- L1, <- L2, E; reflexivity). split; [assumption | ]. apply eq_bytes_spec; [rewrite E; reflexivity | exact E].
Qed.
Theorem C53_less : forall v a w b u c,
  (ba_less v a w b = true <-> lex (ba_bytes v a) (ba_bytes w b)) /\
  (ba_less v a w b = true -> ba_less w b v a = false) /\
  (ba_less v a w b = true -> ba_less w b u c = true -> ba_less v a u c = true) /\
  (ba_less v a w b = true \/ ba_bytes v a = ba_bytes w b \/ ba_less w b v a = true).
Proof.
  intros. unfold ba_less. split; [apply lex_less_spec | ]. split; [ | split; [apply lex_less_trans | apply lex_total]].
  intros H. destruct (lex_less (ba_bytes w b) (ba_bytes v a)) eqn:E; [ | reflexivity]. exfalso.
  apply (lex_irrefl (ba_bytes v a)), lex_less_spec. exact (lex_less_trans _ _ _ H E).
Qed.
(** Serialized and read back, any view gives the same bytes. *)
Theorem C53_serialize : forall v a, fits v -> okba a ->
  let '(v', a') := ba_deserialize (ba_serialize v a) in ba_bytes v' a' = ba_bytes v a.
Proof.
  intros v a F Ok. cbn [ba_serialize ba_deserialize fst snd]. pose proof (ba_bytes_len v a F Ok) as L.
  destruct (ba_size_word v a F Ok) as [S1 S2]. unfold fits in F.
  set (l := ba_bytes v a) in *. unfold ba_bytes, ba_size. cbn [a_off a_lim]. pose proof (zlen_nonneg l).
  destruct (Z.leb_spec 0 (zlen l)); [ | lia]. cbn [Z.to_nat skipn]. apply firstn_all2. unfold no_limit, zlen in *. lia.
Qed.

(** * ByteData *)
(** A chain of narrowings, ByteData(d, o) and ByteData(d, o, n) with o + n below 2^64, of a vector: it throws
    exactly when one of them does not fit, else it gives exactly the bytes; it stays inside the block. *)
Theorem C53_data_narrow : forall blk ops, fits blk ->
  Forall (fun on => 0 <= fst on /\ match snd on with Some n => 0 <= n /\ fst on + n < W | None => True end) ops ->
  match narrow (bd_of blk) ops with
  | Some d => inside blk d /\ nslice blk ops = Some (bd_bytes blk d)
  | None => nslice blk ops = None
  end.
Proof.
  intros blk ops F Fa. assert (E : bd_bytes blk (bd_of blk) = blk).
  { unfold bd_bytes, bd_of. cbn [d_ptr d_size Z.to_nat skipn]. apply firstn_all2. unfold zlen. lia. }
  pose proof (narrow_ok blk F ops (bd_of blk)) as H. rewrite E in H. apply H; [ | exact Fa].
  unfold inside, bd_of. cbn. unfold zlen. lia.
Qed.
Theorem C53_data_access : forall blk d i, fits blk -> inside blk d -> 0 <= i ->
  if i <? d_size d then exists b, bd_at blk d i = Some (Some b) /\ nth_error (bd_bytes blk d) (Z.to_nat i) = Some b
  else bd_at blk d i = None.
Proof.
  intros blk d i F I Hi. rewrite bd_at_ok by assumption. destruct (Z.ltb_spec i (d_size d)); [ | reflexivity].
  destruct (nth_error (bd_bytes blk d) (Z.to_nat i)) as [b | ] eqn:E; [eauto | ].
  apply nth_error_None in E. pose proof (bd_bytes_len blk d I) as L. unfold zlen in L. lia.
Qed.
(** Of a ByteArray: the same bytes, while the vector does not change. *)
Theorem C53_data_of_array : forall v a, fits v -> okba a -> inside v (bd_of_array v a) /\ bd_bytes v (bd_of_array v a) = ba_bytes v a.
Proof. exact bd_of_array_ok. Qed.

(** * The hypotheses are met *)
Definition ten : list byte := [0; 1; 2; 3; 4; 5; 6; 7; 8; 9]%nat.
Example C53_ex_array : exists a b, ba_from ten ba_all 2 = Some a /\ ba_sub ten a 1 4 = Some b /\
  ba_bytes ten a = [2; 3; 4; 5; 6; 7; 8; 9]%nat /\ ba_bytes ten b = [3; 4; 5; 6]%nat /\
  ba_at ten b 3 = Some (Some 6%nat) /\ ba_at ten b 4 = None /\
  option_map (fun v => (ba_bytes v a, ba_bytes v b)) (ba_append ten a [10]%nat) = Some ([2; 3; 4; 5; 6; 7; 8; 9; 10]%nat, [3; 4; 5; 6]%nat) /\
  ba_append ten b [10]%nat = None /\ ba_less ten b ten a = false /\ ba_bytes [] a = [].
Proof. do 2 eexists. repeat split; vm_compute; reflexivity. Qed.
Example C53_ex_data : narrow (bd_of ten) [(2, None); (1, Some 4); (1, Some 2)] = Some (mkBD 4 2) /\
  bd_bytes ten (mkBD 4 2) = [4; 5]%nat /\ narrow (bd_of ten) [(2, None); (1, Some 4); (1, Some 4)] = None.
Proof. repeat split; vm_compute; reflexivity. Qed.

(** * Refuted *)
(** ByteData(d, offset, size) adds without looking at the overflow: for every block and every offset from 1
    there is a size that passes the check and is larger than the block; operator[] then accepts indices outside. *)
Theorem C53_data_wrap_refuted : forall blk o, fits blk -> 1 <= o <= zlen blk ->
  bd_sub (bd_of blk) o (W - o) = Some (mkBD o (W - o)) /\
  (zlen blk - o < W - o) /\ bd_at blk (mkBD o (W - o)) (zlen blk - o) = Some None.
Proof.
  intros blk o F H. unfold fits in F. assert (Hd : d_size (bd_of blk) = zlen blk) by reflexivity.
  unfold bd_sub. rewrite Hd. replace (o + (W - o)) with W by ring.
  replace (wrap W) with 0 by (unfold wrap; rewrite Z.mod_same; [reflexivity | rewrite W_val; discriminate]).
  destruct (Z.leb_spec 0 (zlen blk)); [ | lia]. cbn [d_ptr bd_of]. rewrite wrap_id by (unfold word; lia).
  split; [reflexivity | ]. split; [lia | ]. unfold bd_at. cbn [d_ptr d_size].
  destruct (Z.ltb_spec (zlen blk - o) (W - o)); [ | lia]. f_equal. rewrite wrap_id by (unfold word; lia).
  apply nth_error_None. unfold zlen. lia.
Qed.
(** ByteArray(a, offset) with a limited and offset beyond its end does not throw when the vector goes on: the
    view shows bytes outside of a. *)
Theorem C53_array_escape_refuted : forall v o offset, fits v -> okba o -> a_lim o < no_limit -> a_lim o < offset ->
  a_off o + offset <= zlen v ->
  exists a, ba_from v o offset = Some a /\ ba_bytes v a = skipn (Z.to_nat (a_off o + offset)) v.
Proof.
  intros v o offset F [[O1 O2] [L1 L2]] Hl Hf Hv. unfold fits in F. unfold ba_from.
  rewrite (wrap_id (a_off o + offset)) by (unfold word; lia). cbn [a_off]. destruct (Z.leb_spec (a_off o + offset) (zlen v)); [ | lia].
  eexists. split; [reflexivity | ]. destruct (Z.eqb_spec (a_lim o) no_limit); [lia | ].
  assert (E : wrap (a_lim o - offset) = a_lim o - offset + W).
  { unfold wrap. symmetry. apply (Z.mod_unique _ _ (-1)); [left; unfold word in *; lia | ring]. }
  rewrite E. unfold ba_bytes, ba_size. cbn [a_off a_lim]. destruct (Z.leb_spec (a_off o + offset) (zlen v)); [ | lia].
  apply firstn_all2. rewrite skipn_length. unfold zlen in *. lia.
Qed.
(** ByteArray(a, offset, NoSizeLimit) of a limited a, offset at least 1, gives an unlimited view. *)
Theorem C53_array_unlimited_refuted : exists a b, ba_sub ten ba_all 2 3 = Some a /\ ba_bytes ten a = [2; 3; 4]%nat /\
  ba_sub ten a 1 no_limit = Some b /\ ba_bytes ten b = [3; 4; 5; 6; 7; 8; 9]%nat /\
  (exists v, ba_append ten b [10]%nat = Some v).
Proof. do 2 eexists. repeat split; try (vm_compute; reflexivity). eexists. vm_compute. reflexivity. Qed.
(** ByteArray(a, offset, n) of an array with an offset: the check leaves that offset out, so a view with fewer
    than n bytes is made where the same request of a whole array throws. *)
Theorem C53_array_short_refuted : exists a b, ba_from ten ba_all 4 = Some a /\ ba_sub ten a 0 9 = Some b /\
  ba_size ten b = 6 /\ ba_sub ten ba_all 4 9 = None.
Proof. do 2 eexists. repeat split; vm_compute; reflexivity. Qed.
(** clear() of a view removes the bytes of all views, also those before its offset; what is then appended to the
    view need not show in it. *)
Theorem C53_clear_refuted : exists a, ba_from ten ba_all 4 = Some a /\ ba_bytes (ba_clear ten a) ba_all = [] /\
  exists v, ba_append (ba_clear ten a) a [5; 6; 7]%nat = Some v /\ ba_bytes v a = [] /\ ba_bytes v ba_all = [5; 6; 7]%nat.
Proof.
  exists (mkBA 4 no_limit). split; [vm_compute; reflexivity | ]. split; [vm_compute; reflexivity | ].
  exists [5; 6; 7]%nat. split; [vm_compute; reflexivity | ]. split; vm_compute; reflexivity.
Qed.

Print Assumptions C53_array_access.
Print Assumptions C53_array_from.
Print Assumptions C53_array_sub.
Print Assumptions C53_append.
Print Assumptions C53_require_size.
Print Assumptions C53_limited_stable.
Print Assumptions C53_equal.
Print Assumptions C53_less.
Print Assumptions C53_serialize.
Print Assumptions C53_data_narrow.
Print Assumptions C53_data_access.
Print Assumptions C53_data_of_array.
Print Assumptions C53_data_wrap_refuted.
Print Assumptions C53_array_escape_refuted.
Print Assumptions C53_array_unlimited_refuted.
Print Assumptions C53_array_short_refuted.
Print Assumptions C53_clear_refuted.
