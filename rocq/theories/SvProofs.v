From Verif Require Import Base SvModel SvSpec.
From Coq Require Import Lia.

(** * comparison *)
Lemma traits_zero n : forall a b, (n <= length a)%nat -> (n <= length b)%nat -> traits_compare a b n = 0%Z <-> firstn n a = firstn n b.
Proof.
  induction n as [|n IH]; intros a b Ha Hb; [cbn; tauto|].
  destruct a as [|x a]; [cbn in Ha; lia|]. destruct b as [|y b]; [cbn in Hb; lia|]. cbn [traits_compare firstn length] in *.
  destruct (Z.ltb_spec x y); [split; [lia|intros E; injection E; lia]|].
  destruct (Z.ltb_spec y x); [split; [lia|intros E; injection E; lia]|].
  assert (x = y) by lia. subst y. rewrite IH by lia. split; [intros ->; reflexivity|intros E; injection E; auto].
Qed.

Lemma to_int_small v : (- 2 ^ 31 <= v < 2 ^ 31)%Z -> to_int (v mod 2 ^ 64) = v.
Proof.
  intros H. unfold to_int.
  assert (E : (v mod 2 ^ 64 + 2 ^ 31 = v + 2 ^ 31 + (- (v / 2 ^ 64) * 2 ^ 32) * 2 ^ 32)%Z).
  { pose proof (Z.div_mod v (2 ^ 64) ltac:(lia)). lia. }
  rewrite E, Z_mod_plus_full, Z.mod_small; lia.
Qed.

Lemma compare_eq_sized a b : length a = length b -> compare a b = 0%Z <-> a = b.
Proof.
  intros E. unfold compare. cbv zeta.
  replace (Nat.min (length a) (length b)) with (length a) by lia.
  pose proof (traits_zero (length a) a b ltac:(lia) ltac:(lia)) as T.
  rewrite firstn_all in T. replace (firstn (length a) b) with b in T by (rewrite E, firstn_all; reflexivity).
  destruct (Z.eqb_spec (traits_compare a b (length a)) 0).
  - replace (zlen a - zlen b)%Z with 0%Z by (unfold zlen; lia). change (to_int (0 mod 2 ^ 64)) with 0%Z. tauto.
  - tauto.
Qed.

Lemma traits_range n a b : traits_compare a b n = 0%Z \/ traits_compare a b n = (-1)%Z \/ traits_compare a b n = 1%Z.
Proof.
  revert a b. induction n as [|n IH]; intros a b; [destruct a, b; auto|].
  destruct a as [|x a]; [auto|]. destruct b as [|y b]; [auto|]. cbn [traits_compare].
  destruct (x <? y)%Z; [auto|]. destruct (y <? x)%Z; [auto|]. apply IH.
Qed.

Lemma zlen_S {A} (x : A) l : zlen (x :: l) = (zlen l + 1)%Z.
Proof. rewrite zlen_cons; lia. Qed.

Lemma compare_cons x a b : compare (x :: a) (x :: b) = compare a b.
Proof.
  unfold compare. cbv zeta. cbn [length Nat.min traits_compare]. rewrite Z.ltb_irrefl, !zlen_S.
  replace (zlen a + 1 - (zlen b + 1))%Z with (zlen a - zlen b)%Z by lia. reflexivity.
Qed.

Definition short (a : view) : Prop := (zlen a < 2 ^ 31)%Z.

Lemma compare_lt a : forall b, short a -> short b -> (compare a b < 0)%Z <-> lex_lt a b.
Proof.
  induction a as [|x a IH]; intros b Ha Hb.
  - unfold compare. cbn [length Nat.min traits_compare]. cbv zeta. cbn [Z.eqb].
    replace (zlen (@nil Z)) with 0%Z by reflexivity. rewrite to_int_small.
    2: { unfold short in Hb. pose proof (zlen_nonneg b). lia. }
    destruct b as [|y b].
    + cbn. split; [lia|intros H; inversion H].
    + rewrite zlen_S. pose proof (zlen_nonneg b). split; [constructor|lia].
  - destruct b as [|y b].
    + unfold compare. cbn [length Nat.min traits_compare]. cbv zeta. cbn [Z.eqb].
      replace (zlen (@nil Z)) with 0%Z by reflexivity. rewrite to_int_small.
      2: { unfold short in Ha. pose proof (zlen_nonneg (x :: a)). lia. }
      pose proof (zlen_nonneg (x :: a)). split; [lia|intros H'; inversion H'].
    + destruct (Z.lt_trichotomy x y) as [L|[->|L]].
      * unfold compare. cbn [length Nat.min traits_compare]. cbv zeta. apply Z.ltb_lt in L as L'. rewrite L'. cbn. split; [constructor; exact L|lia].
      * rewrite compare_cons. rewrite IH.
        -- split; [constructor; assumption|]. intros H; inversion H; subst; [lia|assumption].
        -- unfold short in *. rewrite zlen_S in Ha. lia.
        -- unfold short in *. rewrite zlen_S in Hb. lia.
      * unfold compare. cbn [length Nat.min traits_compare]. cbv zeta.
        destruct (Z.ltb_spec x y); [lia|]. apply Z.ltb_lt in L as L'. rewrite L'. cbn. split; [lia|]. intros H'; inversion H'; subst; lia.
Qed.

Lemma compare_zero a : forall b, short a -> short b -> compare a b = 0%Z <-> a = b.
Proof.
  induction a as [|x a IH]; intros b Ha Hb.
  - unfold compare. cbn [length Nat.min traits_compare]. cbv zeta. cbn [Z.eqb].
    replace (zlen (@nil Z)) with 0%Z by reflexivity. rewrite to_int_small.
    2: { unfold short in Hb. pose proof (zlen_nonneg b). lia. }
    destruct b as [|y b]; [tauto|]. rewrite zlen_S. pose proof (zlen_nonneg b). split; [lia|discriminate].
  - destruct b as [|y b].
    + unfold compare. cbn [length Nat.min traits_compare]. cbv zeta. cbn [Z.eqb].
      replace (zlen (@nil Z)) with 0%Z by reflexivity. rewrite to_int_small.
      2: { unfold short in Ha. pose proof (zlen_nonneg (x :: a)). lia. }
      rewrite zlen_S. pose proof (zlen_nonneg a). split; [lia|discriminate].
    + destruct (Z.lt_trichotomy x y) as [L|[->|L]].
      * unfold compare. cbn [length Nat.min traits_compare]. cbv zeta. apply Z.ltb_lt in L as L'. rewrite L'. cbn. split; [lia|]. intros E; injection E; lia.
      * rewrite compare_cons. rewrite IH.
        -- split; [intros ->; reflexivity|intros E; injection E; auto].
        -- unfold short in *. rewrite zlen_S in Ha. lia.
        -- unfold short in *. rewrite zlen_S in Hb. lia.
      * unfold compare. cbn [length Nat.min traits_compare]. cbv zeta.
        destruct (Z.ltb_spec x y); [lia|]. apply Z.ltb_lt in L as L'. rewrite L'. cbn. split; [lia|]. intros E; injection E; lia.
Qed.

Lemma lex_total a : forall b, lex_lt a b \/ a = b \/ lex_lt b a.
Proof.
  induction a as [|x a IH]; intros [|y b]; [auto|left; constructor|right; right; constructor|].
  destruct (Z.lt_trichotomy x y) as [L|[->|L]]; [left; constructor; exact L| |right; right; constructor; exact L].
  destruct (IH b) as [H|[->|H]]; [left; constructor; exact H|auto|right; right; constructor; exact H].
Qed.
Lemma lex_irrefl a : ~ lex_lt a a.
Proof. induction a as [|x a IH]; intros H; inversion H; subst; [lia|auto]. Qed.
Lemma lex_trans a b c : lex_lt a b -> lex_lt b c -> lex_lt a c.
Proof.
  intros H. revert c. induction H as [y b|x y a b L|x a b H IH]; intros c Hc; inversion Hc; subst.
  - constructor. - constructor. - constructor; lia. - constructor; assumption. - constructor; assumption.
  - constructor; apply IH; assumption.
Qed.

(** * occurrence by position *)
Lemma occurs_iff d v i : occurs d v i <-> (i + length v <= length d)%nat /\ firstn (length v) (skipn i d) = v.
Proof.
  split.
  - intros (a & b & -> & <-). rewrite !app_length. split; [lia|].
    rewrite skipn_app, skipn_all, Nat.sub_diag. cbn [skipn app]. rewrite firstn_app, Nat.sub_diag, firstn_all. cbn. apply app_nil_r.
  - intros [Hl E]. exists (firstn i d), (skipn (length v) (skipn i d)).
    split; [|rewrite firstn_length; lia].
    rewrite <- (firstn_skipn i d) at 1. f_equal. rewrite <- (firstn_skipn (length v) (skipn i d)) at 1. rewrite E. reflexivity.
Qed.

Lemma same_at_spec d pos v : (pos + length v <= length d)%nat ->
  exists b, same_at d pos (length v) v = Some b /\ (b = true <-> occurs d v pos).
Proof.
  intros H. unfold same_at. destruct (Nat.leb_spec (pos + length v) (length d)); [|lia].
  eexists. split; [reflexivity|]. rewrite Z.eqb_eq, compare_eq_sized, occurs_iff; [tauto|].
  rewrite firstn_length, skipn_length. lia.
Qed.

Lemma find_loop_spec d v n : forall pos, (length d - length v + 1 = pos + n)%nat -> (length v <= length d)%nat ->
  least (occurs d v) pos (find_loop d v pos n).
Proof.
  induction n as [|n IH]; intros pos Hn Hv; cbn [find_loop].
  - intros j Hj Ho. apply occurs_iff in Ho. lia.
  - destruct (same_at_spec d pos v ltac:(lia)) as (b & E & Hb). rewrite E. destruct b.
    + split; [lia|]. split; [apply Hb; reflexivity|lia].
    + specialize (IH (S pos) ltac:(lia) Hv).
      assert (No : ~ occurs d v pos) by (intros H; apply Hb in H; discriminate).
      destruct (find_loop d v (S pos) n) as [i| |]; cbn [least] in *; [|intros j Hj; destruct (Nat.eq_dec j pos) as [->|]; [exact No|apply IH; lia]|exact IH].
      destruct IH as (A & B & C). split; [lia|]. split; [exact B|]. intros j Hj. destruct (Nat.eq_dec j pos) as [->|]; [exact No|apply C; lia].
Qed.

Lemma find_spec d v pos : least (occurs d v) pos (find d v pos).
Proof.
  unfold find. destruct (Nat.ltb_spec (length d) pos).
  - intros j Hj Ho. apply occurs_iff in Ho. lia.
  - destruct (Nat.eqb_spec (length v) 0) as [E|N].
    + split; [lia|]. split; [|lia]. apply occurs_iff. destruct v; [cbn; split; [lia|reflexivity]|discriminate E].
    + destruct (Nat.ltb_spec (length d - pos) (length v)).
      * intros j Hj Ho. apply occurs_iff in Ho. lia.
      * apply find_loop_spec; lia.
Qed.

Lemma rfind_loop_spec d v n : forall pos lim, (n = S pos) -> (pos + length v <= length d)%nat ->
  (forall j, (pos < j)%nat -> upto lim j -> ~ occurs d v j) -> upto lim pos ->
  greatest (occurs d v) lim (rfind_loop d v pos n).
Proof.
  induction n as [|n IH]; intros pos lim Hn Hp Hgt Hup; [lia|]. cbn [rfind_loop].
  destruct (same_at_spec d pos v Hp) as (b & E & Hb). rewrite E. destruct b.
  - split; [exact Hup|]. split; [apply Hb; reflexivity|exact Hgt].
  - assert (No : ~ occurs d v pos) by (intros H; apply Hb in H; discriminate).
    destruct pos as [|pos].
    + assert (n = 0)%nat by lia. subst n. cbn [rfind_loop]. intros j Hj. destruct j; [exact No|]. apply Hgt; [lia|exact Hj].
    + replace (S pos - 1)%nat with pos by lia. apply IH; try lia.
      * intros j Hj Hu. destruct (Nat.eq_dec j (S pos)) as [->|]; [exact No|]. apply Hgt; [lia|exact Hu].
      * destruct lim; cbn [upto] in *; lia.
Qed.

Lemma rfind_spec d v pos : greatest (occurs d v) pos (rfind d v pos).
Proof.
  unfold rfind. destruct (Nat.eqb_spec (length v) 0) as [E|N].
  - assert (Hocc : forall i, (i <= length d)%nat -> occurs d v i).
    { intros i Hi. apply occurs_iff. destruct v; [|discriminate E]. cbn. split; [lia|reflexivity]. }
    assert (Hno : forall j, (length d < j)%nat -> ~ occurs d v j) by (intros j Hj Ho; apply occurs_iff in Ho; lia).
    destruct pos as [p|]; cbn [greatest upto].
    + destruct (Nat.ltb_spec (length d) p).
      * split; [lia|]. split; [apply Hocc; lia|]. intros j Hj _. apply Hno; lia.
      * split; [lia|]. split; [apply Hocc; lia|]. lia.
    + split; [exact I|]. split; [apply Hocc; lia|]. intros j Hj _. apply Hno; lia.
  - destruct (Nat.ltb_spec (length d) (length v)).
    + intros j _ Ho. apply occurs_iff in Ho. lia.
    + cbv zeta. apply rfind_loop_spec; [reflexivity|destruct pos; lia| |destruct pos; cbn [upto]; lia || exact I].
      intros j Hj Hu Ho. apply occurs_iff in Ho. destruct pos as [p|]; cbn [upto] in *; lia.
Qed.

(** * characters *)
Lemma among_iff c v : among c v = true <-> In c v.
Proof.
  induction v as [|x v IH]; cbn [among In]; [split; [discriminate|tauto]|].
  destruct (Z.eqb_spec c x) as [->|N]; [tauto|]. rewrite IH. split; [auto|intros [->|]; [congruence|assumption]].
Qed.
Definition wanted (want : bool) (d v : view) (i : nat) : Prop := if want then one_of d v i else none_of d v i.
Lemma wanted_iff want d v i c : nth_error d i = Some c -> Bool.eqb (among c v) want = true <-> wanted want d v i.
Proof.
  intros E. pose proof (among_iff c v) as A. unfold wanted, one_of, none_of. destruct want.
  - rewrite eqb_true_iff, A. split; [intros H; exists c; auto|intros (c' & E' & H); congruence].
  - rewrite eqb_true_iff, <- not_true_iff_false, A. split; [intros H; exists c; auto|intros (c' & E' & H); congruence].
Qed.
Lemma wanted_inside want d v i : wanted want d v i -> (i < length d)%nat.
Proof. destruct want; intros (c & E & _); apply nth_error_Some; congruence. Qed.

Lemma first_loop_spec want d v n : forall pos, (n = length d - pos)%nat -> least (wanted want d v) pos (first_loop want d v pos n).
Proof.
  induction n as [|n IH]; intros pos Hn; cbn [first_loop].
  - intros j Hj Ho. apply wanted_inside in Ho. lia.
  - destruct (nth_error d pos) as [c|] eqn:E; [|apply nth_error_None in E; lia].
    pose proof (wanted_iff want d v pos c E) as W. destruct (Bool.eqb (among c v) want).
    + split; [lia|]. split; [apply W; reflexivity|lia].
    + assert (No : ~ wanted want d v pos) by (intros H; apply W in H; discriminate).
      specialize (IH (S pos) ltac:(lia)). destruct (first_loop want d v (S pos) n) as [i| |]; cbn [least] in *; [|intros j Hj; destruct (Nat.eq_dec j pos) as [->|]; [exact No|apply IH; lia]|exact IH].
      destruct IH as (A & B & C). split; [lia|]. split; [exact B|]. intros j Hj. destruct (Nat.eq_dec j pos) as [->|]; [exact No|apply C; lia].
Qed.

Lemma last_loop_spec want d v n : forall pos lim, (n = S pos)%nat -> (pos < length d)%nat -> upto lim pos ->
  (forall j, (pos < j)%nat -> upto lim j -> ~ wanted want d v j) -> greatest (wanted want d v) lim (last_loop want d v pos n).
Proof.
  induction n as [|n IH]; intros pos lim Hn Hp Hup Hgt; [lia|]. cbn [last_loop].
  destruct (nth_error d pos) as [c|] eqn:E; [|apply nth_error_None in E; lia].
  pose proof (wanted_iff want d v pos c E) as W. destruct (Bool.eqb (among c v) want).
  - split; [exact Hup|]. split; [apply W; reflexivity|exact Hgt].
  - assert (No : ~ wanted want d v pos) by (intros H; apply W in H; discriminate).
    destruct pos as [|pos].
    + assert (n = 0)%nat by lia. subst n. cbn [last_loop]. intros j Hj. destruct j; [exact No|]. apply Hgt; [lia|exact Hj].
    + replace (S pos - 1)%nat with pos by lia. apply IH; try lia.
      * destruct lim; cbn [upto] in *; lia.
      * intros j Hj Hu. destruct (Nat.eq_dec j (S pos)) as [->|]; [exact No|]. apply Hgt; [lia|exact Hu].
Qed.

Definition inside (d : view) (pos : option nat) : Prop := match pos with Some p => (p < length d)%nat | None => d <> [] end.
Lemma last_from_spec want d v pos : inside d pos -> greatest (wanted want d v) pos (last_from want d v pos).
Proof.
  intros H. unfold last_from. destruct pos as [p|]; cbn [inside] in H.
  - apply last_loop_spec; [reflexivity|exact H|cbn; lia|]. cbn [upto]. lia.
  - destruct d as [|x d]; [congruence|]. apply last_loop_spec; cbn [length]; [lia|lia|exact I|].
    intros j Hj _ Ho. apply wanted_inside in Ho. cbn [length] in Ho. lia.
Qed.

(** * parts *)
Lemma substr_spec d pos count s : substr d pos count = Some s <->
  exists a b, d = a ++ s ++ b /\ length a = pos /\
    match count with Some c => (length s <= c)%nat /\ (b <> [] -> length s = c) | None => b = [] end.
Proof.
  unfold substr. destruct (Nat.ltb_spec pos (length d + 1)) as [H|H].
  - split.
    + intros E. injection E as <-. set (n := match count with Some c => Nat.min c (length d - pos) | None => (length d - pos)%nat end).
      assert (Hn : (n <= length d - pos)%nat) by (subst n; destruct count; lia).
      exists (firstn pos d), (skipn n (skipn pos d)). rewrite firstn_skipn, firstn_skipn. split; [reflexivity|].
      split; [rewrite firstn_length; lia|].
      assert (L : length (firstn n (skipn pos d)) = n) by (rewrite firstn_length, skipn_length; lia).
      destruct count as [c|].
      * split; [subst n; lia|]. intros Hb. rewrite L. subst n.
        destruct (Nat.le_gt_cases c (length d - pos)); [lia|]. exfalso. apply Hb.
        apply length_zero_iff_nil. rewrite !skipn_length. lia.
      * apply length_zero_iff_nil. rewrite !skipn_length. subst n. lia.
    + intros (a & b & -> & <- & Hc). f_equal. rewrite skipn_app, skipn_all, Nat.sub_diag. cbn [skipn app].
      rewrite !app_length in *. destruct count as [c|].
      * destruct Hc as [Hc Hb]. destruct b as [|y b].
        -- rewrite app_nil_r, firstn_all2; [reflexivity|]. cbn [length]. lia.
        -- rewrite firstn_app. specialize (Hb ltac:(discriminate)).
           replace (Nat.min c (length a + (length s + length (y :: b)) - length a)) with (length s) by lia.
           rewrite firstn_all, Nat.sub_diag. cbn. apply app_nil_r.
      * subst b. rewrite app_nil_r, firstn_all2; [reflexivity|]. cbn [length]. lia.
  - split; [discriminate|]. intros (a & b & -> & <- & _). rewrite !app_length in H. lia.
Qed.

Lemma starts_with_spec d x : starts_with d x = true <-> exists b, d = x ++ b.
Proof.
  unfold starts_with, compare_at. rewrite andb_true_iff, Nat.leb_le. split.
  - intros [Hl Hc]. unfold substr in Hc. destruct (Nat.ltb_spec 0 (length d + 1)); [|lia]. cbn [skipn] in Hc.
    rewrite Z.eqb_eq, compare_eq_sized in Hc by (rewrite firstn_length; lia).
    replace (Nat.min (length x) (length d - 0)) with (length x) in Hc by lia.
    exists (skipn (length x) d). rewrite <- Hc at 1. symmetry. apply firstn_skipn.
  - intros (b & ->). rewrite app_length. split; [lia|]. unfold substr. rewrite app_length.
    destruct (Nat.ltb_spec 0 (length x + length b + 1)); [|lia]. cbn [skipn].
    replace (Nat.min (length x) (length x + length b - 0)) with (length x) by lia.
    rewrite firstn_app, Nat.sub_diag, firstn_all. cbn [firstn]. rewrite app_nil_r. apply Z.eqb_eq. apply compare_eq_sized; reflexivity.
Qed.
Lemma ends_with_spec d x : ends_with d x = true <-> exists a, d = a ++ x.
Proof.
  unfold ends_with, compare_at. rewrite andb_true_iff, Nat.leb_le. split.
  - intros [Hl Hc]. unfold substr in Hc. destruct (Nat.ltb_spec (length d - length x) (length d + 1)); [|lia].
    rewrite Z.eqb_eq, compare_eq_sized in Hc by (rewrite firstn_length, skipn_length; lia).
    rewrite firstn_all2 in Hc by (rewrite skipn_length; lia).
    exists (firstn (length d - length x) d). rewrite <- Hc at 2. symmetry. apply firstn_skipn.
  - intros (a & ->). rewrite app_length. split; [lia|]. unfold substr. rewrite app_length.
    replace (length a + length x - length x)%nat with (length a) by lia.
    destruct (Nat.ltb_spec (length a) (length a + length x + 1)); [|lia].
    rewrite skipn_app, skipn_all, Nat.sub_diag. cbn [skipn app]. rewrite firstn_all2 by lia.
    apply Z.eqb_eq. apply compare_eq_sized; reflexivity.
Qed.
