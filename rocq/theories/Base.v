(** Shared list vocabulary (no model code). *)
From Coq Require Export List ZArith Lia Bool Arith.
Export ListNotations.
Set Implicit Arguments.

(** Length of a list as an integer: the C++ code computes with [size_t];
    the models compute with [Z], so that a wrapped subtraction shows up as a
    negative number instead of being hidden by truncation. *)
Definition zlen {A} (l : list A) : Z := Z.of_nat (length l).

(** [slice off n l]: the sub-range [off, off+n) of [l]. *)
Definition slice {A} (off n : Z) (l : list A) : list A :=
  firstn (Z.to_nat n) (skipn (Z.to_nat off) l).

(** [splice off bs l]: [memcpy] of [bs] over [l] at [off]. *)
Definition splice {A} (off : Z) (bs l : list A) : list A :=
  firstn (Z.to_nat off) l ++ bs ++ skipn (Z.to_nat off + length bs) l.

Lemma zlen_nonneg {A} (l : list A) : (0 <= zlen l)%Z.
Proof. unfold zlen; lia. Qed.

Lemma zlen_app {A} (l1 l2 : list A) : zlen (l1 ++ l2) = (zlen l1 + zlen l2)%Z.
Proof. unfold zlen; rewrite app_length; lia. Qed.

Lemma zlen_nil {A} : zlen (@nil A) = 0%Z.
Proof. reflexivity. Qed.

Lemma zlen_cons {A} (x : A) l : zlen (x :: l) = (1 + zlen l)%Z.
Proof. unfold zlen; simpl length; lia. Qed.

Lemma zlen_zero {A} (l : list A) : zlen l = 0%Z -> l = [].
Proof. destruct l; unfold zlen; simpl; [reflexivity | lia]. Qed.

Lemma to_nat_zlen {A} (l : list A) : Z.to_nat (zlen l) = length l.
Proof. unfold zlen; lia. Qed.

Lemma slice_app_mid {A} (a b c : list A) (off n : Z) :
  off = zlen a -> n = zlen b -> slice off n (a ++ b ++ c) = b.
Proof.
  intros -> ->. unfold slice. rewrite !to_nat_zlen.
  rewrite skipn_app, skipn_all, Nat.sub_diag. cbn [skipn app].
  rewrite firstn_app, firstn_all, Nat.sub_diag. cbn [firstn]. apply app_nil_r.
Qed.

Lemma splice_app_mid {A} (a b c bs : list A) (off : Z) :
  off = zlen a -> length bs = length b -> splice off bs (a ++ b ++ c) = a ++ bs ++ c.
Proof.
  intros -> Hl. unfold splice. rewrite to_nat_zlen.
  rewrite firstn_app, firstn_all, Nat.sub_diag. cbn [firstn]. rewrite app_nil_r.
  f_equal. f_equal.
  rewrite skipn_app. rewrite skipn_all2 by lia. cbn [app].
  replace (length a + length bs - length a) with (length b) by lia.
  rewrite skipn_app, skipn_all, Nat.sub_diag. reflexivity.
Qed.

Lemma split_at {A} (n : Z) (l : list A) :
  (0 <= n <= zlen l)%Z -> exists a b, l = a ++ b /\ zlen a = n.
Proof.
  intros H. exists (firstn (Z.to_nat n) l), (skipn (Z.to_nat n) l). split.
  - symmetry; apply firstn_skipn.
  - unfold zlen in *. rewrite firstn_length. lia.
Qed.

Lemma slice_nil_size {A} (off : Z) (l : list A) : slice off 0 l = [].
Proof. unfold slice. cbn [Z.to_nat]. apply firstn_O. Qed.

Lemma slice_zlen {A} (off n : Z) (l : list A) :
  (0 <= off)%Z -> (0 <= n)%Z -> (off + n <= zlen l)%Z -> zlen (slice off n l) = n.
Proof.
  intros. unfold slice, zlen in *. rewrite firstn_length, skipn_length. lia.
Qed.

Lemma firstn_slice {A} (m n off : Z) (l : list A) :
  (0 <= m <= n)%Z -> firstn (Z.to_nat m) (slice off n l) = slice off m l.
Proof. intros. unfold slice. rewrite firstn_firstn. f_equal. lia. Qed.

Lemma app_inj_len {A} (a b c d : list A) :
  a ++ b = c ++ d -> zlen a = zlen c -> a = c /\ b = d.
Proof.
  revert c; induction a as [|x a IH]; intros [|y c] H Hl; cbn [app] in *.
  - auto.
  - unfold zlen in Hl; simpl in Hl; lia.
  - unfold zlen in Hl; simpl in Hl; lia.
  - injection H as -> H. apply IH in H; [destruct H; subst; auto |].
    rewrite !zlen_cons in Hl; lia.
Qed.

Lemma zlen_splice {A} (off : Z) (bs l : list A) :
  (0 <= off)%Z -> (off + zlen bs <= zlen l)%Z -> zlen (splice off bs l) = zlen l.
Proof.
  intros. unfold splice, zlen in *.
  rewrite !app_length, firstn_length, skipn_length. lia.
Qed.
