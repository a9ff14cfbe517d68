(** C79: a DataJoiner is the concatenation of its containers. *)
From Coq Require Import List ZArith Bool Lia.
From Verif Require Import JoinModel JoinSpec JoinProofs.
Import ListNotations.
Local Open Scope Z_scope.

Section P.
Variable A : Type.
Variable cs : list (list A).
Hypothesis Hne : cs <> [].
Hypothesis Hsz : total cs < 2 ^ 63.

(** begin() never throws, whatever containers are empty. *)
Theorem C79_begin : exists it, j_begin cs = Some it /\ at_ cs it 0.
Proof. pose proof (total_nonneg cs). destruct (set_in Hne Hsz (n := 0) ltac:(lia)) as (it & E & _). exists it. split; [exact E|]. apply at_begin. exact E. Qed.

(** The iterator at position n shows the n-th element of the concatenation; the one at the end shows nothing. *)
Theorem C79_element : forall it n, at_ cs it n -> 0 <= n <= total cs /\ deref cs it = nth_error (joined cs) (Z.to_nat n).
Proof. intros it n H. destruct (at_facts Hne Hsz H) as (? & _ & _ & _ & ?). auto. Qed.

(** Moving by any distance that stays between begin and end succeeds, any other throws. *)
Theorem C79_move : forall it n d, at_ cs it n -> - 2 ^ 63 <= d < 2 ^ 63 ->
  (0 <= n + d <= total cs -> exists it', op_plus cs it d = Some it' /\ at_ cs it' (n + d)) /\
  (~ 0 <= n + d <= total cs -> op_plus cs it d = None).
Proof.
  intros it n d H Hd. pose proof (advance_at Hne Hsz H Hd) as K. split; intros Hr.
  - rewrite (proj2 (Z.leb_le 0 (n + d))), (proj2 (Z.leb_le (n + d) (total cs))) in K by lia. exact K.
  - destruct (Z.leb_spec 0 (n + d)); destruct (Z.leb_spec (n + d) (total cs)); cbn [andb] in K; try exact K. lia.
Qed.
Theorem C79_step : forall it n, at_ cs it n ->
  (n < total cs -> exists it', increment cs it = Some it' /\ at_ cs it' (n + 1)) /\ (n = total cs -> increment cs it = None) /\
  (0 < n -> exists it', decrement cs it = Some it' /\ at_ cs it' (n - 1)) /\ (n = 0 -> decrement cs it = None) /\
  (forall d, - 2 ^ 63 < d < 2 ^ 63 -> (0 <= n - d <= total cs -> exists it', op_minus cs it d = Some it' /\ at_ cs it' (n - d)) /\ (~ 0 <= n - d <= total cs -> op_minus cs it d = None)).
Proof.
  intros it n H. destruct (C79_element it n H) as (Hn & _). destruct (C79_move it n 1 H ltac:(lia)) as (U1 & U2). destruct (C79_move it n (-1) H ltac:(lia)) as (D1 & D2).
  split; [|split; [|split; [|split]]].
  - intros. apply U1. lia.
  - intros ->. apply U2. lia.
  - intros. apply D1. lia.
  - intros ->. apply D2. lia.
  - intros d Hd. exact (C79_move it n (- d) H ltac:(lia)).
Qed.

(** At most one iterator stands at each position, however it got there: iterators can be compared by what they hold. *)
Theorem C79_unique : forall a n b m, at_ cs a n -> at_ cs b m -> (a = b <-> n = m).
Proof.
  intros a n b m Ha Hb. destruct (at_facts Hne Hsz Ha) as (_ & Sa & Fa & _). destruct (at_facts Hne Hsz Hb) as (_ & Sb & Fb & _). split; intros ->.
  - congruence.
  - congruence.
Qed.

(** The operators compare and subtract positions, and [] reads relative to the position. *)
Theorem C79_operators : forall a n b m, at_ cs a n -> at_ cs b m ->
  op_diff cs a b = Some (n - m) /\ op_eq cs a b = Some (n =? m) /\ op_ne cs a b = Some (negb (n =? m)) /\
  op_lt cs a b = Some (n <? m) /\ op_gt cs a b = Some (m <? n) /\ op_le cs a b = Some (n <=? m) /\ op_ge cs a b = Some (m <=? n).
Proof.
  intros a n b m Ha Hb. unfold op_diff, op_ne, op_gt, op_le, op_ge, op_eq, op_lt, equal. rewrite (diff_at Hne Hsz Ha Hb), (diff_at Hne Hsz Hb Ha). cbn [option_map].
  repeat split; apply f_equal.
  - destruct (Z.eqb_spec (m - n) 0), (Z.eqb_spec n m); try reflexivity; exfalso; lia.
  - destruct (Z.eqb_spec (m - n) 0), (Z.eqb_spec n m); try reflexivity; exfalso; lia.
  - destruct (Z.ltb_spec 0 (m - n)), (Z.ltb_spec n m); try reflexivity; exfalso; lia.
  - destruct (Z.ltb_spec 0 (n - m)), (Z.ltb_spec m n); try reflexivity; exfalso; lia.
  - destruct (Z.ltb_spec 0 (n - m)), (Z.leb_spec n m); try reflexivity; exfalso; lia.
  - destruct (Z.ltb_spec 0 (m - n)), (Z.leb_spec m n); try reflexivity; exfalso; lia.
Qed.
Theorem C79_index : forall it n d, at_ cs it n -> - 2 ^ 63 <= d < 2 ^ 63 ->
  op_index cs it d = if (0 <=? n + d) then nth_error (joined cs) (Z.to_nat (n + d)) else None.
Proof.
  intros it n d H Hd. destruct (C79_move it n d H Hd) as (M1 & M2). unfold op_index. unfold op_plus in *.
  destruct (Z.leb_spec 0 (n + d)).
  - destruct (Z.le_gt_cases (n + d) (total cs)).
    + destruct M1 as (x & -> & Hx); [lia|]. apply C79_element, Hx.
    + rewrite M2 by lia. symmetry. apply nth_error_None. unfold total in *. lia.
  - rewrite M2 by lia. reflexivity.
Qed.

(** A loop from one iterator to a later one reads exactly what is between them; from begin to end everything, in order. *)
Theorem C79_walk : forall a n b m fuel, at_ cs a n -> at_ cs b m -> n <= m -> (Z.to_nat (m - n) < fuel)%nat ->
  walk cs fuel a b = Some (between cs n m).
Proof. intros a n b m fuel Ha Hb H1 H2. exact (walk_at Hne Hsz Ha Hb H1 H2). Qed.
Theorem C79_all : exists b, j_begin cs = Some b /\ walk cs (S (Z.to_nat (total cs))) b (j_end cs) = Some (joined cs).
Proof.
  destruct C79_begin as (b & E & Hb). exists b. split; [exact E|]. pose proof (total_nonneg cs). rewrite (C79_walk b 0 (j_end cs) (total cs)).
  - unfold between. rewrite Z.sub_0_r. cbn [Z.to_nat skipn]. rewrite firstn_all2; [reflexivity|]. unfold total. lia.
  - exact Hb.
  - constructor.
  - lia.
  - lia.
Qed.
Theorem C79_size : j_size cs = total cs.
Proof. apply size_total; assumption. Qed.

(** ApplyToIntervals shows the visitor exactly what is between, in order, in non-empty parts of single containers. *)
Theorem C79_intervals : forall a n b m, at_ cs a n -> at_ cs b m -> n <= m ->
  exists parts, map (seen cs) (intervals cs a b) = map Some parts /\ concat parts = between cs n m /\ ~ In [] parts.
Proof.
  intros a n b m Ha Hb H. destruct (at_facts Hne Hsz Ha) as (Hn & _ & _ & La & _). destruct (at_facts Hne Hsz Hb) as (_ & _ & _ & Lb & _).
  destruct (@intervals_at A cs cs 0 0 a n b m La Lb H eq_refl) as (ps & E & Ec & En). exists ps. split; [exact E|]. split; [|exact En].
  rewrite Ec. unfold clip, between, joined. rewrite Z.sub_0_r. f_equal. f_equal. lia.
Qed.
(** The other way round it shows nothing, or calls the visitor once with a range whose ends are swapped. *)
Theorem C79_backwards_partial : forall a n b m, at_ cs a n -> at_ cs b m -> m < n ->
  intervals cs a b = [] \/ exists i first last, intervals cs a b = [(i, first, last)] /\ last < first.
Proof.
  intros a n b m Ha Hb H. destruct (at_facts Hne Hsz Ha) as (_ & _ & _ & La & _). destruct (at_facts Hne Hsz Hb) as (_ & _ & _ & Lb & _).
  exact (@intervals_back A cs 0 0 a n b m La Lb H).
Qed.
End P.
Print Assumptions C79_begin.
Print Assumptions C79_element.
Print Assumptions C79_move.
Print Assumptions C79_step.
Print Assumptions C79_unique.
Print Assumptions C79_operators.
Print Assumptions C79_index.
Print Assumptions C79_walk.
Print Assumptions C79_all.
Print Assumptions C79_size.
Print Assumptions C79_intervals.
Print Assumptions C79_backwards_partial.

(** ... which is no range: a visitor that copies it runs away. *)
Theorem C79_backwards_refuted : ~ (forall (cs : list (list nat)) a n b m call, cs <> [] -> total cs < 2 ^ 63 -> at_ cs a n -> at_ cs b m ->
  In call (intervals cs a b) -> seen cs call <> None).
Proof.
  intros H. set (cs := [[1; 2]%nat]).
  assert (E : at_ cs (mkJ 0 2) 2) by apply (at_end _ cs). assert (B : at_ cs (mkJ 0 0) 0) by (apply at_begin; reflexivity).
  apply (H cs (mkJ 0 2) 2 (mkJ 0 0) 0 (0%nat, 2, 0)); try assumption; try (left; reflexivity); [discriminate|reflexivity|reflexivity].
Qed.
Print Assumptions C79_backwards_refuted.

(** The hypotheses are met with empty containers in every place; the parts of a range skip them. *)
Example C79_example : let cs := [[]; [1; 2]; []; [3]; []]%nat in
  total cs = 3 /\ (exists it, at_ cs it 2 /\ it = mkJ 3 0) /\ at_ cs (mkJ 4 0) 3 /\ intervals cs (mkJ 1 1) (mkJ 4 0) = [(1%nat, 1, 2); (3%nat, 0, 1)].
Proof.
  intros cs. split; [reflexivity|]. split; [|split; [apply (at_end _ cs)|reflexivity]].
  exists (mkJ 3 0). split; [|reflexivity]. apply (at_moved _ cs (mkJ 1 0) 0 2); [apply at_begin; reflexivity|lia|reflexivity].
Qed.
