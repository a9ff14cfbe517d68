From Coq Require Import List ZArith Bool Lia.
From Verif Require Import JoinModel JoinSpec.
Import ListNotations.
Local Open Scope Z_scope.
Set Implicit Arguments.

Section P.
Variable A : Type.
Implicit Types (l : list (list A)) (c : list A) (it : jit).

Definition len (x : list A) : Z := Z.of_nat (length x).
Lemma len_app x y : len (x ++ y) = len x + len y. Proof. unfold len. rewrite app_length. lia. Qed.
Lemma len_nonneg x : 0 <= len x. Proof. unfold len. lia. Qed.

(** where an iterator at position n stands, seen from each container *)
Fixpoint loc (i : nat) (p : Z) (l : list (list A)) (it : jit) (n : Z) : Prop :=
  match l with
  | [] => True
  | c :: r => (((which it < i)%nat /\ n <= p) \/ (which it = i /\ off it = n - p /\ p <= n <= p + len c) \/ ((i < which it)%nat /\ p + len c <= n))
              /\ loc (S i) (p + len c) r it n
  end.
Lemma loc_before l : forall i p it n, (which it < i)%nat -> n <= p -> loc i p l it n.
Proof. induction l as [|c r IH]; intros i p it n Hw Hn; cbn; [exact I|]. pose proof (len_nonneg c). split; [left; lia|apply IH; lia]. Qed.

Lemma advance_loop_spec l : forall i d, 0 <= d ->
  match advance_loop i l d with
  | inl it => (i <= which it < i + length l)%nat /\ 0 <= off it /\ d < len (concat l) /\
              (forall r, distance_loop i l it r = Some (r + d)) /\ (forall p, loc i p l it (p + d)) /\
              match nth_error l (which it - i) with Some c => nth_error c (Z.to_nat (off it)) | None => None end = nth_error (concat l) (Z.to_nat d)
  | inr rest => rest = d - len (concat l) /\ 0 <= rest
  end.
Proof.
  induction l as [|c r IH]; intros i d Hd; cbn [advance_loop concat].
  - unfold len. cbn. lia.
  - unfold csize at 1. fold (len c). rewrite len_app. destruct (len c <=? d) eqn:E.
    + apply Z.leb_le in E. specialize (IH (S i) (d - len c) ltac:(lia)). unfold csize. fold (len c). destruct (advance_loop (S i) r (d - len c)) as [it|rest].
      * destruct IH as (Hw & Ho & Hl & HD & HL & HN). cbn [length]. split; [lia|]. split; [exact Ho|]. split; [lia|]. split; [|split].
        -- intros r0. cbn [distance_loop]. replace (Nat.eqb (which it) i) with false by (symmetry; apply Nat.eqb_neq; lia). cbn [negb].
           unfold csize. fold (len c). rewrite HD. f_equal. lia.
        -- intros p. cbn [loc]. split; [right; right; lia|]. replace (p + d) with (p + len c + (d - len c)) by lia. apply HL.
        -- replace (which it - i)%nat with (S (which it - S i)) by lia. cbn [nth_error]. rewrite HN.
           rewrite nth_error_app2 by (unfold len in E; lia). f_equal. unfold len in *. lia.
      * destruct IH. lia.
    + apply Z.leb_gt in E. cbn [which off length]. pose proof (len_nonneg (concat r)). split; [lia|]. split; [lia|]. split; [lia|]. split; [|split].
      * intros r0. cbn [distance_loop which off]. rewrite Nat.eqb_refl. reflexivity.
      * intros p. cbn [loc which off]. split; [right; left; lia|]. apply loc_before; cbn; lia.
      * rewrite Nat.sub_diag. cbn [nth_error]. rewrite nth_error_app1 by (unfold len in E; lia). reflexivity.
Qed.

Lemma end_spec l : forall i, l <> [] -> let it := mkJ (i + length l - 1) (len (last l [])) in
  (forall r, distance_loop i l it r = Some (r + len (concat l))) /\ (forall p, loc i p l it (p + len (concat l))) /\
  nth_error l (length l - 1) = Some (last l []).
Proof.
  induction l as [|c r IH]; intros i Hne; [congruence|]. destruct r as [|c' r'].
  - cbn [length last concat distance_loop loc which off]. replace (i + 1 - 1)%nat with i by lia. cbn. rewrite Nat.eqb_refl, app_nil_r. cbn.
    split; [reflexivity|]. split; [|reflexivity]. intros p. split; [|exact I]. right. left. pose proof (len_nonneg c). lia.
  - specialize (IH (S i) ltac:(discriminate)). cbn zeta in IH. remember (c' :: r') as r eqn:Er.
    assert (Hl : last (c :: r) [] = last r []) by (subst r; reflexivity). rewrite Hl. cbn [length concat].
    assert (Hr : (0 < length r)%nat) by (subst r; cbn; lia).
    replace (i + S (length r) - 1)%nat with (S i + length r - 1)%nat by lia. destruct IH as (HD & HL & HN).
    split; [|split].
    + intros r0. cbn [distance_loop which]. replace (Nat.eqb (S i + length r - 1) i) with false by (symmetry; apply Nat.eqb_neq; lia). cbn [negb].
      unfold csize. fold (len c). rewrite HD, len_app. f_equal. lia.
    + intros p. cbn [loc which off]. rewrite len_app. pose proof (len_nonneg (concat r)). split; [right; right; lia|].
      rewrite Z.add_assoc. apply HL.
    + replace (S (length r) - 1)%nat with (S (length r - 1)) by lia. cbn [nth_error]. exact HN.
Qed.

Variable cs : list (list A).
Hypothesis Hne : cs <> [].
Hypothesis Hsz : total cs < 2 ^ 63.

Lemma total_len : total cs = len (concat cs). Proof. reflexivity. Qed.
Lemma total_nonneg : 0 <= total cs. Proof. apply len_nonneg. Qed.

Lemma set_in n : 0 <= n <= total cs -> exists it, set_from_begin cs n = Some it /\ from_begin cs it = Some n /\ loc 0 0 cs it n /\
  deref cs it = nth_error (joined cs) (Z.to_nat n) /\ (which it < length cs)%nat /\ (n = total cs -> it = j_end cs).
Proof.
  intros Hn. assert (P63 : 2 ^ 63 < 2 ^ 64) by reflexivity.
  unfold set_from_begin. rewrite Z.mod_small by lia. pose proof (advance_loop_spec cs 0 (d := n) ltac:(lia)) as H. destruct (advance_loop 0 cs n) as [it|rest].
  - destruct H as (Hw & Ho & Hl & HD & HL & HN). exists it. split; [reflexivity|]. split; [apply HD|]. split; [apply (HL 0)|]. split; [|split; [lia|]].
    + unfold deref. rewrite Nat.sub_0_r in HN. replace (off it <? 0) with false by (symmetry; apply Z.ltb_ge; lia). exact HN.
    + intros E. rewrite total_len in E. lia.
  - destruct H as (E & Hr). rewrite <- total_len in E. replace rest with 0 by lia. cbn [Z.eqb]. assert (n = total cs) by lia. subst n.
    pose proof (end_spec 0 Hne) as (HD & HL & HN). exists (j_end cs). unfold j_end, csize. fold (len (last cs [])). cbn [Nat.add] in *.
    split; [reflexivity|]. split; [apply HD|]. split; [apply (HL 0)|]. split; [|split; [|reflexivity]].
    + unfold deref. cbn [which off]. rewrite HN. pose proof (len_nonneg (last cs [])). replace (len (last cs []) <? 0) with false by (symmetry; apply Z.ltb_ge; lia).
      transitivity (@None A); [apply nth_error_None; unfold len; lia|symmetry; apply nth_error_None; unfold total; lia].
    + cbn. destruct cs; [congruence|cbn; lia].
Qed.
Lemma set_out n : - 2 ^ 63 <= n < 2 ^ 64 -> ~ 0 <= n <= total cs -> set_from_begin cs n = None.
Proof.
  intros Hr Hn. assert (P63 : 2 ^ 64 = 2 * 2 ^ 63) by reflexivity. unfold set_from_begin.
  assert (Hm : total cs < n mod 2 ^ 64).
  { destruct (Z.le_gt_cases 0 n). - rewrite Z.mod_small by lia. lia.
    - replace n with ((n + 2 ^ 64) + (-1) * 2 ^ 64) by lia. rewrite Z.mod_add by lia. rewrite Z.mod_small by lia. lia. }
  pose proof (advance_loop_spec cs 0 (d := n mod 2 ^ 64) ltac:(pose proof total_nonneg; lia)) as H.
  destruct (advance_loop 0 cs (n mod 2 ^ 64)) as [it|rest].
  - destruct H as (_ & _ & Hl & _). rewrite total_len in Hm. lia.
  - destruct H as (E & _). rewrite total_len in Hm. replace (rest =? 0) with false; [reflexivity|]. symmetry. apply Z.eqb_neq. lia.
Qed.

(** everything the user can get *)
Lemma at_canon it n : at_ cs it n -> 0 <= n <= total cs /\ set_from_begin cs n = Some it.
Proof.
  pose proof total_nonneg as Ht. induction 1 as [it H| |it n d it' H (Hn & IH) Hd Ha].
  - split; [lia|exact H].
  - split; [lia|]. destruct (set_in (n := total cs) ltac:(lia)) as (it & E & _ & _ & _ & _ & K). rewrite E, K; reflexivity.
  - destruct (set_in Hn) as (x & E & F & _). rewrite E in IH. injection IH as ->. unfold advance in Ha. rewrite F in Ha.
    assert (P63 : 2 ^ 64 = 2 * 2 ^ 63) by reflexivity. assert (P : 0 < 2 ^ 63) by reflexivity.
    destruct (Z.le_gt_cases 0 (n + d)); [destruct (Z.le_gt_cases (n + d) (total cs))|].
    + split; [lia|exact Ha].
    + rewrite set_out in Ha by lia. discriminate.
    + rewrite set_out in Ha by lia. discriminate.
Qed.
Lemma at_facts it n : at_ cs it n -> 0 <= n <= total cs /\ set_from_begin cs n = Some it /\ from_begin cs it = Some n /\ loc 0 0 cs it n /\
  deref cs it = nth_error (joined cs) (Z.to_nat n).
Proof.
  intros H. destruct (at_canon H) as (Hn & E). destruct (set_in Hn) as (x & E' & F & L & D & _). rewrite E in E'. injection E' as <-. auto.
Qed.

Lemma advance_at it n d : at_ cs it n -> - 2 ^ 63 <= d < 2 ^ 63 ->
  if (0 <=? n + d) && (n + d <=? total cs) then exists it', advance cs it d = Some it' /\ at_ cs it' (n + d) else advance cs it d = None.
Proof.
  intros H Hd. destruct (at_facts H) as (Hn & _ & F & _). assert (P63 : 2 ^ 64 = 2 * 2 ^ 63) by reflexivity. assert (P : 0 < 2 ^ 63) by reflexivity.
  destruct (Z.leb_spec 0 (n + d)); destruct (Z.leb_spec (n + d) (total cs)); cbn [andb].
  - destruct (set_in (n := n + d) ltac:(lia)) as (x & E & _). exists x. assert (Ha : advance cs it d = Some x) by (unfold advance; rewrite F; exact E).
    split; [exact Ha|exact (at_moved _ _ _ _ _ _ H Hd Ha)].
  - unfold advance. rewrite F. apply set_out; lia.
  - unfold advance. rewrite F. apply set_out; lia.
  - unfold advance. rewrite F. apply set_out; lia.
Qed.
Lemma diff_at a n b m : at_ cs a n -> at_ cs b m -> distance_to cs a b = Some (m - n).
Proof. intros Ha Hb. unfold distance_to. destruct (at_facts Ha) as (_ & _ & -> & _). destruct (at_facts Hb) as (_ & _ & -> & _). reflexivity. Qed.

Lemma firstn_skipn_step (x : list A) k n v : nth_error x n = Some v -> firstn (S k) (skipn n x) = v :: firstn k (skipn (S n) x).
Proof. revert n; induction x as [|a x IH]; intros [|n] H; try discriminate; cbn in *; [injection H as ->; reflexivity|]. apply IH in H. exact H. Qed.
Lemma walk_at k : forall a n b m, at_ cs a n -> at_ cs b m -> n <= m -> (Z.to_nat (m - n) < k)%nat -> walk cs k a b = Some (between cs n m).
Proof.
  induction k as [|k IH]; intros a n b m Ha Hb Hnm Hk; [lia|]. cbn [walk]. unfold op_ne, op_eq, equal. rewrite (diff_at Ha Hb). cbn [option_map].
  destruct (m - n =? 0) eqn:E; cbn [negb].
  - apply Z.eqb_eq in E. unfold between. rewrite E. reflexivity.
  - apply Z.eqb_neq in E. destruct (at_facts Ha) as (Hn & _ & _ & _ & D). destruct (at_facts Hb) as (Hm & _). rewrite D.
    destruct (nth_error (joined cs) (Z.to_nat n)) as [x|] eqn:Ex; [|apply nth_error_None in Ex; unfold total in Hm; lia].
    unfold increment. pose proof (advance_at (d := 1) Ha ltac:(lia)) as K. rewrite (proj2 (Z.leb_le 0 (n + 1))), (proj2 (Z.leb_le (n + 1) (total cs))) in K by lia.
    cbn [andb] in K. destruct K as (a' & -> & Ha'). rewrite (IH a' (n + 1) b m Ha' Hb) by lia. cbn [option_map]. unfold between.
    replace (Z.to_nat (m - n)) with (S (Z.to_nat (m - (n + 1)))) by lia. replace (Z.to_nat (n + 1)) with (S (Z.to_nat n)) by lia.
    rewrite (firstn_skipn_step _ _ _ Ex). reflexivity.
Qed.

(** intervals *)
Definition clip (p : Z) (x : list A) (n m : Z) : list A := firstn (Z.to_nat (m - Z.max n p)) (skipn (Z.to_nat (n - p)) x).
Lemma clip_app p x y n m : clip p (x ++ y) n m = clip p x n m ++ clip (p + len x) y n m.
Proof.
  unfold clip. rewrite skipn_app, firstn_app, skipn_length. f_equal. unfold len.
  replace (Z.to_nat (n - p) - length x)%nat with (Z.to_nat (n - (p + Z.of_nat (length x)))) by lia.
  destruct (Z.le_gt_cases n (p + Z.of_nat (length x))).
  - f_equal. lia.
  - f_equal. lia.
Qed.
Lemma clip_nil p x n m : m <= Z.max n p \/ p + len x <= Z.max n p -> clip p x n m = [].
Proof.
  intros [H|H]; unfold clip.
  - replace (Z.to_nat (m - Z.max n p)) with 0%nat by lia. reflexivity.
  - rewrite skipn_all2 by (unfold len in H; lia). apply firstn_nil.
Qed.
Lemma intervals_at l : forall i p a n b m, loc i p l a n -> loc i p l b m -> n <= m -> skipn i cs = l ->
  exists pieces, map (seen cs) (intervals_loop i l a b) = map Some pieces /\ concat pieces = clip p (concat l) n m /\ ~ In [] pieces.
Proof.
  induction l as [|c r IH]; intros i p a n b m La Lb Hnm Hs; cbn [intervals_loop concat].
  - exists []. split; [reflexivity|]. split; [|intros []]. unfold clip. rewrite skipn_nil, firstn_nil. reflexivity.
  - cbn [loc] in La, Lb. destruct La as (Ca & La), Lb as (Cb & Lb).
    assert (Hs' : skipn (S i) cs = r) by (clear -Hs; revert cs Hs; induction i as [|i IHi]; intros [|x t] Hs; try discriminate; cbn in *; [injection Hs; auto|apply IHi; exact Hs]).
    assert (Hnth : nth_error cs i = Some c) by (clear -Hs; revert cs Hs; induction i as [|i IHi]; intros [|x t] Hs; try discriminate; cbn in *; [injection Hs; intros; congruence|apply IHi; exact Hs]).
    destruct (IH (S i) (p + len c) a n b m La Lb Hnm Hs') as (ps & E & Ec & En). rewrite clip_app. rewrite <- Ec, map_app, E. clear IH La Lb.
    pose proof (len_nonneg c) as Hc. unfold csize. fold (len c).
    destruct ((which a <=? i)%nat && (i <=? which b)%nat) eqn:Eb.
    + apply andb_true_iff in Eb. destruct Eb as (E1 & E2). apply Nat.leb_le in E1, E2.
      set (first := if Nat.eqb (which a) i then off a else 0). set (last := if Nat.eqb (which b) i then off b else len c).
      assert (Hf : first = Z.max n p - p). { unfold first. destruct (Nat.eqb_spec (which a) i) as [e|e]; [rewrite e in Ca|]; lia. }
      assert (Hl : last = Z.min m (p + len c) - p). { unfold last. destruct (Nat.eqb_spec (which b) i) as [e|e]; [rewrite e in Cb|]; lia. }
      cbn zeta. destruct (first =? last) eqn:Efl; cbn [negb].
      * apply Z.eqb_eq in Efl. exists ps. split; [reflexivity|]. split; [|exact En]. rewrite clip_nil by lia. reflexivity.
      * apply Z.eqb_neq in Efl. exists (firstn (Z.to_nat (last - first)) (skipn (Z.to_nat first) c) :: ps).
        assert (Hin : 0 <= first /\ first < last /\ last <= len c) by lia.
        split; [|split].
        -- cbn [map app seen]. rewrite Hnth. fold (len c). rewrite (proj2 (Z.leb_le 0 first)), (proj2 (Z.leb_le first last)), (proj2 (Z.leb_le last (len c))) by lia. reflexivity.
        -- cbn [concat]. f_equal. unfold clip. replace (Z.to_nat first) with (Z.to_nat (n - p)) by lia.
           destruct (Z.le_gt_cases m (p + len c)).
           ++ f_equal. lia.
           ++ rewrite !firstn_all2; [reflexivity| |]; rewrite skipn_length; unfold len in *; lia.
        -- intros [K|K]; [|exact (En K)]. apply (f_equal (@length A)) in K. rewrite firstn_length, skipn_length in K. cbn in K. unfold len in *. lia.
    + exists ps. split; [reflexivity|]. split; [|exact En]. apply andb_false_iff in Eb. rewrite clip_nil; [reflexivity|].
      destruct Eb as [E1|E1]; apply Nat.leb_gt in E1; lia.
Qed.
Lemma intervals_back l : forall i p a n b m, loc i p l a n -> loc i p l b m -> m < n ->
  intervals_loop i l a b = [] \/ exists k first last, intervals_loop i l a b = [(k, first, last)] /\ last < first.
Proof.
  induction l as [|c r IH]; intros i p a n b m La Lb Hnm; cbn [intervals_loop]; [left; reflexivity|].
  cbn [loc] in La, Lb. destruct La as (Ca & La), Lb as (Cb & Lb). pose proof (len_nonneg c) as Hc.
  assert (Hrest : (which a <= i)%nat -> (which b <= i)%nat -> intervals_loop (S i) r a b = []).
  { clear. revert i. induction r as [|x t IHt]; intros i H1 H2; cbn [intervals_loop]; [reflexivity|].
    replace (S i <=? which b)%nat with false by (symmetry; apply Nat.leb_gt; lia). rewrite andb_false_r. apply IHt; lia. }
  destruct ((which a <=? i)%nat && (i <=? which b)%nat) eqn:Eb.
  - apply andb_true_iff in Eb. destruct Eb as (E1 & E2). apply Nat.leb_le in E1, E2. cbn zeta.
    assert (Hab : which a = i /\ which b = i) by lia. destruct Hab as (Ha & Hb). rewrite Hrest by lia. rewrite Ha, Hb, Nat.eqb_refl, app_nil_r.
    destruct (off a =? off b) eqn:E; cbn [negb]; [left; reflexivity|]. right. exists i, (off a), (off b). split; [reflexivity|]. lia.
  - apply (IH (S i) _ a n b m La Lb Hnm).
Qed.
Lemma size_total : j_size cs = total cs.
Proof.
  assert (P : 2 ^ 63 < 2 ^ 64) by reflexivity. unfold j_size. rewrite total_len in *.
  assert (H : forall l r, 0 <= r -> r + len (concat l) < 2 ^ 64 -> fold_left (fun r c => (r + csize c) mod 2 ^ 64) l r = r + len (concat l)).
  { induction l as [|c l IH]; intros r Hr H; cbn [fold_left concat] in *; [unfold len; cbn; lia|]. rewrite len_app in *. pose proof (len_nonneg c). pose proof (len_nonneg (concat l)).
    unfold csize at 2. fold (len c). rewrite Z.mod_small by lia. rewrite IH by lia. lia. }
  rewrite H; lia.
Qed.
End P.
