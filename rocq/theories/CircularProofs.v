From Verif Require Import Base CircularModel CircularSpec.
Set Implicit Arguments.
Local Open Scope Z_scope.

Section P.
Variable A : Type.
Variable disc : bool.
Implicit Types (s : cb A).

Definition Rep s (q : list A) : Prop :=
  (contig s = true /\ exists f1 f2, st s = f1 ++ q ++ f2 /\ ro s = zlen f1 /\
      wo s = zlen f1 + zlen q /\ 0 < zlen f2)
  \/
  (contig s = false /\ exists dt f dh, st s = dt ++ f ++ dh /\ wo s = zlen dt /\
      ro s = zlen dt + zlen f /\ q = dh ++ dt /\ 0 < zlen dh).

Definition wavail s := if contig s then storage_size s - wo s else ro s - wo s.
Definition ravail s := if contig s then wo s - ro s else storage_size s - ro s.

Ltac lens := unfold storage_size in *; repeat rewrite ?zlen_app, ?zlen_cons, ?zlen_nil in *;
  repeat match goal with |- context [zlen ?l] => lazymatch goal with H : 0 <= zlen l |- _ => fail | _ => pose proof (zlen_nonneg l) end
         | H0 : context [zlen ?l] |- _ => lazymatch goal with H : 0 <= zlen l |- _ => fail | _ => pose proof (zlen_nonneg l) end end.

Lemma rep_sizes s (q : list A) : Rep s q ->
  0 <= wo s < storage_size s /\ 0 <= ro s < storage_size s /\ get_size s = zlen q /\
  free_size s = storage_size s - zlen q /\
  zlen q <= storage_size s /\
  0 <= wavail s <= storage_size s - zlen q /\ wo s + wavail s <= storage_size s /\
  (zlen q < storage_size s -> 0 < wavail s) /\
  0 <= ravail s <= zlen q /\ ro s + ravail s <= storage_size s /\
  (0 < zlen q -> 0 < ravail s).
Proof.
  unfold get_size, free_size, wavail, ravail.
  intros [[Hc (f1 & f2 & Hs & Hr & Hw & Hf)] | [Hc (dt & f & dh & Hs & Hw & Hr & Hq & Hd)]];
    rewrite Hc; unfold storage_size; rewrite Hs; subst; lens; lia.
Qed.

Lemma do_push_rep s (q bs : list A) :
  Rep s q -> zlen bs <= wavail s ->
  exists s', do_push s bs = Some s' /\ Rep s' (q ++ bs) /\ ro s' = ro s /\ locked s' = locked s /\
    storage_size s' = storage_size s.
Proof.
  intros HR Hle. pose proof (rep_sizes HR) as HS. pose proof (zlen_nonneg bs) as Hbs.
  unfold do_push, write_to_storage.
  replace (0 <=? wo s) with true by (symmetry; apply Z.leb_le; lia).
  replace (wo s + zlen bs <=? storage_size s) with true by (symmetry; apply Z.leb_le; lia).
  cbn [andb].
  assert (Hss : zlen (splice (wo s) bs (st s)) = storage_size s)
    by (apply zlen_splice; unfold storage_size in *; lia).
  eexists. split; [reflexivity|].
  destruct HR as [[Hc (f1 & f2 & Hs & Hr & Hwo & Hf)] | [Hc (dt & f & dh & Hs & Hwo & Hr & Hq & Hd)]].
  - assert (zlen bs <= zlen f2) as Hb2.
    { unfold wavail in Hle; rewrite Hc in Hle; unfold storage_size in Hle; rewrite Hs in Hle; lens; lia. }
    destruct (@split_at A (zlen bs) f2) as (x & y & -> & Hx); [lens; lia|].
    assert (Hsp : splice (wo s) bs (st s) = f1 ++ (q ++ bs) ++ y).
    { rewrite Hs. replace (f1 ++ q ++ x ++ y) with ((f1 ++ q) ++ x ++ y) by (rewrite <- !app_assoc; reflexivity).
      rewrite splice_app_mid; [rewrite <- !app_assoc; reflexivity | lens; lia | unfold zlen in *; lia]. }
    destruct (Z.eqb_spec (wo s + zlen bs) (storage_size s)) as [He|He]; (split; [|split; [|split]]); cbn [st ro wo contig locked]; auto.
    + right. cbn [contig wo st ro]. rewrite Hc. split; [reflexivity|].
      unfold storage_size in He; rewrite Hs in He; lens.
      assert (y = []) as -> by (apply zlen_zero; lia).
      exists [], f1, (q ++ bs). cbn [app]. rewrite Hsp, !app_nil_r. lens. repeat split; auto; lia.
    + left. cbn [contig wo st ro]. split; [exact Hc|]. exists f1, y. rewrite Hsp.
      unfold storage_size in He; rewrite Hs in He. lens.
      repeat split; auto; lia.
  - assert (zlen bs <= zlen f) as Hb2 by (unfold wavail in Hle; rewrite Hc in Hle; lia).
    destruct (@split_at A (zlen bs) f) as (x & y & -> & Hx); [lens; lia|].
    assert (Hsp : splice (wo s) bs (st s) = (dt ++ bs) ++ y ++ dh).
    { rewrite Hs. replace (dt ++ (x ++ y) ++ dh) with (dt ++ x ++ (y ++ dh)) by (rewrite <- !app_assoc; reflexivity).
      rewrite splice_app_mid; [rewrite <- !app_assoc; reflexivity | lens; lia | unfold zlen in *; lia]. }
    destruct (Z.eqb_spec (wo s + zlen bs) (storage_size s)) as [He|He].
    { exfalso. unfold storage_size in He; rewrite Hs in He; lens. lia. }
    (split; [|split; [|split]]); cbn [st ro wo contig locked]; auto.
    right. cbn [contig wo st ro]. split; [exact Hc|]. exists (dt ++ bs), y, dh.
    rewrite Hsp, Hq, <- !app_assoc. lens. repeat split; auto; lia.
Qed.

Lemma do_pop_rep s (a b : list A) :
  Rep s (a ++ b) -> zlen a <= ravail s ->
  Rep (do_pop s (zlen a)) b /\ st (do_pop s (zlen a)) = st s /\ locked (do_pop s (zlen a)) = locked s /\
  ro (do_pop s (zlen a)) = (if ro s + zlen a =? storage_size s then 0 else ro s + zlen a).
Proof.
  intros HR Hle. pose proof (rep_sizes HR) as HS.
  unfold do_pop.
  destruct HR as [[Hc (f1 & f2 & Hs & Hr & Hwo & Hf)] | [Hc (dt & f & dh & Hs & Hwo & Hr & Hq & Hd)]].
  - destruct (Z.eqb_spec (ro s + zlen a) (storage_size s)) as [He|He].
    { exfalso. unfold storage_size in He; rewrite Hs in He; lens. lia. }
    (split; [|split; [|split]]); cbn [st ro wo contig locked]; auto.
    left. cbn [contig wo st ro]. split; [exact Hc|]. exists (f1 ++ a), f2. rewrite Hs, <- !app_assoc. lens.
    repeat split; auto; lia.
  - unfold ravail in Hle; rewrite Hc in Hle; unfold storage_size in Hle; rewrite Hs in Hle.
    assert (exists c, dh = a ++ c /\ b = c ++ dt) as (c & -> & ->).
    { destruct (@split_at A (zlen a) dh) as (x & y & -> & Hx); [lens; lia|].
      rewrite <- app_assoc in Hq. apply app_inj_len in Hq; [|lia]. destruct Hq as [-> ->].
      exists y. split; reflexivity. }
    destruct (Z.eqb_spec (ro s + zlen a) (storage_size s)) as [He|He]; (split; [|split; [|split]]); cbn [st ro wo contig locked]; auto.
    + unfold storage_size in He; rewrite Hs in He; lens.
      assert (c = []) as -> by (apply zlen_zero; lia). lens.
      left. cbn [contig wo st ro app]. rewrite Hc. split; [reflexivity|].
      exists [], (f ++ a). rewrite Hs, !app_nil_r. cbn [app]. rewrite <- ?app_assoc. lens. repeat split; auto; lia.
    + unfold storage_size in He; rewrite Hs in He; lens.
      right. cbn [contig wo st ro]. split; [exact Hc|]. exists dt, (f ++ a), c. rewrite Hs, <- !app_assoc.
      lens. repeat split; auto; lia.
Qed.

Lemma contig_ravail s (q : list A) : Rep s q -> contig s = true -> ravail s = zlen q.
Proof. intros HR Hc. pose proof (rep_sizes HR) as HS. unfold ravail, get_size in *. rewrite Hc in *. lia. Qed.

Lemma rep_relock s (q : list A) l : Rep s q -> Rep (mkCb (st s) (wo s) (ro s) l (contig s)) q.
Proof. intros H; exact H. Qed.

Lemma mod_wrap a n : 0 < n -> 0 <= a < 2 * n -> a mod n = (if a <? n then a else a - n).
Proof.
  intros Hn Ha. destruct (Z.ltb_spec a n).
  - apply Z.mod_small; lia.
  - symmetry; apply Z.mod_unique with 1; lia.
Qed.

Lemma release_rep s (a b : list A) :
  Rep s (a ++ b) ->
  Rep (release_data s (zlen a)) b /\ st (release_data s (zlen a)) = st s /\
  locked (release_data s (zlen a)) = 0 /\
  ro (release_data s (zlen a)) = (ro s + zlen a) mod storage_size s.
Proof.
  intros HR. pose proof (rep_sizes HR) as HS. unfold release_data. cbn [st locked].
  pose proof (zlen_nonneg a) as Ha. pose proof (zlen_nonneg b) as Hb. rewrite zlen_app in HS.
  destruct (contig s || (zlen a <=? storage_size s - ro s)) eqn:E.
  - assert (Hle : zlen a <= ravail s).
    { destruct (contig s) eqn:Hc.
      - rewrite (contig_ravail HR Hc), zlen_app. lia.
      - cbn [orb] in E. apply Z.leb_le in E. unfold ravail. rewrite Hc. lia. }
    destruct (do_pop_rep a b HR Hle) as (H1 & H2 & H3 & H4).
    split; [apply rep_relock; exact H1|]. split; [exact H2|]. split; [reflexivity|]. cbn [ro].
    rewrite H4, mod_wrap by lia.
    destruct (Z.eqb_spec (ro s + zlen a) (storage_size s)); destruct (Z.ltb_spec (ro s + zlen a) (storage_size s)); lia.
  - apply orb_false_iff in E. destruct E as [Hc E]. apply Z.leb_gt in E.
    set (tail := storage_size s - ro s) in *.
    destruct (@split_at A tail a) as (x & y & -> & Hx); [lia|].
    rewrite <- app_assoc in HR. rewrite zlen_app in *.
    assert (Hrx : ravail s = tail) by (unfold ravail; rewrite Hc; reflexivity).
    destruct (do_pop_rep x (y ++ b) HR) as (H1 & H2 & H3 & H4); [lia|].
    rewrite Hx in H1, H2, H3, H4.
    replace (ro s + tail =? storage_size s) with true in H4 by (symmetry; apply Z.eqb_eq; lia).
    assert (Hc1 : contig (do_pop s tail) = true).
    { unfold do_pop. replace (ro s + tail =? storage_size s) with true by (symmetry; apply Z.eqb_eq; lia).
      cbn [contig]. rewrite Hc. reflexivity. }
    replace (zlen x + zlen y - tail) with (zlen y) by lia.
    pose proof (rep_sizes H1) as HS1. rewrite zlen_app in HS1.
    destruct (do_pop_rep y b H1) as (G1 & G2 & G3 & G4).
    { rewrite (contig_ravail H1 Hc1), zlen_app. lens; lia. }
    assert (Hst : storage_size (do_pop s tail) = storage_size s) by (unfold storage_size; rewrite H2; reflexivity).
    split; [apply rep_relock; exact G1|]. split; [rewrite G2; exact H2|]. split; [reflexivity|]. cbn [ro].
    rewrite G4, H4, Hst. rewrite Hx, mod_wrap by lia.
    destruct (Z.eqb_spec (0 + zlen y) (storage_size s));
      destruct (Z.ltb_spec (ro s + (tail + zlen y)) (storage_size s)); lia.
Qed.

Lemma slice_0 (l : list A) n : slice 0 n l = firstn (Z.to_nat n) l.
Proof. reflexivity. Qed.

Lemma slice_end (l : list A) n : 0 <= n <= zlen l -> slice n (zlen l - n) l = skipn (Z.to_nat n) l.
Proof.
  intros H. unfold slice. rewrite firstn_all2; [reflexivity|]. rewrite skipn_length. unfold zlen in *. lia.
Qed.

Lemma push_fit_rep s (q bs : list A) :
  Rep s q -> zlen bs <= storage_size s - zlen q ->
  exists s',
    (let tail := storage_size s - wo s in
     if contig s && (tail <? zlen bs)
     then match do_push s (slice 0 tail bs) with
          | Some s2 => do_push s2 (slice tail (zlen bs - tail) bs)
          | None => None
          end
     else do_push s bs) = Some s' /\
    Rep s' (q ++ bs) /\ ro s' = ro s /\ locked s' = locked s /\ storage_size s' = storage_size s.
Proof.
  intros HR Hle. pose proof (rep_sizes HR) as HS. cbv zeta.
  destruct (contig s && (storage_size s - wo s <? zlen bs)) eqn:E.
  - apply andb_true_iff in E. destruct E as [Hc E]. apply Z.ltb_lt in E.
    set (tail := storage_size s - wo s) in *.
    assert (Hw : wavail s = tail) by (unfold wavail; rewrite Hc; reflexivity).
    assert (Hx : zlen (slice 0 tail bs) = tail) by (apply slice_zlen; lia).
    destruct (@do_push_rep s q (slice 0 tail bs) HR) as (s2 & Hp & HR2 & Hro & Hl & Hst); [lia|].
    rewrite Hp.
    assert (Hs2 : contig s2 = false /\ wo s2 = 0).
    { unfold do_push in Hp. destruct (write_to_storage s (wo s) (slice 0 tail bs)); [|discriminate].
      rewrite Hx in Hp. replace (wo s + tail =? storage_size s) with true in Hp by (symmetry; apply Z.eqb_eq; lia).
      injection Hp as <-. cbn. rewrite Hc. auto. }
    destruct Hs2 as [Hc2 Hw2].
    assert (Hy : zlen (slice tail (zlen bs - tail) bs) = zlen bs - tail) by (apply slice_zlen; lia).
    destruct (@do_push_rep s2 _ (slice tail (zlen bs - tail) bs) HR2) as (s3 & Hp3 & HR3 & Hro3 & Hl3 & Hst3).
    { rewrite Hy. unfold wavail. rewrite Hc2, Hw2, Hro. unfold get_size in HS. rewrite Hc in HS. lia. }
    exists s3. rewrite Hp3. split; [reflexivity|].
    rewrite <- app_assoc in HR3.
    replace (slice 0 tail bs ++ slice tail (zlen bs - tail) bs) with bs in HR3
      by (rewrite slice_0, slice_end by lia; symmetry; apply firstn_skipn).
    repeat split; auto; congruence.
  - apply do_push_rep; [exact HR|].
    destruct (contig s) eqn:Hc; cbn [andb] in E.
    + apply Z.ltb_ge in E. unfold wavail. rewrite Hc. lia.
    + unfold wavail, get_size in *. rewrite Hc in *. lia.
Qed.

Lemma push_rep s (q bs : list A) :
  Rep s q ->
  (zlen q + zlen bs <= storage_size s /\
   exists s', push disc s bs = PushOk s' /\ Rep s' (q ++ bs) /\ ro s' = ro s /\ locked s' = locked s /\
      storage_size s' = storage_size s)
  \/ (storage_size s < zlen q + zlen bs /\
      (disc = false /\ push disc s bs = PushFull _ \/
       disc = true /\ locked s <> 0 /\ push disc s bs = PushNotFreed _ \/
       disc = true /\ locked s = 0 /\
       exists s', push disc s bs = PushOk s' /\ Rep s' (last_bytes (storage_size s) (q ++ bs)) /\
         ro s' = (ro s + zlen q + Z.min (zlen bs) (storage_size s)) mod storage_size s /\
         locked s' = 0 /\ storage_size s' = storage_size s)).
Proof.
  intros HR. pose proof (rep_sizes HR) as HS. unfold push, check_data_size.
  assert (HF : free_size s = storage_size s - zlen q) by lia. rewrite HF.
  destruct (Z.ltb_spec (storage_size s - zlen q) (zlen bs)) as [Hlt|Hge].
  2:{ left. split; [lia|]. destruct (push_fit_rep bs HR) as (s' & Hp & H1 & H2 & H3 & H4); [lia|].
      cbv zeta in Hp. rewrite Hp. exists s'. auto. }
  right. split; [lia|].
  destruct disc eqn:Ed; [|left; auto].
  destruct (Z.eqb_spec (locked s) 0) as [Hl|Hl]; [|right; left; auto].
  right; right. split; [reflexivity|]. split; [exact Hl|].
  set (r := Z.min (zlen bs) (storage_size s)).
  remember (r - (storage_size s - zlen q)) as k eqn:Hk.
  pose proof (zlen_nonneg bs) as Hbs. pose proof (zlen_nonneg q) as Hq0.
  destruct (@split_at A k q) as (a & b & -> & Ha); [unfold r in *; lia|].
  destruct (release_rep a b HR) as (H1 & H2 & H3 & H4). rewrite Ha in H1, H2, H3, H4.
  assert (Hst : storage_size (release_data s k) = storage_size s) by (unfold storage_size; rewrite H2; reflexivity).
  assert (Hd : zlen (slice (zlen bs - r) r bs) = r) by (apply slice_zlen; unfold r; lia).
  rewrite zlen_app in *.
  destruct (@push_fit_rep _ b (slice (zlen bs - r) r bs) H1) as (s' & Hp & G1 & G2 & G3 & G4).
  { rewrite Hst, Hd. lia. }
  cbv zeta in Hp. rewrite Hp. exists s'. split; [reflexivity|].
  assert (Hsl : slice (zlen bs - r) r bs = skipn (Z.to_nat (zlen bs - r)) bs).
  { replace r with (zlen bs - (zlen bs - r)) at 2 by lia. apply slice_end. unfold r; lia. }
  split.
  { replace (last_bytes (storage_size s) ((a ++ b) ++ bs)) with (b ++ slice (zlen bs - r) r bs); [exact G1|].
    rewrite Hsl. unfold last_bytes. rewrite !zlen_app.
    destruct (Z.le_gt_cases (storage_size s) (zlen bs)) as [Hbig|Hsmall].
    - (* everything old goes *)
      assert (b = []) as -> by (apply zlen_zero; pose proof (zlen_nonneg b); unfold r in *; lia).
      rewrite app_nil_r. cbn [app]. rewrite skipn_app.
      rewrite (@skipn_all2 A _ a) by (unfold zlen, r in *; cbn [length] in *; lia). cbn [app]. f_equal.
      unfold zlen, r in *; cbn [length] in *; lia.
    - replace (Z.to_nat (zlen bs - r)) with 0%nat by (unfold r; lia). cbn [skipn].
      rewrite <- app_assoc, skipn_app.
      assert (zlen a + zlen b + zlen bs - storage_size s = zlen a) as -> by (unfold r in *; lia).
      rewrite to_nat_zlen.
      rewrite skipn_all, Nat.sub_diag. reflexivity. }
  rewrite G2, H4, G4, Hst. split; [|auto].
  rewrite Hk. rewrite <- (Z_mod_plus_full (ro s + (r - (storage_size s - (zlen a + zlen b)))) 1). f_equal. lia.
Qed.

(** ** The client invariant *)
Definition zeros (l : list Z) : Prop := Forall (fun n => n = 0) l.

Definition Inv (x : sys A) (q : qst A) : Prop :=
  Rep (buf x) (queue q) /\ ro (buf x) = rpos q /\ map snd (res x) = held q /\
  Forall (fun r => 0 <= fst r <= storage_size (buf x) /\ (snd r = 0 \/ fst r = ro (buf x) /\ snd r = locked (buf x))) (res x) /\
  (locked (buf x) = 0 /\ zeros (held q) \/
   0 < locked (buf x) <= ravail (buf x) /\ exists l1 l2, held q = l1 ++ locked (buf x) :: l2 /\ zeros l1 /\ zeros l2).

Lemma inv_unlocked x q : Inv x q -> (locked (buf x) = 0 <-> unlocked q).
Proof.
  intros (_ & _ & _ & _ & [[H1 H2]|[H1 (l1 & l2 & H2 & _)]]); unfold unlocked.
  - tauto.
  - split; [lia|]. intros H. rewrite H2 in H. apply Forall_app in H. destruct H as [_ H].
    apply Forall_inv in H. lia.
Qed.

Lemma rep_prefix s (q : list A) n :
  Rep s q -> 0 <= n <= ravail s ->
  exists b, q = slice (ro s) n (st s) ++ b /\ zlen (slice (ro s) n (st s)) = n.
Proof.
  intros HR Hn. pose proof (rep_sizes HR) as HS.
  assert (zlen (slice (ro s) n (st s)) = n) as HL by (apply slice_zlen; unfold storage_size in *; lia).
  destruct HR as [[Hc (f1 & f2 & Hs & Hr & Hwo & Hf)] | [Hc (dt & f & dh & Hs & Hwo & Hr & Hq & Hd)]].
  - destruct (@split_at A n q) as (x & y & -> & Hx); [lia|].
    exists y. split; [|exact HL]. rewrite Hs.
    replace (f1 ++ (x ++ y) ++ f2) with (f1 ++ x ++ y ++ f2) by (rewrite <- !app_assoc; reflexivity).
    rewrite slice_app_mid by lia. reflexivity.
  - unfold ravail in Hn. rewrite Hc in Hn. unfold storage_size in Hn. rewrite Hs in Hn. lens.
    destruct (@split_at A n dh) as (x & y & -> & Hx); [lia|].
    exists (y ++ dt). split; [|exact HL]. rewrite Hs, Hq.
    replace (dt ++ f ++ x ++ y) with ((dt ++ f) ++ x ++ y) by (rewrite <- !app_assoc; reflexivity).
    rewrite slice_app_mid by (lens; lia). rewrite <- app_assoc. reflexivity.
Qed.

Lemma read_storage_ok s off n :
  0 <= off -> 0 <= n -> off + n <= storage_size s -> read_storage s off n = Some (slice off n (st s)).
Proof.
  intros. unfold read_storage.
  replace (0 <=? off) with true by (symmetry; apply Z.leb_le; lia).
  replace (0 <=? n) with true by (symmetry; apply Z.leb_le; lia).
  replace (off + n <=? storage_size s) with true by (symmetry; apply Z.leb_le; lia). reflexivity.
Qed.

Lemma nth_error_map_snd (l : list (Z * Z)) i :
  nth_error (map snd l) i = match nth_error l i with Some r => Some (snd r) | None => None end.
Proof. revert i; induction l as [|x l IH]; intros [|i]; cbn; auto. Qed.

Lemma map_remove_nth (l : list (Z * Z)) i : map snd (remove_nth i l) = drop_held i (map snd l).
Proof. unfold remove_nth, drop_held. rewrite map_app, firstn_map, skipn_map. reflexivity. Qed.

Lemma Forall_remove_nth {B} (P : B -> Prop) i l : Forall P l -> Forall P (remove_nth i l).
Proof.
  intros H. unfold remove_nth. rewrite Forall_forall in *. intros x Hx. apply H.
  apply in_app_or in Hx. destruct Hx as [Hx|Hx].
  - rewrite <- (firstn_skipn i l). apply in_or_app. left. exact Hx.
  - rewrite <- (firstn_skipn (S i) l). apply in_or_app. right. exact Hx.
Qed.

Lemma zeros_drop l i : zeros l -> zeros (drop_held i l).
Proof. apply Forall_remove_nth. Qed.

(** Dropping the only non-zero entry leaves zeros. *)
Lemma drop_nonzero l1 l2 n i m :
  zeros l1 -> zeros l2 -> nth_error (l1 ++ n :: l2) i = Some m -> m <> 0 ->
  m = n /\ zeros (drop_held i (l1 ++ n :: l2)).
Proof.
  intros H1 H2 Hn Hm.
  destruct (lt_eq_lt_dec i (length l1)) as [[Hlt|Heq]|Hgt].
  - rewrite nth_error_app1 in Hn by lia. apply nth_error_In in Hn.
    unfold zeros in H1. rewrite Forall_forall in H1. apply H1 in Hn. contradiction.
  - subst i. rewrite nth_error_app2 in Hn by lia. rewrite Nat.sub_diag in Hn. cbn in Hn. injection Hn as <-.
    split; [reflexivity|]. unfold drop_held. rewrite firstn_app, firstn_all, Nat.sub_diag. cbn [firstn].
    rewrite app_nil_r. rewrite skipn_app, skipn_all2 by lia.
    replace (S (length l1) - length l1)%nat with 1%nat by lia. cbn [skipn app]. apply Forall_app; auto.
  - rewrite nth_error_app2 in Hn by lia. destruct (i - length l1)%nat as [|j] eqn:E; [lia|]. cbn in Hn.
    apply nth_error_In in Hn. unfold zeros in H2. rewrite Forall_forall in H2. apply H2 in Hn. contradiction.
Qed.

Lemma get_all_ok s (q : list A) : Rep s q -> get_all_data s = Some q.
Proof.
  intros HR. pose proof (rep_sizes HR) as HS. unfold get_all_data.
  destruct HR as [[Hc (f1 & f2 & Hs & Hr & Hwo & Hf)] | [Hc (dt & f & dh & Hs & Hwo & Hr & Hq & Hd)]]; rewrite Hc.
  - unfold get_size in HS. rewrite Hc in HS. rewrite read_storage_ok by lia. f_equal. rewrite Hs. apply slice_app_mid; lia.
  - rewrite !read_storage_ok by (unfold storage_size in *; lia). f_equal. rewrite Hq. f_equal.
    + rewrite Hs. rewrite <- (app_nil_r (dt ++ f ++ dh)), <- !app_assoc.
      replace (dt ++ f ++ dh ++ []) with ((dt ++ f) ++ dh ++ []) by (rewrite <- !app_assoc; reflexivity).
      apply slice_app_mid; unfold storage_size; rewrite ?Hs; lens; lia.
    + rewrite Hs. change (dt ++ f ++ dh) with ([] ++ dt ++ (f ++ dh)). apply slice_app_mid; [reflexivity|lia].
Qed.

Lemma in_held_nonzero x q n : Inv x q -> In n (held q) -> n = 0 \/ n = locked (buf x) /\ 0 < locked (buf x).
Proof.
  intros (_ & _ & _ & _ & [[H1 H2]|[H1 (l1 & l2 & H2 & Z1 & Z2)]]) Hin.
  - left. unfold zeros in H2. rewrite Forall_forall in H2. auto.
  - rewrite H2 in Hin. apply in_app_or in Hin. unfold zeros in *. rewrite Forall_forall in Z1, Z2.
    destruct Hin as [Hi|[Hi|Hi]]; auto. right; split; [auto|lia].
Qed.

(** [reserver sizes are consistent with the state] after a change of the buffer that keeps ro and locked. *)
Lemma inv_keep x q s' q' :
  Inv x q -> Rep s' (queue q') -> ro s' = ro (buf x) -> locked s' = locked (buf x) ->
  storage_size s' = storage_size (buf x) -> locked (buf x) <= ravail s' -> held q' = held q -> rpos q' = rpos q ->
  Inv (mkSys s' (res x)) q'.
Proof.
  intros (H1 & H2 & H3 & H4 & H5) HR Hro Hl Hst Hra Hh Hp. unfold Inv; cbn [buf res].
  rewrite Hro, Hl, Hst, Hh, Hp. split; [exact HR|]. split; [exact H2|]. split; [exact H3|]. split; [exact H4|].
  destruct H5 as [H5|[H5 H6]]; [left; exact H5 | right; split; [lia|exact H6]].
Qed.

(** Pushing never shrinks what can be read contiguously. *)
Lemma ravail_mono s s' (q bs : list A) :
  Rep s q -> Rep s' (q ++ bs) -> ro s' = ro s -> storage_size s' = storage_size s -> ravail s <= ravail s'.
Proof.
  intros HR HR' Hro Hst. pose proof (rep_sizes HR) as HS. pose proof (rep_sizes HR') as HS'.
  rewrite zlen_app in HS'. pose proof (zlen_nonneg bs).
  destruct (contig s') eqn:Hc'.
  - rewrite (contig_ravail HR' Hc'), zlen_app. lia.
  - unfold ravail at 2. rewrite Hc'. lia.
Qed.

Lemma step_ok x (q : qst A) o :
  Inv x q ->
  broken (storage_size (buf x)) q o \/
  exists q', allowed disc (storage_size (buf x)) q o (snd (step disc x o)) q' /\ Inv (fst (step disc x o)) q' /\
    storage_size (buf (fst (step disc x o))) = storage_size (buf x).
Proof.
  intros HI. pose proof HI as (HR & Hro & Hres & Hfr & Hlk). pose proof (rep_sizes HR) as HS.
  pose proof (inv_unlocked HI) as HU.
  destruct x as [s rs]; cbn [buf res] in *. unfold step; cbn [buf res].
  destruct o as [bs|n|i|i| | | |n|].
  - (* Push *)
    right. destruct (push_rep bs HR) as [[Hle (s' & Hp & H1 & H2 & H3 & H4)] | [Hlt [[Hd Hp]|[[Hd [Hl Hp]]|[Hd [Hl (s' & Hp & H1 & H2 & H3 & H4)]]]]]];
      rewrite Hp; cbn [fst snd buf].
    + exists (mkQ (queue q ++ bs) (held q) (rpos q)). split; [apply a_push; exact Hle|]. split; [|exact H4].
      eapply (@inv_keep (mkSys s rs) q s'); eauto; cbn [buf]. pose proof (@ravail_mono _ _ _ _ HR H1 H2 H4).
      destruct Hlk as [[? ?]|[? ?]]; lia.
    + exists q. split; [apply a_push_full; auto|]. split; [exact HI|reflexivity].
    + exists q. split; [apply a_push_locked; auto; tauto|]. split; [exact HI|reflexivity].
    + eexists. split; [eapply a_push_discard; [exact Hd|lia|tauto|reflexivity]|].
      split; [|exact H4]. unfold Inv; cbn [buf res queue held rpos].
      split; [exact H1|]. split; [rewrite H2, Hro; reflexivity|]. split; [exact Hres|].
      assert (Hz : zeros (held q)) by (apply HU; exact Hl).
      split; [|left; auto].
      rewrite H4. unfold zeros in Hz. rewrite <- Hres, Forall_map in Hz.
      rewrite Forall_forall in *. intros r Hr. specialize (Hfr r Hr). specialize (Hz r Hr). cbn in Hz. split; [lia|left; exact Hz].
  - (* Pop *)
    right. destruct (Z.ltb_spec n 0) as [Hneg|Hn].
    { exists q. cbn [fst snd]. split; [apply a_nosuch_pop; exact Hneg|]. auto. }
    unfold pop. destruct (Z.eqb_spec (locked s) 0) as [Hl|Hl]; cbn [fst snd buf].
    2:{ exists q. split; [apply a_pop_locked; [rewrite <- HU; exact Hl | exact Hn]|]. auto. }
    assert (Hm : (if contig s then Z.min n (wo s - ro s) else Z.min n (storage_size s - ro s)) = Z.min n (ravail s))
      by (unfold ravail; destruct (contig s); reflexivity).
    rewrite Hm. set (m := Z.min n (ravail s)).
    exists (mkQ (queue q) (held q ++ [m]) (rpos q)). split; [|split; [|reflexivity]].
    + apply a_pop; unfold m; try lia; try tauto.
      intros Hpos Hne. assert (zlen (queue q) <> 0) by (intros E; apply zlen_zero in E; contradiction).
      pose proof (zlen_nonneg (queue q)). lia.
    + unfold Inv; cbn [buf res queue held rpos st wo ro locked contig].
      assert (Hz : zeros (held q)) by (apply HU; exact Hl).
      split; [apply rep_relock; exact HR|]. split; [exact Hro|]. split; [rewrite map_app, Hres; reflexivity|].
      split.
      * apply Forall_app. split.
        -- unfold zeros in Hz. rewrite <- Hres, Forall_map in Hz. rewrite Forall_forall in *.
           intros r Hr. specialize (Hfr r Hr). specialize (Hz r Hr). cbn in Hz. unfold storage_size in *; cbn [st]. split; [lia|left; exact Hz].
        -- constructor; [|constructor]. cbn [fst snd]. unfold storage_size in *; cbn [st]. split; [lia|right; auto].
      * unfold ravail in *; cbn [contig wo ro] in *. unfold storage_size in *; cbn [st] in *.
        destruct (Z.eq_dec m 0) as [E|E].
        -- left. split; [exact E|]. apply Forall_app. split; [exact Hz|]. constructor; auto.
        -- right. split; [unfold m in *; lia|]. exists (held q), []. repeat split; auto. constructor.
  - (* GetData *)
    right. rewrite <- Hres in *. pose proof (nth_error_map_snd rs i) as Hnm. rewrite Hres in Hnm.
    destruct (nth_error rs i) as [r|] eqn:En.
    2:{ exists q. cbn [fst snd]. split; [apply a_nosuch_get; exact Hnm|]. split; [exact HI|reflexivity]. }
    assert (Hin : In r rs) by (eapply nth_error_In; eauto).
    rewrite Forall_forall in Hfr. specialize (Hfr r Hin). destruct Hfr as [Hb Hcase].
    destruct Hcase as [Hz|[Hf Hs]].
    + rewrite Hz. rewrite read_storage_ok by lia. cbn [fst snd]. exists q. split; [|split; [exact HI|reflexivity]].
      rewrite slice_nil_size. apply a_get with (queue q); [rewrite Hnm, Hz; reflexivity|reflexivity].
    + destruct Hlk as [[Hl Hzz]|[Hl _]].
      * rewrite Hs, Hl in *. rewrite read_storage_ok by lia. cbn [fst snd]. exists q. split; [|split; [exact HI|reflexivity]].
        rewrite slice_nil_size. apply a_get with (queue q); [rewrite Hnm; reflexivity|reflexivity].
      * destruct (@rep_prefix s (queue q) (locked s) HR) as (b & Hq & HL); [lia|].
        rewrite Hf, Hs, read_storage_ok by lia. cbn [fst snd]. exists q. split; [|split; [exact HI|reflexivity]].
        apply a_get with b; [rewrite Hnm, HL, Hs; reflexivity | exact Hq].
  - (* Release *)
    pose proof (nth_error_map_snd rs i) as Hnm. rewrite Hres in Hnm.
    destruct (nth_error rs i) as [r|] eqn:En.
    2:{ right. exists q. cbn [fst snd]. split; [apply a_nosuch_rel; exact Hnm|]. split; [exact HI|reflexivity]. }
    assert (Hin : In r rs) by (eapply nth_error_In; eauto).
    assert (Hfr' := Hfr). rewrite Forall_forall in Hfr'. specialize (Hfr' r Hin). destruct Hfr' as [Hb Hcase].
    destruct (Z.eq_dec (snd r) 0) as [Ez|Enz].
    + destruct (Z.eq_dec (locked s) 0) as [El|El].
      2:{ left. apply b_release; [rewrite Hnm, Ez; reflexivity | rewrite <- HU; exact El]. }
      right. rewrite Ez. cbn [fst snd buf].
      destruct (@release_rep s [] (queue q) HR) as (H1 & H2 & H3 & H4).
      change (zlen (@nil A)) with 0 in *.
      assert (Hst : storage_size (release_data s 0) = storage_size s) by (unfold storage_size; rewrite H2; reflexivity).
      assert (Hz : zeros (held q)) by (apply HU; exact El).
      eexists. split; [|split].
      * apply (@a_release A disc (storage_size s) q i [] (queue q)); try reflexivity; [rewrite Hnm, Ez; reflexivity|].
        apply zeros_drop; exact Hz.
      * unfold Inv; cbn [buf res queue held rpos]. split; [exact H1|]. rewrite H4. split; [rewrite Hro; reflexivity|].
        split; [rewrite map_remove_nth, Hres; reflexivity|]. split; [|left; split; [exact H3|apply zeros_drop; exact Hz]].
        apply Forall_remove_nth. unfold zeros in Hz. rewrite <- Hres, Forall_map in Hz. rewrite Forall_forall in *.
        intros r' Hr'. specialize (Hfr r' Hr'). specialize (Hz r' Hr'). cbn in Hz. rewrite Hst. split; [lia|left; exact Hz].
      * exact Hst.
    + destruct Hcase as [Hc|[Hf Hsz]]; [contradiction|].
      destruct Hlk as [[Hl Hzz]|[Hl (l1 & l2 & Hh & Z1 & Z2)]]; [rewrite Hsz in Enz; contradiction|].
      right. destruct (@rep_prefix s (queue q) (locked s) HR) as (b & Hq & HL); [lia|].
      set (a := slice (ro s) (locked s) (st s)) in *. rewrite Hq in HR.
      destruct (@release_rep s a b HR) as (H1 & H2 & H3 & H4). rewrite HL in H1, H2, H3, H4. rewrite <- Hsz in H1, H2, H3, H4.
      assert (Hst : storage_size (release_data s (snd r)) = storage_size s) by (unfold storage_size; rewrite H2; reflexivity).
      assert (Hz : zeros (drop_held i (held q))).
      { rewrite Hh in *. eapply drop_nonzero; eauto. }
      cbn [fst snd buf]. eexists. split; [|split].
      * apply (@a_release A disc (storage_size s) q i a b); [rewrite Hnm, Hsz, HL; reflexivity | exact Hq | reflexivity | exact Hz].
      * unfold Inv; cbn [buf res queue held rpos]. split; [exact H1|]. rewrite H4, HL, <- Hsz. split; [rewrite Hro; reflexivity|].
        split; [rewrite map_remove_nth, Hres; reflexivity|]. split; [|left; split; [exact H3|exact Hz]].
        unfold zeros in Hz. rewrite <- Hres, <- map_remove_nth, Forall_map in Hz.
        pose proof (Forall_remove_nth i Hfr) as Hfr2. rewrite Forall_forall in *.
        intros r' Hr'. specialize (Hfr2 r' Hr'). specialize (Hz r' Hr'). cbn in Hz. rewrite Hst. split; [lia|left; exact Hz].
      * exact Hst.
  - (* Clear *)
    assert (Hlb : 0 <= locked s <= ravail s) by (destruct Hlk as [[? ?]|[? ?]]; lia).
    destruct (@rep_prefix s (queue q) (locked s) HR) as (b & Hq & HL); [lia|].
    set (a := slice (ro s) (locked s) (st s)) in *.
    assert (Hcl : unlocked q /\ a = [] \/ In (zlen a) (held q) /\ 0 < zlen a).
    { destruct Hlk as [[Hl Hz]|[Hl (l1 & l2 & Hh & Z1 & Z2)]].
      - left. split; [exact Hz|]. apply zlen_zero. lia.
      - right. rewrite HL, Hh. split; [apply in_or_app; right; left; reflexivity|lia]. }
    assert (Hcases : (contig s = true \/ contig s = false /\ ro s + locked s = storage_size s) \/
                     (contig s = false /\ ro s + locked s <> storage_size s)).
    { destruct (contig s); [left; left; reflexivity|]. destruct (Z.eq_dec (ro s + locked s) (storage_size s)); auto. }
    destruct Hcases as [Hgood|[Hc Hne]].
    + right. cbn [fst snd buf].
      exists (mkQ a (held q) (rpos q)). split; [|split; [|reflexivity]].
      * apply a_clear with b; auto. rewrite <- Hro.
        destruct Hgood as [Hc|[Hc He]]; [left|right; lia].
        unfold get_size in HS. rewrite Hc in HS. lia.
      * assert (HRc : Rep (clear s) a).
        { destruct HR as [[Hc (f1 & f2 & Hs & Hr & Hwo & Hf)] | [Hc (dt & f & dh & Hs & Hwo & Hr & Hqq & Hd)]].
          - left. unfold clear. cbn [st contig ro wo].
            unfold storage_size in *.
            assert (ro s + locked s < zlen (st s)) by (unfold ravail in Hlb; rewrite Hc in Hlb; lia).
            replace (ro s + locked s <? zlen (st s)) with true by (symmetry; apply Z.ltb_lt; lia).
            split; [exact Hc|]. exists f1, (b ++ f2). rewrite Hs, Hq, <- !app_assoc. lens. repeat split; auto; lia.
          - destruct Hgood as [Hc'|[_ He]]; [congruence|]. right. unfold clear. cbn [st contig ro wo].
            rewrite He. rewrite Z.ltb_irrefl. split; [exact Hc|].
            assert (a = dh) as ->.
            { rewrite Hq in Hqq. apply app_inj_len in Hqq; [destruct Hqq; auto|].
              rewrite HL. unfold storage_size in He. rewrite Hs in He. lens. lia. }
            exists [], (dt ++ f), dh. cbn [app]. rewrite Hs, <- !app_assoc, app_nil_r. lens. repeat split; auto; lia. }
        assert (Hra : locked s <= ravail (clear s)).
        { pose proof (rep_sizes HRc) as HSc. unfold ravail in *. cbn [clear contig ro st storage_size] in *.
          unfold get_size in HSc. destruct Hgood as [Hc|[Hc He]]; unfold clear in *; cbn [contig ro wo st] in *; rewrite Hc in *.
          - rewrite HL in HSc. lia.
          - unfold storage_size in *; cbn [st]. lia. }
        apply (@inv_keep (mkSys s rs) q (clear s)); auto.
    + left. apply b_clear.
      * destruct HR as [[Hc' _] | [_ (dt & f & dh & Hs & Hwo & Hr & Hqq & Hd)]]; [congruence|].
        rewrite <- Hro. unfold storage_size. rewrite Hs, Hqq. lens. lia.
      * intros n Hin. rewrite <- Hro. destruct (in_held_nonzero n HI Hin) as [->|[-> _]]; cbn [buf]; lia.
  - right. exists q; cbn [fst snd buf]. replace (get_size s) with (zlen (queue q)) by lia. split; [apply a_size|auto].
  - right. exists q; cbn [fst snd buf]. replace (free_size s) with (storage_size s - zlen (queue q)) by lia. split; [apply a_free|auto].
  - right. exists q; cbn [fst snd buf]. unfold can_push. replace (free_size s) with (storage_size s - zlen (queue q)) by lia. split; [apply a_can|auto].
  - right. exists q. rewrite (get_all_ok HR). cbn [fst snd buf]. split; [apply a_all|auto].
Qed.

Lemma init_inv (storage : list A) : storage <> [] -> Inv (sys_init storage) (mkQ [] [] 0).
Proof.
  intros H. unfold Inv, sys_init; cbn. repeat split; auto; [|left; split; [reflexivity|constructor]].
  left. cbn. split; [reflexivity|].
  exists [], storage. cbn. repeat split; auto. destruct storage; [congruence|]. lens; lia.
Qed.

Lemma run_ok (os : list (op A)) : forall (x : sys A) (q : qst A), Inv x q ->
  allowed_run disc (storage_size (buf x)) q os (snd (run disc x os)).
Proof.
  induction os as [|o os IH]; intros x q HI.
  - constructor.
  - destruct (step_ok o HI) as [Hb|(q1 & Ha & HI1 & Ht1)]; [apply ar_broken; exact Hb|].
    cbn [run]. destruct (step disc x o) as [x1 r] eqn:E1. cbn [fst snd] in *.
    specialize (IH x1 q1 HI1). destruct (run disc x1 os) as [x2 rs] eqn:E2. cbn [fst snd] in *.
    rewrite Ht1 in IH. econstructor; eauto.
Qed.

Lemma bounded_fifo (storage : list A) os : storage <> [] ->
  allowed_run disc (zlen storage) (mkQ [] [] 0) os (snd (run disc (sys_init storage) os)).
Proof. intros H. exact (run_ok os (init_inv H)). Qed.

End P.
