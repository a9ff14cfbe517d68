From Verif Require Import Base BithreadModel BithreadSpec.
Set Implicit Arguments.
Local Open Scope Z_scope.

Section P.
Variable A : Type.
Implicit Types (s : bcb A).

(** Storage as segments. *)
Definition Rep s (q : list A) : Prop :=
  (contig s = true /\ exists f1 f2, st s = f1 ++ q ++ f2 /\ ro s = zlen f1 /\
      wo s = zlen f1 + zlen q /\ 0 < zlen f2)
  \/
  (contig s = false /\ exists dt f dh, st s = dt ++ f ++ dh /\ wo s = zlen dt /\
      ro s = zlen dt + zlen f /\ q = dh ++ dt /\ 0 < zlen dh).

Definition wavail s := if contig s then total_size s - wo s else ro s - wo s.
Definition ravail s := if contig s then wo s - ro s else total_size s - ro s.

Definition Inv (x : sys A) (q : qst A) : Prop :=
  Rep (buf x) (queue q) /\
  match wv x, wbuf q with
  | Some v, Some w => fst v = wo (buf x) /\ snd v = zlen w /\ zlen w <= wavail (buf x) /\
                      slice (wo (buf x)) (zlen w) (st (buf x)) = w
  | None, None => True
  | _, _ => False
  end /\
  match rv x, rcnt q with
  | Some v, Some n => fst v = ro (buf x) /\ snd v = n /\ 0 <= n <= ravail (buf x)
  | None, None => True
  | _, _ => False
  end.

Ltac lens := unfold total_size in *; repeat rewrite ?zlen_app, ?zlen_cons, ?zlen_nil in *;
  repeat match goal with |- context [zlen ?l] => lazymatch goal with H : 0 <= zlen l |- _ => fail | _ => pose proof (zlen_nonneg l) end
         | H0 : context [zlen ?l] |- _ => lazymatch goal with H : 0 <= zlen l |- _ => fail | _ => pose proof (zlen_nonneg l) end end.

Lemma rep_sizes s q : Rep s q ->
  0 <= wo s <= total_size s /\ 0 <= ro s <= total_size s /\ data_size s = zlen q /\
  zlen q <= total_size s /\
  0 <= wavail s <= total_size s - zlen q /\ wo s + wavail s <= total_size s /\
  (zlen q < total_size s -> 0 < wavail s) /\
  0 <= ravail s <= zlen q /\ ro s + ravail s <= total_size s /\
  (0 < zlen q -> 0 < ravail s) /\
  (wo s + wavail s <= ro s \/ ro s + ravail s <= wo s).
Proof.
  unfold data_size, wavail, ravail.
  intros [[Hc (f1 & f2 & Hs & Hr & Hw & Hf)] | [Hc (dt & f & dh & Hs & Hw & Hr & Hq & Hd)]];
    rewrite Hc; unfold total_size; rewrite Hs; subst; lens; lia.
Qed.

Lemma mk_view_ok s off n : 0 <= n -> off + n <= total_size s -> mk_view s off n = Some (off, n).
Proof.
  intros. unfold mk_view. replace (0 <=? n) with true by (symmetry; apply Z.leb_le; lia).
  replace (off + n <=? total_size s) with true by (symmetry; apply Z.leb_le; lia). reflexivity.
Qed.

Lemma write_view_ok s q : Rep s q -> write_view s = Some (wo s, wavail s).
Proof. intros H; apply rep_sizes in H. unfold write_view. fold (wavail s). apply mk_view_ok; lia. Qed.

Lemma read_view_ok s q : Rep s q -> read_view s = Some (ro s, ravail s).
Proof. intros H; apply rep_sizes in H. unfold read_view. fold (ravail s). apply mk_view_ok; lia. Qed.

(** Writing inside the free area keeps the queue. *)
Lemma fill_rep s q k bs v :
  Rep s q -> fst v = wo s -> 0 <= k -> k + zlen bs <= wavail s ->
  Rep (fill s v k bs) q.
Proof.
  intros HR Hv Hk Hb.
  destruct HR as [[Hc (f1 & f2 & Hs & Hr & Hw & Hf)] | [Hc (dt & f & dh & Hs & Hw & Hr & Hq & Hd)]].
  - unfold wavail in Hb; rewrite Hc in Hb; unfold total_size in Hb; rewrite Hs in Hb; lens.
    destruct (@split_at A k f2) as (x & y & -> & Hx); [lens; lia|]. lens.
    destruct (@split_at A (zlen bs) y) as (y1 & y2 & -> & Hy); [lens; lia|]. lens.
    left. split; [exact Hc|]. exists f1, (x ++ bs ++ y2). cbn [fill st ro wo]. repeat split; auto; [|lens; lia].
    rewrite Hs. replace (f1 ++ q ++ x ++ y1 ++ y2) with ((f1 ++ q ++ x) ++ y1 ++ y2) by (rewrite <- !app_assoc; reflexivity).
    rewrite splice_app_mid; [rewrite <- !app_assoc; reflexivity | lens; lia | unfold zlen in *; lia].
  - unfold wavail in Hb; rewrite Hc in Hb.
    destruct (@split_at A k f) as (x & y & -> & Hx); [lens; lia|]. lens.
    destruct (@split_at A (zlen bs) y) as (y1 & y2 & -> & Hy); [lens; lia|]. lens.
    right. split; [exact Hc|]. exists dt, (x ++ bs ++ y2), dh. cbn [fill st ro wo]. repeat split; auto; [|lens; lia].
    rewrite Hs. replace (dt ++ (x ++ y1 ++ y2) ++ dh) with ((dt ++ x) ++ y1 ++ y2 ++ dh) by (rewrite <- !app_assoc; reflexivity).
    rewrite splice_app_mid; [rewrite <- !app_assoc; reflexivity | lens; lia | unfold zlen in *; lia].
Qed.

Lemma push_rep s q w n b :
  Rep s q -> slice (wo s) (zlen w) (st s) = w -> zlen w <= wavail s -> w = n ++ b ->
  exists s', push s (zlen n) = Some s' /\ Rep s' (q ++ n) /\ st s' = st s /\ ro s' = ro s /\
    (ravail s <= ravail s').
Proof.
  intros HR Hsl Hle Hw. pose proof (rep_sizes HR) as HS. subst w. lens.
  unfold push. replace (wo s + zlen n <=? total_size s) with true by (symmetry; apply Z.leb_le; lens; lia).
  eexists. split; [reflexivity|].
  destruct HR as [[Hc (f1 & f2 & Hs & Hr & Hwo & Hf)] | [Hc (dt & f & dh & Hs & Hwo & Hr & Hq & Hd)]].
  - assert (exists c, f2 = n ++ b ++ c) as [c ->].
    { destruct (@split_at A (zlen n + zlen b) f2) as (x & y & -> & Hx).
      - unfold wavail in Hle; rewrite Hc in Hle; unfold total_size in Hle; rewrite Hs in Hle; lens; lia.
      - exists y. rewrite Hs in Hsl.
        replace (f1 ++ q ++ x ++ y) with ((f1 ++ q) ++ x ++ y) in Hsl by (rewrite <- !app_assoc; reflexivity).
        rewrite slice_app_mid in Hsl; [subst x; rewrite <- app_assoc; reflexivity | lens; lia | lens; lia]. }
    destruct (Z.eqb_spec (wo s + zlen n) (total_size s)) as [He|He]; (split; [|split; [|split]]); cbn [st ro wo contig]; auto.
    + right. cbn [contig wo st ro]. rewrite Hc. split; [reflexivity|].
      unfold total_size in He; rewrite Hs in He; lens.
      assert (b ++ c = []) as Hbc by (apply zlen_zero; lens; lia).
      exists [], f1, (q ++ n). cbn [app]. rewrite Hs, Hbc, !app_nil_r. lens. repeat split; auto; lia.
    + unfold ravail. cbn [contig wo st ro total_size]. rewrite Hc. cbn [negb]. unfold total_size. cbn [st]. lens; lia.
    + left. cbn [contig wo st ro]. split; [exact Hc|]. exists f1, (b ++ c). rewrite Hs, <- !app_assoc. lens.
      repeat split; auto; try lia. unfold total_size in He; rewrite Hs in He; lens. lia.
    + unfold ravail. cbn [contig wo st ro total_size]. rewrite Hc. lens; lia.
  - assert (exists c, f = n ++ b ++ c) as [c ->].
    { destruct (@split_at A (zlen n + zlen b) f) as (x & y & -> & Hx).
      - unfold wavail in Hle; rewrite Hc in Hle. lens; lia.
      - exists y. rewrite Hs in Hsl.
        replace (dt ++ (x ++ y) ++ dh) with (dt ++ x ++ (y ++ dh)) in Hsl by (rewrite <- !app_assoc; reflexivity).
        rewrite slice_app_mid in Hsl; [subst x; rewrite <- app_assoc; reflexivity | lens; lia | lens; lia]. }
    destruct (Z.eqb_spec (wo s + zlen n) (total_size s)) as [He|He].
    { exfalso. unfold total_size in He; rewrite Hs in He; lens. lia. }
    (split; [|split; [|split]]); cbn [st ro wo contig]; auto.
    + right. cbn [contig wo st ro]. split; [exact Hc|]. exists (dt ++ n), (b ++ c), dh.
      rewrite Hs, Hq, <- !app_assoc. lens. repeat split; auto; lia.
    + unfold ravail. cbn [contig wo st ro total_size]. rewrite Hc. unfold total_size; cbn [st]. lia.
Qed.

Lemma pop_rep s a b :
  Rep s (a ++ b) -> zlen a <= ravail s ->
  exists s', pop s (zlen a) = Some s' /\ Rep s' b /\ st s' = st s /\ wo s' = wo s /\
    (wavail s <= wavail s').
Proof.
  intros HR Hle. pose proof (rep_sizes HR) as HS. lens.
  unfold pop. replace (ro s + zlen a <=? total_size s) with true by (symmetry; apply Z.leb_le; lens; lia).
  eexists. split; [reflexivity|].
  destruct HR as [[Hc (f1 & f2 & Hs & Hr & Hwo & Hf)] | [Hc (dt & f & dh & Hs & Hwo & Hr & Hq & Hd)]].
  - lens. fold (total_size s); destruct (Z.eqb_spec (ro s + zlen a) (total_size s)) as [He|He].
    { exfalso. unfold total_size in He; rewrite Hs in He; lens. lia. }
    (split; [|split; [|split]]); cbn [st ro wo contig]; auto.
    + left. cbn [contig wo st ro]. split; [exact Hc|]. exists (f1 ++ a), f2. rewrite Hs, <- !app_assoc. lens.
      repeat split; auto; lia.
    + unfold wavail. cbn [contig wo st ro total_size]. rewrite Hc. unfold total_size; cbn [st]. lia.
  - unfold ravail in Hle; rewrite Hc in Hle; unfold total_size in Hle; rewrite Hs in Hle. lens.
    assert (exists c, dh = a ++ c /\ b = c ++ dt) as (c & -> & ->).
    { destruct (@split_at A (zlen a) dh) as (x & y & -> & Hx); [lens; lia|].
      rewrite <- app_assoc in Hq. apply app_inj_len in Hq; [|lia]. destruct Hq as [-> ->].
      exists y. split; reflexivity. }
    lens.
    fold (total_size s); destruct (Z.eqb_spec (ro s + zlen a) (total_size s)) as [He|He]; (split; [|split; [|split]]); cbn [st ro wo contig]; auto.
    + unfold total_size in He; rewrite Hs in He; lens.
      assert (c = []) as -> by (apply zlen_zero; lia). lens.
      left. cbn [contig wo st ro app]. rewrite Hc. split; [reflexivity|].
      exists [], (f ++ a). rewrite Hs, !app_nil_r. cbn [app]. lens. repeat split; auto; lia.
    + unfold wavail. cbn [contig wo st ro total_size]. rewrite Hc. cbn [negb].
      unfold total_size in *. cbn [st]. rewrite Hs in *. lens. lia.
    + unfold total_size in He; rewrite Hs in He; lens.
      right. cbn [contig wo st ro]. split; [exact Hc|]. exists dt, (f ++ a), c. rewrite Hs, <- !app_assoc.
      lens. repeat split; auto; lia.
    + unfold wavail. cbn [contig wo st ro total_size]. rewrite Hc. lia.
Qed.

Lemma rep_ravail_prefix s q n :
  Rep s q -> 0 <= n <= ravail s ->
  exists b, q = slice (ro s) n (st s) ++ b /\ zlen (slice (ro s) n (st s)) = n.
Proof.
  intros HR Hn. pose proof (rep_sizes HR) as HS.
  assert (zlen (slice (ro s) n (st s)) = n) as HL by (apply slice_zlen; unfold total_size in *; lia).
  destruct HR as [[Hc (f1 & f2 & Hs & Hr & Hwo & Hf)] | [Hc (dt & f & dh & Hs & Hwo & Hr & Hq & Hd)]].
  - destruct (@split_at A n q) as (x & y & -> & Hx); [lia|].
    exists y. split; [|exact HL]. rewrite Hs.
    replace (f1 ++ (x ++ y) ++ f2) with (f1 ++ x ++ y ++ f2) by (rewrite <- !app_assoc; reflexivity).
    rewrite slice_app_mid by lia. reflexivity.
  - unfold ravail in Hn. rewrite Hc in Hn. unfold total_size in Hn. rewrite Hs in Hn. lens.
    destruct (@split_at A n dh) as (x & y & -> & Hx); [lia|].
    exists (y ++ dt). split; [|exact HL]. rewrite Hs, Hq.
    replace (dt ++ f ++ x ++ y) with ((dt ++ f) ++ x ++ y) by (rewrite <- !app_assoc; reflexivity).
    rewrite slice_app_mid by (lens; lia). rewrite <- app_assoc. reflexivity.
Qed.

Lemma slice_splice_same (s : list A) off k n bs a b c :
  slice off n s = a ++ b ++ c -> zlen a = k -> length bs = length b -> 0 <= off -> n = zlen (a ++ b ++ c) ->
  off + n <= zlen s ->
  slice off n (splice (off + k) bs s) = a ++ bs ++ c.
Proof.
  intros Hs Hk Hl Ho Hn Hle.
  destruct (@split_at A off s) as (p & r & -> & Hp); [lens; lia|]. lens.
  destruct (@split_at A n r) as (m & t & -> & Hm); [lens; lia|].
  rewrite slice_app_mid in Hs by lia. subst m.
  replace (p ++ (a ++ b ++ c) ++ t) with ((p ++ a) ++ b ++ (c ++ t)) by (rewrite <- !app_assoc; reflexivity).
  rewrite splice_app_mid; [|lens; lia|exact Hl].
  replace ((p ++ a) ++ bs ++ c ++ t) with (p ++ (a ++ bs ++ c) ++ t) by (rewrite <- !app_assoc; reflexivity).
  apply slice_app_mid; [lia|]. lens. unfold zlen in *; lia.
Qed.

Lemma step_ok x (q : qst A) o :
  Inv x q -> exists q', allowed (total_size (buf x)) q o (snd (step x o)) q' /\ Inv (fst (step x o)) q' /\
    total_size (buf (fst (step x o))) = total_size (buf x).
Proof.
  intros HI. pose proof HI as (HR & HW & HRd). pose proof (rep_sizes HR) as HS.
  destruct x as [s w r]; cbn [buf wv rv] in *. unfold step; cbn [buf wv rv].
  destruct o as [|k bs|n| | |n| | |].
  - (* AcquireW *)
    rewrite (write_view_ok HR). cbn [fst snd].
    assert (zlen (slice (wo s) (wavail s) (st s)) = wavail s) as HL by (apply slice_zlen; unfold total_size in *; lia).
    exists (mkQ (queue q) (Some (slice (wo s) (wavail s) (st s))) (rcnt q)).
    split; [|split; [|reflexivity]].
    + rewrite <- HL at 1. apply a_acqw; rewrite HL; lia.
    + unfold Inv; cbn [buf wv rv queue wbuf rcnt fst snd]. repeat split; auto; try lia. rewrite HL; reflexivity.
  - (* Fill *)
    destruct w as [v|], (wbuf q) as [wb|] eqn:Ewb; try contradiction.
    2:{ exists q; cbn [fst snd]. split; [apply a_misuse; cbn; rewrite Ewb; exact I| auto]. }
    destruct HW as (Hv1 & Hv2 & Hle & Hsl).
    destruct ((0 <=? k) && (k + zlen bs <=? snd v)) eqn:Eg; cbn [fst snd].
    2:{ exists q. split; [|auto]. apply a_misuse. cbn. rewrite Ewb.
        apply andb_false_iff in Eg. rewrite Z.leb_gt, Z.leb_gt in Eg. lia. }
    apply andb_true_iff in Eg. rewrite !Z.leb_le in Eg. destruct Eg as [Hk Hkb]. rewrite Hv2 in Hkb.
    destruct (@split_at A k wb) as (a & y & Ha & Hak); [lens; lia|].
    destruct (@split_at A (zlen bs) y) as (b & c & Hb & Hbl); [subst wb; lens; lia|].
    subst y. exists (mkQ (queue q) (Some (a ++ bs ++ c)) (rcnt q)).
    assert (length bs = length b) as Hll by (unfold zlen in *; lia).
    assert (zlen (a ++ bs ++ c) = zlen wb) as Hlen by (rewrite Ha; lens; lia).
    split; [|split].
    + rewrite <- Hak. eapply a_fill; [rewrite Ewb, Ha; reflexivity | exact Hll].
    + assert (total_size (fill s v k bs) = total_size s) as Hts
        by (unfold total_size, fill; cbn [st]; apply zlen_splice; unfold total_size in *; lia).
      assert (wavail (fill s v k bs) = wavail s) as Hwa by (unfold wavail; rewrite Hts; reflexivity).
      assert (ravail (fill s v k bs) = ravail s) as Hra by (unfold ravail; rewrite Hts; reflexivity).
      unfold Inv; cbn [buf wv rv queue wbuf rcnt]. split; [apply fill_rep; auto; lia|].
      rewrite Hwa, Hra. split; [|exact HRd]. cbn [fill wo st]. rewrite Hlen. repeat split; auto.
      rewrite Hv1. eapply slice_splice_same; [rewrite Hsl; exact Ha | exact Hak | exact Hll | lia | rewrite <- Ha; reflexivity | unfold total_size in *; lia].
    + unfold total_size, fill; cbn [buf st]. apply zlen_splice; unfold total_size in *; lia.
  - (* Push *)
    destruct w as [v|], (wbuf q) as [wb|] eqn:Ewb; try contradiction.
    2:{ exists q; cbn [fst snd]. split; [apply a_misuse; cbn; rewrite Ewb; exact I| auto]. }
    destruct HW as (Hv1 & Hv2 & Hle & Hsl).
    destruct ((0 <=? n) && (n <=? snd v)) eqn:Eg; cbn [fst snd].
    2:{ exists q. split; [|auto]. apply a_misuse. cbn. rewrite Ewb.
        apply andb_false_iff in Eg. rewrite Z.leb_gt, Z.leb_gt in Eg. lia. }
    apply andb_true_iff in Eg. rewrite !Z.leb_le in Eg. destruct Eg as [Hk Hkb]. rewrite Hv2 in Hkb.
    destruct (@split_at A n wb) as (a & b & Ha & Hak); [lens; lia|].
    destruct (push_rep a b HR Hsl Hle Ha) as (s' & Hp & HR' & Hst & Hro & Hra).
    rewrite Hak in Hp. rewrite Hp. cbn [fst snd].
    exists (mkQ (queue q ++ a) None (rcnt q)). split; [|split].
    + rewrite <- Hak. apply a_push with b. rewrite Ewb, Ha; reflexivity.
    + unfold Inv; cbn [buf wv rv queue wbuf rcnt]. repeat split; auto.
      rewrite Hro. destruct r as [v'|], (rcnt q); auto. lia.
    + unfold total_size. cbn [buf]. rewrite Hst. reflexivity.
  - (* AcquireR *)
    rewrite (read_view_ok HR). cbn [fst snd].
    exists (mkQ (queue q) (wbuf q) (Some (ravail s))). split; [|split; [|reflexivity]].
    + apply a_acqr; [lia|]. intros Hne. assert (zlen (queue q) <> 0) by (intros H0; apply zlen_zero in H0; contradiction).
      lens; lia.
    + unfold Inv; cbn [buf wv rv queue wbuf rcnt fst snd]. repeat split; auto; lia.
  - (* GetData *)
    destruct r as [v|], (rcnt q) as [m|] eqn:Erc; try contradiction.
    2:{ exists q; cbn [fst snd]. split; [apply a_misuse; cbn; exact Erc| auto]. }
    destruct HRd as (Hv1 & Hv2 & Hm). cbn [fst snd].
    destruct (rep_ravail_prefix (q:=queue q) HR Hm) as (b & Hq & HL).
    exists q. split; [|auto]. unfold view_bytes. rewrite Hv1, Hv2. eapply a_get; [exact Hq|]. rewrite HL; exact Erc.
  - (* Pop *)
    destruct r as [v|], (rcnt q) as [m|] eqn:Erc; try contradiction.
    2:{ exists q; cbn [fst snd]. split; [apply a_misuse; cbn; rewrite Erc; exact I| auto]. }
    destruct HRd as (Hv1 & Hv2 & Hm).
    destruct ((0 <=? n) && (n <=? snd v)) eqn:Eg; cbn [fst snd].
    2:{ exists q. split; [|auto]. apply a_misuse. cbn. rewrite Erc.
        apply andb_false_iff in Eg. rewrite Z.leb_gt, Z.leb_gt in Eg. lia. }
    apply andb_true_iff in Eg. rewrite !Z.leb_le in Eg. destruct Eg as [Hk Hkb]. rewrite Hv2 in Hkb.
    destruct (@split_at A n (queue q)) as (a & b & Ha & Hak); [lia|].
    destruct (@pop_rep s a b) as (s' & Hp & HR' & Hst & Hwo & Hwa); [rewrite <- Ha; exact HR | lia|].
    rewrite Hak in Hp. rewrite Hp. cbn [fst snd].
    exists (mkQ b (wbuf q) None). split; [|split].
    + rewrite <- Hak. apply a_pop with m; auto. lia.
    + unfold Inv; cbn [buf wv rv queue wbuf rcnt]. split; [exact HR'|]. split; [|exact I].
      rewrite Hwo, Hst. destruct w as [v'|], (wbuf q); auto. destruct HW as (? & ? & ? & ?). repeat split; auto; lia.
    + unfold total_size. cbn [buf]. rewrite Hst. reflexivity.
  - (* Clear *)
    destruct w as [v|], (wbuf q) as [wb|] eqn:Ewb; try contradiction;
    destruct r as [v'|], (rcnt q) as [m|] eqn:Erc; try contradiction; cbn [fst snd];
      try (exists q; split; [apply a_misuse; cbn; rewrite ?Ewb, ?Erc; first [left; congruence | right; congruence] | auto]).
    exists (mkQ [] None None). split; [apply a_clear; auto|]. split; [|reflexivity].
    unfold Inv; cbn [buf wv rv queue wbuf rcnt]. repeat split; auto.
    unfold clear. destruct (st s) as [|y l] eqn:Es.
    + (* empty storage: impossible under Rep *)
      exfalso. destruct HR as [[Hc (f1 & f2 & Hs & Hr & Hwo & Hf)] | [Hc (dt & f & dh & Hs & Hwo & Hr & Hq & Hd)]];
        rewrite Es in Hs; symmetry in Hs; apply (f_equal (@zlen A)) in Hs; lens; lia.
    + left. cbn [contig st ro wo]. split; [reflexivity|]. exists [], (y :: l). cbn [app]. lens. repeat split; auto; lia.
  - (* DataSize *) exists q; cbn [fst snd]. replace (data_size s) with (zlen (queue q)) by lia. split; [apply a_dsize|auto].
  - (* FreeSize *) exists q; cbn [fst snd]. unfold free_size. replace (data_size s) with (zlen (queue q)) by lia. split; [apply a_fsize|auto].
Qed.

Lemma init_inv storage : storage <> [] -> Inv (sys_init storage) (mkQ [] None None).
Proof.
  intros H. unfold Inv, sys_init; cbn. repeat split; auto. left. cbn. split; [reflexivity|].
  exists [], storage. cbn. repeat split; auto. destruct storage; [congruence|]. lens; lia.
Qed.

Lemma run_ok (os : list (op A)) : forall (x : sys A) (q : qst A), Inv x q ->
  exists q', allowed_run (total_size (buf x)) q os (snd (run x os)) q' /\ Inv (fst (run x os)) q' /\
             total_size (buf (fst (run x os))) = total_size (buf x).
Proof.
  induction os as [|o os IH]; intros x q HI.
  - exists q. cbn. split; [constructor|auto].
  - destruct (step_ok o HI) as (q1 & Ha & HI1 & Ht1).
    cbn [run]. destruct (step x o) as [x1 r] eqn:E1. cbn [fst snd] in *.
    destruct (IH x1 q1 HI1) as (q2 & Ha2 & HI2 & Ht2).
    destruct (run x1 os) as [x2 rs] eqn:E2. cbn [fst snd] in *.
    exists q2. rewrite Ht1 in Ha2. split; [econstructor; eauto|]. split; [exact HI2 | lia].
Qed.

Lemma fifo (storage : list A) os : storage <> [] ->
  exists q', allowed_run (zlen storage) (mkQ [] None None) os (snd (run (sys_init storage) os)) q'.
Proof.
  intros H. destruct (run_ok os (init_inv H)) as (q' & Ha & _). exists q'. exact Ha.
Qed.

Definition disjoint_views (v w : view) : Prop :=
  fst v + snd v <= fst w \/ fst w + snd w <= fst v \/ snd v = 0 \/ snd w = 0.

Lemma no_alias (storage : list A) os x : storage <> [] -> x = fst (run (sys_init storage) os) ->
  (forall v, wv x = Some v -> 0 <= fst v /\ 0 <= snd v /\ fst v + snd v <= zlen storage) /\
  (forall v, rv x = Some v -> 0 <= fst v /\ 0 <= snd v /\ fst v + snd v <= zlen storage) /\
  (forall v w, wv x = Some v -> rv x = Some w -> fst v + snd v <= fst w \/ fst w + snd w <= fst v).
Proof.
  intros H ->. destruct (run_ok os (init_inv H)) as (q' & _ & HI & Ht).
  set (x := fst (run (sys_init storage) os)) in *.
  destruct HI as (HR & HW & HD). pose proof (rep_sizes HR) as HS. rewrite Ht in HS.
  assert (Htot : total_size (buf (sys_init storage)) = zlen storage) by reflexivity. rewrite Htot in *.
  split; [|split].
  - intros v Hv. rewrite Hv in HW. destruct (wbuf q') as [w|]; [|contradiction]. pose proof (zlen_nonneg w). lia.
  - intros v Hv. rewrite Hv in HD. destruct (rcnt q'); [|contradiction]. lia.
  - intros v w Hv Hw. rewrite Hv in HW. rewrite Hw in HD.
    destruct (wbuf q'); [|contradiction]. destruct (rcnt q'); [|contradiction]. lia.
Qed.

Lemma fill_preserves_reader (storage : list A) os k bs x v :
  storage <> [] -> x = fst (run (sys_init storage) os) -> rv x = Some v ->
  view_bytes (buf (fst (step x (OpFill k bs)))) v = view_bytes (buf x) v /\
  rv (fst (step x (OpFill k bs))) = Some v.
Proof.
  intros H -> Hr. destruct (run_ok os (init_inv H)) as (q' & _ & HI & Ht).
  set (x := fst (run (sys_init storage) os)) in *.
  destruct (step_ok (OpFill k bs) HI) as (q1 & Ha & HI1 & Ht1).
  assert (rv (fst (step x (OpFill k bs))) = Some v /\ queue q1 = queue q' /\ ro (buf (fst (step x (OpFill k bs)))) = ro (buf x)) as (Hv1 & Hq1 & Hro).
  { unfold step in *. destruct (wv x) as [w|]; cbn [fst snd buf rv wv] in *.
    - destruct ((0 <=? k) && (k + zlen bs <=? snd w)); cbn [fst snd buf rv wv] in *; split; auto; inversion Ha; subst; auto.
    - split; auto. inversion Ha; subst; auto. }
  split; [|exact Hv1].
  destruct HI as (HR & HW & HD). destruct HI1 as (HR1 & HW1 & HD1).
  rewrite Hr in HD. rewrite Hv1 in HD1.
  destruct (rcnt q') as [m|]; [|contradiction]. destruct (rcnt q1) as [m1|]; [|contradiction].
  destruct HD as (E1 & E2 & E3). destruct HD1 as (F1 & F2 & F3).
  assert (m = m1) by lia. subst m1.
  destruct (rep_ravail_prefix HR E3) as (b & Hb & Lb).
  destruct (rep_ravail_prefix HR1 F3) as (c & Hc & Lc).
  rewrite Hq1, Hb in Hc. apply app_inj_len in Hc; [|lia]. destruct Hc as [Hc _].
  unfold view_bytes. rewrite E2. rewrite F1 at 1. rewrite E1. congruence.
Qed.

End P.
