(** PacketBuffer refines a FIFO of packets. *)
From Verif Require Import Base BithreadModel BithreadProofs PacketModel PacketSpec.
Set Implicit Arguments.
Local Open Scope Z_scope.

Section P.
Variables A M : Type.
Implicit Types (s : bcb A) (x : pbuf A M) (q : qst A M).

Definition cat (l : list (packet A M)) : list A := concat (map fst l).
Definition info (l : list (packet A M)) : list (Z * M) := map (fun p => (zlen (fst p), snd p)) l.

Lemma cat_app l1 l2 : cat (l1 ++ l2) = cat l1 ++ cat l2.
Proof. unfold cat. rewrite map_app. apply concat_app. Qed.
Lemma cat_cons p l : cat (p :: l) = fst p ++ cat l.
Proof. reflexivity. Qed.
Lemma bytes_cat l : bytes_of l = zlen (cat l).
Proof. induction l as [|p l IH]; [reflexivity|]. rewrite cat_cons, zlen_app, <- IH. reflexivity. Qed.
Lemma info_app l1 l2 : info (l1 ++ l2) = info l1 ++ info l2.
Proof. apply map_app. Qed.

(** ** More about the ring *)
Lemma rep_contig_lt s b : Rep s b -> contig s = true -> wo s < total_size s.
Proof.
  intros [[Hc (f1 & f2 & Hs & Hr & Hw & Hf)] | [Hc _]] H; [|congruence].
  unfold total_size. rewrite Hs, !zlen_app. lia.
Qed.
Lemma rep_noncontig s b : Rep s b -> contig s = false -> 0 < ravail s /\ ro s < total_size s.
Proof.
  intros [[Hc _] | [Hc (dt & f & dh & Hs & Hw & Hr & Hq & Hd)]] H; [congruence|].
  unfold ravail. rewrite Hc. unfold total_size. rewrite Hs, !zlen_app. lia.
Qed.
Lemma rep_ravail_contig s b : Rep s b -> contig s = true -> ravail s = zlen b.
Proof.
  intros [[Hc (f1 & f2 & Hs & Hr & Hw & Hf)] | [Hc _]] H; [|congruence].
  unfold ravail. rewrite Hc. lia.
Qed.
Lemma rep_nil_contig s : Rep s [] -> contig s = true.
Proof.
  intros [[Hc _] | [Hc (dt & f & dh & Hs & Hw & Hr & Hq & Hd)]]; [exact Hc|].
  symmetry in Hq. apply app_eq_nil in Hq. destruct Hq as [-> _]. unfold zlen in Hd; cbn in Hd. lia.
Qed.
Lemma rep_prefix s a b : Rep s (a ++ b) -> zlen a <= ravail s -> slice (ro s) (zlen a) (st s) = a.
Proof.
  intros HR Hle. destruct (@rep_ravail_prefix A s (a ++ b) (zlen a) HR) as (r & Hr & Hl).
  - pose proof (zlen_nonneg a). lia.
  - apply app_inj_len in Hr; [|symmetry; exact Hl]. destruct Hr as [Hr _]. symmetry. exact Hr.
Qed.

Lemma pop_contig s a b s' : Rep s (a ++ b) -> zlen a <= ravail s -> pop s (zlen a) = Some s' ->
  (contig s = true -> contig s' = true) /\
  (contig s = false -> zlen a < ravail s -> contig s' = false /\ ravail s' = ravail s - zlen a) /\
  (contig s = false -> zlen a = ravail s -> contig s' = true).
Proof.
  intros HR Hle Hp. pose proof (rep_sizes HR) as HS. unfold pop in Hp.
  destruct (ro s + zlen a <=? total_size s); [|discriminate]. injection Hp as <-.
  split; [|split].
  - intros Hc. pose proof (rep_contig_lt HR Hc) as Hw. unfold ravail in Hle. rewrite Hc in Hle.
    destruct (Z.eqb_spec (ro s + zlen a) (total_size s)); [lia|exact Hc].
  - intros Hc Hl. unfold ravail in *. rewrite Hc in *. destruct (Z.eqb_spec (ro s + zlen a) (total_size s)); [lia|].
    split; [first [exact Hc|reflexivity]|]. cbn [contig ro]. rewrite ?Hc. unfold total_size. cbn [st]. lia.
  - intros Hc He. unfold ravail in He. rewrite Hc in He.
    destruct (Z.eqb_spec (ro s + zlen a) (total_size s)); [|lia]. cbn [contig]. rewrite Hc. reflexivity.
Qed.

Lemma push_contig s b n s' : Rep s b -> 0 <= n <= wavail s -> push s n = Some s' ->
  (contig s = false -> contig s' = false /\ ravail s' = ravail s) /\
  (contig s = true -> (wo s + n = total_size s /\ contig s' = false /\ wo s' = 0 /\ ravail s' = total_size s - ro s) \/
                      (wo s + n < total_size s /\ contig s' = true)).
Proof.
  intros HR Hn Hp. pose proof (rep_sizes HR) as HS. unfold push in Hp.
  destruct (wo s + n <=? total_size s) eqn:E; [|discriminate]. apply Z.leb_le in E. injection Hp as <-.
  split; intros Hc.
  - pose proof (rep_noncontig HR Hc) as Hro. unfold wavail in Hn. rewrite Hc in Hn.
    destruct (Z.eqb_spec (wo s + n) (total_size s)); [lia|]. split; [exact Hc|].
    unfold ravail. cbn [contig ro]. rewrite Hc. reflexivity.
  - destruct (Z.eqb_spec (wo s + n) (total_size s)); [left|right].
    + cbn [contig wo]. rewrite Hc. repeat split; auto.
    + split; [lia|exact Hc].
Qed.

(** what a fill leaves alone *)
Lemma fill_total s (v : view) k bs : 0 <= fst v + k -> fst v + k + zlen bs <= total_size s -> total_size (fill s v k bs) = total_size s.
Proof. intros. unfold total_size, fill. cbn [st]. apply zlen_splice; unfold total_size in *; lia. Qed.

(** ** Clear *)
Lemma pop_all s b : Rep s b -> exists s' b', pop s (ravail s) = Some s' /\ Rep s' b' /\ st s' = st s /\ wo s' = wo s /\
  wavail s <= wavail s' /\ contig s' = true /\ (contig s = true -> b' = []).
Proof.
  intros HR. pose proof (rep_sizes HR) as HS.
  destruct (@split_at A (ravail s) b) as (a & c & -> & Ha); [lia|].
  destruct (@pop_rep A s a c HR) as (s' & H1 & H2 & H3 & H4 & H5); [lia|].
  destruct (@pop_contig s a c s' HR ltac:(lia) H1) as (C1 & C2 & C3).
  exists s', c. rewrite Ha in H1. repeat split; auto.
  - destruct (contig s) eqn:E; [apply C1; reflexivity|apply C3; [reflexivity|lia]].
  - intros Hc. pose proof (rep_ravail_contig HR Hc) as Hr. rewrite zlen_app in Hr. apply zlen_zero. lia.
Qed.

Lemma drain_contig n s b : Rep s b -> contig s = true ->
  exists s', drain (S (S n)) s = Some s' /\ Rep s' [] /\ st s' = st s /\ wo s' = wo s /\ wavail s <= wavail s'.
Proof.
  intros HR Hc. cbn [drain]. rewrite (read_view_ok HR). cbn [fst snd].
  destruct (Z.eqb_spec (ravail s) 0) as [E|E].
  - exists s. rewrite (rep_ravail_contig HR Hc) in E. apply zlen_zero in E. subst b. repeat split; auto. lia.
  - destruct (pop_all HR) as (s' & b' & H1 & H2 & H3 & H4 & H5 & H6 & H7).
    rewrite H1. rewrite (H7 Hc) in *. rewrite (read_view_ok H2). cbn [fst snd].
    rewrite (rep_ravail_contig H2 H6), zlen_nil. cbn [Z.eqb]. exists s'. repeat split; auto.
Qed.

Lemma drain_ok s b : Rep s b ->
  exists s', drain 3 s = Some s' /\ Rep s' [] /\ st s' = st s /\ wo s' = wo s /\ wavail s <= wavail s'.
Proof.
  intros HR. destruct (contig s) eqn:Hc; [apply (drain_contig 1 HR Hc)|].
  change (drain 3 s) with (match read_view s with None => None | Some r => if snd r =? 0 then Some s
    else match pop s (snd r) with Some s' => drain 2 s' | None => None end end).
  rewrite (read_view_ok HR). cbn [fst snd]. pose proof (rep_noncontig HR Hc) as Hr.
  destruct (Z.eqb_spec (ravail s) 0) as [E|E]; [lia|].
  destruct (pop_all HR) as (s' & b' & H1 & H2 & H3 & H4 & H5 & H6 & H7). rewrite H1.
  destruct (drain_contig 0 H2 H6) as (s2 & G1 & G2 & G3 & G4 & G5). exists s2. rewrite G1.
  repeat split; try congruence; auto. lia.
Qed.

(** ** The invariant *)
Definition wok x q : Prop :=
  match writing x, writer q with
  | None, None => True
  | Some (w, d, m, c), Some ((d', m'), c') => d = d' /\ m = m' /\ c = c' /\ fst w = wo (bb x) /\
      zlen d <= snd w /\ zlen d <= wavail (bb x) /\ (c = true -> slice (wo (bb x)) (zlen d) (st (bb x)) = d)
  | _, _ => False
  end.
Definition rok x q (l1 : list (packet A M)) (pd : list A) : Prop :=
  match reading x with
  | None => reader q = false
  | Some (r, sz, m) => reader q = true /\ fst r = ro (bb x) /\ (l1 = [] -> pd = []) /\
      exists d l, pending q = (d, m) :: l /\ sz = zlen d
  end.
Definition Inv x q : Prop := exists l1 l2 pd,
  pending q = l1 ++ l2 /\ pq x = info (pending q) /\ zlen pd = padding x /\
  Rep (bb x) (cat l1 ++ pd ++ cat l2) /\
  (contig (bb x) = true -> l1 = [] /\ pd = []) /\
  (contig (bb x) = false -> ravail (bb x) = zlen (cat l1) + zlen pd) /\
  (pd <> [] -> l2 <> [] \/ writer q <> None) /\
  wok x q /\ rok x q l1 pd /\ eod x = ended q.

Lemma head_fits s (l1 l2 : list (packet A M)) pd d m l : Rep s (cat l1 ++ pd ++ cat l2) ->
  (contig s = true -> l1 = [] /\ pd = []) -> (contig s = false -> ravail s = zlen (cat l1) + zlen pd) ->
  (l1 = [] -> pd = []) -> l1 ++ l2 = (d, m) :: l ->
  zlen d <= ravail s /\ exists rest, cat l1 ++ pd ++ cat l2 = d ++ rest /\
    ((l1 = [] /\ l2 = (d, m) :: l /\ rest = cat l) \/
     (exists l1', l1 = (d, m) :: l1' /\ l = l1' ++ l2 /\ rest = cat l1' ++ pd ++ cat l2)).
Proof.
  intros HR Hc Hn Hp Hl. destruct l1 as [|p l1].
  - rewrite (Hp eq_refl) in *. cbn [app] in Hl. subst l2. change (cat []) with (@nil A); cbn [app]. rewrite cat_cons. cbn [fst]. split.
    + destruct (contig s) eqn:E.
      * rewrite (rep_ravail_contig HR E). change (cat []) with (@nil A); cbn [app]. rewrite cat_cons, zlen_app. cbn [fst].
        pose proof (zlen_nonneg (cat l)). lia.
      * pose proof (rep_noncontig HR E). specialize (Hn eq_refl). cbn in Hn. change (zlen (@nil A)) with 0 in Hn. lia.
    + exists (cat l). split; [reflexivity|]. left. auto.
  - cbn [app] in Hl. injection Hl as -> <-. rewrite cat_cons. cbn [fst]. split.
    + destruct (contig s) eqn:E; [destruct (Hc eq_refl); discriminate|]. rewrite (Hn eq_refl), cat_cons, zlen_app. cbn [fst].
      pose proof (zlen_nonneg (cat l1)). pose proof (zlen_nonneg pd). lia.
    + exists (cat l1 ++ pd ++ cat l2). rewrite <- app_assoc. split; [reflexivity|]. right. exists l1. auto.
Qed.

Lemma wok_bb x q x' q' : wok x q -> writing x' = writing x -> writer q' = writer q ->
  wo (bb x') = wo (bb x) -> st (bb x') = st (bb x) -> wavail (bb x) <= wavail (bb x') -> wok x' q'.
Proof.
  unfold wok. intros H -> -> Hw Hs Ha. destruct (writing x) as [[[[w d] m] c]|]; [|exact H].
  destruct (writer q) as [[[d' m'] c']|]; [|exact H]. destruct H as (H1 & H2 & H3 & H4 & H5 & H6 & H7).
  rewrite Hw, Hs. repeat split; auto. lia.
Qed.

Ltac lens := repeat rewrite ?zlen_app, ?zlen_cons, ?zlen_nil in *;
  repeat match goal with |- context [zlen ?l] => lazymatch goal with H : 0 <= zlen l |- _ => fail | _ => pose proof (zlen_nonneg l) end
         | H0 : context [zlen ?l] |- _ => lazymatch goal with H : 0 <= zlen l |- _ => fail | _ => pose proof (zlen_nonneg l) end end.

Lemma wok_ends x q : wok x q -> writing x = None <-> writer q = None.
Proof.
  unfold wok. destruct (writing x) as [[[[w d] m] c]|]; destruct (writer q) as [[[d' m'] c']|]; intros H; split; auto; congruence || contradiction.
Qed.

Lemma step_ok (disc : bool) x q o : Inv x q -> snd (step disc x o) <> RClearInCallback ->
  exists q', allowed (total_size (bb x)) disc q o (snd (step disc x o)) q' /\ Inv (fst (step disc x o)) q' /\
    total_size (bb (fst (step disc x o))) = total_size (bb x).
Proof.
  intros HI Hcb. pose proof HI as (l1 & l2 & pd & Hq & Hpq & Hpd & HR & Hc & Hn & Hpp & HW & HD & He).
  pose proof (rep_sizes HR) as HS. pose proof HW as HW0. pose proof HD as HD0.
  destruct x as [s pk pad e w r]; cbn [bb pq padding eod] in *.
  unfold wok in HW; unfold rok in HD; cbn [bb pq padding eod writing reading] in HW, HD.
  unfold step in *; cbn [bb pq padding eod writing reading] in *.
  destruct o as [d m| | | | |pr| | |].
  - (* Process, first part *)
    destruct w as [[[[w d0] m0] c]|]; destruct (writer q) as [[[d1 m1] c1]|] eqn:Ew; try contradiction.
    { exists q. cbn [fst snd]. split; [apply a_busy_write; congruence|]. split; [|reflexivity].
      exact HI. }
    destruct (Z.ltb_spec (total_size s) (zlen d)) as [Hbig|Hfit].
    { exists q. cbn [fst snd]. split; [apply a_toobig; auto|]. split; [|reflexivity].
      exact HI. }
    rewrite (write_view_ok HR) in *. cbn [fst snd] in *.
    set (p := if (wavail s <? zlen d) && is_buffer_end s (wo s, wavail s) then wavail s else 0) in *.
    assert (Hfree : free_size s = total_size s - zlen (cat l1 ++ pd ++ cat l2)) by (unfold free_size; lia).
    destruct (Z.ltb_spec (free_size s) (p + zlen d)) as [Hfull|Hroom].
    { exists q. cbn [fst snd]. split; [|split; [exact HI|reflexivity]].
      apply a_full; auto. destruct (pending q) as [|pk0 lq] eqn:Epq; [right|left; discriminate].
      symmetry in Hq. apply app_eq_nil in Hq. destruct Hq as [-> ->].
      assert (pd = []) as -> by (destruct pd; [reflexivity|]; destruct (Hpp ltac:(discriminate)); congruence).
      cbn in Hfree. change (zlen (@nil A)) with 0 in Hfree. subst p.
      destruct (Z.ltb_spec (wavail s) (zlen d)); cbn [andb] in Hfull; [|lia].
      destruct (is_buffer_end s (wo s, wavail s)); lia. }
    destruct (Z.eqb_spec p 0) as [Hp0|Hp0].
    + cbn [fst snd] in *. exists (mkQ (pending q) (Some ((d, m), false)) (reader q) (ended q)).
      split; [apply a_start; auto; rewrite bytes_cat, Hq, cat_app; lens; subst p; destruct ((wavail s <? zlen d) && is_buffer_end s (wo s, wavail s)); lia|].
      split; [|reflexivity]. exists l1, l2, pd. cbn [bb pq padding eod pending writer ended].
      assert (Hd : zlen d <= wavail s).
      { subst p. destruct (Z.ltb_spec (wavail s) (zlen d)) as [X|X]; [|lia]. cbn [andb] in Hp0, Hroom.
        destruct (contig s) eqn:E.
        - pose proof (rep_contig_lt HR E). unfold is_buffer_end in Hp0. cbn [fst snd] in Hp0.
          assert (Hwa : wavail s = total_size s - wo s) by (unfold wavail; rewrite E; reflexivity).
          destruct (Z.eqb_spec (wo s + wavail s) (total_size s)); lia.
        - assert (Hwa : wavail s = ro s - wo s) by (unfold wavail; rewrite E; reflexivity).
          assert (Hda : data_size s = total_size s - ro s + wo s) by (unfold data_size; rewrite E; reflexivity).
          unfold free_size in *. rewrite Hda in *. destruct (is_buffer_end s (wo s, wavail s)); lia. }
      split; [exact Hq|]. split; [exact Hpq|]. split; [exact Hpd|]. split; [exact HR|].
      split; [exact Hc|]. split; [exact Hn|]. split; [intros _; right; discriminate|].
      split; [unfold wok; cbn [writing writer bb fst snd]; repeat split; auto; discriminate|].
      split; [exact HD0|exact He].
    + (* padding *)
      assert (Hpa : wavail s < zlen d /\ is_buffer_end s (wo s, wavail s) = true /\ p = wavail s).
      { subst p. destruct (Z.ltb_spec (wavail s) (zlen d)); cbn [andb] in *; [|lia].
        destruct (is_buffer_end s (wo s, wavail s)); auto; lia. }
      destruct Hpa as (Hp1 & Hp2 & Hp3). rewrite Hp3 in *. clear p Hp3.
      unfold is_buffer_end in Hp2. cbn [fst snd] in Hp2. apply Z.eqb_eq in Hp2.
      assert (Ec : contig s = true).
      { destruct (contig s) eqn:E; [reflexivity|]. pose proof (rep_noncontig HR E).
        unfold wavail in Hp2. rewrite E in Hp2. lia. }
      destruct (Hc Ec) as [-> ->]. change (cat []) with (@nil A) in *; cbn [app] in *.
      assert (Hwa : wavail s = total_size s - wo s) by (unfold wavail; rewrite Ec; reflexivity).
      assert (Hda : data_size s = wo s - ro s) by (unfold data_size; rewrite Ec; reflexivity).
      set (n := slice (wo s) (wavail s) (st s)) in *.
      assert (Hln : zlen n = wavail s) by (apply slice_zlen; unfold total_size in *; lia).
      destruct (@push_rep A s (cat l2) n n [] HR) as (s' & P1 & P2 & P3 & P4 & P5).
      { rewrite Hln. reflexivity. } { lia. } { rewrite app_nil_r. reflexivity. }
      rewrite Hln in P1. rewrite P1 in *.
      destruct (@push_contig s (cat l2) (wavail s) s' HR ltac:(lia) P1) as [_ PC].
      destruct (PC Ec) as [(C1 & C2 & C3 & C4)|C]; [|lia].
      rewrite (write_view_ok P2). cbn [fst snd] in *.
      exists (mkQ (pending q) (Some ((d, m), false)) (reader q) (ended q)).
      split; [apply a_start; auto; rewrite bytes_cat, Hq; lens; lia|].
      assert (Ht : total_size s' = total_size s) by (unfold total_size; rewrite P3; reflexivity).
      split; [|exact Ht].
      exists l2, [], n. cbn [bb pq padding eod pending writer ended]. rewrite app_nil_r. change (cat []) with (@nil A). rewrite app_nil_r.
      split; [exact Hq|]. split; [exact Hpq|]. split; [exact Hln|]. split; [exact P2|].
      split; [congruence|]. split; [intros _; rewrite C4, Hln; lia|]. split; [right; discriminate|].
      split.
      * unfold wok; cbn [writing writer bb fst snd].
        assert (wavail s' = ro s) by (unfold wavail; rewrite C2, C3, P4; lia).
        assert (zlen d <= ro s) by (unfold free_size in Hroom; lia).
        repeat split; auto; try lia.
      * split; [|exact He]. unfold rok. cbn [reading bb]. destruct r as [[[r sz] m0]|]; [|exact HD].
        destruct HD as (D1 & D2 & D3 & d0 & l & D4 & D5). split; [exact D1|]. split; [rewrite P4; exact D2|].
        split; [|exists d0, l; cbn [pending]; auto]. intros ->. rewrite Hq in D4. discriminate.
  - (* copy *)
    destruct w as [[[[w d0] m0] c]|]; destruct (writer q) as [[[d1 m1] c1]|] eqn:Ew; try contradiction.
    2:{ exists q. cbn [fst snd]. split; [apply a_busy_copy; auto|]. split; [|reflexivity].
        exact HI. }
    destruct HW as (-> & -> & -> & W1 & W2 & W3 & W4).
    destruct (Z.leb_spec (zlen d1) (snd w)); [|lia]. cbn [fst snd] in *.
    exists (mkQ (pending q) (Some ((d1, m1), true)) (reader q) (ended q)).
    split; [apply a_copy with c1; exact Ew|].
    assert (Ht : total_size (fill s w 0 d1) = total_size s) by (apply fill_total; lia).
    split; [|exact Ht].
    exists l1, l2, pd. cbn [bb pq padding eod pending writer ended].
    split; [exact Hq|]. split; [exact Hpq|]. split; [exact Hpd|].
    split; [apply fill_rep; auto; lia|].
    split; [exact Hc|]. split.
    { intros E. unfold ravail in *. rewrite Ht. cbn [fill contig ro wo] in *. apply Hn. exact E. }
    split; [intros _; right; discriminate|].
    split.
    + unfold wok; cbn [writing writer bb]. repeat split; auto.
      * unfold wavail in *. rewrite Ht. exact W3.
      * intros _. cbn [fill wo st]. rewrite W1, Z.add_0_r.
        destruct (@split_at A (wo s) (st s)) as (a & rr & Ha & Hla); [unfold total_size in *; lia|].
        destruct (@split_at A (zlen d1) rr) as (b & c & Hb & Hlb).
        { assert (zlen (st s) = zlen a + zlen rr) by (rewrite Ha, zlen_app; reflexivity). unfold total_size in *. lens. lia. }
        subst rr. rewrite Ha. rewrite splice_app_mid; [|lia|unfold zlen in Hlb; lia].
        apply slice_app_mid; lia.
    + split; [|exact He]. unfold rok. cbn [reading bb]. destruct r as [[[r sz] m0]|]; exact HD.
  - (* commit *)
    destruct w as [[[[w d0] m0] c]|]; destruct (writer q) as [[[d1 m1] c1]|] eqn:Ew; try contradiction.
    2:{ exists q. cbn [fst snd]. split; [apply a_busy_commit; auto|]. split; [|reflexivity].
        exact HI. }
    destruct HW as (-> & -> & -> & W1 & W2 & W3 & W4).
    destruct c1.
    2:{ exists q. cbn [fst snd]. split; [apply a_commit_early with (d1, m1); exact Ew|]. split; [|reflexivity].
        exact HI. }
    specialize (W4 eq_refl).
    destruct (@push_rep A s (cat l1 ++ pd ++ cat l2) d1 d1 [] HR W4 W3) as (s' & P1 & P2 & P3 & P4 & P5).
    { rewrite app_nil_r. reflexivity. }
    rewrite P1 in *. cbn [fst snd] in *.
    pose proof (zlen_nonneg d1) as Hd1.
    destruct (@push_contig s _ (zlen d1) s' HR ltac:(lia) P1) as [PN PC].
    assert (Ht : total_size s' = total_size s) by (unfold total_size; rewrite P3; reflexivity).
    exists (mkQ (pending q ++ [(d1, m1)]) None (reader q) (ended q)).
    split; [apply a_commit; exact Ew|]. split; [|exact Ht].
    assert (Hrok : forall l1' pd', (l1' = [] -> pd' = []) -> rok (mkP s' (pk ++ [(zlen d1, m1)]) pad e None r) (mkQ (pending q ++ [(d1, m1)]) None (reader q) (ended q)) l1' pd' \/ r <> None /\ False \/ True) by auto.
    clear Hrok.
    assert (Hrd : forall l1' pd', (r <> None -> l1' = [] -> pd' = []) ->
      rok (mkP s' (pk ++ [(zlen d1, m1)]) pad e None r) (mkQ (pending q ++ [(d1, m1)]) None (reader q) (ended q)) l1' pd').
    { intros l1' pd' Hx. unfold rok. cbn [reading bb reader pending]. destruct r as [[[r sz] m0]|]; [|exact HD].
      destruct HD as (D1 & D2 & D3 & d0 & l & D4 & D5). split; [exact D1|]. split; [rewrite P4; exact D2|].
      split; [apply Hx; discriminate|]. exists d0, (l ++ [(d1, m1)]). rewrite D4. auto. }
    assert (Hinf : pk ++ [(zlen d1, m1)] = info (pending q ++ [(d1, m1)])) by (rewrite info_app, Hpq; reflexivity).
    destruct (contig s) eqn:E.
    + destruct (Hc eq_refl) as [-> ->]. cbn [app] in *. change (cat [] ++ cat l2) with (cat l2) in *.
      destruct (PC eq_refl) as [(C1 & C2 & C3 & C4)|(C1 & C2)].
      * exists (l2 ++ [(d1, m1)]), [], []. cbn [bb pq padding eod pending writer ended]. rewrite app_nil_r, Hq.
        split; [reflexivity|]. split; [rewrite Hinf, Hq; reflexivity|]. split; [exact Hpd|].
        split; [rewrite cat_app; cbn; rewrite !app_nil_r; exact P2|].
        split; [congruence|]. split; [intros _; rewrite C4, cat_app; cbn; rewrite app_nil_r; change (zlen (@nil A)) with 0; lens;
          assert (data_size s = wo s - ro s) by (unfold data_size; rewrite E; reflexivity); lia|].
        split; [congruence|]. split; [exact I|]. split; [rewrite <- Hq; apply Hrd; auto|exact He].
      * exists [], (l2 ++ [(d1, m1)]), []. cbn [bb pq padding eod pending writer ended app]. rewrite Hq.
        split; [reflexivity|]. split; [rewrite Hinf, Hq; reflexivity|]. split; [exact Hpd|].
        split; [rewrite cat_app; cbn; rewrite !app_nil_r; exact P2|].
        split; [auto|]. split; [congruence|]. split; [congruence|]. split; [exact I|].
        split; [rewrite <- Hq; apply Hrd; auto|exact He].
    + destruct (PN eq_refl) as [C1 C2].
      exists l1, (l2 ++ [(d1, m1)]), pd. cbn [bb pq padding eod pending writer ended]. rewrite Hq, app_assoc.
      split; [reflexivity|]. split; [rewrite Hinf, Hq; reflexivity|]. split; [exact Hpd|].
      split; [rewrite cat_app; cbn; rewrite app_nil_r; rewrite <- !app_assoc in P2; exact P2|].
      split; [congruence|]. split; [intros _; rewrite C2; apply Hn; reflexivity|].
      split; [intros _; left; destruct l2; discriminate|]. split; [exact I|].
      split; [rewrite <- Hq; apply Hrd|exact He].
      intros Hr. destruct r as [[[r sz] m0]|]; [|congruence]. apply HD.
  - (* Read, first part *)
    destruct r as [[[r sz] m0]|].
    { destruct HD as (D1 & D2 & D3 & D4). exists q. cbn [fst snd]. split; [apply a_busy_read; exact D1|]. split; [|reflexivity].
      exact HI. }
    destruct pk as [|[sz m] pk'].
    { assert (Hnil : pending q = []) by (destruct (pending q); [reflexivity|discriminate]).
      exists q. cbn [fst snd]. split.
      - rewrite He. destruct (ended q) eqn:Een; [apply a_read_end|apply a_read_wait]; auto.
      - split; [|reflexivity]. exact HI. }
    destruct (pending q) as [|[d m0] l] eqn:Epend; [discriminate|]. cbn [info map fst snd] in Hpq.
    injection Hpq as -> -> Hpk.
    rewrite (read_view_ok HR) in *. cbn [fst snd] in *.
    assert (Hdone : forall s' l1' l2' pd' pad', l1' ++ l2' = (d, m0) :: l -> zlen pd' = pad' ->
      Rep s' (cat l1' ++ pd' ++ cat l2') -> (contig s' = true -> l1' = [] /\ pd' = []) ->
      (contig s' = false -> ravail s' = zlen (cat l1') + zlen pd') -> (pd' <> [] -> l2' <> [] \/ writer q <> None) ->
      (l1' = [] -> pd' = []) -> wo s' = wo s -> st s' = st s -> wavail s <= wavail s' ->
      exists q', allowed (total_size s) disc q PRead
        (snd (if zlen d <=? ravail s' then (mkP s' ((zlen d, m0) :: pk') pad' e w (Some ((ro s', ravail s'), zlen d, m0)), RPacket (slice (ro s') (zlen d) (st s')) m0)
              else (mkP s' ((zlen d, m0) :: pk') pad' e w None, RThrow))) q' /\
        Inv (fst (if zlen d <=? ravail s' then (mkP s' ((zlen d, m0) :: pk') pad' e w (Some ((ro s', ravail s'), zlen d, m0)), RPacket (slice (ro s') (zlen d) (st s')) m0)
              else (mkP s' ((zlen d, m0) :: pk') pad' e w None, RThrow))) q' /\
        total_size s' = total_size s).
    { intros s' l1' l2' pd' pad' G1 G2 G3 G4 G5 G6 G7 G8 G9 G10.
      destruct (@head_fits s' l1' l2' pd' d m0 l G3 G4 G5 G7 G1) as (F1 & rest & F2 & _).
      destruct (Z.leb_spec (zlen d) (ravail s')); [|lia]. cbn [fst snd].
      rewrite F2 in G3. rewrite (@rep_prefix _ d rest G3 F1).
      exists (mkQ (pending q) (writer q) true (ended q)).
      split; [apply a_read with l; auto|]. split; [|unfold total_size; rewrite G9; reflexivity].
      exists l1', l2', pd'. cbn [bb pq padding eod pending writer ended]. rewrite Epend.
      split; [symmetry; exact G1|]. split; [cbn [info map fst snd]; rewrite <- Hpk; reflexivity|]. split; [exact G2|].
      split; [rewrite F2; exact G3|]. repeat (split; auto).
      + eapply wok_bb; [exact HW0| | | | |]; cbn [writing writer bb]; auto.
      + unfold rok. cbn [reading bb reader fst pending]. repeat (split; auto). exists d, l. auto. }
    destruct ((ravail s =? pad) && is_buffer_end s (ro s, ravail s)) eqn:Epad.
    + apply andb_true_iff in Epad. destruct Epad as [Ea Eb]. apply Z.eqb_eq in Ea.
      unfold is_buffer_end in Eb. cbn [fst snd] in Eb. apply Z.eqb_eq in Eb.
      assert (Ec : contig s = false).
      { destruct (contig s) eqn:E; [|reflexivity]. pose proof (rep_contig_lt HR E).
        unfold ravail in Eb. rewrite E in Eb. lia. }
      pose proof (rep_noncontig HR Ec) as [Hr0 _]. specialize (Hn Ec).
      assert (Hl1 : cat l1 = []) by (apply zlen_zero; lens; lia).
      rewrite Hl1 in *. cbn [app] in *.
      destruct (@pop_rep A s pd (cat l2) HR) as (s' & P1 & P2 & P3 & P4 & P5); [lia|].
      destruct (@pop_contig s pd (cat l2) s' HR ltac:(lia) P1) as (_ & _ & PC).
      rewrite Hpd in P1. rewrite P1 in *. rewrite (read_view_ok P2) in *. cbn [fst snd] in *.
      assert (C1 : contig s' = true) by (apply PC; [exact Ec|lia]).
      destruct (Hdone s' [] (l1 ++ l2) [] 0) as (q' & X1 & X2 & X3); auto; [..|exists q'; split; [exact X1|]; split; [exact X2|]; destruct (zlen d <=? ravail s'); exact X3].
      * change (cat []) with (@nil A); cbn [app]. rewrite cat_app, Hl1. exact P2.
      * congruence.
    + cbn [fst snd] in *. destruct (Hdone s l1 l2 pd pad) as (q' & X1 & X2 & X3); auto; [|lia|exists q'; split; [exact X1|]; split; [exact X2|]; destruct (zlen d <=? ravail s); exact X3].
      intros ->. destruct (contig s) eqn:E; [apply Hc; reflexivity|].
      (* not contiguous with nothing before the padding: it would have been recognised *)
      specialize (Hn eq_refl). cbn in Hn. change (zlen (@nil A)) with 0 in Hn.
      apply andb_false_iff in Epad. destruct Epad as [Ea|Eb].
      * apply Z.eqb_neq in Ea. lia.
      * unfold is_buffer_end in Eb. cbn [fst snd] in Eb. apply Z.eqb_neq in Eb. unfold ravail in Eb. rewrite E in Eb. lia.
  - (* look *)
    destruct r as [[[r sz] m0]|].
    2:{ exists q. cbn [fst snd]. split; [apply a_busy_look; exact HD|]. split; [|reflexivity].
        exact HI. }
    destruct HD as (D1 & D2 & D3 & d & l & D4 & ->). cbn [fst snd] in *.
    exists q. split; [|split; [exact HI|reflexivity]].
    destruct (@head_fits s l1 l2 pd d m0 l HR Hc Hn D3 (eq_trans (eq_sym Hq) D4)) as (F1 & rest & F2 & _).
    rewrite F2 in HR. rewrite D2, (@rep_prefix _ d rest HR F1). apply a_look with m0 l; auto.
  - (* done *)
    destruct r as [[[r sz] m0]|].
    2:{ exists q. cbn [fst snd]. split; [apply a_busy_done; exact HD|]. split; [|reflexivity].
        exact HI. }
    destruct HD as (D1 & D2 & D3 & d & l & D4 & ->).
    destruct pr; cbn [negb] in *.
    2:{ exists (mkQ (pending q) (writer q) false (ended q)). cbn [fst snd]. split; [apply a_done_false; exact D1|].
        split; [|reflexivity]. exists l1, l2, pd. cbn. repeat (split; auto). }
    destruct (@head_fits s l1 l2 pd d m0 l HR Hc Hn D3 (eq_trans (eq_sym Hq) D4)) as (F1 & rest & F2 & F3).
    rewrite F2 in HR.
    destruct (@pop_rep A s d rest HR F1) as (s' & P1 & P2 & P3 & P4 & P5).
    destruct (@pop_contig s d rest s' HR F1 P1) as (PA & PB & PC).
    rewrite P1 in *. rewrite D4 in Hpq. cbn [info map fst snd] in Hpq. rewrite Hpq in *. cbn [fst snd] in *.
    exists (mkQ l (writer q) false (ended q)). split; [apply a_done_true with (d, m0); auto|].
    split; [|cbn [bb]; unfold total_size; rewrite P3; reflexivity].
    assert (HWk : wok (mkP s' (map (fun p => (zlen (fst p), snd p)) l) pad e w None) (mkQ l (writer q) false (ended q))).
    { eapply wok_bb; [exact HW0| | | | |]; cbn [writing writer bb]; auto. }
    destruct F3 as [(-> & -> & ->)|(l1' & -> & -> & ->)].
    + rewrite (D3 eq_refl) in *. change (cat []) with (@nil A) in *; cbn [app] in *.
      assert (Ec : contig s = true).
      { destruct (contig s) eqn:E; [reflexivity|]. pose proof (rep_noncontig HR E) as [X _]. specialize (Hn eq_refl). cbn in Hn.
        change (zlen (@nil A)) with 0 in Hn. lia. }
      exists [], l, []. cbn [bb pq padding eod pending writer ended app].
      split; [reflexivity|]. split; [reflexivity|]. split; [exact Hpd|]. split; [exact P2|].
      split; [auto|]. split; [intros X; rewrite (PA Ec) in X; discriminate|].
      split; [intros X; congruence|]. split; [exact HWk|]. split; [reflexivity|exact He].
    + assert (Ec : contig s = false) by (destruct (contig s); [destruct (Hc eq_refl); discriminate|reflexivity]).
      specialize (Hn Ec). rewrite cat_cons in Hn. cbn [fst] in Hn. rewrite zlen_app in Hn.
      destruct (Z.eq_dec (zlen d) (ravail s)) as [Eq|Ne].
      * assert (cat l1' = [] /\ pd = []) as [X1 ->].
        { lens. split; apply zlen_zero; lia. }
        exists [], (l1' ++ l2), []. cbn [bb pq padding eod pending writer ended app].
        split; [reflexivity|]. split; [reflexivity|]. split; [exact Hpd|].
        split; [rewrite cat_app; exact P2|].
        split; [auto|]. split; [intros X; rewrite (PC Ec Eq) in X; discriminate|].
        split; [intros X; congruence|]. split; [exact HWk|]. split; [reflexivity|exact He].
      * destruct (PB Ec ltac:(lens; lia)) as [C1 C2].
        exists l1', l2, pd. cbn [bb pq padding eod pending writer ended].
        split; [reflexivity|]. split; [reflexivity|]. split; [exact Hpd|]. split; [exact P2|].
        split; [congruence|]. split; [intros _; lia|].
        split; [exact Hpp|]. split; [exact HWk|]. split; [reflexivity|exact He].
  - (* Clear *)
    destruct r as [[[r sz] m0]|].
    { destruct (drain_ok HR) as (s' & P1 & P2 & P3 & P4 & P5). rewrite P1 in Hcb. cbn [snd] in Hcb. congruence. }
    destruct (drain_ok HR) as (s' & P1 & P2 & P3 & P4 & P5). rewrite P1. cbn [fst snd].
    exists (mkQ [] (writer q) false false). split; [apply a_clear; exact HD|].
    split; [|cbn [bb]; unfold total_size; rewrite P3; reflexivity].
    exists [], [], []. cbn [bb pq padding eod pending writer ended app]. repeat (split; auto); try congruence.
    + intros X. rewrite (rep_nil_contig P2) in X. discriminate.
    + eapply wok_bb; [exact HW0| | | | |]; cbn [writing writer bb]; auto.
  - (* EndOfData *)
    exists (mkQ (pending q) (writer q) (reader q) true). cbn [fst snd]. split; [apply a_end|]. split; [|reflexivity].
    exists l1, l2, pd. cbn [bb pq padding eod pending writer ended]. repeat (split; auto).
  - (* size *)
    exists q. cbn [fst snd]. split; [|split; [exact HI|reflexivity]].
    apply a_size. rewrite bytes_cat, Hq, cat_app. lens. lia.
Qed.

Lemma init_inv (storage : list A) : storage <> [] -> Inv (pinit M storage) (mkQ [] None false false).
Proof.
  intros H. exists [], [], []. cbn. repeat (split; auto); try congruence.
  left. cbn. split; [reflexivity|]. exists [], storage. cbn. repeat split; auto.
  destruct storage; [congruence|]. lens; lia.
Qed.

Lemma run_ok disc os : forall x q, Inv x q -> ~ In RClearInCallback (snd (run disc x os)) ->
  exists q', allowed_run (total_size (bb x)) disc q os (snd (run disc x os)) q' /\ Inv (fst (run disc x os)) q' /\
    total_size (bb (fst (run disc x os))) = total_size (bb x).
Proof.
  induction os as [|o os IH]; intros x q HI Hnc.
  - exists q. cbn. split; [constructor|auto].
  - cbn [run] in *. destruct (step disc x o) as [x1 r] eqn:E1. destruct (run disc x1 os) as [x2 rs] eqn:E2.
    cbn [fst snd] in *.
    destruct (@step_ok disc x q o HI) as (q1 & Ha & HI1 & Ht1).
    { rewrite E1. cbn [snd]. intros X. apply Hnc. left. exact X. }
    rewrite E1 in Ha, HI1, Ht1. cbn [fst snd] in *.
    destruct (IH x1 q1 HI1) as (q2 & Ha2 & HI2 & Ht2).
    { rewrite E2. cbn [snd]. intros X. apply Hnc. right. exact X. }
    rewrite E2 in Ha2, HI2, Ht2. cbn [fst snd] in *.
    exists q2. rewrite Ht1 in Ha2. split; [econstructor; eauto|]. split; [exact HI2|lia].
Qed.

End P.
