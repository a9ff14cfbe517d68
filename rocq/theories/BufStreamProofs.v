From Verif Require Import Base BufStreamModel BufStreamSpec.
Set Implicit Arguments.
Local Open Scope Z_scope.

Section P.
Variable A : Type.
Implicit Types (f : Z -> A) (s : bst A) (x : file A).

Lemma zlen_bytes f p k : 0 <= k -> zlen (bytes f p k) = k.
Proof. intros H. unfold bytes, zlen. rewrite map_length, seq_length. lia. Qed.
Lemma bytes_app f p a b : 0 <= a -> 0 <= b -> bytes f p a ++ bytes f (p + a) b = bytes f p (a + b).
Proof.
  intros Ha Hb. unfold bytes. replace (Z.to_nat (a + b)) with (Z.to_nat a + Z.to_nat b)%nat by lia.
  rewrite seq_app, map_app. f_equal.
  generalize (Z.to_nat b) as n. intros n. assert (E : forall m k, map (fun i => f (p + a + Z.of_nat i)) (seq k m) = map (fun i => f (p + Z.of_nat i)) (seq (Z.to_nat a + k) m)).
  { induction m as [|m IH]; cbn; intros k; auto. f_equal; [f_equal; lia|]. rewrite IH. f_equal. f_equal. lia. }
  rewrite E. now rewrite Nat.add_0_r.
Qed.
Lemma bytes_split f p k o n : 0 <= o -> 0 <= n -> o + n <= k ->
  bytes f p k = bytes f p o ++ bytes f (p + o) n ++ bytes f (p + o + n) (k - o - n).
Proof. intros. rewrite bytes_app by lia. rewrite bytes_app by lia. f_equal. lia. Qed.
Lemma slice_bytes f p k o n : 0 <= o -> 0 <= n -> o + n <= k -> slice o n (bytes f p k) = bytes f (p + o) n.
Proof. intros. rewrite (@bytes_split f p k o n) by lia. apply slice_app_mid; [now rewrite zlen_bytes|now rewrite zlen_bytes]. Qed.
Lemma slice_firstn (l : list A) o n m : 0 <= o -> 0 <= n -> o + n <= m -> slice o n (firstn (Z.to_nat m) l) = slice o n l.
Proof.
  intros. unfold slice. rewrite skipn_firstn_comm. rewrite firstn_firstn. f_equal. lia.
Qed.
Lemma splice0 (d l : list A) : zlen d <= zlen l -> firstn (length d) (splice 0 d l) = d.
Proof. intros H. unfold splice. cbn [Z.to_nat firstn app]. rewrite firstn_app, Nat.sub_diag, firstn_O, app_nil_r. apply firstn_all. Qed.

Lemma align_down_spec o a : 0 < a -> 0 <= o ->
  0 <= align_down o a <= o /\ o - align_down o a < a /\ align_down o a mod a = 0.
Proof.
  intros Ha Ho. unfold align_down. pose proof (Z.div_mod o a). pose proof (Z.mod_pos_bound o a Ha).
  assert (0 <= o / a) by (apply Z.div_pos; lia). repeat split; try nia. rewrite Z.mul_comm. apply Z.mod_mul. lia.
Qed.

Record Inv s x : Prop := mkInv {
  V_f : uf (us s) = ff x; V_l : ulen (us s) = fl x; V_t : tell s = fp x;
  V_al : 0 < al s; V_cap : al s <= zlen (bb s);
  V_bo : 0 <= bo s; V_bom : bo s mod al s = 0; V_ib : 0 <= ib s;
  V_bs : 0 <= bs s <= zlen (bb s);
  V_emp : bs s = 0 -> upos (us s) = bo s /\ ib s < al s;
  V_full : 0 < bs s -> firstn (Z.to_nat (bs s)) (bb s) = bytes (uf (us s)) (bo s) (bs s) /\ bo s + bs s <= ulen (us s) /\ ib s <= bs s;
  V_log : Forall (fun p => p mod al s = 0) (rlog s)
}.

Lemma seek_stream_Inv s x o : Inv s x -> 0 <= o -> forall u f l, uf u = f -> ulen u = l ->
  Inv (seek_stream (mkB u (bb s) (bs s) (bo s) (ib s) (al s) (rlog s)) o) (mkF f l o).
Proof.
  intros HI Ho u f l Hf Hl. destruct (align_down_spec (V_al HI) Ho) as (B1 & B2 & B3).
  split; cbn [seek_stream us uf ulen upos bb bs bo ib al rlog ff fl fp useek tell]; try apply HI; auto; try lia.
  - unfold tell; cbn. lia.
  - pose proof (V_bs HI). lia.
Qed.

Lemma seek_in_Inv s x o s' : Inv s x -> seek_in s o = Some s' -> Inv s' (mkF (ff x) (fl x) o).
Proof.
  intros HI H. unfold seek_in in H. destruct ((bo s <=? o) && (o - bo s <? bs s)) eqn:C; [|discriminate]. injection H as <-.
  destruct HI. split; cbn [us uf ulen upos bb bs bo ib al rlog ff fl fp]; auto; try lia.
  - unfold tell; cbn. lia.
  - intros Hb. destruct (V_full0 Hb) as (F1 & F2 & F3). split; auto. split; auto. lia.
Qed.

(** the condition under which a refill reaches the position *)
Definition okread (greedy : bool) s := al s = 1 \/ (greedy = true /\ tell s <= ulen (us s)).

Lemma seek_stream_okread greedy s x : Inv s x -> 0 <= tell s -> okread greedy s -> okread greedy (seek_stream s (tell s)).
Proof.
  intros HI Ht [H|(H1 & H2)]; [left; exact H|right]. split; auto. unfold tell, seek_stream in *; cbn in *. lia.
Qed.

Lemma rd_spec greedy fuel : forall s x want acc ans tk r,
  Inv s x -> okread greedy s -> zlen acc <= want -> want < 2 ^ 64 ->
  rd greedy fuel s want acc ans tk = r ->
  match r with
  | RUB _ => False
  | RBad _ => True
  | RDone s' d rest =>
      exists e, d = acc ++ e /\ zlen e <= want - zlen acc /\ e = bytes (ff x) (fp x) (zlen e) /\
        (e = [] \/ fp x + zlen e <= fl x) /\ Inv s' (mkF (ff x) (fl x) (fp x + zlen e)) /\
        (want - zlen acc < Z.of_nat fuel -> Z.of_nat fuel <= Z.of_nat tk ->
           (greedy = true -> zlen e = Z.min (want - zlen acc) (Z.max 0 (fl x - fp x))) /\
           (al s = 1 -> zlen e = want - zlen acc \/ exists pre, ans = pre ++ 0 :: rest))
  end.
Proof.
  induction fuel as [|fuel IH]; intros s x want acc ans tk r HI Hok Hacc Hw Hr.
  - cbn in Hr. subst r. exists []. rewrite app_nil_r, zlen_nil, Z.add_0_r.
    split; auto. split; [lia|]. split; [reflexivity|]. split; auto. split; [destruct x; exact HI|]. lia.
  - cbn [rd] in Hr.
    assert (Hdone : forall s', Inv s' x -> (exists e : list A, acc = acc ++ e /\ zlen e <= want - zlen acc /\ e = bytes (ff x) (fp x) (zlen e) /\
        (e = [] \/ fp x + zlen e <= fl x) /\ Inv s' (mkF (ff x) (fl x) (fp x + zlen e)) /\ zlen e = 0)).
    { intros s' HI'. exists []. rewrite app_nil_r, zlen_nil, Z.add_0_r. split; auto. split; [lia|]. split; [reflexivity|]. split; auto. split; auto.
      destruct x; exact HI'. }
    destruct (Z.ltb_spec (zlen acc) want) as [Hlt|Hge].
    2:{ subst r. destruct (Hdone s HI) as (e & E1 & E2 & E3 & E4 & E5 & E6). exists e. refine (conj E1 (conj E2 (conj E3 (conj E4 (conj E5 _))))). intros _ _. split; [intros; lia|left; lia]. }
    destruct tk as [|tk].
    { subst r. destruct (Hdone s HI) as (e & E1 & E2 & E3 & E4 & E5 & E6). exists e. refine (conj E1 (conj E2 (conj E3 (conj E4 (conj E5 _))))). intros; lia. }
    (* copying from a filled buffer *)
    assert (Hcopy : forall s1 ans1, Inv s1 x -> al s1 = al s -> okread greedy s1 -> 0 < bs s1 -> ib s1 < bs s1 ->
      forall r1, (let n := Z.min (want - zlen acc) (wrap (bs s1 - ib s1)) in
       if ib s1 + n <=? zlen (bb s1)
       then rd greedy fuel (mkB (us s1) (bb s1) (bs s1) (bo s1) (ib s1 + n) (al s1) (rlog s1)) want (acc ++ slice (ib s1) n (bb s1)) ans1 tk
       else RUB A) = r1 ->
      match r1 with
      | RUB _ => False
      | RBad _ => True
      | RDone s' d rest =>
        exists e, d = acc ++ e /\ zlen e <= want - zlen acc /\ e = bytes (ff x) (fp x) (zlen e) /\
          (e = [] \/ fp x + zlen e <= fl x) /\ Inv s' (mkF (ff x) (fl x) (fp x + zlen e)) /\
          (want - zlen acc < Z.of_nat (S fuel) -> Z.of_nat (S fuel) <= Z.of_nat (S tk) ->
             (greedy = true -> zlen e = Z.min (want - zlen acc) (Z.max 0 (fl x - fp x))) /\
             (al s = 1 -> zlen e = want - zlen acc \/ exists pre, ans1 = pre ++ 0 :: rest))
      end).
    { intros s1 ans1 HI1 Hal1 Hok1 Hb1 Hi1 r1 Hr1.
      unfold wrap in Hr1. destruct (Z.ltb_spec (bs s1 - ib s1) 0) as [?|_]; [lia|].
      cbv zeta in Hr1. set (n := Z.min (want - zlen acc) (bs s1 - ib s1)) in *.
      assert (Hn : 0 < n <= bs s1 - ib s1) by lia. pose proof (V_bs HI1) as Hbs. pose proof (V_ib HI1) as Hib.
      destruct (Z.leb_spec (ib s1 + n) (zlen (bb s1))) as [_|?]; [|lia].
      destruct (V_full HI1 Hb1) as (F1 & F2 & F3).
      assert (Hsl : slice (ib s1) n (bb s1) = bytes (ff x) (fp x) n).
      { rewrite <- (@slice_firstn (bb s1) (ib s1) n (bs s1)) by lia. rewrite F1, slice_bytes by lia. rewrite (V_f HI1).
        f_equal. rewrite <- (V_t HI1). reflexivity. }
      rewrite Hsl in Hr1. set (s2 := mkB (us s1) (bb s1) (bs s1) (bo s1) (ib s1 + n) (al s1) (rlog s1)) in *.
      assert (HI2 : Inv s2 (mkF (ff x) (fl x) (fp x + n))).
      { pose proof (V_t HI1) as Vt. destruct HI1. subst s2. split; cbn [us uf ulen upos bb bs bo ib al rlog ff fl fp] in *; auto; try lia.
        - unfold tell in *; cbn. lia.
        - intros _. split; auto. split; auto. lia. }
      assert (Hpos : fp x + n <= fl x). { rewrite <- (V_t HI1), <- (V_l HI1). unfold tell. lia. }
      assert (Hok2 : okread greedy s2).
      { destruct Hok1 as [Hok1|(Hg & _)]; [left; exact Hok1|right]. split; auto. rewrite (V_t HI2), (V_l HI2). cbn. lia. }
      assert (Ha2 : zlen (acc ++ bytes (ff x) (fp x) n) = zlen acc + n) by (rewrite zlen_app, zlen_bytes by lia; lia).
      specialize (IH s2 (mkF (ff x) (fl x) (fp x + n)) want (acc ++ bytes (ff x) (fp x) n) ans1 tk r1 HI2 Hok2).
      rewrite Ha2 in IH. cbn [ff fl fp] in IH. specialize (IH ltac:(lia) Hw Hr1).
      destruct r1 as [s' d rest| |]; auto. destruct IH as (e & E1 & E2 & E3 & E4 & E5 & E6).
      exists (bytes (ff x) (fp x) n ++ e). rewrite zlen_app, zlen_bytes by lia.
      split; [rewrite app_assoc; exact E1|]. split; [lia|]. pose proof (zlen_nonneg e) as He.
      split; [rewrite <- bytes_app by lia; f_equal; exact E3|].
      split; [right; destruct E4 as [-> | E4]; [rewrite zlen_nil; lia|lia]|].
      split; [replace (fp x + (n + zlen e)) with (fp x + n + zlen e) by lia; exact E5|].
      intros Hfu Htk. destruct E6 as (G1 & G2); [lia|lia|]. split.
      - intros Hg. specialize (G1 Hg). lia.
      - intros Ha. destruct G2 as [G2|G2]; [subst s2; cbn; lia|left; lia|right; exact G2]. }
    destruct ((bs s =? 0) || (ib s =? bs s)) eqn:Cref.
    2:{ (* bytes are left in the buffer *)
      assert (Hb : 0 < bs s) by (pose proof (V_bs HI); lia). destruct (V_full HI Hb) as (F1 & F2 & F3).
      exact (Hcopy s ans HI eq_refl Hok Hb ltac:(lia) r Hr). }
    set (s1 := if bs s =? 0 then s else seek_stream s (tell s)) in *.
    assert (Htell : 0 <= tell s) by (unfold tell; pose proof (V_bo HI); pose proof (V_ib HI); lia).
    assert (H1 : Inv s1 x /\ bs s1 = 0 /\ okread greedy s1 /\ al s1 = al s).
    { subst s1. destruct (Z.eqb_spec (bs s) 0); [auto|]. split; [|split; [reflexivity|split; [eapply seek_stream_okread; eauto|reflexivity]]].
      pose proof (@seek_stream_Inv s x (tell s) HI Htell (us s) (ff x) (fl x) (V_f HI) (V_l HI)) as K.
      destruct s; rewrite (V_t HI) in *; destruct x; exact K. }
    destruct H1 as (HI1 & Hb0 & Hok1 & Hal1). clearbody s1.
    destruct ans as [|k ans]; [subst r; exact I|].
    destruct (uread greedy (us s1) (zlen (bb s1)) k) as [[d u']|] eqn:Eu; [|subst r; exact I].
    unfold uread in Eu. destruct ((0 <=? k) && (k <=? zlen (bb s1)) && ((k =? 0) || (upos (us s1) + k <=? ulen (us s1))) &&
     (negb greedy || (k =? Z.min (zlen (bb s1)) (Z.max 0 (ulen (us s1) - upos (us s1)))))) eqn:Cu; [|discriminate]. injection Eu as <- <-.
    destruct (V_emp HI1 Hb0) as (Hup & Hib1). pose proof (V_cap HI1) as Hcap. pose proof (V_ib HI1) as Hib0.
    rewrite Hup in *.
    set (s2 := mkB _ _ _ _ _ _ _) in Hr.
    assert (Hk : 0 <= k <= zlen (bb s1)) by lia.
    assert (HI2 : ib s1 <= k \/ k = 0 -> Inv s2 x).
    { intros Hge. pose proof (V_t HI1) as Vt. pose proof (zlen_bytes (uf (us s1)) (bo s1) (proj1 Hk)) as Hzb. destruct HI1. subst s2.
      assert (Hsp : zlen (splice 0 (bytes (uf (us s1)) (bo s1) k) (bb s1)) = zlen (bb s1)) by (apply zlen_splice; lia).
      split; cbn [us uf ulen upos bb bs bo ib al rlog] in *; auto; try lia; try (rewrite Hsp; lia).
      - intros Hkp. split; [|lia]. rewrite <- Hzb at 1. rewrite to_nat_zlen. apply splice0. lia.
      - apply Forall_app. split; auto. }
    assert (Hgr : greedy = true -> k = Z.min (zlen (bb s1)) (Z.max 0 (ulen (us s1) - bo s1))).
    { intros ->. cbn [negb orb] in Cu. lia. }
    assert (Hgek : ib s1 <= k \/ k = 0).
    { destruct Hok1 as [Ho|(Hg & Ho)]; [lia|]. specialize (Hgr Hg). unfold tell in Ho. lia. }
    specialize (HI2 Hgek). cbn [ib] in Hr.
    assert (Eib : ib s2 = ib s1) by reflexivity. assert (Ebs : bs s2 = k) by reflexivity. rewrite Eib in Hr.
    destruct ((k =? 0) || (ib s1 =? k)) eqn:Cstop.
    + subst r. destruct (Hdone s2 HI2) as (e & E1 & E2 & E3 & E4 & E5 & E6). exists e. refine (conj E1 (conj E2 (conj E3 (conj E4 (conj E5 _))))). intros _ _. split.
      * intros Hg. specialize (Hgr Hg). rewrite E6. rewrite <- (V_t HI1), <- (V_l HI1). unfold tell. lia.
      * intros Ha. right. exists []. cbn. f_equal. rewrite <- Hal1 in Ha. lia.
    + assert (Hlt1 : ib s2 < bs s2) by lia.
      assert (Hok2 : okread greedy s2).
      { destruct Hok1 as [Ho|(Hg & Ho)]; [left; exact Ho|right; split; [exact Hg|exact Ho]]. }
      specialize (Hcopy s2 ans HI2 Hal1 Hok2 ltac:(lia) Hlt1 r Hr).
      destruct r as [s' d rest| |]; auto. destruct Hcopy as (e & E1 & E2 & E3 & E4 & E5 & E6). exists e. refine (conj E1 (conj E2 (conj E3 (conj E4 (conj E5 _))))). intros Hf Ht. destruct (E6 Hf Ht) as (G1 & G2). split; [exact G1|].
      intros Ha. destruct (G2 Ha) as [E7|(pre & ->)]; [left; exact E7|right; exists (k :: pre); reflexivity].
Qed.
End P.
