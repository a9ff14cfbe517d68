(** Proofs about the memory streams and the stream windows. *)
From Verif Require Import Base MemStreamModel MemStreamSpec.
Local Open Scope Z_scope.

Lemma zlen_nonneg {A} (l : list A) : 0 <= zlen l.
Proof. unfold zlen. lia. Qed.
Lemma zlen_app {A} (a b : list A) : zlen (a ++ b) = zlen a + zlen b.
Proof. unfold zlen. rewrite app_length. lia. Qed.

(** * MemoryByteStream *)
Definition mem_rel (s : mem) (t : list byte * nat) : Prop :=
  m_data s = fst t /\ m_off s = Z.of_nat (snd t) /\ (snd t <= length (fst t))%nat.

Lemma to_int_small x : 0 <= x < 2 ^ 31 -> to_int x = x.
Proof. intros H. unfold to_int. rewrite Z.mod_small by lia. destruct (Z.ltb_spec x (2 ^ 31)); lia. Qed.

Lemma firstn_clip {A} n (l : list A) : firstn n l = firstn (Nat.min n (length l)) l.
Proof. destruct (Nat.le_ge_cases n (length l)); [f_equal; lia | rewrite !firstn_all2 by lia; reflexivity]. Qed.

Lemma over_length l p d : (p <= length l)%nat -> length (over l p d) = Nat.max (length l) (p + length d).
Proof. intros H. unfold over. rewrite !app_length, firstn_length, skipn_length. lia. Qed.

Lemma mem_sim kd s t o : mem_rel s t -> sane o -> zlen (m_data s) < 2 ^ 31 ->
  fst (mem_step kd s o) = fst (mspec kd t o) /\ mem_rel (snd (mem_step kd s o)) (snd (mspec kd t o)).
Proof.
  destruct s as [dat off], t as [l p]. unfold mem_rel. cbn [m_data m_off fst snd]. intros (-> & -> & Hp) Hs Hsz.
  destruct o as [n k | d k | o m | ]; cbn [mem_step mspec m_data m_off].
  - cbn [sane] in Hs. rewrite Nat2Z.id.
    assert (E : firstn (Z.to_nat (Z.min n (zlen l - Z.of_nat p))) (skipn p l) = firstn (Z.to_nat n) (skipn p l)).
    { rewrite (firstn_clip (Z.to_nat n)). f_equal. rewrite skipn_length. unfold zlen. lia. }
    rewrite E. cbn [fst snd m_data m_off]. split; [reflexivity | ]. split; [reflexivity | ].
    rewrite firstn_length, skipn_length. unfold zlen. lia.
  - destruct kd; cbn [fst snd m_data m_off].
    + assert (Hd : exists l', (if zlen l - Z.of_nat p <? zlen d then require_size l (Z.of_nat p + zlen d) else l) = l' /\
                    zlen l' - Z.of_nat p >= zlen d /\ put l' (Z.of_nat p) d = over l p d).
      { destruct (Z.ltb_spec (zlen l - Z.of_nat p) (zlen d)) as [Hc | Hc].
        - eexists. split; [reflexivity | ]. unfold require_size. split.
          + rewrite zlen_app. unfold zlen at 2. rewrite repeat_length. unfold zlen in *. lia.
          + unfold put, over. rewrite Nat2Z.id. rewrite firstn_app. replace (p - length l)%nat with 0%nat by lia.
            cbn [firstn]. rewrite app_nil_r. do 2 f_equal. rewrite !skipn_all2; [reflexivity | | ].
            * unfold zlen in Hc. lia.
            * rewrite app_length, repeat_length. unfold zlen in *. lia.
        - exists l. split; [reflexivity | ]. split; [lia | ]. unfold put, over. rewrite Nat2Z.id. reflexivity. }
      destruct Hd as (l' & -> & Hge & Hput).
      replace (Z.min (zlen d) (zlen l' - Z.of_nat p)) with (zlen d) by lia.
      replace (Z.to_nat (zlen d)) with (length d) by (unfold zlen; lia). rewrite firstn_all, Hput. split; [reflexivity | ]. split; [reflexivity | ].
      split; [unfold zlen; lia | ]. rewrite over_length by exact Hp. lia.
    + assert (E : firstn (Z.to_nat (Z.min (zlen d) (zlen l - Z.of_nat p))) d = firstn (length l - p) d).
      { rewrite (firstn_clip (length l - p)). f_equal. unfold zlen. lia. }
      rewrite E. split; [f_equal; unfold zlen; rewrite firstn_length; lia | ].
      split; [unfold put, over; rewrite Nat2Z.id; reflexivity | ].
      split; [unfold zlen; rewrite firstn_length; lia | ]. rewrite over_length by exact Hp. lia.
    + split; [reflexivity | ]. auto.
  - fold (target (zlen l) (Z.of_nat p) o m). rewrite to_int_small by (pose proof (zlen_nonneg l); lia).
    destruct (Z.ltb_spec (target (zlen l) (Z.of_nat p) o m) 0); destruct (Z.leb_spec 0 (target (zlen l) (Z.of_nat p) o m)); try lia;
      cbn [andb fst snd m_data m_off]; [split; auto | ].
    destruct (Z.ltb_spec (zlen l) (target (zlen l) (Z.of_nat p) o m)); destruct (Z.leb_spec (target (zlen l) (Z.of_nat p) o m) (zlen l)); try lia;
      cbn [andb fst snd m_data m_off]; [split; auto | ]. split; [reflexivity | ]. split; [reflexivity | ]. unfold zlen in *. lia.
  - cbn. auto.
Qed.

(** Sizes stay small if what is written is small enough. *)
Lemma mspec_size kd t o : (snd t <= length (fst t))%nat ->
  zlen (fst (snd (mspec kd t o))) <= zlen (fst t) + written o /\ (length (fst t) <= length (fst (snd (mspec kd t o))))%nat.
Proof.
  destruct t as [l p]. cbn [fst snd]. intros Hp. destruct o as [n k | d k | o m | ]; cbn [mspec written fst snd].
  - lia.
  - destruct kd; cbn [fst snd]; unfold zlen; rewrite ?over_length, ?firstn_length by exact Hp; lia.
  - destruct ((0 <=? _) && _); cbn [fst snd]; lia.
  - cbn. lia.
Qed.

Lemma mem_run kd os : forall s t, mem_rel s t -> Forall sane os ->
  zlen (m_data s) + fold_right Z.add 0 (map written os) < 2 ^ 31 ->
  fst (run (mem_step kd) s os) = fst (run (mspec kd) t os) /\ mem_rel (snd (run (mem_step kd) s os)) (snd (run (mspec kd) t os)).
Proof.
  induction os as [ | o os IH]; intros s t R Hs Hz; cbn [run]; [auto | ].
  inversion Hs as [ | a b H1 H2]; subst. cbn [map fold_right] in Hz.
  assert (Wn : forall o, 0 <= written o) by (intros [ | ? ? | | ]; cbn; try lia; apply zlen_nonneg).
  assert (Fn : 0 <= fold_right Z.add 0 (map written os)).
  { clear - Wn. induction os; cbn; [lia | ]. specialize (Wn a). lia. }
  destruct (mem_sim kd s t o R H1) as [E1 R1]; [specialize (Wn o); lia | ].
  destruct (mspec_size kd t o) as [Sz _]; [apply R | ].
  destruct (mem_step kd s o) as [r s1]. destruct (mspec kd t o) as [r' t1]. cbn [fst snd] in *. subst r'.
  assert (B : zlen (m_data s1) + fold_right Z.add 0 (map written os) < 2 ^ 31).
  { destruct R1 as [-> _]. destruct R as [R0 _]. rewrite R0 in Hz. lia. }
  destruct (IH s1 t1 R1 H2 B) as [E2 R2].
  destruct (run (mem_step kd) s1 os) as [rs s2]. destruct (run (mspec kd) t1 os) as [rs' t2]. cbn [fst snd] in *. subst. auto.
Qed.

(** * ChunkedMemoryByteStream *)
Definition content (s : chunked) : list byte := concat (c_before s ++ c_after s).
Definition pos (s : chunked) : nat := length (concat (c_before s)) + c_off s.
Definition ch_ok (s : chunked) : Prop :=
  match c_after s with [] => c_off s = 0%nat | c :: _ => (c_off s <= length c)%nat end.

Lemma ch_tell_pos s : ch_tell s = Z.of_nat (pos s).
Proof. unfold ch_tell, total, pos, zlen. lia. Qed.

Lemma ch_pos_le s : ch_ok s -> (pos s <= length (content s))%nat.
Proof.
  unfold ch_ok, pos, content. rewrite concat_app, app_length. destruct (c_after s); cbn [concat]; intros H; [lia | ].
  rewrite app_length. lia.
Qed.

Lemma normalize_ok s : ch_ok s -> ch_ok (normalize s) /\ content (normalize s) = content s /\ pos (normalize s) = pos s /\
  match c_after (normalize s) with [] => pos s = length (content s) | c :: _ => (c_off (normalize s) < length c)%nat \/ c_off (normalize s) = 0%nat end.
Proof.
  destruct s as [b a o]. unfold normalize, ch_ok, content, pos. cbn [c_before c_after c_off]. intros H.
  destruct a as [ | c l]; cbn [c_before c_after c_off].
  - rewrite app_nil_r. repeat split; auto. lia.
  - destruct (Nat.eqb_spec o (length c)) as [-> | N]; cbn [c_before c_after c_off].
    + split; [destruct l; [reflexivity | lia] | ]. rewrite <- app_assoc. cbn [app]. split; [reflexivity | ].
      split; [rewrite concat_app, app_length; cbn; rewrite app_nil_r; lia | ].
      destruct l; [ | right; reflexivity]. rewrite concat_app, app_length. cbn. rewrite app_nil_r. lia.
    + repeat split; auto. lia.
Qed.

Lemma ch_read_loop_ok : forall after before off n acc,
  match after with [] => off = 0%nat | c :: _ => (off <= length c)%nat end ->
  let s := mkCh before after off in
  let '(bs, s') := ch_read_loop before after off n acc in
  bs = acc ++ firstn n (skipn off (concat after)) /\ ch_ok s' /\ content s' = content s /\
  pos s' = (pos s + length (firstn n (skipn off (concat after))))%nat.
Proof.
  induction after as [ | c l IH]; intros before off n acc H s; cbn [ch_read_loop concat].
  - subst off. rewrite skipn_nil, firstn_nil, app_nil_r. unfold s, ch_ok. cbn. repeat split; auto.
  - destruct (Nat.leb_spec n 0) as [Hn | Hn].
    + assert (n = 0%nat) by lia. subst n. cbn [firstn length]. rewrite app_nil_r. unfold s, ch_ok. cbn [c_after c_off]. repeat split; auto.
    + set (cur := Nat.min n (length c - off)) in *.
      assert (Esk : skipn off (c ++ concat l) = skipn off c ++ concat l).
      { rewrite skipn_app. replace (off - length c)%nat with 0%nat by lia. reflexivity. }
      destruct (Nat.eqb_spec (off + cur) (length c)) as [Ec | Nc].
      * specialize (IH (before ++ [c]) 0%nat (n - cur)%nat (acc ++ firstn cur (skipn off c))).
        assert (H0 : match l with [] => 0%nat = 0%nat | c0 :: _ => (0 <= length c0)%nat end) by (destruct l; lia).
        specialize (IH H0). cbv zeta in IH. cbn [skipn] in IH.
        destruct (ch_read_loop (before ++ [c]) l 0 (n - cur) (acc ++ firstn cur (skipn off c))) as [bs s'].
        destruct IH as (I1 & I2 & I3 & I4).
        assert (Ef : firstn n (skipn off (c ++ concat l)) = firstn cur (skipn off c) ++ firstn (n - cur) (concat l)).
        { rewrite Esk, firstn_app, skipn_length. replace (n - (length c - off))%nat with (n - cur)%nat by lia. f_equal.
          rewrite (firstn_clip n). rewrite skipn_length. reflexivity. }
        rewrite Ef. split; [rewrite I1, <- app_assoc; reflexivity | ]. split; [exact I2 | ].
        split; [rewrite I3; unfold s, content; cbn [c_before c_after]; rewrite <- app_assoc; reflexivity | ].
        rewrite I4, app_length. unfold s, pos. cbn [c_before c_off].
        rewrite concat_app, app_length. cbn [concat]. rewrite app_nil_r, !firstn_length, skipn_length. lia.
      * assert (Ef : firstn n (skipn off (c ++ concat l)) = firstn cur (skipn off c)).
        { rewrite Esk, firstn_app, skipn_length. replace (n - (length c - off))%nat with 0%nat by lia. cbn [firstn]. rewrite app_nil_r.
          rewrite (firstn_clip n), skipn_length. reflexivity. }
        rewrite Ef. split; [reflexivity | ]. split; [unfold ch_ok; cbn; lia | ]. split; [reflexivity | ].
        unfold s, pos. cbn [c_before c_off]. rewrite firstn_length, skipn_length. lia.
Qed.

Lemma skipn_content s : ch_ok s -> skipn (pos s) (content s) = skipn (c_off s) (concat (c_after s)).
Proof.
  intros _. unfold pos, content. rewrite concat_app, skipn_app.
  rewrite skipn_all2 by lia. cbn [app]. f_equal; lia.
Qed.

Lemma ch_read_exact s n : ch_ok s -> let '(r, s') := ch_read s n in
  ch_ok s' /\ content s' = content s /\
  ((r = RBytes (firstn n (skipn (pos s) (content s))) /\ pos s' = (pos s + length (firstn n (skipn (pos s) (content s))))%nat) \/
   (r = RThrow /\ pos s = length (content s) /\ pos s' = pos s)).
Proof.
  intros Ok. unfold ch_read. destruct (Nat.eqb_spec (length (c_before s ++ c_after s)) 0) as [Z0 | NZ].
  - split; [exact Ok | ]. split; [reflexivity | ]. right. split; [reflexivity | ]. split; [ | reflexivity].
    unfold pos, content. unfold ch_ok in Ok. destruct s as [b a o]. cbn [c_before c_after c_off] in *.
    rewrite app_length in Z0. destruct b; [ | cbn in Z0; lia]. destruct a; [ | cbn in Z0; lia]. cbn. exact Ok.
  - destruct (normalize_ok s Ok) as (N1 & N2 & N3 & N4). set (s1 := normalize s) in *.
    destruct (c_after s1) as [ | c l] eqn:Ea.
    + split; [exact N1 | ]. split; [exact N2 | ]. right. auto.
    + pose proof (ch_read_loop_ok (c :: l) (c_before s1) (c_off s1) n []) as L.
      unfold ch_ok in N1. rewrite Ea in N1. specialize (L N1). cbv zeta in L.
      destruct (ch_read_loop (c_before s1) (c :: l) (c_off s1) n []) as [bs s']. cbn [app] in L.
      destruct L as (L1 & L2 & L3 & L4).
      assert (Es : mkCh (c_before s1) (c :: l) (c_off s1) = s1) by (rewrite <- Ea; destruct s1; reflexivity).
      rewrite Es in L3, L4.
      assert (Ok1 : ch_ok s1) by (unfold ch_ok; rewrite Ea; exact N1).
      pose proof (skipn_content s1 Ok1) as Sk. rewrite Ea in Sk. rewrite <- Sk, N2, N3 in L1, L4.
      split; [exact L2 | ]. split; [congruence | ]. left. split; [f_equal; exact L1 | exact L4].
Qed.

Lemma ch_seek_loop_ok : forall after before o, (o <= length (concat after))%nat ->
  let s' := ch_seek_loop before after o in
  ch_ok s' /\ content s' = concat (before ++ after) /\ pos s' = (length (concat before) + o)%nat.
Proof.
  induction after as [ | c l IH]; intros before o H; cbn [ch_seek_loop].
  - cbn in H. unfold ch_ok, content, pos. cbn. rewrite app_nil_r. repeat split; lia.
  - cbn [concat] in H. rewrite app_length in H. destruct (Nat.leb_spec (length c) o).
    + destruct (IH (before ++ [c]) (o - length c)%nat ltac:(lia)) as (A & B & C). split; [exact A | ].
      rewrite <- app_assoc in B. split; [exact B | ]. rewrite C, concat_app, app_length. cbn. rewrite app_nil_r. lia.
    + unfold ch_ok, content, pos. cbn. repeat split; lia.
Qed.

Lemma ch_seek_exact s o m : ch_ok s -> content s <> [] \/ c_before s ++ c_after s <> [] ->
  let t := target (zlen (content s)) (Z.of_nat (pos s)) o m in
  if (0 <=? t) && (t <=? zlen (content s))
  then fst (ch_seek s o m) = RUnit /\ ch_ok (snd (ch_seek s o m)) /\ content (snd (ch_seek s o m)) = content s /\ pos (snd (ch_seek s o m)) = Z.to_nat t
  else ch_seek s o m = (RThrow, s).
Proof.
  intros Ok Hne t. unfold ch_seek. destruct (Nat.eqb_spec (length (c_before s ++ c_after s)) 0) as [Z0 | NZ].
  { exfalso. apply length_zero_iff_nil in Z0. destruct Hne as [Hne | Hne]; apply Hne; [unfold content; rewrite Z0; reflexivity | exact Z0]. }
  replace (match m with MBegin => o | MCurrent => o + ch_tell s | MEnd => o + total (c_before s ++ c_after s) end) with t.
  2:{ unfold t, target. rewrite ch_tell_pos. unfold total. fold (content s). destruct m; lia. }
  change (total (c_before s ++ c_after s)) with (zlen (content s)).
  destruct ((0 <=? t) && (t <=? zlen (content s))) eqn:B; [ | reflexivity].
  apply andb_true_iff in B. destruct B as [B1 B2]. apply Z.leb_le in B1. apply Z.leb_le in B2.
  destruct (ch_seek_loop_ok (c_before s ++ c_after s) [] (Z.to_nat t)) as (A1 & A2 & A3).
  { fold (content s). unfold zlen in B2. lia. }
  cbn [fst snd]. split; [reflexivity | ]. split; [exact A1 | ]. split; [exact A2 | exact A3].
Qed.

Lemma over_nil l p : over l p [] = l.
Proof. unfold over. cbn [app length]. rewrite Nat.add_0_r. apply firstn_skipn. Qed.

Lemma ch_over_chunk b c l o e : (o <= length c)%nat -> (o + length e <= length c)%nat ->
  concat (b ++ (firstn o c ++ e ++ skipn (o + length e) c) :: l) = over (concat (b ++ c :: l)) (length (concat b) + o) e.
Proof.
  intros H1 H2. unfold over. rewrite !concat_app. cbn [concat]. rewrite <- !app_assoc.
  rewrite firstn_app. replace (length (concat b) + o - length (concat b))%nat with o by lia.
  rewrite (firstn_all2 (concat b)) by lia. rewrite <- app_assoc. f_equal.
  rewrite firstn_app. replace (o - length c)%nat with 0%nat by lia. cbn [firstn]. rewrite app_nil_r. f_equal. f_equal.
  rewrite skipn_app. rewrite (skipn_all2 (concat b)) by lia. cbn [app].
  replace (length (concat b) + o + length e - length (concat b))%nat with (o + length e)%nat by lia.
  rewrite skipn_app. f_equal. replace (o + length e - length c)%nat with 0%nat by lia. reflexivity.
Qed.

(** A write puts a front part of its data at the position: all of it if it returns. *)
Lemma ch_write_exact s d : ch_ok s -> let '(r, s') := ch_write s d in
  exists k, (k <= length d)%nat /\ ch_ok s' /\ content s' = over (content s) (pos s) (firstn k d) /\ pos s' = (pos s + k)%nat /\
  (r = RThrow \/ (r = RCount (zlen d) /\ k = length d)).
Proof.
  intros Ok. unfold ch_write. destruct d as [ | x d'].
  { exists 0%nat. cbn [firstn length]. rewrite over_nil. repeat split; auto. }
  set (d := x :: d') in *. clearbody d.
  destruct (normalize_ok s Ok) as (N1 & N2 & N3 & _). rewrite <- N2, <- N3. set (s1 := normalize s) in *. clearbody s1. clear s Ok N2 N3.
  unfold ch_write_loop. destruct s1 as [b a o]. unfold ch_ok in N1. cbn [c_before c_after c_off] in *. destruct a as [ | c l].
  - subst o. cbn [Nat.eqb]. exists (length d). rewrite firstn_all. split; [lia | ]. split; [reflexivity | ].
    unfold content, pos, over. cbn [c_before c_after c_off]. rewrite !app_nil_r.
    rewrite concat_app. cbn [concat]. rewrite app_nil_r, !Nat.add_0_r. rewrite firstn_all, skipn_all2 by lia. rewrite app_nil_r, app_length.
    auto.
  - destruct (Nat.ltb_spec o (length c)) as [Hl | Hl].
    + set (cur := Nat.min (length d) (length c - o)) in *. set (e := firstn cur d) in *.
      assert (He : length e = cur) by (unfold e; rewrite firstn_length; lia).
      pose proof (ch_over_chunk b c l o e ltac:(lia) ltac:(lia)) as Ov. rewrite He in Ov.
      assert (G : (cur <= length d)%nat /\ ch_ok (mkCh b ((firstn o c ++ e ++ skipn (o + cur) c) :: l) (o + cur)) /\
         content (mkCh b ((firstn o c ++ e ++ skipn (o + cur) c) :: l) (o + cur)) = over (content (mkCh b (c :: l) o)) (pos (mkCh b (c :: l) o)) e /\
         pos (mkCh b ((firstn o c ++ e ++ skipn (o + cur) c) :: l) (o + cur)) = (pos (mkCh b (c :: l) o) + cur)%nat).
      { split; [lia | ]. split; [ | split].
        - unfold ch_ok. cbn [c_after c_off]. rewrite !app_length, firstn_length, skipn_length. lia.
        - exact Ov.
        - unfold pos. cbn [c_before c_off]. lia. }
      destruct G as (G1 & G2 & G3 & G4). destruct (Nat.ltb_spec cur (length d)) as [Hc | Hc].
      * exists cur. fold e. auto 6.
      * exists cur. fold e. assert (cur = length d) by lia. auto 7.
    + exists 0%nat. cbn [firstn]. rewrite over_nil. split; [lia | ]. split; [unfold ch_ok; cbn; lia | ]. split; [reflexivity | ]. split; [lia | auto].
Qed.

Definition abs (s : chunked) : list byte * nat := (content s, pos s).

Lemma ch_sim s o : ch_ok s -> chspec (abs s) o (fst (ch_step s o)) (abs (snd (ch_step s o))) /\ ch_ok (snd (ch_step s o)).
Proof.
  intros Ok. destruct o as [n k | d k | o m | ]; cbn [ch_step].
  - pose proof (ch_read_exact s (Z.to_nat n) Ok) as H. destruct (ch_read s (Z.to_nat n)) as [r s']. cbn [fst snd].
    destruct H as (A & B & [[-> D] | [-> [D E]]]); (split; [ | exact A]); unfold abs.
    + rewrite B, D. apply ChRead.
    + rewrite B, E, D. apply ChReadEnd.
  - pose proof (ch_write_exact s d Ok) as H. destruct (ch_write s d) as [r s']. cbn [fst snd].
    destruct H as (j & H1 & H2 & H3 & H4 & [-> | [-> ->]]); (split; [ | exact H2]); unfold abs; rewrite H3, H4.
    + apply ChWriteThrow. exact H1.
    + rewrite firstn_all. apply ChWrite.
  - destruct (Nat.eq_dec (length (c_before s ++ c_after s)) 0) as [Z0 | NZ].
    + unfold ch_seek. rewrite Z0. cbn [Nat.eqb fst snd]. split; [ | exact Ok]. apply ChSeekOut. right. right.
      apply length_zero_iff_nil in Z0. unfold content. rewrite Z0. reflexivity.
    + assert (Hne : content s <> [] \/ c_before s ++ c_after s <> []) by (right; intros E; rewrite E in NZ; cbn in NZ; lia).
      pose proof (ch_seek_exact s o m Ok Hne) as H. cbv zeta in H. set (t := target (zlen (content s)) (Z.of_nat (pos s)) o m) in *.
      destruct (Z.leb_spec 0 t); cbn [andb] in H.
      * destruct (Z.leb_spec t (zlen (content s))).
        -- destruct H as (A & B & C & D). split; [ | exact B]. unfold abs. rewrite A, C, D. apply ChSeek. lia.
        -- rewrite H. split; [ | exact Ok]. apply ChSeekOut. lia.
      * rewrite H. split; [ | exact Ok]. apply ChSeekOut. lia.
  - rewrite ch_tell_pos. split; [apply ChTell | exact Ok].
Qed.

Lemma ch_run os : forall s, ch_ok s -> chruns (abs s) os (fst (run ch_step s os)) (abs (snd (run ch_step s os))).
Proof.
  induction os as [ | o os IH]; intros s Ok; cbn [run]; [constructor | ].
  destruct (ch_sim s o Ok) as [H1 H2]. destruct (ch_step s o) as [r s1]. cbn [fst snd] in *. specialize (IH s1 H2).
  destruct (run ch_step s1 os) as [rs s2]. cbn [fst snd] in *. econstructor; eauto.
Qed.

(** * Windows *)
Definition same_above (off : Z) (f g : Z -> byte) : Prop := forall i, 0 <= i -> f i = g (off + i).

Lemma bytes_shift f g off p n : same_above off f g -> 0 <= p -> bytes f p n = bytes g (off + p) n.
Proof. intros H Hp. unfold bytes. apply map_ext. intros a. rewrite H by lia. f_equal. lia. Qed.
Lemma bytes_len f p n : 0 <= n -> zlen (bytes f p n) = n.
Proof. intros H. unfold zlen, bytes. rewrite map_length, seq_length. lia. Qed.
Lemma wr_shift f g off p d : same_above off f g -> 0 <= p -> same_above off (wr f p d) (wr g (off + p) d).
Proof.
  intros H Hp i Hi. unfold wr.
  replace ((off + p <=? off + i) && (off + i <? off + p + zlen d)) with ((p <=? i) && (i <? p + zlen d)).
  2:{ destruct (Z.leb_spec p i), (Z.leb_spec (off + p) (off + i)); try lia; destruct (Z.ltb_spec i (p + zlen d)), (Z.ltb_spec (off + i) (off + p + zlen d)); try lia; reflexivity. }
  destruct ((p <=? i) && (i <? p + zlen d)); [f_equal; f_equal; lia | apply H; exact Hi].
Qed.
Lemma clip_nonneg k a b : 0 <= clip k a b.
Proof. unfold clip. lia. Qed.
Lemma seek_to_eq x p : 0 <= p -> seek_to x p = mkF (ff x) (fl x) p.
Proof. intros H. unfold seek_to. cbn [pl_step]. destruct (Z.ltb_spec p 0); [lia | reflexivity]. Qed.

(** [wrel off s x]: the window state [s] stands for the plain stream [x]. *)
Definition wrel (off : Z) (s : file * Z) (x : file) : Prop :=
  snd s = fp x /\ 0 <= fp x /\ fp (fst s) = off + fp x /\ fl (fst s) = off + fl x /\ 0 <= fl (fst s) /\ same_above off (ff x) (ff (fst s)).

Lemma wo_sim off s x o : 0 <= off -> wrel off s x ->
  fst (wo_step off s o) = fst (pl_step x o) /\ wrel off (snd (wo_step off s o)) (snd (pl_step x o)) /\
  (forall i, i < off -> ff (fst (snd (wo_step off s o))) i = ff (fst s) i).
Proof.
  intros Ho. destruct s as [y p]. destruct x as [f l q]. unfold wrel. cbn [fst snd ff fl fp]. intros (Ep & Hq & Ey & El & Hl & Sa). subst p.
  assert (Tl : wo_tell off (y, q) = Some q).
  { unfold wo_tell. rewrite Ey. destruct (Z.leb_spec off (off + q)); [ | lia]. destruct (Z.eqb_spec (off + q - off) q); [f_equal; lia | lia]. }
  destruct o as [n k | d k | o m | ].
  - cbn [wo_step]. rewrite seek_to_eq by lia. cbn [pl_step ff fl fp fst snd].
    rewrite El. replace (off + l - (off + q)) with (l - q) by lia. set (c := clip k n (l - q)).
    pose proof (clip_nonneg k n (l - q)) as Hc. fold c in Hc. cbn [fst snd ff fl fp].
    split; [f_equal; symmetry; apply bytes_shift; assumption | ]. rewrite bytes_len by exact Hc.
    split; [ | auto]. repeat split; try lia. exact Sa.
  - cbn [wo_step]. rewrite seek_to_eq by lia. cbn [pl_step ff fl fp fst snd].
    set (c := clip k (zlen d) (zlen d)). pose proof (clip_nonneg k (zlen d) (zlen d)) as Hc. fold c in Hc. cbn [fst snd ff fl fp].
    split; [reflexivity | ]. split.
    + repeat split; try lia.
      * rewrite El. destruct (Z.eqb_spec c 0); lia.
      * destruct (Z.eqb_spec c 0); lia.
      * apply wr_shift; assumption.
    + intros i Hi. unfold wr. destruct (Z.leb_spec (off + q) i); [lia | reflexivity].
  - cbn [wo_step]. rewrite Tl. cbn [pl_step ff fl fp].
    assert (Go : forall y', ff y' = ff y -> fl y' = fl y -> fp y' = fp y -> forall t, 
       let r := (if off <=? off + t then (RUnit, (seek_to y' (off + t), off + t - off)) else (RThrow, (y', q))) in
       let r' := (if t <? 0 then (RThrow, mkF f l q) else (RUnit, mkF f l t)) in
       fst r = fst r' /\ (snd (snd r) = fp (snd r') /\ 0 <= fp (snd r') /\ fp (fst (snd r)) = off + fp (snd r') /\ fl (fst (snd r)) = off + fl (snd r') /\
         0 <= fl (fst (snd r)) /\ same_above off (ff (snd r')) (ff (fst (snd r)))) /\ (forall i, i < off -> ff (fst (snd r)) i = ff y i)).
    { intros y' E1 E2 E3 t. cbv zeta. destruct (Z.leb_spec off (off + t)); destruct (Z.ltb_spec t 0); try lia; cbn [fst snd].
      - rewrite seek_to_eq by lia. cbn [ff fl fp]. rewrite E1, E2. split; [reflexivity | ]. split; [ | auto]. repeat split; try lia. exact Sa.
      - rewrite E1, E2, E3. cbn [ff fl fp]. split; [reflexivity | ]. split; [ | auto]. repeat split; try lia. exact Sa. }
    destruct m.
    + specialize (Go y eq_refl eq_refl eq_refl o). cbv zeta in Go. exact Go.
    + specialize (Go y eq_refl eq_refl eq_refl (q + o)). cbv zeta in Go. replace (q + off + o) with (off + (q + o)) by lia. exact Go.
    + destruct (Z.ltb_spec (fl y + 0) 0); [lia | ]. cbn [snd fp].
      rewrite (seek_to_eq _ (fp y)) by lia. cbn [ff fl fp]. specialize (Go (mkF (ff y) (fl y) (fp y)) eq_refl eq_refl eq_refl (l + o)). cbv zeta in Go.
      replace (fl y + 0 + o) with (off + (l + o)) by lia. exact Go.
  - cbn [wo_step]. rewrite Tl. cbn [pl_step ff fl fp fst snd]. split; [reflexivity | ]. split; [ | auto]. repeat split; try lia. exact Sa.
Qed.

Lemma ws_sim off size s x o : 0 <= off -> 0 <= size -> wrel off s x -> fp x <= size ->
  fst (ws_step off size s o) = fst (bounded size x o) /\ wrel off (snd (ws_step off size s o)) (snd (bounded size x o)) /\
  fp (snd (bounded size x o)) <= size /\
  (forall i, i < off \/ off + size <= i -> ff (fst (snd (ws_step off size s o))) i = ff (fst s) i).
Proof.
  intros Ho Hsz. destruct s as [y p]. destruct x as [f l q]. unfold wrel. cbn [fst snd ff fl fp]. intros (Ep & Hq & Ey & El & Hl & Sa) Hqs. subst p.
  destruct o as [n k | d k | o m | ]; cbn [ws_step bounded fst snd ff fl fp].
  - replace (off + size - off - q) with (size - q) by lia. destruct (Z.leb_spec 0 (size - q)); [ | lia].
    rewrite seek_to_eq by lia. cbn [pl_step ff fl fp fst snd]. rewrite El. replace (off + l - (off + q)) with (l - q) by lia.
    set (c := clip k (Z.min n (size - q)) (l - q)). assert (Hc : 0 <= c <= size - q) by (unfold c, clip; lia).
    cbn [fst snd ff fl fp]. split; [f_equal; symmetry; apply bytes_shift; assumption | ]. rewrite bytes_len by lia.
    split; [repeat split; try lia; exact Sa | ]. split; [lia | auto].
  - replace (off + size - off - q) with (size - q) by lia. destruct (Z.leb_spec 0 (size - q)); [ | lia]. cbn [andb].
    destruct (Z.eqb_spec (size - q) 0); destruct (Z.eqb_spec q size); try lia; cbn [negb].
    + cbn [fst snd ff fl fp]. split; [reflexivity | ]. split; [repeat split; try lia; exact Sa | ]. auto.
    + assert (E : firstn (Z.to_nat (Z.min (zlen d) (size - q))) d = firstn (Z.to_nat (size - q)) d).
      { rewrite (firstn_clip (Z.to_nat (size - q))). f_equal. unfold zlen. lia. }
      rewrite E. set (e := firstn (Z.to_nat (size - q)) d). assert (He : zlen e <= size - q) by (unfold e, zlen; rewrite firstn_length; lia).
      rewrite seek_to_eq by lia. cbn [pl_step ff fl fp fst snd].
      set (c := clip k (zlen e) (zlen e)). assert (Hc : 0 <= c <= size - q) by (unfold c, clip; pose proof (zlen_nonneg e); lia).
      cbn [fst snd ff fl fp]. split; [reflexivity | ]. split.
      { repeat split; try lia.
        - rewrite El. destruct (Z.eqb_spec c 0); lia.
        - destruct (Z.eqb_spec c 0); lia.
        - apply wr_shift; assumption. }
      split; [lia | ]. intros i Hi. unfold wr.
      destruct (Z.leb_spec (off + q) i); [ | reflexivity].
      destruct (Z.ltb_spec i (off + q + zlen (firstn (Z.to_nat c) e))) as [Hlt | ]; [ | rewrite andb_false_r; reflexivity].
      exfalso. unfold zlen in Hlt. rewrite firstn_length in Hlt. lia.
  - set (t := target size q o m).
    replace (match m with MBegin => off + o | MCurrent => q + off + o | MEnd => off + size + o end) with (off + t)
      by (unfold t, target; destruct m; lia).
    destruct (Z.leb_spec off (off + t)), (Z.leb_spec 0 t); try lia; destruct (Z.leb_spec (off + t) (off + size)), (Z.leb_spec t size); try lia;
      cbn [andb fst snd ff fl fp]; rewrite ?seek_to_eq by lia; cbn [fst snd ff fl fp];
      (split; [reflexivity | ]); (split; [repeat split; try lia; exact Sa | ]); split; auto.
  - destruct (Z.leb_spec 0 q); [ | lia]. destruct (Z.leb_spec q (off + size - off)); [ | lia]. cbn [andb fst snd ff fl fp].
    split; [reflexivity | ]. split; [repeat split; try lia; exact Sa | ]. auto.
Qed.

Lemma wo_run off os : 0 <= off -> forall s x, wrel off s x ->
  fst (run (wo_step off) s os) = fst (run pl_step x os) /\ wrel off (snd (run (wo_step off) s os)) (snd (run pl_step x os)) /\
  (forall i, i < off -> ff (fst (snd (run (wo_step off) s os))) i = ff (fst s) i).
Proof.
  intros Ho. induction os as [ | o os IH]; intros s x R; cbn [run]; [auto | ].
  destruct (wo_sim off s x o Ho R) as (E1 & R1 & F1).
  destruct (wo_step off s o) as [r s1]. destruct (pl_step x o) as [r' x1]. cbn [fst snd] in *. subst r'.
  destruct (IH s1 x1 R1) as (E2 & R2 & F2).
  destruct (run (wo_step off) s1 os) as [rs s2]. destruct (run pl_step x1 os) as [rs' x2]. cbn [fst snd] in *. subst.
  split; [reflexivity | ]. split; [exact R2 | ]. intros i Hi. rewrite F2, F1 by exact Hi. reflexivity.
Qed.

Lemma ws_run off size os : 0 <= off -> 0 <= size -> forall s x, wrel off s x -> fp x <= size ->
  fst (run (ws_step off size) s os) = fst (run (bounded size) x os) /\ wrel off (snd (run (ws_step off size) s os)) (snd (run (bounded size) x os)) /\
  (forall i, i < off \/ off + size <= i -> ff (fst (snd (run (ws_step off size) s os))) i = ff (fst s) i).
Proof.
  intros Ho Hs. induction os as [ | o os IH]; intros s x R B; cbn [run]; [auto | ].
  destruct (ws_sim off size s x o Ho Hs R B) as (E1 & R1 & B1 & F1).
  destruct (ws_step off size s o) as [r s1]. destruct (bounded size x o) as [r' x1]. cbn [fst snd] in *. subst r'.
  destruct (IH s1 x1 R1 B1) as (E2 & R2 & F2).
  destruct (run (ws_step off size) s1 os) as [rs s2]. destruct (run (bounded size) x1 os) as [rs' x2]. cbn [fst snd] in *. subst.
  split; [reflexivity | ]. split; [exact R2 | ]. intros i Hi. rewrite F2, F1 by exact Hi. reflexivity.
Qed.
