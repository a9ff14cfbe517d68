(** C51: memory streams and stream windows are streams over the bytes they stand for. *)
From Verif Require Import Base MemStreamModel MemStreamSpec MemStreamProofs.
Local Open Scope Z_scope.

(** MemoryByteStream: every sequence of calls gives what a plain byte sequence with a position gives
    (growing for ByteArray, of fixed size for ByteData), as long as it stays below 2 GiB. *)
Theorem C51_memory kd data os : Forall sane os ->
  zlen data + fold_right Z.add 0 (map written os) < 2 ^ 31 ->
  let '(rs, s) := run (mem_step kd) (mkM data 0) os in
  let '(rs', (data', pos')) := run (mspec kd) (data, 0%nat) os in
  rs = rs' /\ m_data s = data' /\ m_off s = Z.of_nat pos' /\ (pos' <= length data')%nat.
Proof.
  intros Hs Hz. destruct (mem_run kd os (mkM data 0) (data, 0%nat)) as [E R]; auto.
  { unfold mem_rel. cbn. repeat split; lia. }
  destruct (run (mem_step kd) (mkM data 0) os) as [rs s]. destruct (run (mspec kd) (data, 0%nat) os) as [rs' [data' pos']].
  cbn [fst snd] in *. unfold mem_rel in R. cbn in R. tauto.
Qed.
Print Assumptions C51_memory.

(** ChunkedMemoryByteStream: every sequence of calls gives what the concatenation of the chunks with a
    position may give; a Read at the end throws, and a Write that throws has written a front part. *)
Theorem C51_chunked chunks os :
  let '(rs, s) := run ch_step (mkCh [] chunks 0) os in
  chruns (concat chunks, 0%nat) os rs (concat (c_before s ++ c_after s), (length (concat (c_before s)) + c_off s)%nat).
Proof.
  pose proof (ch_run os (mkCh [] chunks 0)) as H.
  assert (Ok : ch_ok (mkCh [] chunks 0)) by (unfold ch_ok; cbn; destruct chunks; lia).
  specialize (H Ok). destruct (run ch_step (mkCh [] chunks 0) os) as [rs s]. exact H.
Qed.
Print Assumptions C51_chunked.

Lemma skipn_add {A} (a b : nat) (l : list A) : skipn a (skipn b l) = skipn (b + a) l.
Proof. revert l. induction b; intros [ | x l]; cbn [skipn Nat.add]; auto. destruct a; reflexivity. Qed.

(** Reading a chunked stream to its end in pieces of any positive sizes gives the chunks' bytes. *)
Theorem C51_chunked_read_all chunks ns rs s :
  run ch_step (mkCh [] chunks 0) (map (fun n => ORead n 0) ns) = (rs, s) ->
  (forall r, In r rs -> r <> RThrow) ->
  exists rest, concat chunks = concat (map (fun r => match r with RBytes l => l | _ => [] end) rs) ++ rest /\
  (rest = [] \/ Forall2 (fun n r => match r with RBytes l => length l = Z.to_nat n | _ => False end) ns rs).
Proof.
  intros H NT. pose proof (C51_chunked chunks (map (fun n => ORead n 0) ns)) as C. rewrite H in C. clear H.
  set (z := (concat (c_before s ++ c_after s), (length (concat (c_before s)) + c_off s)%nat)) in C. clearbody z. clear s.
  change (concat chunks) with (skipn 0 (concat chunks)). set (l := concat chunks) in *. set (p := 0%nat) in *. clearbody p l.
  revert p rs NT C. induction ns as [ | n ns IH]; intros p rs NT C; cbn [map] in C; inversion C as [ | x o r y os rs' z' H1 H2]; subst.
  - exists (skipn p l). cbn. auto.
  - inversion H1; subst; [ | exfalso; exact (NT RThrow (or_introl eq_refl) eq_refl)].
    destruct (IH _ rs' ltac:(intros q Hq; apply NT; right; exact Hq) H2) as (rest & E & D). subst r0.
    set (r := firstn (Z.to_nat n) (skipn p l)) in *. exists rest. cbn [map concat].
    assert (Er : skipn p l = r ++ skipn (p + length r) l).
    { replace (skipn (p + length r) l) with (skipn (length r) (skipn p l)).
      2:{ apply skipn_add. }
      replace (skipn (length r) (skipn p l)) with (skipn (Z.to_nat n) (skipn p l)); [unfold r; symmetry; apply firstn_skipn | ].
      unfold r. rewrite firstn_length. destruct (Nat.le_ge_cases (Z.to_nat n) (length (skipn p l))); [f_equal; lia | ].
      rewrite !skipn_all2; [reflexivity | lia | lia]. }
    split; [rewrite Er, E, app_assoc; reflexivity | ].
    destruct (Nat.eq_dec (length r) (Z.to_nat n)) as [Hl | Hl].
    + destruct D as [D | D]; [left; exact D | right; constructor; [exact Hl | exact D]].
    + left. assert (Sh : skipn (p + length r) l = []).
      { unfold r in Hl. rewrite firstn_length in Hl. apply skipn_all2. unfold r. rewrite firstn_length. rewrite skipn_length in *. lia. }
      rewrite Sh in E. symmetry in E. apply app_eq_nil in E. tauto.
Qed.
Print Assumptions C51_chunked_read_all.

(** ByteStreamWithOffset: every sequence of calls gives what a stream starting [off] bytes into the
    underlying one gives, and the bytes before it are not touched. *)
Theorem C51_offset x off s os : 0 <= fl x -> wo_make x off = Some s ->
  let y := mkF (fun i => ff x (off + i)) (fl x - off) 0 in
  fst (run (wo_step off) s os) = fst (run pl_step y os) /\
  (forall i, 0 <= i -> ff (fst (snd (run (wo_step off) s os))) (off + i) = ff (snd (run pl_step y os)) i) /\
  (forall i, i < off -> ff (fst (snd (run (wo_step off) s os))) i = ff x i).
Proof.
  intros Hl H y. unfold wo_make in H. destruct (Z.leb_spec 0 off); [ | discriminate]. injection H as <-.
  destruct (wo_run off os ltac:(assumption) (seek_to x (off + 0), 0) y) as (E & R & F).
  - rewrite seek_to_eq by lia. unfold wrel, y. cbn. repeat split; try lia.
  - split; [exact E | ]. split; [intros i Hi; symmetry; apply R; exact Hi | ]. intros i Hi. rewrite F by exact Hi.
    rewrite seek_to_eq by lia. reflexivity.
Qed.
Print Assumptions C51_offset.

(** ByteStreamWithOffsetAndSize: the same for a stream of [size] bytes; nothing outside the window is ever
    touched. *)
Theorem C51_window x off size s os : 0 <= fl x -> ws_make x off size = Some s ->
  let y := mkF (fun i => ff x (off + i)) (fl x - off) 0 in
  fst (run (ws_step off size) s os) = fst (run (bounded size) y os) /\
  (forall i, 0 <= i -> ff (fst (snd (run (ws_step off size) s os))) (off + i) = ff (snd (run (bounded size) y os)) i) /\
  (forall i, i < off \/ off + size <= i -> ff (fst (snd (run (ws_step off size) s os))) i = ff x i) /\
  0 <= snd (snd (run (ws_step off size) s os)) <= size.
Proof.
  intros Hl H y. unfold ws_make in H. destruct (Z.leb_spec 0 off); [ | discriminate]. cbn [andb] in H.
  destruct (Z.ltb_spec off (off + size)); [ | discriminate]. injection H as <-.
  assert (R0 : wrel off (seek_to x (off + 0), 0) y).
  { rewrite seek_to_eq by lia. unfold wrel, y. cbn. repeat split; try lia. }
  assert (Bd : forall os z, 0 <= fp z <= size -> 0 <= fp (snd (run (bounded size) z os)) <= size).
  { clear - H1. induction os as [ | o os IH]; intros z B; cbn [run]; [exact B | ].
    assert (B1 : 0 <= fp (snd (bounded size z o)) <= size).
    { destruct o as [n k | d k | o m | ]; cbn [bounded pl_step snd fp]; auto.
      - unfold clip. lia.
      - destruct (fp z =? size); cbn [snd fp]; [exact B | ]. unfold clip.
        assert (zlen (firstn (Z.to_nat (size - fp z)) d) <= size - fp z) by (unfold zlen; rewrite firstn_length; lia). lia.
      - destruct (Z.leb_spec 0 (target size (fp z) o m)); cbn [andb]; [ | exact B].
        destruct (Z.leb_spec (target size (fp z) o m) size); cbn [snd fp]; [lia | exact B]. }
    destruct (bounded size z o) as [r z1]. cbn [snd] in B1. specialize (IH z1 B1).
    destruct (run (bounded size) z1 os) as [rs z2]. exact IH. }
  destruct (ws_run off size os ltac:(assumption) ltac:(lia) (seek_to x (off + 0), 0) y R0) as (E & R & F); [cbn; lia | ].
  split; [exact E | ]. split; [intros i Hi; symmetry; apply R; exact Hi | ]. split.
  - intros i Hi. rewrite F by exact Hi. rewrite seek_to_eq by lia. reflexivity.
  - destruct R as [R1 _]. rewrite R1. apply Bd. cbn. lia.
Qed.
Print Assumptions C51_window.

(** * What does not hold *)
(** A chunked Write that does not fit in the chunk at the position throws half-way, whatever follows. *)
Theorem C51_chunked_write_spans_refuted before c l off d :
  (off < length c)%nat -> (length c - off < length d)%nat ->
  fst (ch_write (mkCh before (c :: l) off) d) = RThrow /\
  concat (c_before (snd (ch_write (mkCh before (c :: l) off) d)) ++ c_after (snd (ch_write (mkCh before (c :: l) off) d)))
    = over (concat (before ++ c :: l)) (length (concat before) + off) (firstn (length c - off) d).
Proof.
  intros H1 H2. assert (Hd : d <> []) by (intros ->; cbn in H2; lia). unfold ch_write. destruct d as [ | x d']; [congruence | ]. set (d := x :: d') in *. clearbody d.
  unfold normalize. cbn [c_after c_off c_before]. destruct (Nat.eqb_spec off (length c)); [lia | ].
  unfold ch_write_loop. cbn [c_after c_off c_before]. destruct (Nat.ltb_spec off (length c)); [ | lia].
  replace (Nat.min (length d) (length c - off)) with (length c - off)%nat by lia.
  destruct (Nat.ltb_spec (length c - off) (length d)); [ | lia]. cbn [fst snd c_before c_after]. split; [reflexivity | ].
  pose proof (ch_over_chunk before c l off (firstn (length c - off) d)) as Q.
  rewrite firstn_length in Q. replace (Nat.min (length c - off) (length d)) with (length c - off)%nat in Q by lia. apply Q; lia.
Qed.
Print Assumptions C51_chunked_write_spans_refuted.

(** Appending after reading everything throws if the container ends with two empty chunks. *)
Theorem C51_chunked_append_refuted :
  fst (run ch_step (mkCh [] [[1; 2]; []; []]%nat 0) [ORead 2 0; OWrite [3]%nat 0]) = [RBytes [1; 2]%nat; RThrow].
Proof. reflexivity. Qed.
Print Assumptions C51_chunked_append_refuted.

(** MemoryByteStream over 2 GiB or more: Seek throws even for a position inside. *)
Theorem C51_memory_seek_2g_refuted kd s o m : 2 ^ 31 <= zlen (m_data s) < 2 ^ 32 ->
  mem_step kd s (OSeek o m) = (RThrow, s).
Proof.
  intros H. cbn [mem_step]. assert (E : to_int (zlen (m_data s)) < 0).
  { unfold to_int. rewrite Z.mod_small by lia. destruct (Z.ltb_spec (zlen (m_data s)) (2 ^ 31)); lia. }
  set (t := match m with MBegin => o | MCurrent => m_off s + o | MEnd => zlen (m_data s) + o end).
  destruct (Z.ltb_spec t 0); [reflexivity | ]. destruct (Z.ltb_spec (to_int (zlen (m_data s))) t); [reflexivity | lia].
Qed.
Print Assumptions C51_memory_seek_2g_refuted.

(** * Non-trivial instances *)
Example C51_memory_met :
  run (mem_step Growing) (mkM [1; 2; 3]%nat 0) [ORead 2 0; OWrite [7; 8; 9]%nat 0; OSeek (-4) MEnd; ORead 9 0; OTell; OSeek 6 MBegin]
  = ([RBytes [1; 2]%nat; RCount 3; RUnit; RBytes [2; 7; 8; 9]%nat; RPos 5; RThrow], mkM [1; 2; 7; 8; 9]%nat 5).
Proof. reflexivity. Qed.
Example C51_chunked_met :
  run ch_step (mkCh [] [[1; 2]; [3]; []; [4; 5; 6]]%nat 0)
    [ORead 3 0; ORead 2 0; OTell; OSeek 3 MBegin; OWrite [8; 9]%nat 0; OSeek 0 MEnd; OWrite [7]%nat 0; OSeek (-3) MCurrent; ORead 9 0]
  = ([RBytes [1; 2; 3]; RBytes [4; 5]; RPos 5; RUnit; RCount 2; RUnit; RCount 1; RUnit; RBytes [9; 6; 7]]%nat,
     mkCh [[1; 2]; [3]; []; [8; 9; 6]; [7]]%nat [] 0).
Proof. reflexivity. Qed.
Example C51_window_met :
  let x := mkF (fun i => Z.to_nat i) 10 0 in
  exists s, ws_make x 3 4 = Some s /\
  fst (run (ws_step 3 4) s [ORead 3 2; OTell; ORead 9 9; ORead 1 1; OSeek 1 MBegin; OWrite [50; 51; 52; 53; 54]%nat 9; OWrite [1]%nat 1; OSeek (-4) MEnd; ORead 9 9; OSeek 5 MBegin])
  = [RBytes [3; 4]%nat; RPos 2; RBytes [5; 6]%nat; RBytes []; RUnit; RCount 3; RThrow; RUnit; RBytes [3; 50; 51; 52]%nat; RThrow].
Proof. eexists. split; reflexivity. Qed.
