(** C46: BufferedStream is transparent.  The plain stream it is compared with is in BufStreamSpec.v. *)
From Verif Require Import Base BufStreamModel BufStreamSpec BufStreamProofs.
Set Implicit Arguments.
Local Open Scope Z_scope.

Section Props.
Variable A : Type.
Implicit Types (s : bst A).

(** one operation *)
Lemma step_plain greedy s x o s' r :
  Inv s x -> step greedy s o = Some (s', r) -> no_fail o = true ->
  (forall want ans tk, o = BRead want ans tk -> want < 2 ^ 64 /\ okread greedy s) ->
  exists y, plain x o r y /\ Inv s' y.
Proof.
  intros HI Hs Hnf Hok. destruct o as [want ans tk|d k|d k|o m|]; cbn [step] in Hs.
  - destruct (Z.leb_spec 0 want) as [Hw0|]; [|discriminate]. destruct (Hok _ _ _ eq_refl) as (Hw & Ho).
    pose proof (fun r => @rd_spec A greedy (S (Z.to_nat want)) s x want [] ans tk r HI Ho) as K. rewrite zlen_nil in K. specialize (K _ Hw0 Hw eq_refl).
    destruct (rd _ _ _ _ _ _ _) as [s1 d rest| |]; [|destruct K|discriminate].
    destruct rest; [|discriminate]. injection Hs as <- <-. destruct K as (e & E1 & E2 & E3 & E4 & E5 & _). cbn in E1. subst e.
    exists (mkF (ff x) (fl x) (fp x + zlen d)). split; [|exact E5]. constructor; auto. lia.
  - destruct ((0 <=? k) && (k <=? zlen d)) eqn:C; [|discriminate]. injection Hs as <- <-.
    eexists. split; [constructor|]. rewrite <- (V_t HI).
    assert (Hu : forall u1, uf u1 = ff x -> ulen u1 = fl x -> upos u1 = tell s ->
      Inv (seek_stream (mkB (uwrite u1 d k) (bb s) (bs s) (bo s) (ib s) (al s) (rlog s)) (tell s + k))
          (mkF (wr (ff x) (tell s) (firstn (Z.to_nat k) d)) (if k =? 0 then fl x else Z.max (fl x) (tell s + k)) (tell s + k))).
    { intros u1 U1 U2 U3. apply (@seek_stream_Inv A s x).
      - exact HI.
      - pose proof (V_bo HI). pose proof (V_ib HI). unfold tell. lia.
      - unfold uwrite. cbn. now rewrite U1, U3.
      - unfold uwrite. cbn. now rewrite U2, U3. }
    apply Hu.
    + destruct (_ || _); cbn; apply (V_f HI).
    + destruct (_ || _); cbn; apply (V_l HI).
    + destruct (negb (ib s =? bs s) || negb (bs s =? 0)) eqn:C2; [reflexivity|].
      assert (Hb : bs s = 0) by lia. destruct (V_emp HI Hb) as (E & _). unfold tell. lia.
  - discriminate.
  - assert (Hmid : forall t, 0 <= t -> t = match m with MBegin => o | MCurrent => fp x + o | MEnd => fl x + o end ->
        match seek_in s t with Some s2 => Some (s2, OUnit) | None => Some (seek_stream s t, OUnit) end = Some (s', r) ->
        exists y, plain x (BSeek o m) r y /\ Inv s' y).
    { intros t Ht Et H. exists (mkF (ff x) (fl x) t). destruct (seek_in s t) as [s2|] eqn:Es; injection H as <- <-; (split; [constructor; auto|]).
      - eapply seek_in_Inv; eauto.
      - pose proof (@seek_stream_Inv A s x t HI Ht (us s) (ff x) (fl x) (V_f HI) (V_l HI)) as K. destruct s; exact K. }
    destruct m.
    + destruct (Z.ltb_spec o 0).
      * injection Hs as <- <-. exists x. split; auto. constructor. exact H.
      * apply (Hmid o); auto.
    + destruct (Z.ltb_spec (o + tell s) 0).
      * injection Hs as <- <-. exists x. split; auto. constructor. rewrite <- (V_t HI). lia.
      * apply (Hmid (o + tell s)); auto. rewrite <- (V_t HI). lia.
    + destruct (Z.ltb_spec (ulen (us s) + o) 0) as [Hneg|Hpos].
      * injection Hs as <- <-. exists x. split; auto. constructor. rewrite <- (V_l HI). lia.
      * exists (mkF (ff x) (fl x) (ulen (us s) + o)).
        destruct (seek_in _ _) as [s2|] eqn:Es.
        -- injection Hs as <- <-. split; [constructor; [rewrite (V_l HI); reflexivity|lia]|].
           unfold seek_in in Es. cbn [bo bs us bb al rlog] in Es.
           destruct ((bo s <=? ulen (us s) + o) && (ulen (us s) + o - bo s <? bs s)) eqn:C; [|discriminate]. injection Es as <-.
           destruct HI. split; cbn [us uf ulen upos bb bs bo ib al rlog ff fl fp useek] in *; auto; try lia.
           ++ unfold tell; cbn. lia.
           ++ intros Hb. destruct (V_full Hb) as (F1 & F2 & F3). split; auto. split; auto. lia.
        -- injection Hs as <- <-. split; [constructor; [rewrite (V_l HI); reflexivity|lia]|].
           apply (@seek_stream_Inv A s x); auto; cbn; apply HI.
  - injection Hs as <- <-. exists x. split; auto. rewrite (V_t HI). constructor.
Qed.

Lemma init_Inv (f : Z -> A) len buffer a : 0 < a <= zlen buffer -> Inv (init f len 0 buffer a) (mkF f len 0).
Proof.
  intros Ha. split; cbn; auto; try lia.
Qed.

Lemma step_al greedy s0 (o : op A) s1 r : step greedy s0 o = Some (s1, r) -> al s1 = al s0.
Proof.
  intros Es. destruct o as [want ans tk|d k|d k|o m|]; cbn [step] in Es.
  - destruct (0 <=? want); [|discriminate]. destruct (rd _ _ _ _ _ _ _) as [s' d rest| |] eqn:E; [|injection Es as <- _; auto|discriminate].
    destruct rest; [|discriminate]. injection Es as <- _. clear - E. revert E.
    generalize (S (Z.to_nat want)) as fuel, (@nil A) as acc. intros fuel. revert s0 ans tk.
    induction fuel as [|fuel IH]; intros s0 ans tk acc E; cbn [rd] in E; [injection E as <- _ _; auto|].
    destruct (zlen acc <? want); [|injection E as <- _ _; auto]. destruct tk; [injection E as <- _ _; auto|].
    assert (Hc : forall s1 ans1, (let n := Z.min (want - zlen acc) (wrap (bs s1 - ib s1)) in
       if ib s1 + n <=? zlen (bb s1)
       then rd greedy fuel (mkB (us s1) (bb s1) (bs s1) (bo s1) (ib s1 + n) (al s1) (rlog s1)) want (acc ++ slice (ib s1) n (bb s1)) ans1 tk
       else RUB A) = RDone s' d [] -> al s' = al s1).
    { intros s1 ans1 H. cbv zeta in H. match type of H with (if ?c then _ else _) = _ => destruct c end; [|discriminate]. apply IH in H. exact H. }
    destruct (_ || _) in E; [|eapply Hc; exact E].
    destruct ans as [|k ans]; [discriminate|].
    assert (Hs1 : al (if bs s0 =? 0 then s0 else seek_stream s0 (tell s0)) = al s0) by (destruct (bs s0 =? 0); auto).
    destruct (uread _ _ _ _) as [[d' u']|]; [|discriminate].
    match type of E with (if ?c then _ else _) = _ => destruct c end; [injection E as <- _ _; exact Hs1|].
    apply Hc in E. rewrite E. exact Hs1.
  - destruct (_ && _); [|discriminate]. injection Es as <- _. reflexivity.
  - destruct (_ && _); [|discriminate]. injection Es as <- _. reflexivity.
  - destruct m; (destruct (_ <? 0); [injection Es as <- _; auto|]);
      unfold seek_in in Es; destruct (_ && _); injection Es as <- _; reflexivity.
  - injection Es as <- _. reflexivity.
Qed.

Lemma run_Inv greedy : forall ops s0 x s rs, Inv s0 x -> run greedy s0 ops = Some (s, rs) -> forallb (@no_fail A) ops = true ->
  (forall want ans tk, In (BRead want ans tk) ops -> want < 2 ^ 64) ->
  (al s0 = 1 \/ greedy = true /\ forall ops1 want ans tk ops2 s1 rs1, ops = ops1 ++ BRead want ans tk :: ops2 ->
     run true s0 ops1 = Some (s1, rs1) -> tell s1 <= ulen (us s1)) ->
  al s = al s0 /\ exists y, plains x ops rs y /\ Inv s y.
Proof.
  induction ops as [|o ops IH]; cbn [run forallb]; intros s0 x s rs HI Hr Hnf Hw Hin.
  - injection Hr as <- <-. split; auto. exists x. split; auto. constructor.
  - destruct (step greedy s0 o) as [[s1 r]|] eqn:Es; [|discriminate]. destruct (run greedy s1 ops) as [[s2 rs']|] eqn:Er; [|discriminate].
    injection Hr as <- <-. apply andb_prop in Hnf as (N1 & N2). pose proof (step_al _ _ _ Es) as Hal.
    destruct (step_plain HI Es N1) as (y & P1 & I1).
    { intros want ans tk ->. split; [eapply Hw; cbn; eauto|]. destruct Hin as [Hin|(-> & Hin)]; [left; exact Hin|].
      right. split; auto. eapply (Hin []); reflexivity. }
    destruct (IH s1 y s2 rs' I1 Er N2) as (Hal2 & z & P2 & I2).
    { intros; eapply Hw; cbn; eauto. }
    { destruct Hin as [Hin|(-> & Hin)]; [left; congruence|]. right. split; auto.
      intros ops1 want ans tk ops2 s3 rs3 -> Hr3. eapply (Hin (o :: ops1)); [reflexivity|]. cbn [run]. rewrite Es, Hr3. reflexivity. }
    split; [congruence|]. exists z. split; auto. econstructor; eauto.
Qed.

(** Every history of a BufferedStream over a stream positioned at its start is a history of the plain
    stream: with the default alignment, whatever parts the underlying stream reads and writes. *)
Theorem C46_transparent : forall greedy f len buffer ops s rs,
  0 < zlen buffer ->
  run greedy (init f len 0 buffer 1) ops = Some (s, rs) ->
  forallb (@no_fail A) ops = true -> (forall want ans tk, In (BRead want ans tk) ops -> want < 2 ^ 64) ->
  exists y, plains (mkF f len 0) ops rs y /\ uf (us s) = ff y /\ ulen (us s) = fl y /\ tell s = fp y.
Proof.
  intros greedy f len buffer ops s rs Hb Hr Hnf Hw.
  destruct (run_Inv (@init_Inv f len buffer 1 ltac:(lia)) Hr Hnf Hw (or_introl eq_refl)) as (_ & y & P & HI).
  exists y. split; auto. split; [apply HI|]. split; apply HI.
Qed.

(** With any alignment: if the underlying stream reads as much as it can and no Read starts past the end. *)
Theorem C46_transparent_aligned : forall f len buffer a ops s rs,
  0 < a <= zlen buffer -> 
  run true (init f len 0 buffer a) ops = Some (s, rs) ->
  forallb (@no_fail A) ops = true -> (forall want ans tk, In (BRead want ans tk) ops -> want < 2 ^ 64) ->
  (forall ops1 want ans tk ops2 s1 rs1, ops = ops1 ++ BRead want ans tk :: ops2 ->
     run true (init f len 0 buffer a) ops1 = Some (s1, rs1) -> tell s1 <= ulen (us s1)) ->
  exists y, plains (mkF f len 0) ops rs y /\ uf (us s) = ff y /\ ulen (us s) = fl y /\ tell s = fp y /\
    Forall (fun p => p mod (al s) = 0) (rlog s).
Proof.
  intros f len buffer a ops s rs Ha Hr Hnf Hw Hin.
  destruct (run_Inv (@init_Inv f len buffer a ltac:(lia)) Hr Hnf Hw (or_intror (conj eq_refl Hin))) as (_ & y & P & HI).
  exists y. split; auto. split; [apply HI|]. split; [apply HI|]. split; apply HI.
Qed.

(** A state the histories above go through. *)
Definition reach (greedy : bool) (f : Z -> A) len buffer a s : Prop :=
  exists ops rs, run greedy (init f len 0 buffer a) ops = Some (s, rs) /\ forallb (@no_fail A) ops = true /\
    (forall want ans tk, In (BRead want ans tk) ops -> want < 2 ^ 64) /\
    (a = 1 \/ greedy = true /\ forall ops1 want ans tk ops2 s1 rs1, ops = ops1 ++ BRead want ans tk :: ops2 ->
     run true (init f len 0 buffer a) ops1 = Some (s1, rs1) -> tell s1 <= ulen (us s1)).

Lemma reach_Inv greedy f len buffer a s : 0 < a <= zlen buffer -> reach greedy f len buffer a s ->
  al s = a /\ exists y, Inv s y.
Proof.
  intros Ha (ops & rs & Hr & Hnf & Hw & Hin).
  destruct (run_Inv (@init_Inv f len buffer a Ha) Hr Hnf Hw Hin) as (E & y & _ & HI). split; [exact E|eauto].
Qed.

(** Every read of the underlying stream starts at a multiple of the alignment, and asks for the whole buffer. *)
Theorem C46_aligned_reads : forall greedy f len buffer a s, 0 < a <= zlen buffer -> reach greedy f len buffer a s ->
  Forall (fun p => p mod a = 0) (rlog s).
Proof. intros greedy f len buffer a s Ha H. destruct (reach_Inv Ha H) as (E & y & HI). rewrite <- E. apply HI. Qed.

(** A Read that is not cancelled, of a stream that reads as much as it can, returns everything up to the end of the file. *)
Theorem C46_complete : forall f len buffer a s want ans tk s' d,
  0 < a <= zlen buffer -> reach true f len buffer a s -> tell s <= ulen (us s) ->
  step true s (BRead want ans tk) = Some (s', ORead d) -> want < 2 ^ 64 -> want < Z.of_nat tk ->
  d = bytes (uf (us s)) (tell s) (Z.min want (ulen (us s) - tell s)).
Proof.
  intros f len buffer a s want ans tk s' d Ha H Ht Hs Hw Hk. destruct (reach_Inv Ha H) as (E & x & HI). cbn [step] in Hs.
  destruct (Z.leb_spec 0 want) as [Hw0|]; [|discriminate].
  pose proof (fun r => @rd_spec A true (S (Z.to_nat want)) s x want [] ans tk r HI (or_intror (conj eq_refl Ht))) as K.
  rewrite zlen_nil in K. specialize (K _ Hw0 Hw eq_refl).
  destruct (rd _ _ _ _ _ _ _) as [s1 d' rest| |]; [|destruct K|discriminate].
  destruct rest; [|discriminate]. injection Hs as <- <-. destruct K as (e & E1 & E2 & E3 & E4 & E5 & E6). cbn in E1. subst e.
  destruct E6 as (E6 & _); [lia|lia|]. specialize (E6 eq_refl). rewrite E3, E6. rewrite (V_f HI), (V_t HI), (V_l HI).
  f_equal. rewrite (V_t HI), (V_l HI) in Ht. lia.
Qed.

(** With the default alignment a Read that is not cancelled returns fewer bytes than asked for only if the
    underlying stream returned none. *)
Theorem C46_short_only_at_end : forall greedy f len buffer s want ans tk s' d,
  0 < zlen buffer -> reach greedy f len buffer 1 s ->
  step greedy s (BRead want ans tk) = Some (s', ORead d) -> want < 2 ^ 64 -> want < Z.of_nat tk ->
  zlen d = want \/ exists pre, ans = pre ++ [0].
Proof.
  intros greedy f len buffer s want ans tk s' d Hb H Hs Hw Hk. destruct (@reach_Inv greedy f len buffer 1 s) as (E & x & HI); [lia|exact H|]. cbn [step] in Hs.
  destruct (Z.leb_spec 0 want) as [Hw0|]; [|discriminate].
  pose proof (fun r => @rd_spec A greedy (S (Z.to_nat want)) s x want [] ans tk r HI (or_introl E)) as K.
  rewrite zlen_nil in K. specialize (K _ Hw0 Hw eq_refl).
  destruct (rd _ _ _ _ _ _ _) as [s1 d' rest| |]; [|destruct K|discriminate].
  destruct rest; [|discriminate]. injection Hs as <- <-. destruct K as (e & E1 & E2 & E3 & E4 & E5 & E6). cbn in E1. subst e.
  destruct E6 as (_ & E6); [lia|lia|]. destruct (E6 E) as [E7|E7]; [left; lia|right; exact E7].
Qed.

(** A Read of bytes that are in the buffer does not touch the underlying stream. *)
Theorem C46_cached : forall greedy f len buffer a s want tk,
  0 < a <= zlen buffer -> reach greedy f len buffer a s ->
  0 < want -> tell s + want <= bo s + bs s -> (0 < tk)%nat ->
  exists s', step greedy s (BRead want [] tk) = Some (s', ORead (bytes (uf (us s)) (tell s) want)) /\ us s' = us s /\ tell s' = tell s + want.
Proof.
  intros greedy f len buffer a s want tk Ha H Hw Hin Htk. destruct (reach_Inv Ha H) as (E & x & HI).
  pose proof (V_ib HI). pose proof (V_bs HI). unfold tell in Hin. assert (Hb : 0 < bs s) by lia. destruct (V_full HI Hb) as (F1 & F2 & F3).
  destruct tk as [|tk]; [lia|]. cbn [step]. replace (0 <=? want) with true by lia.
  assert (Hrd : rd greedy (S (Z.to_nat want)) s want [] [] (S tk) =
     RDone (mkB (us s) (bb s) (bs s) (bo s) (ib s + want) (al s) (rlog s)) (bytes (uf (us s)) (tell s) want) []).
  { cbn [rd]. rewrite zlen_nil. replace (0 <? want) with true by lia.
    replace ((bs s =? 0) || (ib s =? bs s)) with false by lia. unfold wrap. replace (bs s - ib s <? 0) with false by lia.
    replace (Z.min (want - 0) (bs s - ib s)) with want by lia. replace (ib s + want <=? zlen (bb s)) with true by lia.
    assert (Hsl : slice (ib s) want (bb s) = bytes (uf (us s)) (tell s) want).
    { rewrite <- (@slice_firstn A (bb s) (ib s) want (bs s)) by lia. rewrite F1, slice_bytes by lia. reflexivity. }
    rewrite Hsl. cbn [app]. destruct (Z.to_nat want) as [|n] eqn:En; [lia|]. cbn [rd]. rewrite zlen_bytes by lia.
    replace (want <? want) with false by lia. reflexivity. }
  rewrite Hrd. eexists. split; [reflexivity|]. split; [reflexivity|]. unfold tell; cbn. lia.
Qed.

End Props.

(** ** What is not true *)
Definition file10 : Z -> Z := fun i => 100 + i.
Definition buf4 : list Z := [0; 0; 0; 0].

(** With an alignment greater than one, a Read after a Seek past the end returns bytes that are not in the file:
    [_bufferSize - _inBufferOffset] wraps (BufferedStream.h:55). *)
Theorem C46_aligned_past_end_refuted :
  ~ (forall ops s rs, run true (init file10 10 0 buf4 4) ops = Some (s, rs) -> forallb (@no_fail Z) ops = true ->
       (forall want ans tk, In (BRead want ans tk) ops -> want < 2 ^ 64) ->
       exists y, plains (mkF file10 10 0) ops rs y).
Proof.
  intros H. destruct (H [BRead 4 [4] 9; BSeek 11 MBegin; BRead 1 [2] 9] (mkB (mkU file10 10 10) [108; 109; 102; 103] 2 8 4 4 [0; 8])
     [ORead [100; 101; 102; 103]; OUnit; ORead [103]]) as (y & Hy).
  - reflexivity.
  - reflexivity.
  - intros want ans tk [E|[E|[E|[]]]]; try discriminate; injection E as <- _ _; lia.
  - inversion Hy as [|x0 o0 r0 y0 ops0 rs0 z0 P1 Q1]; subst. inversion Q1 as [|x1 o1 r1 y1 ops1 rs1 z1 P2 Q2]; subst.
    inversion Q2 as [|x2 o2 r2 y2 ops2 rs2 z2 P3 Q3]; subst. inversion P1; subst. inversion P2; subst. inversion P3; subst.
    cbn [fl fp ff] in *.
    match goal with D : [103] = [] \/ _ |- _ => destruct D as [D|D]; [discriminate|cbn in D; lia] end.
Qed.

(** ... and if the underlying stream may read less than it could, it does so even inside the file. *)
Theorem C46_aligned_short_read_refuted :
  ~ (forall ops s rs, run false (init file10 10 0 buf4 4) ops = Some (s, rs) -> forallb (@no_fail Z) ops = true ->
       (forall want ans tk, In (BRead want ans tk) ops -> want < 2 ^ 64) ->
       exists y, plains (mkF file10 10 0) ops rs y).
Proof.
  intros H. destruct (H [BSeek 3 MBegin; BRead 1 [1] 9] (mkB (mkU file10 10 1) [100; 0; 0; 0] 1 0 4 4 [0]) [OUnit; ORead [0]]) as (y & Hy).
  - reflexivity.
  - reflexivity.
  - intros want ans tk [E|[E|[]]]; try discriminate; injection E as <- _ _; lia.
  - inversion Hy as [|x0 o0 r0 y0 ops0 rs0 z0 P1 Q1]; subst. inversion Q1 as [|x1 o1 r1 y1 ops1 rs1 z1 P2 Q2]; subst.
    inversion P1; subst. inversion P2; subst. cbn [fl fp ff] in *.
    match goal with D : [0] = bytes _ _ _ |- _ => cbn in D; discriminate end.
Qed.

(** Over a stream that is not at its start, Tell and Read disagree. *)
Theorem C46_initial_position_refuted :
  ~ (forall p s rs ops, 0 <= p <= 10 -> run true (init file10 10 p buf4 1) ops = Some (s, rs) -> forallb (@no_fail Z) ops = true ->
       exists x y, ff x = file10 /\ fl x = 10 /\ plains x ops rs y).
Proof.
  intros H. destruct (H 5 (mkB (mkU file10 10 9) [105; 106; 107; 108] 4 0 1 1 [5]) [OPos 0; ORead [105]] [BTell; BRead 1 [4] 9]) as (x & y & Hf & Hl & Hy).
  - lia.
  - reflexivity.
  - reflexivity.
  - inversion Hy as [|x0 o0 r0 y0 ops0 rs0 z0 P1 Q1]; subst. inversion Q1 as [|x1 o1 r1 y1 ops1 rs1 z1 P2 Q2]; subst.
    inversion P1; subst. inversion P2; subst. rewrite Hf in *.
    match goal with D : [105] = bytes _ _ _, E : fp _ = 0 |- _ => rewrite E in D; cbn in D; discriminate end.
Qed.

(** A Write that throws leaves the old bytes in the buffer: later Reads return what the file no longer holds. *)
Theorem C46_write_exception_refuted :
  ~ (forall ops s rs want ans tk s' d, run true (init file10 10 0 buf4 1) ops = Some (s, rs) ->
       step true s (BRead want ans tk) = Some (s', ORead d) -> want < 2 ^ 64 ->
       d = bytes (uf (us s)) (tell s) (zlen d)).
Proof.
  intros H.
  specialize (H [BRead 1 [4] 9; BWriteFail [7; 7] 2; BSeek 1 MBegin]
     (mkB (mkU (wr file10 1 [7; 7]) 10 3) [100; 101; 102; 103] 4 0 1 1 [0]) [ORead [100]; OThrow; OUnit] 1 [] 9%nat
     (mkB (mkU (wr file10 1 [7; 7]) 10 3) [100; 101; 102; 103] 4 0 2 1 [0]) [101] eq_refl eq_refl ltac:(lia)).
  cbn in H. discriminate.
Qed.

(** Non-vacuity: short reads, refills, seeks inside and outside of the buffer and writes. *)
Definition ops46 : list (op Z) :=
  [BRead 6 [4; 1; 3] 9; BSeek (-1) MCurrent; BRead 3 [] 9; BWrite [7; 8; 9] 2; BSeek (-4) MEnd; BTell; BSeek 4 MBegin; BRead 3 [1; 0] 9; BRead 9 [4; 1; 0] 20; BSeek (-1) MBegin].
Example C46_run : exists s rs, run false (init file10 10 0 buf4 1) ops46 = Some (s, rs) /\
  rs = [ORead [100; 101; 102; 103; 104; 105]; OUnit; ORead [105; 106; 107]; OWritten 2; OUnit; OPos 6; OUnit; ORead [104]; ORead [105; 106; 107; 7; 8]; OThrow].
Proof. eexists; eexists. split; [vm_compute; reflexivity|reflexivity]. Qed.
Example C46_run_aligned : exists s rs, run true (init file10 10 0 buf4 2) [BSeek 7 MBegin; BRead 9 [4; 0] 20; BSeek 3 MBegin; BRead 2 [4] 9] = Some (s, rs) /\
  rs = [OUnit; ORead [107; 108; 109]; OUnit; ORead [103; 104]] /\ rlog s = [6; 10; 2].
Proof. eexists; eexists. split; [vm_compute; reflexivity|split; reflexivity]. Qed.

Print Assumptions C46_transparent.
Print Assumptions C46_transparent_aligned.
Print Assumptions C46_aligned_reads.
Print Assumptions C46_complete.
Print Assumptions C46_short_only_at_end.
Print Assumptions C46_cached.
Print Assumptions C46_aligned_past_end_refuted.
Print Assumptions C46_aligned_short_read_refuted.
Print Assumptions C46_initial_position_refuted.
Print Assumptions C46_write_exception_refuted.
