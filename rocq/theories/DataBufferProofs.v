From Verif Require Import Base Conc BithreadModel BithreadProofs DataBufferModel DataBufferSpec.
Set Implicit Arguments.
Local Open Scope Z_scope.

(** One token held by at most one thread. *)
Definition Tok (f : nat -> bool) (b : bool) : Prop :=
  (forall t, f t = true -> b = true) /\ (forall t u, f t = true -> f u = true -> t = u) /\
  (b = true -> exists t, f t = true).

Lemma Tok_upd f b f' b' t : Tok f b -> (forall u, u <> t -> f' u = f u) ->
  (f' t = f t /\ b' = b) \/ (b = false /\ f' t = true /\ b' = true) \/ (f t = true /\ f' t = false /\ b' = false) ->
  Tok f' b'.
Proof.
  intros (H1 & H2 & H3) Hu Hc.
  assert (forall u, u <> t \/ u = t) as D by (intros u; destruct (Nat.eq_dec u t); auto).
  destruct Hc as [[E ->]|[(Eb & Et & ->)|(Et & Et' & ->)]].
  - assert (forall u, f' u = f u) as EE by (intros u; destruct (D u) as [N | ->]; auto).
    split; [|split]; intros; rewrite ?EE in *; eauto.
    destruct (H3 H) as [v Hv]. exists v. now rewrite EE.
  - assert (forall u, u <> t -> f' u = false) as N.
    { intros u Hn. rewrite (Hu u Hn). destruct (f u) eqn:E; auto. apply H1 in E. congruence. }
    split; [|split]; auto.
    + intros u v Hf Hv. destruct (D u) as [Nu| ->], (D v) as [Nv| ->]; auto;
      repeat match goal with H : _ <> t |- _ => rewrite (N _ H) in *; try discriminate; clear H end.
    + eauto.
  - assert (forall u, f' u = false) as N.
    { intros u. destruct (D u) as [Nu| ->]; auto. rewrite (Hu u Nu). destruct (f u) eqn:E; auto.
      exfalso. apply Nu. auto. }
    split; [|split]; intros; rewrite ?N in *; discriminate.
Qed.

Lemma Tok_ext f b f' : Tok f b -> (forall u, f' u = f u) -> Tok f' b.
Proof. intros HT H. apply (@Tok_upd f b f' b 0%nat HT); auto. Qed.

Section P.
Variable A : Type.
Variables p q req : Z.
Variable discard : bool.
Variable cap : Z.
Hypothesis Hp0 : 0 < p.
Hypothesis Hq0 : 0 < q.
Hypothesis Hpc : (p | cap).
Hypothesis Hqc : (q | cap).
Implicit Types (s : db A) (b : bcb A) (Q d bs : list A).


Lemma writing_holds (x : pc A) : writing x = true -> holds x = true.
Proof. destruct x; auto; discriminate. Qed.

Definition Struct s : Prop :=
  Tok (fun u => holds (pcs s u)) (negb (wall s)) /\
  (exists k : bool, Tok (fun u => writing (pcs s u)) k /\ aw s = Nat.b2n k) /\
  Tok (fun u => reading (pcs s u)) (ar s).

Definition full b : Prop := wavail b / p * p = 0 \/ free_size b < req.

Definition pok b (e x : bool) (c : pc A) : Prop :=
  match c with
  | PCopy d w n k => fst w = wo b /\ n <= wavail b /\ 0 <= k <= n /\ n <= zlen d /\ (p | n) /\
                     slice (wo b) k (st b) = firstn (Z.to_nat k) d
  | PWait d => full b
  | RProc v n => fst v = ro b /\ 0 < n <= ravail b /\ (q | n)
  | RWait => ravail b < q /\ e = false /\ x = false
  | DWait thr => data_size b < thr /\ e = false /\ x = false
  | _ => True
  end.

Definition Buf b Q : Prop := Rep b Q /\ total_size b = cap /\ (p | wo b) /\ (q | ro b).

Definition Ann (f : nat -> pc A) (l : list (ev A)) : Prop :=
  forall t r, f t = PRet r -> announced t l = Some r.

Definition Inv s Q : Prop :=
  Buf (bb s) Q /\ fifos cap p q req [] (log s) Q /\ Struct s /\
  (forall t, pok (bb s) (eod s) (exc s) (pcs s t)) /\ Ann (pcs s) (log s).

(** ** geometry *)
Lemma div0 a m : 0 < m -> 0 <= a -> a / m * m = 0 -> a < m.
Proof. intros. destruct (Z_lt_le_dec a m); auto. assert (1 <= a / m) by (apply Z.div_le_lower_bound; lia). nia. Qed.
Lemma divn a m : 0 < m -> 0 <= a -> a / m * m <> 0 -> 0 < a / m * m <= a /\ (m | a / m * m).
Proof.
  intros. pose proof (Z.mul_div_le a m ltac:(lia)). assert (0 <= a / m) by (apply Z.div_pos; lia).
  split; [nia|]. apply Z.divide_factor_r.
Qed.
Lemma div_small0 a m : 0 < m -> 0 <= a < m -> a / m * m = 0.
Proof. intros. rewrite Z.div_small by lia. lia. Qed.

Lemma rep_contig b Q : Rep b Q -> contig b = true -> wo b < total_size b /\ zlen Q = wo b - ro b /\ 0 <= ro b.
Proof.
  intros [[Hc (f1 & f2 & Hs & Hr & Hw & Hf)] | [Hc _]] H; [|congruence].
  unfold total_size. rewrite Hs, !zlen_app. pose proof (zlen_nonneg f1). lia.
Qed.
Lemma rep_wrap b Q : Rep b Q -> contig b = false -> ro b < total_size b /\ zlen Q = total_size b - ro b + wo b /\ 0 <= wo b <= ro b.
Proof.
  intros [[Hc _] | [Hc (dt & f & dh & Hs & Hw & Hr & HQ & Hd)]] H; [congruence|].
  unfold total_size. rewrite Hs, HQ, !zlen_app. pose proof (zlen_nonneg dt). pose proof (zlen_nonneg f). lia.
Qed.

Lemma mult_pos_ge a m : 0 < m -> (m | a) -> 0 < a -> m <= a.
Proof. intros. apply Z.divide_pos_le; auto. Qed.

(** a reader lacks a packet in its view only if the content is less than a packet *)
Lemma ravail_lt b Q : Buf b Q -> ravail b < q -> contig b = true /\ zlen Q < q.
Proof.
  intros (HR & HT & Hw & Hr) Hl. unfold ravail in Hl. destruct (contig b) eqn:Hc; cbv iota in Hl.
  - pose proof (rep_contig HR Hc). split; auto; lia.
  - pose proof (rep_wrap HR Hc). exfalso.
    assert (q <= total_size b - ro b); [|lia].
    apply mult_pos_ge; auto; [|lia]. rewrite HT. now apply Z.divide_sub_r.
Qed.
(** a writer lacks a packet in its view only if the free space is less than a packet *)
Lemma wavail_lt b Q : Buf b Q -> wavail b < p -> contig b = false /\ cap - zlen Q < p.
Proof.
  intros (HR & HT & Hw & Hr) Hl. unfold wavail in Hl. destruct (contig b) eqn:Hc; cbv iota in Hl.
  - pose proof (rep_contig HR Hc). exfalso.
    assert (p <= total_size b - wo b); [|lia].
    apply mult_pos_ge; auto; [|lia]. rewrite HT. now apply Z.divide_sub_r.
  - pose proof (rep_wrap HR Hc). split; auto; lia.
Qed.

Lemma full_space b Q : Buf b Q -> full b -> cap - zlen Q < p \/ cap - zlen Q < req.
Proof.
  intros HB. pose proof HB as (HR & HT & _). pose proof (rep_sizes HR) as HS. intros [H|H].
  - left. apply div0 in H; [|lia|lia]. now apply (wavail_lt HB).
  - right. unfold free_size in H. lia.
Qed.

(** ** fifo histories *)
Lemma fifos_snoc Q l Q1 e Q2 : fifos cap p q req Q l Q1 -> fifo cap p q req Q1 e Q2 -> fifos cap p q req Q (l ++ [e]) Q2.
Proof. induction 1; cbn; intros. - econstructor; eauto. constructor. - econstructor; eauto. Qed.

Lemma announced_snoc (t : nat) (l : list (ev A)) e : announced t (l ++ [e]) =
  match outcome t e with Some r => Some r | None => announced t l end.
Proof. unfold announced. now rewrite fold_left_app. Qed.

Lemma Ann_upd (f g : nat -> pc A) l l' t x : Ann f l ->
  (forall u r, u <> t -> g u = PRet r -> f u = PRet r) ->
  (forall u, u <> t -> announced u l' = announced u l) ->
  (forall r, x = PRet r -> announced t l' = Some r) ->
  Ann (fupd g t x) l'.
Proof.
  intros H Hg Hl Hx u r Hu. destruct (Nat.eq_dec u t) as [->|N].
  - rewrite fupd_same in Hu. auto.
  - rewrite fupd_other in Hu by auto. rewrite Hl by auto. eauto.
Qed.

(** ** structure *)
Lemma Struct_upd s s' t (g : nat -> pc A) x :
  Struct s -> pcs s' = fupd g t x ->
  (forall u, holds (g u) = holds (pcs s u) /\ writing (g u) = writing (pcs s u) /\ reading (g u) = reading (pcs s u)) ->
  ((holds x = holds (pcs s t) /\ wall s' = wall s) \/ (wall s = true /\ holds x = true /\ wall s' = false) \/
   (holds (pcs s t) = true /\ holds x = false /\ wall s' = true)) ->
  ((writing x = writing (pcs s t) /\ aw s' = aw s) \/
   (holds (pcs s t) = true /\ writing (pcs s t) = false /\ writing x = true /\ aw s' = S (aw s)) \/
   (writing (pcs s t) = true /\ writing x = false /\ aw s' = pred (aw s))) ->
  ((reading x = reading (pcs s t) /\ ar s' = ar s) \/ (ar s = false /\ reading x = true /\ ar s' = true) \/
   (reading (pcs s t) = true /\ reading x = false /\ ar s' = false)) ->
  Struct s'.
Proof.
  intros (HH & (b & HW & Ha) & HRd) Hpcs Hg CH CW CR. unfold Struct. rewrite Hpcs.
  split; [|split].
  - apply (@Tok_upd _ _ _ (negb (wall s')) t HH).
    + intros u Hn. rewrite fupd_other by auto. apply Hg.
    + rewrite fupd_same. destruct CH as [[E1 E2]|[(E1 & E2 & E3)|(E1 & E2 & E3)]].
      * left. rewrite E2. auto.
      * right; left. rewrite E1, E3. auto.
      * right; right. rewrite E3. auto.
  - destruct CW as [[E1 E2]|[(E0 & E1 & E2 & E3)|(E1 & E2 & E3)]].
    + exists b. split; [|congruence]. apply (@Tok_upd _ _ _ b t HW).
      * intros u Hn. rewrite fupd_other by auto. apply Hg.
      * rewrite fupd_same. auto.
    + assert (b = false) as ->.
      { destruct b; auto. destruct HW as (_ & _ & HW). destruct (HW eq_refl) as [u Hu].
        assert (u = t) as -> by (apply HH; auto; now apply writing_holds). congruence. }
      exists true. split; [|cbn in *; lia]. apply (@Tok_upd _ _ _ true t HW).
      * intros u Hn. rewrite fupd_other by auto. apply Hg.
      * rewrite fupd_same. auto.
    + assert (b = true) as -> by (eapply HW; eauto).
      exists false. split; [|cbn in *; lia]. apply (@Tok_upd _ _ _ false t HW).
      * intros u Hn. rewrite fupd_other by auto. apply Hg.
      * rewrite fupd_same. auto.
  - apply (@Tok_upd _ _ _ (ar s') t HRd).
    + intros u Hn. rewrite fupd_other by auto. apply Hg.
    + rewrite fupd_same. auto.
Qed.

Lemma Struct_ext s s' : Struct s ->
  (forall u, holds (pcs s' u) = holds (pcs s u) /\ writing (pcs s' u) = writing (pcs s u) /\ reading (pcs s' u) = reading (pcs s u)) ->
  wall s' = wall s -> aw s' = aw s -> ar s' = ar s -> Struct s'.
Proof.
  intros (HH & (b & HW & Ha) & HRd) Hg E1 E2 E3. unfold Struct. rewrite E1, E2, E3. split; [|split].
  - eapply Tok_ext; eauto. intros u. apply Hg.
  - exists b. split; auto. eapply Tok_ext; eauto. intros u. apply Hg.
  - eapply Tok_ext; eauto. intros u. apply Hg.
Qed.

Lemma cls_wake_full (f : nat -> pc A) u : holds (wake_full f u) = holds (f u) /\ writing (wake_full f u) = writing (f u) /\ reading (wake_full f u) = reading (f u).
Proof. unfold wake_full. destruct (f u); auto. Qed.
Lemma cls_wake_empty (f : nat -> pc A) u : holds (wake_empty f u) = holds (f u) /\ writing (wake_empty f u) = writing (f u) /\ reading (wake_empty f u) = reading (f u).
Proof. unfold wake_empty. destruct (f u); auto. Qed.
Lemma cls_wake_guard (f : nat -> pc A) u : holds (wake_guard f u) = holds (f u) /\ writing (wake_guard f u) = writing (f u) /\ reading (wake_guard f u) = reading (f u).
Proof. unfold wake_guard. destruct (f u); auto. Qed.
Lemma ret_wake_full (f : nat -> pc A) u r : wake_full f u = PRet r -> f u = PRet r.
Proof. unfold wake_full. destruct (f u); auto; discriminate. Qed.
Lemma ret_wake_empty (f : nat -> pc A) u r : wake_empty f u = PRet r -> f u = PRet r.
Proof. unfold wake_empty. destruct (f u); auto; discriminate. Qed.
Lemma ret_wake_guard (f : nat -> pc A) u r : wake_guard f u = PRet r -> f u = PRet r.
Proof. unfold wake_guard. destruct (f u); auto; discriminate. Qed.

Lemma pok_upd (f : nat -> pc A) b' e' y' t x :
  (forall u, u <> t -> pok b' e' y' (f u)) -> pok b' e' y' x ->
  forall u, pok b' e' y' (fupd f t x u).
Proof.
  intros Hu Hx u. destruct (Nat.eq_dec u t) as [->|N].
  - now rewrite fupd_same.
  - rewrite fupd_other by auto. auto.
Qed.

(** ** buffer operations keep the other threads' assertions *)
Lemma fill_geom b w k bs : (0 <= fst w + k) -> fst w + k + zlen bs <= total_size b ->
  total_size (fill b w k bs) = total_size b.
Proof. intros. unfold total_size, fill; cbn [st]. apply zlen_splice; auto. Qed.

Lemma pok_fill b w k bs e x c : total_size (fill b w k bs) = total_size b -> writing c = false ->
  pok b e x c -> pok (fill b w k bs) e x c.
Proof.
  intros HT Hw. destruct c; try discriminate; cbn [pok]; auto; unfold ravail, data_size; rewrite HT; auto.
Qed.

Lemma pok_push b b' e x (f : nat -> pc A) u : ro b' = ro b -> ravail b <= ravail b' -> writing (f u) = false ->
  pok b e x (f u) -> pok b' e x (wake_empty f u).
Proof.
  intros Hr Hv Hw. unfold wake_empty. destruct (f u); try discriminate; cbn [pok]; auto. rewrite Hr. intuition lia.
Qed.

Lemma pok_pop b b' e x (f : nat -> pc A) u : wo b' = wo b -> st b' = st b -> wavail b <= wavail b' -> reading (f u) = false ->
  pok b e x (f u) -> pok b' e x (wake_full f u).
Proof.
  intros Hr Hs Hv Hw. unfold wake_full. destruct (f u); try discriminate; cbn [pok]; auto. rewrite Hr, Hs. intuition lia.
Qed.

Lemma push_divide b b' Q n : Buf b Q -> (p | n) -> push b n = Some b' -> st b' = st b /\ ro b' = ro b /\ (p | wo b').
Proof.
  intros (_ & HT & Hw & _) Hn. unfold push. destruct (_ <=? _); [|discriminate]. intros E; injection E as <-.
  destruct (_ =? _); cbn [st ro wo]; repeat split; auto. - apply Z.divide_0_r. - now apply Z.divide_add_r.
Qed.
Lemma pop_divide b b' Q n : Buf b Q -> (q | n) -> pop b n = Some b' -> st b' = st b /\ wo b' = wo b /\ (q | ro b').
Proof.
  intros (_ & HT & _ & Hr) Hn. unfold pop. destruct (_ <=? _); [|discriminate]. intros E; injection E as <-.
  destruct (_ =? _); cbn [st ro wo]; repeat split; auto. - apply Z.divide_0_r. - now apply Z.divide_add_r.
Qed.

(** ** every step keeps the invariant *)
Lemma ann_emit (t : nat) (l : list (ev A)) e : outcome t e = None -> announced t (l ++ [e]) = announced t l.
Proof. intros H. now rewrite announced_snoc, H. Qed.

Lemma out_other (t u : nat) e : u <> t ->
  match e with EAccept v _ _ _ | EDiscard v _ | EBad v _ | EZero v | ERefused v => v = t | _ => True end ->
  outcome (A := A) u e = None.
Proof. intros N. destruct e; cbn; intros; subst; auto; destruct (Nat.eqb_spec t u); congruence. Qed.

Lemma out_self (t : nat) : (Nat.eqb t t) = true. Proof. apply Nat.eqb_refl. Qed.

Ltac flds := cbn [log go emit set_bb set_aw set_ar set_pcs set_wall set_eod set_exc pcs bb eod exc ar aw wall].

Ltac fin_ann HA := flds; eapply (@Ann_upd _ _ _ _ _ _ HA);
  [ first [ now auto | intros; now apply ret_wake_empty | intros; now apply ret_wake_full | intros; now apply ret_wake_guard ]
  | intros ? ?; rewrite ?announced_snoc; repeat (erewrite out_other; [ | eassumption | cbn; auto ]); reflexivity
  | let H := fresh "HRX" in intros ? H; try discriminate H; try (injection H as <-); rewrite ?announced_snoc; cbn; rewrite ?out_self; try reflexivity ].

Ltac fin_struct HS t := eapply (@Struct_upd _ _ t _ _ HS);
  [ cbn; reflexivity
  | intros ?; first [ now auto | apply cls_wake_empty | apply cls_wake_full | apply cls_wake_guard ]
  | cbn; try match goal with H : pcs _ _ = _ |- _ => rewrite H end; cbn; try now auto
  | cbn; try match goal with H : pcs _ _ = _ |- _ => rewrite H end; cbn; try now auto 6
  | cbn; try match goal with H : pcs _ _ = _ |- _ => rewrite H end; cbn; try now auto ].

Lemma Inv_enter s Q t d : Inv s Q -> pcs s t = PEnter d -> Inv (enter p req discard s t d) Q.
Proof.
  intros (HB & HF & HS & HP & HA) Hpc'. pose proof HB as (HR & HT & Hwd & Hrd). pose proof (rep_sizes HR) as HZ.
  pose proof (zlen_nonneg d) as Hd0.
  unfold enter. destruct (Z.eqb_spec (zlen d mod p) 0) as [Ed|Ed]; cbn [negb].
  2:{ split; [exact HB|]. split; [|split; [|split]].
      - eapply fifos_snoc; [exact HF|]. constructor. intros Hdv. apply Ed. apply Z.mod_divide; auto; lia.
      - fin_struct HS t.
      - flds; apply pok_upd; cbn [pok]; auto.
      - fin_ann HA. }
  assert (p | zlen d) as Hpd by (apply Z.mod_divide; lia).
  destruct (eod s || exc s) eqn:Ee.
  { split; [exact HB|]. split; [|split; [|split]].
    - eapply fifos_snoc; [exact HF|]. constructor.
    - fin_struct HS t.
    - flds; apply pok_upd; cbn [pok]; auto.
    - fin_ann HA. }
  rewrite (write_view_ok HR). cbn [fst snd].
  destruct ((wavail (bb s) / p * p =? 0) || (free_size (bb s) <? req)) eqn:Ef.
  - assert (full (bb s)) as Hf.
    { unfold full. apply orb_true_iff in Ef as [E|E]; [left; lia | right; lia]. }
    destruct discard.
    + split; [exact HB|]. split; [|split; [|split]].
      * eapply fifos_snoc; [exact HF|]. constructor. now apply (full_space HB).
      * fin_struct HS t.
      * flds; apply pok_upd; cbn [pok]; auto.
      * fin_ann HA.
    + split; [exact HB|]. split; [|split; [|split]].
      * exact HF.
      * fin_struct HS t.
      * flds; apply pok_upd; cbn [pok]; auto.
      * fin_ann HA.
  - apply orb_false_iff in Ef as [E1 E2].
    destruct (@divn (wavail (bb s)) p) as [Hn1 Hn2]; [lia|lia|lia|].
    split; [exact HB|]. split; [|split; [|split]].
    + exact HF.
    + fin_struct HS t.
    + flds; apply pok_upd; cbn [pok]; auto. split; [auto|]. split; [lia|].
      split; [lia|]. split; [lia|]. split.
      * destruct (Z.min_dec (zlen d) (wavail (bb s) / p * p)) as [-> | ->]; auto.
      * reflexivity.
    + fin_ann HA.
Qed.

Lemma slice_firstn (l : list A) (k : Z) : 0 <= k -> slice 0 k l = firstn (Z.to_nat k) l.
Proof. reflexivity. Qed.

Lemma firstn_snoc (l : list A) (k : Z) : 0 <= k < zlen l ->
  firstn (Z.to_nat (k + 1)) l = firstn (Z.to_nat k) l ++ slice k 1 l.
Proof.
  intros H. unfold slice. replace (Z.to_nat (k + 1)) with (Z.to_nat k + 1)%nat by lia.
  rewrite <- (firstn_skipn (Z.to_nat k) l) at 1.
  rewrite firstn_app. rewrite firstn_length_le by (unfold zlen in *; lia).
  rewrite firstn_all2 by (rewrite firstn_length; lia).
  f_equal. f_equal. lia.
Qed.

Lemma slice_snoc_splice (l bs : list A) off k :
  0 <= off -> 0 <= k -> off + k + zlen bs <= zlen l ->
  slice off (k + zlen bs) (splice (off + k) bs l) = slice off k l ++ bs.
Proof.
  intros Ho Hk Hle. pose proof (zlen_nonneg bs).
  destruct (@split_at A off l) as (a & r & -> & Ha); [lia|]. rewrite zlen_app in Hle.
  destruct (@split_at A k r) as (m & r2 & -> & Hm); [lia|]. rewrite zlen_app in Hle.
  destruct (@split_at A (zlen bs) r2) as (n & r3 & -> & Hn); [lia|].
  rewrite (@slice_app_mid A a m (n ++ r3)) by lia.
  replace (a ++ m ++ n ++ r3) with ((a ++ m) ++ n ++ r3) by (rewrite <- app_assoc; reflexivity).
  rewrite splice_app_mid; [|rewrite zlen_app; lia|unfold zlen in *; lia].
  replace ((a ++ m) ++ bs ++ r3) with (a ++ (m ++ bs) ++ r3) by (rewrite <- !app_assoc; reflexivity).
  apply slice_app_mid; [lia|]. rewrite zlen_app; lia.
Qed.

Lemma others_not_writing s t u : Struct s -> holds (pcs s t) = true -> u <> t -> writing (pcs s u) = false.
Proof.
  intros (HH & _) Ht Hn. destruct (writing (pcs s u)) eqn:E; auto. exfalso. apply Hn.
  apply HH; auto. now apply writing_holds.
Qed.
Lemma others_not_reading s t u : Struct s -> reading (pcs s t) = true -> u <> t -> reading (pcs s u) = false.
Proof.
  intros (_ & _ & HH) Ht Hn. destruct (reading (pcs s u)) eqn:E; auto. exfalso. apply Hn. apply HH; auto.
Qed.

Lemma Inv_copy s Q t d w n k : Inv s Q -> pcs s t = PCopy d w n k -> exists Q', Inv (copy s t d w n k) Q'.
Proof.
  intros (HB & HF & HS & HP & HA) Hpc'. pose proof HB as (HR & HT & Hwd & Hrd). pose proof (rep_sizes HR) as HZ.
  pose proof (HP t) as Ht. rewrite Hpc' in Ht. cbn [pok] in Ht. destruct Ht as (Hw & Hnw & Hk & Hnd & Hpn & Hsl).
  assert (holds (pcs s t) = true) as Hh by now rewrite Hpc'.
  unfold copy. destruct (Z.ltb_spec k n).
  - exists Q. assert (zlen (slice k 1 d) = 1) as H1 by (apply slice_zlen; lia).
    assert (total_size (fill (bb s) w k (slice k 1 d)) = total_size (bb s)) as HG by (apply fill_geom; lia).
    split; [|split; [|split; [|split]]].
    + split; [apply fill_rep; auto; lia|]. split; [cbn [bb go set_bb]; lia|]. split; auto.
    + exact HF.
    + fin_struct HS t.
    + flds; apply pok_upd; cbn [pok]; auto.
      * intros u Hn. apply pok_fill; auto. now apply (@others_not_writing s t u).
      * split; auto. split; [unfold wavail; rewrite HG; exact Hnw|]. split; [lia|]. split; auto. split; auto.
        cbn [fill wo st]. rewrite Hw. rewrite firstn_snoc by lia. rewrite <- Hsl.
        rewrite <- H1 at 1. apply slice_snoc_splice; unfold total_size in *; lia.
    + fin_ann HA.
  - assert (k = n) as -> by lia.
    assert (zlen (slice (wo (bb s)) n (st (bb s))) = n) as Hln by (apply slice_zlen; unfold total_size in *; lia).
    destruct (@push_rep A (bb s) Q (slice (wo (bb s)) n (st (bb s))) (slice (wo (bb s)) n (st (bb s))) [] HR)
      as (b' & Hpu & HR' & Hst & Hro & Hra).
    { now rewrite Hln. } { lia. } { now rewrite app_nil_r. }
    rewrite Hln in Hpu. rewrite Hpu.
    destruct (push_divide HB Hpn Hpu) as (_ & _ & Hwd').
    exists (Q ++ slice (wo (bb s)) n (st (bb s))).
    split; [|split; [|split; [|split]]].
    + split; [exact HR'|]. cbn. unfold total_size in *. rewrite Hst, Hro. auto.
    + cbn. eapply fifos_snoc; [exact HF|]. constructor; auto; lia.
    + fin_struct HS t.
    + flds; apply pok_upd; [|exact I].
      intros u Hn. apply pok_push with (b := bb s); auto. now apply (@others_not_writing s t u).
    + fin_ann HA.
Qed.

Lemma Inv_release s Q t r : Inv s Q -> pcs s t = PRet r -> Inv (release s t r) Q.
Proof.
  intros (HB & HF & HS & HP & HA) Hpc'. split; [exact HB|]. unfold release. split; [|split; [|split]].
  - eapply fifos_snoc; [exact HF|]. constructor.
  - fin_struct HS t.
  - flds. apply pok_upd; [|exact I]. intros u Hn. specialize (HP u). unfold wake_guard. destruct (pcs s u); auto.
  - fin_ann HA.
Qed.

Lemma Inv_emit s Q e : Inv s Q -> fifo cap p q req Q e Q -> (forall t, outcome t e = None) -> Inv (emit s e) Q.
Proof.
  intros (HB & HF & HS & HP & HA) He Ho. split; [exact HB|]. split; [|split; [|split]].
  - eapply fifos_snoc; eauto.
  - eapply Struct_ext; [exact HS|..]; auto.
  - exact HP.
  - intros t r H. flds. rewrite announced_snoc, Ho. now apply HA.
Qed.

Lemma Inv_go s Q t x : Inv s Q -> holds x = holds (pcs s t) -> writing x = writing (pcs s t) ->
  reading x = reading (pcs s t) -> pok (bb s) (eod s) (exc s) x -> (forall r, x <> PRet r) -> Inv (go s t x) Q.
Proof.
  intros (HB & HF & HS & HP & HA) H1 H2 H3 H4 H5. split; [exact HB|]. split; [exact HF|]. split; [|split].
  - eapply (@Struct_upd _ _ t _ _ HS); [reflexivity|auto|..]; left; auto.
  - flds. apply pok_upd; auto.
  - flds. eapply (@Ann_upd _ _ _ _ _ _ HA); auto. intros r E. now elim (H5 r).
Qed.

Lemma Inv_read_end s Q t : Inv s Q -> reading (pcs s t) = true -> Inv (go (set_ar s false) t Idle) Q.
Proof.
  intros (HB & HF & HS & HP & HA) H1. split; [exact HB|]. split; [exact HF|]. split; [|split].
  - eapply (@Struct_upd _ _ t _ _ HS); [reflexivity|auto|..]; flds.
    + left. destruct (pcs s t); auto; discriminate.
    + left. destruct (pcs s t); auto; discriminate.
    + auto.
  - flds. apply pok_upd; cbn [pok]; auto.
  - fin_ann HA.
Qed.

Lemma Inv_read s Q t : Inv s Q -> pcs s t = Idle -> Inv (read q s t) Q.
Proof.
  intros HI Hpc'. pose proof HI as (HB & HF & HS & HP & HA).
  pose proof HB as (HR & HT & Hwd & Hrd). pose proof (rep_sizes HR) as HZ.
  unfold read. destruct (ar s) eqn:Ear.
  { apply Inv_emit; auto. constructor. }
  rewrite (read_view_ok HR). cbn [fst snd].
  destruct (Z.eqb_spec (ravail (bb s) / q * q) 0) as [E|E].
  - apply div0 in E; [|lia|lia]. destruct (ravail_lt HB E) as [Hc HQ].
    destruct (exc s) eqn:Ex; [apply Inv_emit; auto; now constructor|].
    destruct (eod s) eqn:Ed; [apply Inv_emit; auto; now constructor|].
    split; [exact HB|]. split; [exact HF|]. split; [|split].
    + fin_struct HS t.
    + flds. apply pok_upd; cbn [pok]; auto.
      intros u Hn. specialize (HP u). rewrite ?Ex, ?Ed in *. exact HP.
    + fin_ann HA.
  - destruct (@divn (ravail (bb s)) q) as [Hn1 Hn2]; [lia|lia|lia|].
    destruct (@rep_ravail_prefix A (bb s) Q (ravail (bb s) / q * q) HR) as (rest & HQ & Hlen); [lia|].
    split; [exact HB|]. split; [|split; [|split]].
    + eapply fifos_snoc; [exact HF|]. econstructor; [exact HQ|..]; rewrite Hlen; auto; lia.
    + fin_struct HS t.
    + flds. apply pok_upd; cbn [pok]; auto.
    + fin_ann HA.
Qed.

Lemma Inv_processed s Q t v n k : Inv s Q -> pcs s t = RProc v n -> 0 <= k <= n ->
  exists Q', Inv (processed q s t v n k) Q'.
Proof.
  intros HI Hpc' Hk. pose proof HI as (HB & HF & HS & HP & HA).
  pose proof HB as (HR & HT & Hwd & Hrd). pose proof (rep_sizes HR) as HZ.
  pose proof (HP t) as Ht. rewrite Hpc' in Ht. cbn [pok] in Ht. destruct Ht as (Hv & Hn & Hqn).
  assert (reading (pcs s t) = true) as Hrt by now rewrite Hpc'.
  unfold processed. destruct (Z.eqb_spec k 0) as [E|E].
  { exists Q. now apply Inv_read_end. }
  set (k' := if negb (k mod q =? 0) then n else k).
  assert (0 < k' <= n /\ (q | k')) as [Hk' Hdk].
  { unfold k'. destruct (Z.eqb_spec (k mod q) 0); cbn [negb]; split; auto; try lia. apply Z.mod_divide; lia. }
  destruct (@rep_ravail_prefix A (bb s) Q n HR) as (rest & HQ & Hlen); [lia|].
  destruct (@rep_ravail_prefix A (bb s) Q k' HR) as (rest' & HQ' & Hlen'); [lia|].
  pose proof HR as HR0. rewrite HQ' in HR0.
  destruct (@pop_rep A (bb s) _ _ HR0) as (b' & Hpo & HR' & Hst & Hwo & Hwa); [lia|].
  rewrite Hlen' in Hpo. rewrite Hpo.
  destruct (pop_divide HB Hdk Hpo) as (_ & _ & Hrd').
  exists rest'. split; [|split; [|split; [|split]]].
  - split; [exact HR'|]. flds. unfold total_size in *. rewrite Hst, Hwo. auto.
  - flds. eapply fifos_snoc; [exact HF|]. rewrite Hv. econstructor; [exact HQ|lia|exact HQ'|].
    unfold k'. destruct (k mod q =? 0); cbn [negb]; auto. symmetry. apply firstn_slice. lia.
  - fin_struct HS t.
  - flds. apply pok_upd; [|exact I]. intros u Hn'. apply pok_pop with (b := bb s); auto.
    now apply (@others_not_reading s t u).
  - fin_ann HA.
Qed.

Lemma Inv_wait s Q t thr : Inv s Q ->
  (pcs s t = Idle /\ ar s = false) \/ (exists y, pcs s t = DWoken y) -> Inv (wait_loop s t thr) Q.
Proof.
  intros HI Hpc'. pose proof HI as (HB & HF & HS & HP & HA).
  unfold wait_loop. destruct ((data_size (bb s) <? thr) && negb (eod s) && negb (exc s)) eqn:E.
  - apply andb_true_iff in E as [E E3]. apply andb_true_iff in E as [E1 E2].
    apply negb_true_iff in E2, E3.
    split; [exact HB|]. split; [exact HF|]. split; [|split].
    + destruct Hpc' as [[Hpc' Har] | [y Hpc']]; fin_struct HS t.
      left. split; auto. symmetry. eapply HS. instantiate (1 := t). now rewrite Hpc'.
    + flds. apply pok_upd; auto. cbn [pok]. split; [lia|auto].
    + fin_ann HA.
  - destruct Hpc' as [[Hpc' Har] | [y Hpc']].
    + replace (set_ar s false) with s; [apply Inv_go; cbn; rewrite ?Hpc'; cbn [pok]; auto; discriminate|].
      destruct s; cbn in *. now rewrite Har.
    + apply Inv_read_end; auto. now rewrite Hpc'.
Qed.

Lemma Inv_init storage : zlen storage = cap -> storage <> [] -> Inv (init storage) [].
Proof.
  intros Hc Hn. split; [|split; [|split; [|split]]].
  - split; [|split; [exact Hc|split; apply Z.divide_0_r]].
    exact (proj1 (@init_inv A storage Hn)).
  - constructor.
  - split; [|split]; cbn.
    + split; [|split]; cbn; intros; discriminate.
    + exists false. split; auto. split; [|split]; cbn; intros; discriminate.
    + split; [|split]; cbn; intros; discriminate.
  - intros t. exact I.
  - intros t r H. discriminate H.
Qed.

Lemma wake_empty_pok s e y Q : Inv s Q -> forall u, pok (bb s) e y (wake_empty (pcs s) u).
Proof.
  intros (_ & _ & _ & HP & _) u. specialize (HP u). unfold wake_empty. destruct (pcs s u); auto; exact I.
Qed.

Lemma Inv_step s Q l s' : Inv s Q -> step p q req discard s l = Some s' -> exists Q', Inv s' Q'.
Proof.
  intros HI Hst. pose proof HI as (HB & HF & HS & HP & HA). destruct l; cbn [step] in Hst.
  - destruct (pcs s t) eqn:Hpc'; try discriminate. injection Hst as <-. exists Q.
    apply Inv_go; rewrite ?Hpc'; cbn [pok]; auto; discriminate.
  - destruct (pcs s t) eqn:Hpc'; try discriminate; try (injection Hst as <-).
    + destruct (wall s) eqn:Ew; injection Hst as <-; exists Q.
      * split; [exact HB|]. split; [exact HF|]. split; [|split].
        -- fin_struct HS t.
        -- flds. apply pok_upd; cbn [pok]; auto.
        -- fin_ann HA.
      * apply Inv_go; rewrite ?Hpc'; cbn [pok]; auto; discriminate.
    + exists Q. now apply Inv_enter.
    + eapply Inv_copy; eauto.
    + exists Q. split; [exact HB|]. split; [|split; [|split]].
      * flds. eapply fifos_snoc; [exact HF|]. constructor.
      * fin_struct HS t.
      * flds. apply pok_upd; cbn [pok]; auto.
      * fin_ann HA.
    + exists Q. now apply Inv_release.
    + exists Q. apply Inv_read_end; auto. now rewrite Hpc'.
    + exists Q. apply Inv_wait; eauto.
  - destruct (pcs s t) eqn:Hpc'; try discriminate; injection Hst as <-; exists Q.
    + split; [exact HB|]. split; [|split; [|split]].
      * flds. eapply fifos_snoc; [eapply fifos_snoc; [exact HF|]|]; constructor.
      * fin_struct HS t.
      * flds. apply pok_upd; cbn [pok]; auto.
      * fin_ann HA.
    + apply Inv_go; rewrite ?Hpc'; cbn [pok]; auto; discriminate.
    + apply Inv_go; rewrite ?Hpc'; cbn [pok]; auto; discriminate.
    + apply Inv_read_end; auto. now rewrite Hpc'.
  - destruct (pcs s t) eqn:Hpc'; try discriminate. injection Hst as <-. exists Q. now apply Inv_read.
  - destruct (pcs s t) eqn:Hpc'; try discriminate.
    destruct ((0 <=? k) && (k <=? n)) eqn:Ek; [|discriminate]. injection Hst as <-.
    eapply Inv_processed; eauto. lia.
  - destruct (pcs s t) eqn:Hpc'; try discriminate. injection Hst as <-. exists Q.
    apply Inv_read_end; auto. now rewrite Hpc'.
  - destruct (pcs s t) eqn:Hpc'; try discriminate. exists Q.
    destruct ((0 <? thr) && (thr mod q =? 0) && (thr <? total_size (bb s))).
    2:{ injection Hst as <-. apply Inv_emit; auto. constructor. }
    destruct (ar s) eqn:Ea; injection Hst as <-.
    + apply Inv_emit; auto. constructor.
    + apply Inv_wait; auto.
  - exists Q. destruct (exc s) eqn:Ee; injection Hst as <-; [apply Inv_emit; auto; constructor|].
    apply Inv_emit; auto; [|constructor]. split; [exact HB|]. split; [exact HF|]. split; [|split].
    + eapply Struct_ext; [exact HS|..]; auto. intros u. apply cls_wake_empty.
    + flds. eapply wake_empty_pok; eauto.
    + intros t r H. flds. apply HA. now apply ret_wake_empty in H.
  - exists Q. destruct (eod s) eqn:Ee; injection Hst as <-; [apply Inv_emit; auto; constructor|].
    apply Inv_emit; auto; [|constructor]. split; [exact HB|]. split; [exact HF|]. split; [|split].
    + eapply Struct_ext; [exact HS|..]; auto. intros u. apply cls_wake_empty.
    + flds. eapply wake_empty_pok; eauto.
    + intros t r H. flds. apply HA. now apply ret_wake_empty in H.
  - destruct (ar s || negb (Nat.eqb (aw s) 0)) eqn:Ee; injection Hst as <-.
    { exists Q. apply Inv_emit; auto. constructor. }
    apply orb_false_iff in Ee as [E1 E2]. apply negb_false_iff, Nat.eqb_eq in E2.
    exists []. pose proof HB as (HR & HT & Hwd & Hrd). pose proof (rep_sizes HR) as HZ.
    split; [|split; [|split; [|split]]].
    + flds. unfold clear. split; [|split; [exact HT|split; apply Z.divide_0_r]].
      left. cbn. split; auto. exists [], (st (bb s)). cbn. repeat split; auto.
      assert (0 < total_size (bb s)); [|auto].
      destruct HR as [[Hc (f1 & f2 & Hs & Hr & Hw & Hf)] | [Hc (dt & f & dh & Hs & Hw & Hr & HQ & Hd)]];
        unfold total_size; rewrite Hs, !zlen_app;
        repeat match goal with |- context [zlen ?l] => lazymatch goal with H : 0 <= zlen l |- _ => fail | _ => pose proof (zlen_nonneg l) end end; lia.
    + flds. eapply fifos_snoc; [exact HF|]. constructor.
    + eapply Struct_ext; [exact HS|..]; auto. intros u. apply cls_wake_full.
    + intros u. flds. destruct HS as (_ & (kk & HW & Haw) & HRd).
      assert (writing (pcs s u) = false) as W1.
      { destruct (writing (pcs s u)) eqn:E; auto. apply HW in E. subst kk. cbn in Haw. lia. }
      assert (reading (pcs s u) = false) as W2.
      { destruct (reading (pcs s u)) eqn:E; auto. apply HRd in E. congruence. }
      unfold wake_full. destruct (pcs s u); try discriminate; exact I.
    + intros t r H. flds. rewrite announced_snoc. cbn [outcome]. apply HA. now apply ret_wake_full in H.
Qed.

Lemma Inv_steps storage ls s : zlen storage = cap -> storage <> [] ->
  steps (step p q req discard) (init storage) ls s -> exists Q, Inv s Q.
Proof.
  intros Hc Hn. apply (@steps_inv _ _ (step p q req discard) (fun s => exists Q, Inv s Q)).
  - intros s0 l s1 [Q HI] H. eapply Inv_step; eauto.
  - exists []. now apply Inv_init.
Qed.

(** ** the end of the data *)
Definition ended (l : list (ev A)) : Prop :=
  exists l1 e l2, l = l1 ++ e :: l2 /\ is_end e /\ ~ In EClear l2.
Definition tail_ok (l : list (ev A)) : Prop :=
  forall l1 e l2 x, l = l1 ++ e :: l2 -> is_end e -> ~ In EClear l2 -> In x l2 -> ~ moves x.

Lemma snoc_split (l : list (ev A)) x l1 e l2 : l ++ [x] = l1 ++ e :: l2 ->
  (l2 = [] /\ l = l1 /\ x = e) \/ exists l2', l2 = l2' ++ [x] /\ l = l1 ++ e :: l2'.
Proof.
  destruct (@exists_last _ (e :: l2)) as (l' & z & E); [discriminate|].
  intros H. rewrite E in H. rewrite app_assoc in H. apply app_inj_tail in H as [H1 ->].
  destruct l' as [|y l']; cbn in E; injection E as -> E.
  - left. rewrite app_nil_r in H1. auto.
  - right. exists l'. auto.
Qed.

Lemma ended_snoc l x : ended (l ++ [x]) -> is_end x \/ (ended l /\ x <> EClear).
Proof.
  intros (l1 & e & l2 & H & He & Hc). apply snoc_split in H as [(-> & -> & ->)|(l2' & -> & ->)]; auto.
  right. split.
  - exists l1, e, l2'. repeat split; auto. intros Hi. apply Hc. apply in_or_app; auto.
  - intros ->. apply Hc. apply in_or_app; cbn; auto.
Qed.

Lemma tail_ok_snoc l x : tail_ok l -> (ended l -> ~ moves x) -> tail_ok (l ++ [x]).
Proof.
  intros HT Hx l1 e l2 y H He Hc Hy. apply snoc_split in H as [(-> & -> & ->)|(l2' & -> & ->)]; [destruct Hy|].
  assert (~ In EClear l2') as Hc' by (intros Hi; apply Hc; apply in_or_app; auto).
  apply in_app_or in Hy as [Hy|[->|[]]].
  - eapply HT; eauto.
  - apply Hx. exists l1, e, l2'. auto.
Qed.

Definition Fin s : Prop :=
  (eod s || exc s = true -> aw s = 0%nat) /\
  (ended (log s) -> eod s || exc s = true /\ data_size (bb s) < q) /\ tail_ok (log s).

Lemma Fin_same s s' : Fin s -> log s' = log s -> bb s' = bb s -> eod s' = eod s -> exc s' = exc s ->
  (eod s || exc s = true -> aw s = 0%nat -> aw s' = 0%nat) -> Fin s'.
Proof. intros (F1 & F2 & F3) E1 E0 E2 E3 E4. unfold Fin. rewrite E0, E1, E2, E3. auto. Qed.

Lemma Fin_ev s s' e : Fin s -> log s' = log s ++ [e] -> bb s' = bb s ->
  (eod s || exc s = true -> eod s' || exc s' = true) ->
  (eod s' || exc s' = true -> aw s' = 0%nat) -> ~ moves e -> ~ is_end e -> Fin s'.
Proof.
  intros (F1 & F2 & F3) E1 E0 E2 E4 Hm He. unfold Fin. rewrite E0, E1. split; [|split]; auto.
  - intros H. apply ended_snoc in H as [H|[H _]]; [contradiction|]. destruct (F2 H). auto.
  - apply tail_ok_snoc; auto.
Qed.

Lemma writing_aw s t : Struct s -> writing (pcs s t) = true -> aw s = 1%nat.
Proof. intros (_ & (k & HW & Ha) & _) H. apply HW in H. subst k. exact Ha. Qed.

Lemma data_ge_ravail b Q : Buf b Q -> ravail b <= data_size b.
Proof. intros (HR & _). pose proof (rep_sizes HR). lia. Qed.

Lemma Fin_enter s t d : Fin s -> Fin (enter p req discard s t d).
Proof.
  intros HFn. pose proof HFn as (F1 & F2 & F3). unfold enter.
  destruct (negb _); [apply (@Fin_ev s _ (EBad t d)); auto|].
  destruct (eod s || exc s) eqn:E; [apply (@Fin_ev s _ (ERefused t)); auto; flds; rewrite ?E; auto; try discriminate|].
  destruct (write_view _) as [w|]; [|apply (@Fin_ev s _ EInternal); auto; flds; rewrite ?E; auto; try discriminate].
  destruct ((snd w / p * p =? 0) || (free_size (bb s) <? req)); [destruct discard|].
  - apply (@Fin_ev s _ (EDiscard t d)); auto; flds; rewrite ?E; auto; try discriminate.
  - apply (@Fin_same s); auto. rewrite E. discriminate.
  - apply (@Fin_same s); auto. rewrite E. discriminate.
Qed.

Lemma Fin_copy s Q t d w n k : Inv s Q -> Fin s -> pcs s t = PCopy d w n k -> Fin (copy s t d w n k).
Proof.
  intros (HB & HF & HS & HP & HA) (F1 & F2 & F3) Hpc'.
  assert (aw s = 1%nat) as Haw by (apply (@writing_aw s t); auto; now rewrite Hpc').
  assert (eod s || exc s = false) as E by (destruct (eod s || exc s); auto; rewrite F1 in Haw; auto; discriminate).
  assert (~ ended (log s)) as Hne by (intros H; apply F2 in H as [H _]; congruence).
  assert (forall s', log s' = log s -> eod s' = eod s -> exc s' = exc s -> Fin s') as K1.
  { intros s' E1 E2 E3. unfold Fin. rewrite E1, E2, E3, E. split; [discriminate|]. split; auto. intros H. contradiction. }
  assert (forall s' e, log s' = log s ++ [e] -> ~ is_end e -> eod s' = eod s -> exc s' = exc s -> Fin s') as K2.
  { intros s' e E1 He E2 E3. unfold Fin. rewrite E1, E2, E3, E. split; [discriminate|]. split.
    - intros H. apply ended_snoc in H as [H|[H _]]; contradiction.
    - apply tail_ok_snoc; [exact F3|intros H; contradiction]. }
  unfold copy. destruct (k <? n); [apply K1; auto|].
  destruct (push (bb s) n); eapply K2; cbn; auto.
Qed.

Lemma Fin_step s Q l s' : Inv s Q -> Fin s -> qstep p q req discard s l = Some s' -> Fin s'.
Proof.
  intros HI HFn Hst. pose proof HI as (HB & HF & HS & HP & HA). pose proof HFn as (F1 & F2 & F3).
  pose proof HB as (HR & HT & Hwd & Hrd). pose proof (rep_sizes HR) as HZ.
  assert (HEmit : forall e s1, log s1 = log s -> bb s1 = bb s -> eod s1 = eod s -> exc s1 = exc s -> aw s1 = aw s ->
     ~ moves e -> ~ is_end e -> Fin (emit s1 e)).
  { intros e s1 E1 E2 E3 E4 E5 Hm He. apply (@Fin_ev s _ e); auto; flds; rewrite ?E1, ?E2, ?E3, ?E4, ?E5; auto. }
  destruct l; cbn [qstep step] in Hst.
  - destruct (pcs s t); try discriminate. injection Hst as <-. apply Fin_same with (s := s); auto.
  - destruct (pcs s t) eqn:Hpc'; try discriminate; try (injection Hst as <-).
    + destruct (wall s); injection Hst as <-; apply Fin_same with (s := s); auto.
    + now apply Fin_enter.
    + eapply Fin_copy; eauto.
    + apply (@Fin_ev s _ (EZero t)); auto. flds. intros H. rewrite F1; auto.
    + apply (@Fin_ev s _ (ERet t r)); auto.
    + apply Fin_same with (s := s); auto.
    + unfold wait_loop. destruct (_ && _); apply Fin_same with (s := s); auto.
  - destruct (pcs s t) eqn:Hpc'; try discriminate; injection Hst as <-.
    + apply Fin_same with (s := emit (emit s (EZero t)) (ERet t (Some 0))); auto.
      apply (@Fin_ev (emit s (EZero t)) _ (ERet t (Some 0))); auto.
    + apply Fin_same with (s := s); auto.
    + apply Fin_same with (s := s); auto.
    + apply Fin_same with (s := s); auto.
  - destruct (pcs s t) eqn:Hpc'; try discriminate. injection Hst as <-. unfold read.
    destruct (ar s); [apply HEmit; auto|].
    rewrite (read_view_ok HR). cbn [fst snd].
    destruct (Z.eqb_spec (ravail (bb s) / q * q) 0) as [E|E].
    + apply div0 in E; [|lia|lia]. destruct (ravail_lt HB E) as [Hc HQ].
      assert (forall e, eod s || exc s = true -> is_end e -> Fin (emit s e)) as K.
      { intros e H He. unfold Fin. flds. split; auto. split.
        - intros _. split; auto. lia.
        - apply tail_ok_snoc; auto. intros _ Hm. destruct e; destruct He; destruct Hm. }
      destruct (exc s) eqn:Ex; [apply K; cbn; auto; apply orb_true_r|].
      destruct (eod s) eqn:Ed; [apply K; cbn; auto|].
      apply Fin_same with (s := s); auto.
    + destruct (@divn (ravail (bb s)) q) as [Hn1 Hn2]; [lia|lia|lia|].
      assert (~ ended (log s)) as Hne.
      { intros H. apply F2 in H as [_ H]. assert (q <= ravail (bb s) / q * q) by (apply mult_pos_ge; auto; lia). lia. }
      unfold Fin. flds. split; auto. split.
      * intros H. apply ended_snoc in H as [[]|[H _]]; contradiction.
      * apply tail_ok_snoc; [exact F3|intros H; contradiction].
  - destruct (pcs s t) eqn:Hpc'; try discriminate.
    destruct ((0 <=? k) && (k <=? n)) eqn:Ek; [|discriminate]. injection Hst as <-.
    pose proof (HP t) as Ht. rewrite Hpc' in Ht. cbn [pok] in Ht. destruct Ht as (Hv & Hn & Hqn).
    assert (~ ended (log s)) as Hne.
    { intros H. apply F2 in H as [_ H]. assert (q <= n) by (apply mult_pos_ge; auto; lia). lia. }
    unfold processed. destruct (k =? 0); [apply Fin_same with (s := s); auto|].
    destruct (pop _ _).
    + unfold Fin. flds. split; auto. split.
      * intros H. apply ended_snoc in H as [[]|[H _]]; contradiction.
      * apply tail_ok_snoc; [exact F3|intros H; contradiction].
    + unfold Fin. flds. split; auto. split.
      * intros H. apply ended_snoc in H as [[]|[H _]]; contradiction.
      * apply tail_ok_snoc; auto.
  - destruct (pcs s t) eqn:Hpc'; try discriminate. injection Hst as <-. apply Fin_same with (s := s); auto.
  - destruct (pcs s t) eqn:Hpc'; try discriminate.
    destruct ((0 <? thr) && (thr mod q =? 0) && (thr <? total_size (bb s))).
    2:{ injection Hst as <-. apply HEmit; auto. }
    destruct (ar s) eqn:Ea; injection Hst as <-.
    + apply HEmit; auto.
    + unfold wait_loop. destruct (_ && _); apply Fin_same with (s := s); auto.
  - destruct (Nat.eqb_spec (aw s) 0) as [Ha|]; [|discriminate].
    destruct (exc s) eqn:Ee; injection Hst as <-; [apply HEmit; auto|].
    apply (@Fin_ev s _ EEodSet); auto.
  - destruct (Nat.eqb_spec (aw s) 0) as [Ha|]; [|discriminate].
    destruct (eod s) eqn:Ee; injection Hst as <-; [apply HEmit; auto|].
    apply (@Fin_ev s _ EExcSet); auto. flds. intros _. apply orb_true_r.
  - destruct (ar s || negb (Nat.eqb (aw s) 0)) eqn:Ee; injection Hst as <-; [apply HEmit; auto|].
    unfold Fin. flds. split; [discriminate|]. split.
    + intros H. apply ended_snoc in H as [[]|[_ H]]. congruence.
    + apply tail_ok_snoc; auto.
Qed.

Lemma qstep_step s l s' : qstep p q req discard s l = Some s' -> step p q req discard s l = Some s'.
Proof. destruct l; cbn [qstep]; auto; destruct (Nat.eqb _ _); auto; discriminate. Qed.

Lemma Fin_steps storage ls s : zlen storage = cap -> storage <> [] ->
  steps (qstep p q req discard) (init storage) ls s -> (exists Q, Inv s Q) /\ Fin s.
Proof.
  intros Hc Hn. apply (@steps_inv _ _ (qstep p q req discard) (fun s => (exists Q, Inv s Q) /\ Fin s)).
  - intros s0 l s1 [[Q HI] HFn] H. split.
    + apply qstep_step in H. eapply Inv_step; eauto.
    + eapply Fin_step; eauto.
  - split; [exists []; now apply Inv_init|].
    unfold Fin. cbn. split; [auto|]. split.
    + intros (l1 & e & l2 & H & _). destruct l1; discriminate.
    + intros l1 e l2 x H. destruct l1; discriminate.
Qed.

(** ** streams *)
Lemma io_snoc (l : list (ev A)) e : io (l ++ [e]) = io_ev (io l) e.
Proof. unfold io. now rewrite fold_left_app. Qed.

Lemma fifos_io l Q : fifos cap p q req [] l Q -> accepted l = taken l ++ Q.
Proof.
  remember ([] : list A) as Q0 eqn:E0. intros H.
  assert (forall l0, accepted l0 = taken l0 ++ Q0 -> accepted (l0 ++ l) = taken (l0 ++ l) ++ Q) as K.
  { clear E0. induction H as [Q|Q e Q1 l Q2 Hf Hfs IH]; intros l0 H0; [now rewrite app_nil_r|].
    replace (l0 ++ e :: l) with ((l0 ++ [e]) ++ l) by (rewrite <- app_assoc; reflexivity).
    apply IH. unfold accepted, taken in *. rewrite io_snoc.
    destruct Hf; cbn [io_ev fst snd]; auto.
    - rewrite H0, app_assoc. reflexivity.
    - rewrite H0, <- app_assoc. f_equal. assumption. }
  apply (K []). subst; reflexivity.
Qed.

Lemma fifos_split l1 l2 Q0 Q : fifos cap p q req Q0 (l1 ++ l2) Q ->
  exists Q1, fifos cap p q req Q0 l1 Q1 /\ fifos cap p q req Q1 l2 Q.
Proof.
  revert Q0. induction l1 as [|e l1 IH]; cbn; intros Q0 H; [exists Q0; split; auto; constructor|].
  inversion H as [|? ? Qm ? ? Hf Hfs]; subst. destruct (IH _ Hfs) as (Qx & Ha & Hb). exists Qx. split; auto. econstructor; eauto.
Qed.

Lemma still l : forall x, (forall e, In e l -> ~ moves e) -> ~ In EClear l -> fold_left (@io_ev A) l x = x.
Proof.
  induction l as [|e l IH]; intros x Hm Hc; cbn; auto. rewrite IH.
  - assert (~ moves e) by (apply Hm; cbn; auto). assert (e <> EClear) by (intros ->; apply Hc; cbn; auto).
    destruct e; cbn in *; try tauto; try congruence.
  - intros y Hy. apply Hm; cbn; auto.
  - intros Hy; apply Hc; cbn; auto.
Qed.

(** announced results *)
Lemma ann_log s Q l s' : Inv s Q -> step p q req discard s l = Some s' -> 
  (forall l1 t r l2, log s = l1 ++ ERet t r :: l2 -> announced t l1 = Some r) ->
  (forall l1 t r l2, log s' = l1 ++ ERet t r :: l2 -> announced t l1 = Some r).
Proof.
  intros HI Hst IH. pose proof HI as (HB & HF & HS & HP & HA).
  assert (K1 : forall e, (forall t r, e = ERet t r -> announced t (log s) = Some r) ->
    forall l1 t r l2, log s ++ [e] = l1 ++ ERet t r :: l2 -> announced t l1 = Some r).
  { intros e He l1 t r l2 H. apply snoc_split in H as [(E2 & E1 & E3)|(l2' & E2 & H)]; [subst; now apply He|eauto]. }
  assert (K0 : forall e, match e with ERet _ _ => False | _ => True end ->
    forall l1 t r l2, log s ++ [e] = l1 ++ ERet t r :: l2 -> announced t l1 = Some r).
  { intros e He. apply K1. intros t r ->. destruct He. }
  destruct l; cbn [step] in Hst.
  - destruct (pcs s t); try discriminate. injection Hst as <-. exact IH.
  - destruct (pcs s t) eqn:Hpc'; try discriminate; try (injection Hst as <-).
    + destruct (wall s); injection Hst as <-; exact IH.
    + unfold enter. destruct (negb _); [apply K0; exact I|].
      destruct (eod s || exc s); [apply K0; exact I|].
      destruct (write_view _) as [w|]; [|apply K0; exact I].
      destruct ((snd w / p * p =? 0) || (free_size (bb s) <? req)); [destruct discard|]; try exact IH; apply K0; exact I.
    + unfold copy. destruct (k <? n); [exact IH|]. destruct (push _ _); apply K0; exact I.
    + apply K0; exact I.
    + apply K1. intros t0 r0 E. injection E as -> ->. now apply HA.
    + exact IH.
    + unfold wait_loop. destruct (_ && _); exact IH.
  - destruct (pcs s t) eqn:Hpc'; try discriminate; injection Hst as <-; try exact IH.
    flds. intros l1 t0 r0 l2 H. apply snoc_split in H as [(E2 & <- & E)|(l2' & E2 & H)].
    + injection E as <- <-. rewrite announced_snoc. cbn. now rewrite out_self.
    + eapply K0; [|exact H]. exact I.
  - destruct (pcs s t); try discriminate. injection Hst as <-. unfold read. destruct (ar s); [apply K0; exact I|].
    destruct (read_view _) as [v|]; [|apply K0; exact I].
    destruct (_ =? _); [|apply K0; exact I].
    destruct (exc s); [apply K0; exact I|]. destruct (eod s); [apply K0; exact I|exact IH].
  - destruct (pcs s t); try discriminate. destruct (_ && _); [|discriminate]. injection Hst as <-.
    unfold processed. destruct (k =? 0); [exact IH|]. destruct (pop _ _); apply K0; exact I.
  - destruct (pcs s t); try discriminate. injection Hst as <-. exact IH.
  - destruct (pcs s t); try discriminate. destruct (_ && _); [destruct (ar s)|]; injection Hst as <-; try (apply K0; exact I).
    unfold wait_loop. destruct (_ && _); exact IH.
  - destruct (exc s); injection Hst as <-; apply K0; exact I.
  - destruct (eod s); injection Hst as <-; apply K0; exact I.
  - destruct (_ || _); injection Hst as <-; apply K0; exact I.
Qed.

Lemma ann_steps storage ls s : zlen storage = cap -> storage <> [] ->
  steps (step p q req discard) (init storage) ls s ->
  forall l1 t r l2, log s = l1 ++ ERet t r :: l2 -> announced t l1 = Some r.
Proof.
  intros Hc Hn H.
  refine (proj2 (@steps_inv _ _ (step p q req discard) (fun s => (exists Q, Inv s Q) /\ forall l1 t r l2, log s = l1 ++ ERet t r :: l2 -> announced t l1 = Some r) _ (init storage) ls s _ H)).
  - intros s0 l s1 [[Q HI] H0] H1. split; [eapply Inv_step; eauto|]. eapply ann_log; eauto.
  - split; [exists []; now apply Inv_init|]. intros l1 t r l2 E. destruct l1; discriminate.
Qed.

(** sleepers on the write guard *)
Definition Grd s : Prop := forall t d, pcs s t = PGWait d -> wall s = false.

Lemma Grd_upd s s' (g : nat -> pc A) t x : Grd s -> pcs s' = fupd g t x -> wall s' = wall s ->
  (forall u d, g u = PGWait d -> pcs s u = PGWait d) -> (forall d, x <> PGWait d) -> Grd s'.
Proof.
  intros H E1 E2 Hg Hx u d Hu. rewrite E1 in Hu. rewrite E2. destruct (Nat.eq_dec u t) as [->|N].
  - rewrite fupd_same in Hu. now elim (Hx d).
  - rewrite fupd_other in Hu by auto. eauto.
Qed.
Lemma Grd_ext s s' : Grd s -> wall s' = wall s -> (forall u d, pcs s' u = PGWait d -> pcs s u = PGWait d) -> Grd s'.
Proof. intros H E1 Hg u d Hu. rewrite E1. eauto. Qed.

Lemma gw_wake_full (f : nat -> pc A) u d : wake_full f u = PGWait d -> f u = PGWait d.
Proof. unfold wake_full. destruct (f u); auto; discriminate. Qed.
Lemma gw_wake_empty (f : nat -> pc A) u d : wake_empty f u = PGWait d -> f u = PGWait d.
Proof. unfold wake_empty. destruct (f u); auto; discriminate. Qed.

Ltac grd H t := eapply (@Grd_upd _ _ _ t _ H);
  [ flds; reflexivity | reflexivity
  | first [ now auto | intros ? ?; apply gw_wake_full | intros ? ?; apply gw_wake_empty ] | intros ?; discriminate ].

Lemma Grd_step s l s' : Grd s -> step p q req discard s l = Some s' -> Grd s'.
Proof.
  intros HG Hst. destruct l; cbn [step] in Hst.
  - destruct (pcs s t); try discriminate. injection Hst as <-. grd HG t.
  - destruct (pcs s t) eqn:Hpc'; try discriminate; try (injection Hst as <-).
    + destruct (wall s) eqn:Ew; injection Hst as <-.
      * intros u e _. reflexivity.
      * intros u e _. exact Ew.
    + unfold enter. destruct (negb _); [grd HG t|].
      destruct (eod s || exc s); [grd HG t|].
      destruct (write_view _) as [w|]; [|grd HG t].
      destruct ((snd w / p * p =? 0) || (free_size (bb s) <? req)); [destruct discard|]; grd HG t.
    + unfold copy. destruct (k <? n); [grd HG t|]. destruct (push _ _); grd HG t.
    + grd HG t.
    + unfold release. intros u e. flds. destruct (Nat.eq_dec u t) as [->|N].
      * rewrite fupd_same. discriminate.
      * rewrite fupd_other by auto. unfold wake_guard. destruct (pcs s u); discriminate.
    + grd HG t.
    + unfold wait_loop. destruct (_ && _); grd HG t.
  - destruct (pcs s t) eqn:Hpc'; try discriminate; injection Hst as <-; grd HG t.
  - destruct (pcs s t); try discriminate. injection Hst as <-. unfold read. destruct (ar s); [exact HG|].
    destruct (read_view _) as [v|]; [|exact HG].
    destruct (_ =? _); [|grd HG t].
    destruct (exc s); [exact HG|]. destruct (eod s); [exact HG|grd HG t].
  - destruct (pcs s t); try discriminate. destruct (_ && _); [|discriminate]. injection Hst as <-.
    unfold processed. destruct (k =? 0); [grd HG t|]. destruct (pop _ _); grd HG t.
  - destruct (pcs s t); try discriminate. injection Hst as <-. grd HG t.
  - destruct (pcs s t); try discriminate. destruct (_ && _); [destruct (ar s)|]; injection Hst as <-; try exact HG.
    unfold wait_loop. destruct (_ && _); grd HG t.
  - destruct (exc s); injection Hst as <-; [exact HG|]. eapply Grd_ext; [exact HG|reflexivity|apply gw_wake_empty].
  - destruct (eod s); injection Hst as <-; [exact HG|]. eapply Grd_ext; [exact HG|reflexivity|apply gw_wake_empty].
  - destruct (_ || _); injection Hst as <-; [exact HG|]. eapply Grd_ext; [exact HG|reflexivity|apply gw_wake_full].
Qed.

Lemma Grd_steps storage ls s : steps (step p q req discard) (init storage) ls s -> Grd s.
Proof.
  apply (@steps_inv _ _ (step p q req discard) Grd).
  - intros s0 l s1 H H0. eapply Grd_step; eauto.
  - intros t d H. discriminate.
Qed.
End P.
