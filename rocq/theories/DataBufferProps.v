(** C44: DataBuffer, the packet pipe between threads. *)
From Verif Require Import Base Conc BithreadModel BithreadProofs DataBufferModel DataBufferSpec DataBufferProofs.
Set Implicit Arguments.
Local Open Scope Z_scope.

Section Statements.
Variable A : Type.
Variables p q req : Z.
Variable discard : bool.
Variable storage : list A.
(** a buffer the constructors accept, with a non-empty storage *)
Hypothesis Hp : 0 < p.
Hypothesis Hq : 0 < q.
Hypothesis Hs : storage <> [].
Hypothesis Hok : ctor_ok p q req storage = true.
Let cap := zlen storage.
Let STEPS := steps (step p q req discard) (init storage).

Lemma ok_divides : (p | cap) /\ (q | cap) /\ req <= cap.
Proof.
  unfold ctor_ok in Hok. fold cap in Hok. rewrite !andb_true_iff in Hok. destruct Hok as ((((H1 & H2) & H3) & H4) & H5).
  repeat split; [apply Z.mod_divide; lia | apply Z.mod_divide; lia | lia].
Qed.

Lemma reach_inv ls s : STEPS ls s -> exists Q, Inv p q req cap s Q.
Proof. destruct ok_divides as (H1 & H2 & _). intros H. exact (@Inv_steps A p q req discard cap Hp Hq H1 H2 storage ls s eq_refl Hs H). Qed.

(** Every history, under every interleaving, is one of a bounded FIFO byte queue, and the
    reported sizes are those of that queue. *)
Theorem C44_bounded_fifo : forall ls s, STEPS ls s ->
  exists Q, fifos cap p q req [] (log s) Q /\
            data_size (bb s) = zlen Q /\ free_size (bb s) = cap - zlen Q /\ zlen Q <= cap.
Proof.
  intros ls s H. destruct (reach_inv H) as (Q & (HR & HT & _) & HF & _). exists Q.
  pose proof (rep_sizes HR). unfold free_size. repeat split; auto; lia.
Qed.

(** In particular what consumers take is exactly what producers had accepted, in order, with
    nothing lost, doubled or altered (since the last Clear). *)
Theorem C44_stream : forall ls s, STEPS ls s ->
  exists rest, accepted (log s) = taken (log s) ++ rest /\ data_size (bb s) = zlen rest.
Proof.
  intros ls s H. destruct (C44_bounded_fifo H) as (Q & HF & HD & _). exists Q. split; auto. eapply fifos_io; eauto.
Qed.

(** A call of Process returns exactly what the queue did with its data. *)
Theorem C44_result_announced : forall ls s l1 t r l2, STEPS ls s ->
  log s = l1 ++ ERet t r :: l2 -> announced t l1 = Some r.
Proof. destruct ok_divides as (H1 & H2 & _). intros ls s l1 t r l2 H. exact (@ann_steps A p q req discard cap Hp Hq H1 H2 storage ls s eq_refl Hs H l1 t r l2). Qed.

(** The storage bounds are never violated. *)
Theorem C44_no_internal_error : forall ls s, STEPS ls s -> ~ In EInternal (log s).
Proof.
  intros ls s H Hi. destruct (C44_bounded_fifo H) as (Q & HF & _). clear H. revert HF Hi.
  generalize (@nil A) as Q0, (log s). intros Q0 l HF. induction HF as [|Q0 e Q1 l Q2 Hf Hfs IH]; cbn; auto.
  intros [->|Hi]; auto. inversion Hf.
Qed.

(** Whoever is asleep has a reason that still holds: no wake-up is ever lost. *)
Theorem C44_no_lost_wakeup : forall ls s, STEPS ls s -> forall t,
  match pcs s t with
  | PWait _ => free_size (bb s) < p \/ free_size (bb s) < req
  | RWait => data_size (bb s) < q /\ eod s = false /\ exc s = false
  | DWait thr => data_size (bb s) < thr /\ eod s = false /\ exc s = false
  | PGWait _ => exists u, holds (pcs s u) = true
  | _ => True
  end.
Proof.
  intros ls s H t. destruct (reach_inv H) as (Q & HB & HF & HS & HP & HA).
  destruct ok_divides as (D1 & D2 & _). pose proof HB as (HR & HT & _). pose proof (rep_sizes HR).
  specialize (HP t). destruct (pcs s t) eqn:Hpc; auto; cbn [pok] in HP.
  - (* asleep on the write guard: somebody holds it *)
    destruct HS as ((_ & _ & HH) & _). apply HH. rewrite (Grd_steps H t Hpc). reflexivity.
  - unfold free_size. rewrite HT. replace (data_size (bb s)) with (zlen Q) by lia.
    eapply full_space; eauto.
  - destruct HP as (Hl & He). split; auto. replace (data_size (bb s)) with (zlen Q) by lia. eapply ravail_lt; eauto.
Qed.

(** A writer and a reader never wait for each other: if a writer sleeps for room, a reader that
    comes finds a packet, provided the required free space leaves room for what a reader may
    have to leave behind. *)
Theorem C44_no_mutual_wait : req <= cap - q + Z.gcd p q ->
  forall ls s, STEPS ls s -> forall t d, pcs s t = PWait d ->
  data_size (bb s) >= q /\ (forall u, pcs s u <> RWait).
Proof.
  intros Hr ls s H t d Ht. destruct (reach_inv H) as (Q & HB & HF & HS & HP & HA).
  destruct ok_divides as (D1 & D2 & _). pose proof HB as (HR & HT & Hw & Hrd). pose proof (rep_sizes HR) as HZ.
  assert (ravail (bb s) < q -> False) as K.
  { intros Hl. destruct (@ravail_lt A p q cap Hq D2 _ _ HB Hl) as [Hc HQ].
    pose proof (HP t) as Hf. rewrite Ht in Hf. cbn [pok] in Hf. destruct Hf as [Hf|Hf].
    - apply div0 in Hf; [|lia|lia]. destruct (@wavail_lt A p q cap Hp D1 _ _ HB Hf). congruence.
    - destruct (rep_contig HR Hc) as (_ & HQ' & _).
      assert (Z.gcd p q | zlen Q) as G1.
      { rewrite HQ'. apply Z.divide_sub_r.
        - apply Z.divide_trans with p; auto. apply Z.gcd_divide_l.
        - apply Z.divide_trans with q; auto. apply Z.gcd_divide_r. }
      assert (0 < Z.gcd p q) as G0.
      { pose proof (Z.gcd_nonneg p q). destruct (Z.eq_dec (Z.gcd p q) 0) as [E|E]; [|lia].
        apply Z.gcd_eq_0_l in E. lia. }
      assert (Z.gcd p q <= q - zlen Q) as G2.
      { apply mult_pos_ge; auto; [|lia]. apply Z.divide_sub_r; auto. apply Z.gcd_divide_r. }
      unfold free_size in Hf. fold cap in HT. lia. }
  split.
  - destruct (Z_lt_le_dec (data_size (bb s)) q); [|lia]. exfalso. apply K. lia.
  - intros u Hu. apply K. specialize (HP u). rewrite Hu in HP. cbn [pok] in HP. apply HP.
Qed.

(** The same for WaitForData: it cannot sleep together with a writer when its threshold leaves
    an input packet and the required space free. *)
Theorem C44_no_mutual_wait_for_data : forall ls s, STEPS ls s -> forall t d u thr,
  pcs s t = PWait d -> pcs s u = DWait thr -> thr > cap - p + 1 \/ thr > cap - req + 1.
Proof.
  intros ls s H t d u thr Ht Hu. pose proof (C44_no_lost_wakeup H t) as H1. pose proof (C44_no_lost_wakeup H u) as H2.
  rewrite Ht in H1. rewrite Hu in H2. destruct (C44_bounded_fifo H) as (Q & _ & E1 & E2 & _). lia.
Qed.

(** At most one Process is past the write guard and at most one Read or WaitForData is active. *)
Theorem C44_exclusion : forall ls s, STEPS ls s -> forall t u,
  (holds (pcs s t) = true -> holds (pcs s u) = true -> t = u) /\
  (reading (pcs s t) = true -> reading (pcs s u) = true -> t = u).
Proof.
  intros ls s H t u. destruct (reach_inv H) as (Q & _ & _ & (HH & _ & HRd) & _). split; intros; [apply HH|apply HRd]; auto.
Qed.

(** The bytes a consumer is looking at do not change while it looks at them. *)
Theorem C44_view_stable : forall ls s l s' t v n, STEPS ls s -> pcs s t = RProc v n ->
  step p q req discard s l = Some s' -> pcs s' t = RProc v n ->
  slice (fst v) n (st (bb s')) = slice (fst v) n (st (bb s)).
Proof.
  intros ls s l s' t v n H Ht Hst Ht'. destruct (reach_inv H) as (Q & HB & HF & HS & HP & HA).
  destruct ok_divides as (D1 & D2 & _). pose proof HB as (HR & HT & Hw & Hrd). pose proof (rep_sizes HR) as HZ.
  pose proof (HP t) as HPt. rewrite Ht in HPt. cbn [pok] in HPt. destruct HPt as (Hv & Hn & _).
  assert (Har : ar s = true) by (apply (proj2 (proj2 HS)) with (t := t); now rewrite Ht).
  destruct l; cbn [step] in Hst.
  - destruct (pcs s t0); try discriminate. now injection Hst as <-.
  - destruct (pcs s t0) eqn:Hpc'; try discriminate; try (injection Hst as <-); try reflexivity.
    + destruct (wall s); now injection Hst as <-.
    + unfold enter. destruct (negb _); [reflexivity|].
      destruct (eod s || exc s); [reflexivity|].
      destruct (write_view _) as [w|]; [|reflexivity].
      destruct ((snd w / p * p =? 0) || (free_size (bb s) <? req)); [destruct discard|]; reflexivity.
    + unfold copy. pose proof (HP t0) as Hc. rewrite Hpc' in Hc. cbn [pok] in Hc. destruct Hc as (C1 & C2 & C3 & C4 & C5 & C6).
      destruct (Z.ltb_spec k n0).
      * cbn [bb go set_bb]. assert (zlen (slice k 1 d) = 1) as H1 by (apply slice_zlen; lia).
        assert (Rep (fill (bb s) w k (slice k 1 d)) Q) as HR' by (apply fill_rep; auto; lia).
        assert (total_size (fill (bb s) w k (slice k 1 d)) = total_size (bb s)) as HG by (apply fill_geom; lia).
        destruct (@rep_ravail_prefix A _ Q n HR) as (r1 & E1 & L1); [lia|].
        destruct (@rep_ravail_prefix A _ Q n HR') as (r2 & E2 & L2).
        { unfold ravail. rewrite HG. cbn [fill contig wo ro]. fold (ravail (bb s)). lia. }
        cbn [fill ro st] in *. rewrite Hv. rewrite E1 in E2. apply app_inj_len in E2 as [E2 _]; [|lia]. now rewrite E2.
      * destruct (push _ _) as [b'|] eqn:Epu; [|reflexivity]. cbn [bb go set_bb set_aw set_pcs emit].
        destruct (push_divide HB C5 ltac:(replace n0 with n0 by lia; exact Epu)) as (E & _). now rewrite E.
    + unfold wait_loop. destruct (_ && _); reflexivity.
  - destruct (pcs s t0) eqn:Hpc'; try discriminate; injection Hst as <-; reflexivity.
  - destruct (pcs s t0); try discriminate. injection Hst as <-. unfold read. now rewrite Har.
  - destruct (pcs s t0) eqn:Hpc'; try discriminate. destruct (_ && _); [|discriminate]. injection Hst as <-. exfalso.
    assert (t0 = t) as ->.
    { apply (proj1 (proj2 (proj2 (proj2 HS)))); [now rewrite Hpc'|now rewrite Ht]. }
    revert Ht'. unfold processed. destruct (k =? 0); [|destruct (pop _ _)]; cbn [pcs go set_ar set_bb emit set_pcs]; rewrite fupd_same; discriminate.
  - destruct (pcs s t0); try discriminate. now injection Hst as <-.
  - destruct (pcs s t0); try discriminate. rewrite Har in Hst. destruct (_ && _); injection Hst as <-; reflexivity.
  - destruct (exc s); injection Hst as <-; reflexivity.
  - destruct (eod s); injection Hst as <-; reflexivity.
  - rewrite Har in Hst. injection Hst as <-. reflexivity.
Qed.

(** End of data or the exception is delivered after everything else, when it is not raised
    while a Process is in progress: the consumer has by then received all accepted bytes
    except a last broken packet, and nothing moves afterwards until Clear. *)
Theorem C44_end_after_all_data : forall ls s l1 e l2,
  steps (qstep p q req discard) (init storage) ls s ->
  log s = l1 ++ e :: l2 -> is_end e -> ~ In EClear l2 ->
  exists rest, accepted (log s) = taken l1 ++ rest /\ zlen rest < q /\ taken (log s) = taken l1 /\
               (forall x, In x l2 -> ~ moves x).
Proof.
  intros ls s l1 e l2 H E He Hc. destruct ok_divides as (D1 & D2 & _).
  destruct (@Fin_steps A p q req discard cap Hp Hq D1 D2 storage ls s eq_refl Hs H) as [[Q HI] (_ & _ & HT)].
  destruct HI as (_ & HF & _). rewrite E in HF. apply fifos_split in HF as (Q1 & HF1 & HF2).
  inversion HF2 as [|? ? Q2 ? ? Hf Hfs]; subst.
  assert (zlen Q1 < q /\ Q2 = Q1) as [HQ ->] by (inversion Hf; subst; try destruct He; auto).
  assert (forall x, In x l2 -> ~ moves x) as Hm by (intros x; eapply HT; eauto).
  assert (io (log s) = io l1) as Eio.
  { rewrite E. unfold io. rewrite fold_left_app. cbn [fold_left].
    replace (io_ev (fold_left (io_ev (A:=A)) l1 ([], [])) e) with (fold_left (io_ev (A:=A)) l1 ([], [])) by (destruct e; destruct He; reflexivity).
    apply still; auto. }
  exists Q1. unfold accepted, taken in *. rewrite Eio. repeat split; auto.
  eapply fifos_io in HF1. exact HF1.
Qed.
End Statements.

Print Assumptions C44_bounded_fifo.
Print Assumptions C44_stream.
Print Assumptions C44_result_announced.
Print Assumptions C44_no_internal_error.
Print Assumptions C44_no_lost_wakeup.
Print Assumptions C44_no_mutual_wait.
Print Assumptions C44_no_mutual_wait_for_data.
Print Assumptions C44_exclusion.
Print Assumptions C44_view_stable.
Print Assumptions C44_end_after_all_data.

(** ** What does not hold *)
Definition six : list Z := [0; 0; 0; 0; 0; 0].

(** A required free space the constructor accepts can make a writer and a reader wait for each
    other for ever: input packet 1, output packet 6, required free space 3 of 6 bytes. *)
Theorem C44_mutual_wait_refuted : exists (ls : list (lab Z)) s,
  ctor_ok 1 6 3 six = true /\ steps (step 1 6 3 false) (init six) ls s /\
  pcs s 0%nat = PWait [5] /\ pcs s 1%nat = RWait.
Proof.
  set (ls := [LProcess 0%nat [1; 2; 3; 4]; LStep 0%nat; LStep 0%nat; LStep 0%nat; LStep 0%nat; LStep 0%nat; LStep 0%nat; LStep 0%nat; LStep 0%nat;
              LProcess 0%nat [5]; LStep 0%nat; LStep 0%nat; LRead 1%nat] : list (lab Z)).
  exists ls. destruct (exec (step 1 6 3 false) (init six) ls) as [s|] eqn:E; [|vm_compute in E; discriminate].
  exists s. split; [reflexivity|]. split; [now apply exec_steps|].
  vm_compute in E. injection E as <-. split; reflexivity.
Qed.
Print Assumptions C44_mutual_wait_refuted.

(** WaitForData(5) of 6 bytes and a writer of 6-byte packets can wait for each other for ever. *)
Theorem C44_wait_for_data_refuted : exists (ls : list (lab Z)) s,
  ctor_ok 6 1 0 six = true /\ steps (step 6 1 0 false) (init six) ls s /\
  pcs s 0%nat = PWait six /\ pcs s 1%nat = DWait 5.
Proof.
  set (ls := [LProcess 0%nat six; LStep 0%nat; LStep 0%nat; LStep 0%nat; LStep 0%nat; LStep 0%nat; LStep 0%nat; LStep 0%nat; LStep 0%nat; LStep 0%nat; LStep 0%nat;
              LRead 1%nat; LDone 1%nat 2; LProcess 0%nat six; LStep 0%nat; LStep 0%nat; LWaitData 1%nat 5] : list (lab Z)).
  exists ls. destruct (exec (step 6 1 0 false) (init six) ls) as [s|] eqn:E; [|vm_compute in E; discriminate].
  exists s. split; [reflexivity|]. split; [now apply exec_steps|].
  vm_compute in E. injection E as <-. split; reflexivity.
Qed.
Print Assumptions C44_wait_for_data_refuted.

(** If EndOfData is called while another thread is inside Process, a consumer is told the end of
    the data first and given more data afterwards. *)
Theorem C44_end_after_all_data_racing_refuted : exists (ls : list (lab Z)) s l1 l2,
  steps (step 1 1 0 false) (init six) ls s /\
  log s = l1 ++ EEodOut 1%nat :: l2 /\ ~ In EClear l2 /\ In (ETake 1%nat [7] 1 [7]) l2.
Proof.
  set (ls := [LProcess 0%nat [7]; LStep 0%nat; LStep 0%nat; LEod; LRead 1%nat; LStep 0%nat; LStep 0%nat; LStep 0%nat;
              LRead 1%nat; LDone 1%nat 1] : list (lab Z)).
  exists ls. destruct (exec (step 1 1 0 false) (init six) ls) as [s|] eqn:E; [|vm_compute in E; discriminate].
  exists s, [EEodSet], [EAccept 0%nat [7] 1 [7]; ERet 0%nat (Some 1); EOffer 1%nat [7]; ETake 1%nat [7] 1 [7]].
  split; [now apply exec_steps|]. vm_compute in E. injection E as <-. split; [reflexivity|]. split; cbn; auto.
  intros [H|[H|[H|[H|[]]]]]; discriminate.
Qed.
Print Assumptions C44_end_after_all_data_racing_refuted.

(** A consumer that reports a broken packet loses the rest of the offer: with 2-byte packets,
    4 bytes offered and 1 reported, bytes 2..4 are gone. *)
Theorem C44_unprocessed_kept_refuted : exists (ls : list (lab Z)) s,
  steps (step 2 2 0 false) (init six) ls s /\
  In (ETake 1%nat [1; 2; 3; 4] 1 [1; 2; 3; 4]) (log s) /\ data_size (bb s) = 0.
Proof.
  set (ls := [LProcess 0%nat [1; 2; 3; 4]; LStep 0%nat; LStep 0%nat; LStep 0%nat; LStep 0%nat; LStep 0%nat; LStep 0%nat; LStep 0%nat;
              LRead 1%nat; LDone 1%nat 1] : list (lab Z)).
  exists ls. destruct (exec (step 2 2 0 false) (init six) ls) as [s|] eqn:E; [|vm_compute in E; discriminate].
  exists s. split; [now apply exec_steps|]. vm_compute in E. injection E as <-. split; cbn; auto.
Qed.
Print Assumptions C44_unprocessed_kept_refuted.

(** ** The hypotheses are met: a run that wraps around the storage, with two writers, one of them
    asleep on the guard, the other asleep for room, and a reader. *)
Example C44_run : exists ls s, ctor_ok 2 3 0 six = true /\ 0 <= 6 - 3 + Z.gcd 2 3 /\
  steps (qstep 2 3 0 false) (init six) ls s /\
  accepted (log s) = [1; 2; 3; 4; 5; 6; 7; 8] /\ taken (log s) = [1; 2; 3; 4; 5; 6] /\
  In (ERet 0%nat (Some 0)) (log s) /\ In (EEodOut 1%nat) (log s).
Proof.
  set (w := fun n => repeat (@LStep Z 0%nat) n).
  set (ls := [LProcess 0%nat [1; 2; 3; 4; 5; 6]] ++ w 10%nat ++ [LProcess 0%nat [7; 8]; LStep 0%nat; LProcess 2%nat [9; 9]; LStep 2%nat; LStep 0%nat] ++
             [LCancel 2%nat; LRead 1%nat; LDone 1%nat 3; LStep 0%nat; LStep 0%nat; LProcess 0%nat [7; 8]] ++ w 6%nat ++
             [LEod; LRead 1%nat; LDone 1%nat 3; LRead 1%nat] : list (lab Z)).
  exists ls. destruct (exec (qstep 2 3 0 false) (init six) ls) as [s|] eqn:E; [|vm_compute in E; discriminate].
  exists s. split; [reflexivity|]. split; [cbn; lia|]. split; [now apply exec_steps|]. vm_compute in E. injection E as <-.
  cbn. split; [reflexivity|]. split; [reflexivity|]. tauto.
Qed.
