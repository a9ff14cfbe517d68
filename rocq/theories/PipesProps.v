(** C50: the thread-to-thread pipe and the pipe shared by writers deliver exactly what was written. *)
From Verif Require Import Base Conc PipesModel PipesSpec PipesProofs.

(** BithreadPipe, one writing thread, any number of reading threads, any schedule, cancellations and
    time-outs anywhere: what the Read calls returned, in order, is what the Write calls were given, one
    after the other, whole for those that returned, a front part for those that threw, and then a front
    part [a] of the Write under way, whose other bytes are what is still to be read. *)
Theorem C50_one_writer w ls s : only_writer w ls -> steps b_step b_init ls s ->
  exists ps a, Forall2 part ps (writes (b_log s)) /\ reads (b_log s) = concat ps ++ a /\
  match b_pc s w with
  | WWait d | WWoken d => exists r, d = a ++ r /\ (b_data s = Some r \/ (b_data s = None /\ r = []))
  | _ => b_data s = None /\ a = []
  end.
Proof. intros O H. destruct (inv1_run w ls O _ _ H (inv1_init w)) as (_ & _ & I). exact I. Qed.
Print Assumptions C50_one_writer.

(** In particular if no Write threw and none is under way, exactly the written bytes have been read. *)
Theorem C50_one_writer_quiet w ls s : only_writer w ls -> steps b_step b_init ls s ->
  (forall t d, ~ In (EvWriteThrow t d) (b_log s)) -> b_pc s w = BIdle ->
  reads (b_log s) = concat (map fst (writes (b_log s))).
Proof.
  intros O H NT Hi. destruct (C50_one_writer w ls s O H) as (ps & a & Fp & R & M). rewrite Hi in M.
  destruct M as [_ ->]. rewrite R, app_nil_r. f_equal.
  assert (All : forall x, In x (writes (b_log s)) -> snd x = true).
  { intros x Hx. unfold writes in Hx. apply in_concat in Hx. destruct Hx as (l & Hl & Hx). apply in_map_iff in Hl.
    destruct Hl as (e & <- & He). destruct e as [ | | t d | t d]; cbn in Hx; try contradiction; destruct Hx as [<- | []]; [reflexivity | ].
    exfalso. exact (NT _ _ He). }
  clear - Fp All. induction Fp as [ | p x ps l Hp _ IH]; [reflexivity | ]. cbn [map]. f_equal.
  - unfold part in Hp. rewrite (All x) in Hp by (left; reflexivity). exact Hp.
  - apply IH. intros y Hy. apply All. right. exact Hy.
Qed.
Print Assumptions C50_one_writer_quiet.

(** No wake-up is lost: while there is data no reader is left waiting, with any number of writers; once
    the data is gone a single writer is not left waiting. *)
Theorem C50_readers_woken ls s : steps b_step b_init ls s -> b_data s <> None -> forall t n, b_pc s t <> RWait n.
Proof. intros H. apply (inv_full_run ls _ _ H). intros D. cbn in D. congruence. Qed.
Print Assumptions C50_readers_woken.

Theorem C50_writer_woken w ls s : only_writer w ls -> steps b_step b_init ls s -> b_data s = None ->
  forall t d, b_pc s t <> WWait d.
Proof.
  intros O H D t d E. destruct (inv1_run w ls O _ _ H (inv1_init w)) as (I1 & I2 & _).
  destruct (Nat.eq_dec t w) as [-> | N]; [exact (I2 _ E D) | ]. specialize (I1 t N). rewrite E in I1. discriminate.
Qed.
Print Assumptions C50_writer_woken.

(** A Read with room for what is left of the Write under way lets that Write return. *)
Theorem C50_rendezvous w ls s : only_writer w ls -> steps b_step b_init ls s ->
  forall d r t n, b_pc s w = WWait d \/ b_pc s w = WWoken d -> b_data s = Some r -> b_pc s t = BIdle -> length r <= n ->
  exists s', steps b_step s [LRead t n; LResume w] s' /\ b_log s' = b_log s ++ [EvRead t n r; EvWritten w d] /\ b_data s' = None.
Proof.
  intros O H d r t n Hw Hd Ht Hn. assert (Hne : w <> t) by (intros ->; destruct Hw; congruence).
  assert (E1 : b_read s t n = mkB None (fupd (wake_empty (b_pc s)) t BIdle) (b_log s ++ [EvRead t n r])).
  { unfold b_read. rewrite Hd. replace (Nat.min n (length r)) with (length r) by lia. rewrite Nat.eqb_refl, firstn_all. reflexivity. }
  eexists. split.
  - eapply steps_cons; [cbn [b_step]; rewrite Ht, E1; reflexivity | ].
    eapply steps_cons; [ | apply steps_nil].
    cbn [b_step b_pc]. rewrite fupd_other by exact Hne.
    assert (E2 : wake_empty (b_pc s) w = WWoken d) by (unfold wake_empty; destruct Hw as [-> | ->]; reflexivity).
    rewrite E2. unfold b_write_loop. cbn [b_data]. reflexivity.
  - cbn [b_log b_data]. rewrite <- app_assoc. auto.
Qed.
Print Assumptions C50_rendezvous.

(** * SynchronizedPipe *)
(** Any number of writers: the inner pipe receives the written packets one after the other, never mixed:
    whole for the calls that returned, a front part for those that threw; the one being written is last. *)
Theorem C50_packets_whole ls s : steps s_step sy_init ls s ->
  exists ps, Forall2 part ps (swrites (sy_log s)) /\
  ((sy_out s = concat ps /\ forall t d k la, sy_pc s t <> SWriting d k la) \/
   exists t d k la, sy_pc s t = SWriting d k la /\ sy_out s = concat ps ++ firstn k d /\
     forall u d' k' la', sy_pc s u = SWriting d' k' la' -> u = t).
Proof.
  intros H. pose proof (sinv_run ls _ _ H sinv_init) as I. pose proof I as (A & B & ps & Fp & C1 & C2).
  exists ps. split; [exact Fp | ]. destruct (free_case s) as [F | F].
  - left. split; [exact (C1 F) | ]. intros t d k la E. destruct (A F t) as [X _]. rewrite E in X. discriminate.
  - right. destruct (B F) as (t & d & k & E & Un). destruct (sy_pc s t) as [ | | | d0 k0 la] eqn:Ep; try discriminate.
    injection E as -> ->. exists t, d, k, la. split; [exact Ep | ]. split; [apply (C2 t); rewrite Ep; reflexivity | ].
    intros u d' k' la' Eu. destruct (Nat.eq_dec u t) as [ | N]; [assumption | ]. specialize (Un u N). rewrite Eu in Un. discriminate.
Qed.
Print Assumptions C50_packets_whole.

(** No writer is left waiting while nobody writes. *)
Theorem C50_writers_woken ls s : steps s_step sy_init ls s ->
  (forall t d k la, sy_pc s t <> SWriting d k la) -> forall t d, sy_pc s t <> SWait d.
Proof.
  intros H N t d. pose proof (sinv_run ls _ _ H sinv_init) as (A & B & _).
  destruct (free_case s) as [F | F]; [apply A; exact F | ].
  destruct (B F) as (t1 & d1 & k1 & E & _). destruct (sy_pc s t1) eqn:Ep; try discriminate. exfalso. exact (N _ _ _ _ Ep).
Qed.
Print Assumptions C50_writers_woken.

(** * What does not hold *)
(** Two writers on a BithreadPipe: both Writes return, the bytes of the first were never read. *)
Theorem C50_two_writers_refuted : exists ls s, steps b_step b_init ls s /\
  b_log s = [EvRead 3 8 [2]; EvWritten 1 [1]; EvWritten 2 [2]].
Proof.
  exists [LWrite 1 [1]; LWrite 2 [2]; LRead 3 8; LResume 1; LResume 2].
  eexists. split; [apply exec_steps; vm_compute; reflexivity | reflexivity].
Qed.
Print Assumptions C50_two_writers_refuted.

(** A cancelled Write takes away the data of another one, which is left waiting with nothing to be read. *)
Theorem C50_cancel_strands_writer_refuted : exists ls s, steps b_step b_init ls s /\
  b_data s = None /\ b_pc s 2 = WWait [2] /\ reads (b_log s) = [].
Proof.
  exists [LWrite 1 [1]; LWrite 2 [2]; LThrow 1]. eexists. split; [apply exec_steps; vm_compute; reflexivity | ].
  vm_compute. auto.
Qed.
Print Assumptions C50_cancel_strands_writer_refuted.

(** A Write may throw although all its bytes have been read. *)
Theorem C50_throw_means_undelivered_refuted : exists ls s, only_writer 1 ls /\ steps b_step b_init ls s /\
  b_log s = [EvRead 3 8 [5; 6]; EvWriteThrow 1 [5; 6]].
Proof.
  exists [LWrite 1 [5; 6]; LRead 3 8; LThrow 1]. eexists. split.
  { intros t d Hin. cbn in Hin. destruct Hin as [E | [E | [E | []]]]; try discriminate. injection E as <- <-. reflexivity. }
  split; [apply exec_steps; vm_compute; reflexivity | reflexivity].
Qed.
Print Assumptions C50_throw_means_undelivered_refuted.

(** An empty Write waits for a Read, and that Read returns 0 although nothing has ended. *)
Theorem C50_empty_write_refuted : exists ls s, only_writer 1 ls /\ steps b_step b_init ls s /\
  b_log s = [EvRead 3 8 []; EvWritten 1 []] /\
  forall s1, steps b_step b_init [LWrite 1 []] s1 -> b_pc s1 1 = WWait [].
Proof.
  exists [LWrite 1 []; LRead 3 8; LResume 1]. eexists. split.
  { intros t d Hin. cbn in Hin. destruct Hin as [E | [E | [E | []]]]; try discriminate. injection E as <- <-. reflexivity. }
  split; [apply exec_steps; vm_compute; reflexivity | ]. split; [reflexivity | ].
  intros s1 H. inversion H as [ | a b c e f H1 H2]; subst. inversion H2; subst. cbn in H1. injection H1 as <-. reflexivity.
Qed.
Print Assumptions C50_empty_write_refuted.

(** * Non-trivial instances *)
Example C50_one_writer_met : exists ls s, only_writer 1 ls /\ steps b_step b_init ls s /\
  b_log s = [EvRead 2 2 [1; 2]; EvRead 3 4 [3]; EvWritten 1 [1; 2; 3]; EvRead 3 1 [4]; EvWriteThrow 1 [4; 5]; EvReadThrow 2] /\
  b_pc s 1 = WWait [6].
Proof.
  exists [LRead 2 2; LWrite 1 [1; 2; 3]; LResume 2; LRead 3 4; LResume 1; LWrite 1 [4; 5]; LRead 3 1; LThrow 1; LRead 2 1; LSpurious 2; LThrow 2; LWrite 1 [6]].
  eexists. split.
  { intros t d Hin. cbn in Hin. repeat (destruct Hin as [E | Hin]; [try discriminate; injection E as <- <-; reflexivity | ]). contradiction. }
  split; [apply exec_steps; vm_compute; reflexivity | split; reflexivity].
Qed.
Example C50_packets_met : exists ls s, steps s_step sy_init ls s /\
  sy_log s = [SvThrow 3 [9]; SvWritten 1 [1; 2; 3]; SvThrow 2 [4; 5; 6]] /\ sy_out s = [1; 2; 3; 4] /\ sy_free s = true.
Proof.
  exists [YWrite 1 [1; 2; 3]; YWrite 2 [4; 5; 6]; YWrite 3 [9]; YInner 1 2; YThrow 3; YInner 1 1; YDone 1 false; YResume 2; YInner 2 1; YInnerThrow 2 0].
  eexists. split; [apply exec_steps; vm_compute; reflexivity | repeat split].
Qed.
