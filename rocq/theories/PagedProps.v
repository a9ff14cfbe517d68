(** C39: io/PagedBuffer is a byte stream: what Push commits, in order, is what Read delivers and what Pop discards. *)
From Coq Require Import List Arith ZArith Bool Lia.
From Verif Require Import Conc FlatProofs PagedModel PagedSpec PagedProofs PagedProofs2.
Import ListNotations.
Set Implicit Arguments.

(** [reach ps ck s]: s is reached from the empty buffer by any interleaving of reader, writer, Pop, Seek. *)

Lemma open_split l1 d l2 : Forall (fun e => is_push_end e = false) l2 -> open_push (l1 ++ EPushBegin d :: l2) = Some (d, pushed l2).
Proof.
  intros H. induction l2 as [|e l2 IH] using rev_ind.
  - rewrite open_snoc. reflexivity.
  - change (l1 ++ EPushBegin d :: l2 ++ [e]) with (l1 ++ (EPushBegin d :: l2) ++ [e]). rewrite app_assoc, open_snoc.
    apply Forall_app in H. destruct H as [H He]. rewrite IH by auto. inversion He; subst. rewrite pushed_snoc.
    destruct e; cbn in *; try discriminate; rewrite ?app_nil_r; auto.
Qed.
Lemma open_some l : open_push l <> None -> exists l1 d l2, l = l1 ++ EPushBegin d :: l2 /\ Forall (fun e => is_push_end e = false) l2.
Proof.
  induction l as [|e l IH] using rev_ind; [intros H; now destruct H|]. rewrite open_snoc. intros H.
  destruct (is_push_end e) eqn:Ee.
  - destruct e; cbn in *; try discriminate; try congruence. exists l, data, []. auto.
  - destruct IH as [l1 [d [l2 [-> F]]]].
    + intros E. apply H. rewrite E. destruct e; cbn in *; congruence.
    + exists l1, d, (l2 ++ [e]). split; [now rewrite <- app_assoc|]. apply Forall_app. auto.
Qed.

Section T.
Variables ps ck : nat.
Hypothesis Hps : 0 < ps.
Hypothesis Hck : 0 < ck.

(** Every run of committed bytes handed to a consumer is that part of the committed stream. *)
Theorem C39_read_delivers_the_committed_bytes s l1 pos bs over l2 : reach ps ck s ->
  glog s = l1 ++ ERead pos bs over :: l2 -> pos + length bs <= length (pushed l1) ->
  bs = firstn (length bs) (skipn pos (pushed l1)).
Proof.
  intros H E L. destruct (reach_inv Hps Hck H) as [B HJ]. destruct (j_hist HJ _ _ _ E) as [A [C _]]. apply C. rewrite A. apply Nat.ltb_ge. lia.
Qed.

(** A consumer sees bytes beyond the committed ones only while a Push is running, or once one has failed. *)
Theorem C39_uncommitted_bytes_only_with_a_push_in_flight_or_failed s l1 pos bs over l2 : reach ps ck s ->
  glog s = l1 ++ ERead pos bs over :: l2 -> length (pushed l1) < pos + length bs ->
  In EPushFail l1 \/ exists la d lb, l1 = la ++ EPushBegin d :: lb /\ Forall (fun e => is_push_end e = false) lb.
Proof.
  intros H E L. destruct (reach_inv Hps Hck H) as [B HJ]. destruct (j_hist HJ _ _ _ E) as [A [_ C]]. rewrite A in C.
  destruct C as [C|C]; [apply Nat.ltb_lt; lia|auto|right; now apply open_some].
Qed.

(** Read never starts at a byte that has been popped. *)
Theorem C39_read_never_starts_at_a_popped_byte s l1 pos l2 : reach ps ck s -> glog s = l1 ++ EReadBegin pos :: l2 -> popped l1 <= pos.
Proof. intros H E. destruct (reach_inv Hps Hck H) as [B HJ]. exact (j_hist HJ _ _ _ E). Qed.

(** A Push that returns normally has committed exactly its data, one that throws a prefix of it; and while it
    runs nobody else commits anything. *)
Theorem C39_push_commits_its_data s l1 d l2 l3 : reach ps ck s -> Forall (fun e => is_push_end e = false) l2 ->
  glog s = l1 ++ EPushBegin d :: l2 ++ EPushOk :: l3 -> pushed l2 = d.
Proof.
  intros H F E. destruct (reach_inv Hps Hck H) as [B HJ].
  assert (E' : glog s = (l1 ++ EPushBegin d :: l2) ++ EPushOk :: l3) by (rewrite E, <- app_assoc; reflexivity).
  destruct (j_hist HJ _ _ _ E') as [d' Hd]. rewrite open_split in Hd by auto. congruence.
Qed.
Theorem C39_failed_push_commits_a_prefix s l1 d l2 l3 : reach ps ck s -> Forall (fun e => is_push_end e = false) l2 ->
  glog s = l1 ++ EPushBegin d :: l2 ++ EPushFail :: l3 -> is_prefix (pushed l2) d.
Proof.
  intros H F E. destruct (reach_inv Hps Hck H) as [B HJ].
  assert (E' : glog s = (l1 ++ EPushBegin d :: l2) ++ EPushFail :: l3) by (rewrite E, <- app_assoc; reflexivity).
  destruct (j_hist HJ _ _ _ E') as [d' [w [r [Hd ->]]]]. rewrite open_split in Hd by auto. injection Hd as -> <-. now exists r.
Qed.
Theorem C39_nothing_is_committed_outside_a_push s l1 bs l2 : reach ps ck s -> glog s = l1 ++ EPushed bs :: l2 ->
  exists la d lb, l1 = la ++ EPushBegin d :: lb /\ Forall (fun e => is_push_end e = false) lb /\ is_prefix (pushed lb ++ bs) d.
Proof.
  intros H E. destruct (reach_inv Hps Hck H) as [B HJ]. destruct (j_hist HJ _ _ _ E) as [d [w [r [Hd ->]]]].
  destruct (open_some l1) as [la [d' [lb [-> F]]]]; [congruence|]. rewrite open_split in Hd by auto. injection Hd as -> <-.
  exists la, (pushed lb ++ bs ++ r), lb. split; auto. split; auto. exists r. now rewrite app_assoc.
Qed.
Theorem C39_pushes_do_not_overlap s l1 d l2 d' l3 : reach ps ck s -> glog s = l1 ++ EPushBegin d :: l2 ++ EPushBegin d' :: l3 ->
  exists e, In e l2 /\ is_push_end e = true.
Proof.
  intros H E. destruct (reach_inv Hps Hck H) as [B HJ].
  assert (E' : glog s = (l1 ++ EPushBegin d :: l2) ++ EPushBegin d' :: l3) by (rewrite E, <- app_assoc; reflexivity).
  pose proof (j_hist HJ _ _ _ E') as X. cbn [evok] in X.
  destruct (existsb is_push_end l2) eqn:Ex; [apply existsb_exists in Ex; exact Ex|].
  rewrite open_split in X; [discriminate|]. apply Forall_forall. intros e He. destruct (is_push_end e) eqn:Ee; auto.
  assert (existsb is_push_end l2 = true) by (apply existsb_exists; eauto). congruence.
Qed.

(** GetStorageSize is what has been committed and not popped. *)
Theorem C39_storage_size s : reach ps ck s ->
  popped (glog s) <= length (pushed (glog s)) /\
  ((zn (length (pushed (glog s))) < 2 ^ 64)%Z -> storage_size ps s = zn (length (pushed (glog s)) - popped (glog s))).
Proof.
  intros H. destruct (reach_inv Hps Hck H) as [B HJ]. pose proof (j_inv HJ) as HI. rewrite <- (j_gS HJ), <- (j_pop HJ).
  pose proof (i_len HI). pose proof (i_start HI). split; [lia|]. intros Hb. unfold storage_size, w64, zn in *.
  rewrite Z.mod_small; lia.
Qed.

(** Unless a consumer is handed uncommitted bytes or a Pop drops a page under a running Read, the two internal
    "broken invariant" exceptions are never thrown. *)
Theorem C39_never_broken s : reach ps ck s -> calm (glog s) -> ~ In EBroken (glog s).
Proof.
  intros H C Hin. destruct (reach_inv Hps Hck H) as [B HJ]. apply in_split in Hin. destruct Hin as [l1 [l2 E]].
  apply (j_hist HJ _ _ _ E). rewrite E in C. apply Forall_app in C. apply C.
Qed.

(** A sequential consumer: under the same two conditions, with no Seek, no Pop of unread bytes, no cancellation
    and whole chunks consumed, the bytes delivered are the committed bytes in order, each exactly once ... *)
Theorem C39_exactly_once s : reach ps ck s -> calm (glog s) -> plain ck (glog s) -> is_prefix (delivered (glog s)) (pushed (glog s)).
Proof.
  intros H C P. pose proof (reach_once Hps Hck H (conj C P)) as O. destruct (reach_inv Hps Hck H) as [B HJ]. rewrite <- (j_gS HJ).
  unfold onceI in O. destruct (rd s); [|destruct O as [_ O]|destruct O as [_ [_ O]]]; rewrite O; eexists; symmetry; apply firstn_skipn.
Qed.
(** ... and Read goes to sleep only when less than a chunk is left to deliver. *)
Theorem C39_read_waits_only_when_everything_is_delivered s : reach ps ck s -> calm (glog s) -> plain ck (glog s) ->
  (zn (length (pushed (glog s))) < 2 ^ 64)%Z -> step ps ck s ARead = Some s ->
  length (pushed (glog s)) - length (delivered (glog s)) < ck.
Proof.
  intros H C P Hb Hs. pose proof (reach_once Hps Hck H (conj C P)) as O. destruct (reach_inv Hps Hck H) as [B HJ]. rewrite <- (j_gS HJ) in *.
  cbn [step] in Hs. unfold onceI in O. destruct (rd s) eqn:Er; try discriminate. destruct (j_calm HJ C) as [A _]. pose proof (i_len (j_inv HJ)).
  destruct (unread ps s <? zn ck)%Z eqn:Eu.
  - apply Z.ltb_lt in Eu. unfold unread, w64, zn in *. rewrite Z.mod_small in Eu by lia. rewrite O, firstn_length. lia.
  - exfalso. destruct (nth_error (pgs s) (cur s / ps)); injection Hs as Hs; apply (f_equal glog) in Hs; cbn [glog] in Hs; unfold log in Hs;
      apply (f_equal (@length ev)) in Hs; rewrite app_length in Hs; cbn in Hs; lia.
Qed.
End T.

(** What goes wrong outside those conditions. Page size 4, chunk 1 throughout. *)
Ltac run acts := eexists; split; [exists acts; apply exec_steps; vm_compute; reflexivity|].

(** (a) Pop of bytes that were already read is an ordinary call; when it drops a page while a Read is delivering, the
    reader's offset is not advanced and the same bytes are delivered again. *)
Theorem C39_exactly_once_with_concurrent_pop_refuted : exists s, reach 4 1 s /\ plain 1 (glog s) /\
  pushed (glog s) = [1;2;3;4;5;6] /\ delivered (glog s) = [1;2;3;4;5;6;5;6].
Proof.
  run [APush [1;2;3;4;5;6]; AWritePage 4; AWritePage 2; ACommitPages; ARead; APage 4; AReadEnd false; ARead; APage 2; APop 4; AReadEnd false; ARead; APage 2].
  split; [repeat constructor|]. split; vm_compute; reflexivity.
Qed.

(** (b) A Pop that skips unread bytes while a Read is delivering: the reader's check for a moved offset is fooled
    (the offset is again 0), the next page is skipped although never read nor popped, and Read throws. *)
Theorem C39_pop_during_read_loses_unpopped_bytes_refuted : exists s, reach 4 1 s /\
  pushed (glog s) = [1;2;3;4;5;6;7;8] /\ delivered (glog s) = [1;2;3;4] /\ popped (glog s) = 4 /\ unread 4 s = 0%Z.
Proof.
  run [APush [1;2;3;4;5;6;7;8]; AWritePage 4; AWritePage 4; ACommitPages; ARead; APage 4; APop 4; AReadEnd false].
  repeat split; vm_compute; reflexivity.
Qed.
Theorem C39_pop_during_read_breaks_the_buffer_refuted : exists s, reach 4 1 s /\ In EBroken (glog s) /\ Forall (fun e => match e with ERead _ _ o => o = false | _ => True end) (glog s).
Proof.
  run [APush [1;2;3;4]; AWritePage 4; ACommitPages; ARead; APage 4; APop 4; AReadEnd false; ARead].
  split; [cbn; tauto|repeat constructor].
Qed.

(** (c) A Read running while Push fills the tail page hands out bytes not yet committed: the reader passes the end
    and the next Read throws instead of waiting, although no Push failed and nobody popped. *)
Theorem C39_read_racing_a_push_throws_refuted : exists s, reach 4 1 s /\ plain 1 (glog s) /\
  In EBroken (glog s) /\ ~ In EPushFail (glog s) /\ popped (glog s) = 0.
Proof.
  run [APush [1;2]; AWritePage 2; ACommitPages; ARead; APush [3;4]; AWriteTail 2; APage 4; AReadEnd false; ARead; ACommitTail; ACommitPages].
  split; [repeat constructor|]. split; [cbn; tauto|]. split; [|reflexivity]. cbn. intuition discriminate.
Qed.
(** (d) If that Push fails, the bytes delivered are ones no Push ever commits. *)
Theorem C39_only_committed_bytes_are_delivered_refuted : exists s, reach 4 1 s /\ plain 1 (glog s) /\
  pushed (glog s) = [1;2;8;9] /\ delivered (glog s) = [1;2;3].
Proof.
  run [APush [1;2]; AWritePage 2; ACommitPages; ARead; APush [3;4]; AWriteTail 1; APage 3; AReadEnd false; APush [8;9]; AWriteTail 2; ACommitTail; ACommitPages].
  split; [repeat constructor|]. split; vm_compute; reflexivity.
Qed.
(** (e) A Read cancelled after its consumer took bytes delivers them again. *)
Theorem C39_exactly_once_with_cancellation_refuted : exists s, reach 4 1 s /\ calm (glog s) /\
  pushed (glog s) = [1;2] /\ delivered (glog s) = [1;2;1;2].
Proof.
  run [APush [1;2]; AWritePage 2; ACommitPages; ARead; APage 2; AReadEnd true; ARead; APage 2; AReadEnd false].
  split; [repeat constructor|]. split; vm_compute; reflexivity.
Qed.

(** The hypotheses are met: two Pushes across page borders, Reads running during the second, Pop between Reads. *)
Example C39_nonvacuous : exists s, reach 4 2 s /\ calm (glog s) /\ plain 2 (glog s) /\
  pushed (glog s) = [1;2;3;4;5;6;7;8;9;10;11] /\ delivered (glog s) = [1;2;3;4;5;6;7;8;9;10] /\ popped (glog s) = 6 /\ step 4 2 s ARead = Some s.
Proof.
  run [APush [1;2;3;4;5]; AWritePage 4; AWritePage 1; ACommitPages; ARead; APage 4; AReadEnd false; APush [6;7;8;9;10;11]; AWriteTail 3; ACommitTail;
       ARead; APage 4; AWritePage 3; AReadEnd false; APop 6; ACommitPages; ARead; APage 2; AReadEnd false].
  split; [repeat constructor|]. split; [repeat constructor|]. repeat split; vm_compute; reflexivity.
Qed.

Print Assumptions C39_read_delivers_the_committed_bytes.
Print Assumptions C39_uncommitted_bytes_only_with_a_push_in_flight_or_failed.
Print Assumptions C39_push_commits_its_data.
Print Assumptions C39_storage_size.
Print Assumptions C39_never_broken.
Print Assumptions C39_exactly_once.
Print Assumptions C39_read_waits_only_when_everything_is_delivered.
Print Assumptions C39_read_racing_a_push_throws_refuted.
