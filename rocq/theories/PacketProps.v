(** C32: PacketBuffer (io/PacketBuffer.h) is a bounded FIFO of packets. *)
From Verif Require Import Base BithreadModel PacketModel PacketSpec PacketProofs.
Set Implicit Arguments.
Local Open Scope Z_scope.

(** Every interleaving of Process (split at its unlocked copy), Read (split at the consumer
    callback), Clear, EndOfData and GetDataSize, on a buffer of any non-empty storage, answers as
    the FIFO of PacketSpec.v allows: packets come out in order, once, byte for byte and with their
    metadata, also when looked at again during the callback; nothing throws except "packet is too
    big"; a packet is refused only when something is pending or it is larger than half of the
    storage.  Excluded: Clear while the consumer is running (see below). *)
Theorem C32_packet_fifo : forall (A M : Type) (storage : list A) (disc : bool) (os : list (pop_ A M)),
  storage <> [] ->
  ~ In RClearInCallback (snd (run disc (pinit M storage) os)) ->
  exists q, allowed_run (zlen storage) disc (mkQ [] None false false) os (snd (run disc (pinit M storage) os)) q.
Proof.
  intros A M storage disc os Hs Hn.
  destruct (@run_ok A M disc os _ _ (init_inv M Hs) Hn) as (q & H & _). exists q. exact H.
Qed.

(** The same without the exclusion, for runs that never call Clear *)
Theorem C32_packet_fifo_no_clear : forall (A M : Type) (storage : list A) (disc : bool) (os : list (pop_ A M)),
  storage <> [] -> ~ In PClear os ->
  exists q, allowed_run (zlen storage) disc (mkQ [] None false false) os (snd (run disc (pinit M storage) os)) q.
Proof.
  intros A M storage disc os Hs Hc. apply C32_packet_fifo; [exact Hs|].
  generalize (pinit M storage) as x. induction os as [|o os IH]; intros x; [intros []|].
  cbn [run]. destruct (step disc x o) as [x1 r] eqn:E1. destruct (run disc x1 os) as [x2 rs] eqn:E2. cbn [snd].
  intros [->|Hin].
  - assert (o <> PClear) by (intros ->; apply Hc; left; reflexivity).
    destruct o; try congruence; unfold step in E1;
      repeat match type of E1 with context [match ?y with _ => _ end] => destruct y; try discriminate end; congruence.
  - specialize (IH ltac:(intros X; apply Hc; right; exact X) x1). rewrite E2 in IH. exact (IH Hin).
Qed.

(** From the FIFO specification alone: the packets read (and acknowledged) followed by those still
    pending are the packets committed, in order, when Clear is not used. *)
Fixpoint committed {A M} (w : option (packet A M)) (os : list (pop_ A M)) (rs : list (pout A M)) : list (packet A M) :=
  match os, rs with
  | PWrite d m :: os', RStarted :: rs' => committed (Some (d, m)) os' rs'
  | PCommit :: os', RUnit :: rs' => match w with Some p => p :: committed None os' rs' | None => committed None os' rs' end
  | _ :: os', _ :: rs' => committed w os' rs'
  | _, _ => []
  end.
Fixpoint consumed {A M} (r : option (packet A M)) (os : list (pop_ A M)) (rs : list (pout A M)) : list (packet A M) :=
  match os, rs with
  | PRead :: os', RPacket d m :: rs' => consumed (Some (d, m)) os' rs'
  | PDone true :: os', RUnit :: rs' => match r with Some p => p :: consumed None os' rs' | None => consumed None os' rs' end
  | PDone false :: os', RUnit :: rs' => consumed None os' rs'
  | _ :: os', _ :: rs' => consumed r os' rs'
  | _, _ => []
  end.

Lemma allowed_run_order A M total disc (q : qst A M) os rs q' : allowed_run total disc q os rs q' -> ~ In PClear os ->
  forall w r, (forall p b, writer q = Some (p, b) -> w = Some p) ->
    (reader q = true -> pending q <> [] /\ r = hd_error (pending q)) ->
    consumed r os rs ++ pending q' = pending q ++ committed w os rs.
Proof.
  induction 1 as [q|q o rr q1 os rs q2 Ha Hr IH]; intros Hc w r Hw Hrd.
  - cbn. rewrite app_nil_r. reflexivity.
  - assert (Hc' : ~ In PClear os) by (intros X; apply Hc; right; exact X).
    specialize (IH Hc').
    destruct Ha; cbn [consumed committed].
    + rewrite (IH w r); auto.
    + rewrite (IH (Some (d, m)) r); cbn; auto. intros p b [= <- <-]. reflexivity.
    + destruct disc; rewrite (IH w r); cbn; auto.
    + rewrite (IH w r); cbn; auto. intros p' b' [= <- <-]. eapply Hw; eauto.
    + rewrite (Hw _ _ H). rewrite (IH None r); cbn; [rewrite <- app_assoc; reflexivity|discriminate|].
      intros X. destruct (Hrd X) as [Y1 Y2]. split; [destruct (pending q); discriminate|].
      rewrite Y2. destruct (pending q); [congruence|reflexivity].
    + rewrite (IH w r); auto.
    + rewrite (IH w (Some (d, m))); cbn; auto. intros _. rewrite H0. split; [discriminate|reflexivity].
    + rewrite (IH w r); auto.
    + rewrite (IH w r); auto.
    + rewrite (IH w r); auto.
    + destruct (Hrd H) as [_ ->]. rewrite H0. cbn. rewrite (IH w None); cbn; auto. discriminate.
    + rewrite (IH w None); cbn; auto. discriminate.
    + exfalso. apply Hc. left. reflexivity.
    + rewrite (IH w r); auto.
    + rewrite (IH w r); auto.
    + rewrite (IH w r); auto.
    + rewrite (IH w r); auto.
    + rewrite (IH w r); auto.
    + rewrite (IH w r); auto.
    + rewrite (IH w r); auto.
    + destruct b; rewrite (IH w r); auto.
Qed.

Theorem C32_packets_in_order : forall (A M : Type) (storage : list A) (disc : bool) (os : list (pop_ A M)),
  storage <> [] -> ~ In PClear os ->
  exists left, consumed None os (snd (run disc (pinit M storage) os)) ++ left
             = committed None os (snd (run disc (pinit M storage) os)).
Proof.
  intros A M storage disc os Hs Hc.
  destruct (@C32_packet_fifo_no_clear A M storage disc os Hs Hc) as (q & Hq).
  exists (pending q). rewrite (@allowed_run_order _ _ _ _ _ _ _ _ Hq Hc None None); cbn; auto; discriminate.
Qed.

(** ** What does not hold *)

(** "A packet that fits into an empty buffer is eventually accepted" is false: once the offset has
    moved, a packet larger than what is left on either side of it is never accepted by an empty buffer.  With
    discardOnOverflow it is dropped; otherwise writer and reader wait for each other forever. *)
Theorem C32_empty_buffer_accepts_refuted :
  ~ (forall (storage d : list nat) (m : nat) (os : list (pop_ nat nat)) q,
       allowed_run (zlen storage) false (mkQ [] None false false) os (snd (run false (pinit nat storage) os)) q ->
       storage <> [] -> pending q = [] -> writer q = None -> zlen d <= zlen storage ->
       snd (step false (fst (run false (pinit nat storage) os)) (PWrite d m)) = RStarted).
Proof.
  intros H.
  set (os := [PWrite [1;2;3;4;5]%nat 7%nat; PCopy; PCommit; PRead; PDone true] : list (pop_ nat nat)).
  assert (Hs : repeat 0%nat 10 <> []) by discriminate.
  assert (Ha : allowed_run (zlen (repeat 0%nat 10)) false (mkQ [] None false false) os (snd (run false (pinit nat (repeat 0%nat 10)) os))
     (mkQ [] None false false)).
  { change (snd (run false (pinit nat (repeat 0%nat 10)) os)) with
      ([RStarted; RUnit; RUnit; RPacket [1;2;3;4;5]%nat 7%nat; RUnit] : list (pout nat nat)).
    eapply ar_cons; [apply a_start; [reflexivity|vm_compute; discriminate]|].
    eapply ar_cons; [eapply a_copy; reflexivity|]. eapply ar_cons; [eapply a_commit; reflexivity|].
    eapply ar_cons; [eapply a_read; reflexivity|]. eapply ar_cons; [eapply a_done_true; reflexivity|]. apply ar_nil. }
  specialize (H (repeat 0%nat 10) [1;2;3;4;5;6;7;8]%nat 9%nat os _ Ha Hs eq_refl eq_refl).
  assert (X : zlen [1;2;3;4;5;6;7;8]%nat <= zlen (repeat 0%nat 10)) by (vm_compute; discriminate).
  specialize (H X). vm_compute in H. discriminate.
Qed.

(** ... and nothing that writer or reader can do in that state changes it: both wait for ever *)
Theorem C32_empty_buffer_deadlock :
  exists (storage d : list nat) (os : list (pop_ nat nat)), zlen d <= zlen storage /\ pq (fst (run false (pinit nat storage) os)) = [] /\
  forall os' m, (forall o, In o os' -> o = PWrite d m \/ o = PRead) ->
    run false (fst (run false (pinit nat storage) os)) os' = (fst (run false (pinit nat storage) os), map (fun _ => RWouldWait) os').
Proof.
  exists (repeat 0%nat 10), [1;2;3;4;5;6;7;8]%nat,
    [PWrite [1;2;3;4;5]%nat 7%nat; PCopy; PCommit; PRead; PDone true].
  split; [vm_compute; discriminate|]. split; [reflexivity|].
  set (x := fst _). vm_compute in x. intros os' m. induction os' as [|o os' IH]; intros H; [reflexivity|].
  cbn [run]. assert (E : step false x o = (x, RWouldWait)) by (destruct (H o (or_introl eq_refl)) as [->| ->]; reflexivity).
  rewrite E, IH; [reflexivity|]. intros o' Ho'. apply H. right. exact Ho'.
Qed.

(** Clear while the consumer runs: acknowledging the packet then removes the front of an empty queue *)
Theorem C32_clear_in_callback_refuted :
  ~ (forall (storage : list nat) (disc : bool) (os : list (pop_ nat nat)),
       storage <> [] -> ~ In RUB (snd (run disc (pinit nat storage) os))).
Proof.
  intros H. apply (H (repeat 0%nat 10) false [PWrite [1;2]%nat 7%nat; PCopy; PCommit; PRead; PClear; PDone true]); [discriminate|].
  vm_compute. do 5 right. left. reflexivity.
Qed.

(** ** Non-vacuity: a run that wraps with padding *)
Example C32_nonvacuous :
  let os := [PWrite [1;2;3;4]%nat 1%nat; PCopy; PCommit; PWrite [5;6;7]%nat 2%nat; PCopy; PCommit; PRead; PDone true;
             PWrite [8;9;10;11]%nat 3%nat; PCopy; PRead; PLook; PDone false; PCommit; PRead; PDone true; PRead; PDone true; PSize; PEnd; PRead] in
  ~ In PClear os /\
  snd (run false (pinit nat (repeat 0%nat 10)) os)
  = [RStarted; RUnit; RUnit; RStarted; RUnit; RUnit; RPacket [1;2;3;4]%nat 1%nat; RUnit;
     RStarted; RUnit; RPacket [5;6;7]%nat 2%nat; RBytes [5;6;7]%nat; RUnit; RUnit; RPacket [5;6;7]%nat 2%nat; RUnit;
     RPacket [8;9;10;11]%nat 3%nat; RUnit; RSize 0; RUnit; REndOfData].
Proof.
  split; [|vm_compute; reflexivity]. cbn. intros H. repeat (destruct H as [H|H]; [discriminate|]). exact H.
Qed.

Print Assumptions C32_packet_fifo.
Print Assumptions C32_packet_fifo_no_clear.
Print Assumptions C32_packets_in_order.
Print Assumptions C32_empty_buffer_accepts_refuted.
Print Assumptions C32_empty_buffer_deadlock.
Print Assumptions C32_clear_in_callback_refuted.
