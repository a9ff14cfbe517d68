(** C24: the bit buffers. *)
From Coq Require Import List Arith Bool Lia.
From Verif Require Import Conc BitBufModel BitBufSpec BitBufProofs.
Import ListNotations.

(** whatever the chunking, the consumer gets the added bits in order, nothing lost or repeated *)
Theorem C24_consumed_prefix : forall n s a c, 0 < n -> hist n s a c ->
  exists rest, a = c ++ rest /\ length rest = data_bits n s.
Proof. exact hist_prefix. Qed.
(** what one call of the consumer takes is the next whole bytes *)
Theorem C24_consume_step : forall n s a c, 0 < n -> hist n s a c -> forall want out k s', consume n s want = (out, k, s') ->
  k = Nat.min want (offered n s) /\ length out = 8 * k /\ exists rest, a = c ++ out ++ rest.
Proof. exact hist_offer. Qed.
Theorem C24_consume_progress : forall n s a c, 0 < n -> hist n s a c -> 8 <= data_bits n s -> 0 < offered n s.
Proof. exact hist_offers. Qed.

(** EndOfData hands over the rest, padded with zeros to a whole byte, and terminates - if the
    write position is not inside the last byte of the buffer (with that case the claim is
    false, see C24_endofdata_refuted) *)
Theorem C24_endofdata_partial : forall n s a c want fuel, 0 < n -> hist n s a c ->
  (contig s = true -> wo s <= 8 * n - 8) -> (forall j, 0 < want j) -> S n <= fuel ->
  exists out s', end_of_data fuel n want s = Some (out, true, s') /\ c ++ out = padded a /\ data_bits n s' = 0.
Proof. exact eod_ok. Qed.

(** with the write position in the last byte it never terminates when the consumer takes
    everything it is offered, for every buffer size *)
Theorem C24_endofdata_refuted : forall n, 0 < n -> exists s a c, hist n s a c /\
  forall want, (forall j, n <= want j) -> forall fuel, end_of_data fuel n want s = None.
Proof.
  intros n Hn.
  assert (X : forall k, k < 8 * n -> exists s a, hist n s a [] /\ length a = k /\ contig s = true /\ wo s = k /\ ro s = 0).
  { induction k as [|k IH]; intros Hk.
    - exists buf0, []. repeat split; constructor.
    - destruct IH as (s & a & H & L & C & W & R); [lia|]. exists (add_bit n s true), (a ++ [true]). split; [|split].
      + constructor; auto. unfold free_bits, data_bits. rewrite C, W, R. lia.
      + rewrite app_length. cbn. lia.
      + unfold add_bit. rewrite W. destruct (Nat.eqb_spec (S k) (8 * n)); [lia|]. cbn. auto. }
  destruct (X (8 * n - 1)) as (s & a & H & L & C & W & R); [lia|]. exists s, a, []. split; auto.
  intros want Wa. eapply eod_spins; eauto. lia.
Qed.

(** the decompressor's buffer returns the bits of the accepted bytes in order *)
Theorem C24_read_prefix : forall n s a c, 0 < n -> rhist n s a c ->
  exists rest, a = c ++ rest /\ length rest = data_bits n s.
Proof. exact rhist_prefix. Qed.
Theorem C24_addbytes_progress : forall n s a c, 0 < n -> rhist n s a c -> 8 <= free_bits n s ->
  forall data k s', 8 <= length data -> add_bytes n s data = (k, s') -> 0 < k.
Proof. exact rhist_takes. Qed.

(** ** Non-vacuity *)
Fixpoint adds (n : nat) (s : buf) (l : list bool) : buf := match l with [] => s | b :: t => adds n (add_bit n s b) t end.
(** a 2-byte buffer: 11 bits, one byte consumed, 8 more bits (wraps), then EndOfData *)
Definition ex11 := [true; false; true; true; false; false; true; false; true; true; true].
Example C24_run : exists s', end_of_data 5 2 (fun _ => 1) (adds 2 buf0 [true; false; true]) =
  Some ([true; false; true; false; false; false; false; false], true, s').
Proof. eexists. vm_compute. reflexivity. Qed.
Example C24_hist : exists s, hist 2 s (ex11 ++ firstn 8 ex11) (firstn 8 ex11) /\ contig s = false /\ wo s = 3 /\ ro s = 8.
Proof.
  assert (A : forall l s a c, hist 2 s a c -> (forall k, k < length l -> 0 < free_bits 2 (adds 2 s (firstn k l))) -> hist 2 (adds 2 s l) (a ++ l) c).
  { induction l as [|b l IH]; intros s a c H F; cbn [adds]; [now rewrite app_nil_r|].
    replace (a ++ b :: l) with ((a ++ [b]) ++ l) by now rewrite <- app_assoc. apply IH.
    - constructor; auto. exact (F 0 (Nat.lt_0_succ _)).
    - intros k Hk. exact (F (S k) (proj1 (Nat.succ_lt_mono _ _) Hk)). }
  assert (H1 : hist 2 (adds 2 buf0 ex11) ([] ++ ex11) []).
  { apply A; [constructor|]. intros k Hk. do 11 (destruct k as [|k]; [vm_compute; lia|]). cbn in Hk. lia. }
  destruct (consume 2 (adds 2 buf0 ex11) 5) as [[out k] s1] eqn:Co. pose proof (h_consume _ _ _ _ _ _ _ _ H1 Co) as H2.
  exists (adds 2 s1 (firstn 8 ex11)). vm_compute in Co. injection Co as <- <- <-. split; [|split; [|split]]; [|vm_compute; reflexivity..].
  apply (A (firstn 8 ex11) _ _ _ H2). intros k Hk. do 8 (destruct k as [|k]; [vm_compute; lia|]). cbn in Hk. lia.
Qed.

Print Assumptions C24_consumed_prefix.
Print Assumptions C24_consume_step.
Print Assumptions C24_consume_progress.
Print Assumptions C24_endofdata_partial.
Print Assumptions C24_endofdata_refuted.
Print Assumptions C24_read_prefix.
Print Assumptions C24_addbytes_progress.
