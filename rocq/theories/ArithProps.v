(** C22, C23: the arithmetic coder. *)
From Coq Require Import List ZArith Bool Lia.
From Verif Require Import ArithModel ArithSpec ArithProofs.
Import ListNotations.
Local Open Scope Z_scope.

(** Encode accepts every sequence of symbols with scales up to 2^29: no check fails and its
    loop terminates *)
Theorem C22_encode_total : forall ys, Forall valid_sym ys -> exists o c, encode_all coder0 ys = Some (o, c).
Proof. intros ys V. destruct (encode_all_some coder0 ys stable0 V) as (o & c & E & _). eauto. Qed.

(** its output, continued by any bits that denote a point of the coder's final interval, is
    decoded symbol by symbol, and the decoder never fails either *)
Theorem C22_roundtrip : forall ys o c x, Forall valid_sym ys ->
  encode_all coder0 ys = Some (o, c) -> completes c x -> decodes (decoder_of (o ++ x)) ys.
Proof. exact roundtrip. Qed.

(** such a continuation always exists *)
Theorem C22_completion_exists : forall ys o c, Forall valid_sym ys ->
  encode_all coder0 ys = Some (o, c) -> exists x, completes c x.
Proof. intros ys o c V H. apply completes_exists. eapply encode_all_stable; eauto. Qed.

(** the bits emitted so far are right whatever is encoded afterwards *)
Theorem C22_any_continuation : forall ys zs o c o2 c2 x, Forall valid_sym ys -> Forall valid_sym zs ->
  encode_all coder0 ys = Some (o, c) -> encode_all c zs = Some (o2, c2) -> completes c2 x ->
  decodes (decoder_of (o ++ o2 ++ x)) ys.
Proof.
  intros ys zs o c o2 c2 x V1 V2 H1 H2 X. apply (roundtrip ys o c); auto.
  apply (completes_all c zs o2 c2); auto. exact (encode_all_stable _ _ _ V1 H1).
Qed.

(** with any adaptive model shared by both sides the message is recovered *)
Theorem C22_message_roundtrip : forall A (interval : list A -> A -> sym) scale find msg o c x,
  model_ok A interval scale find ->
  encode_all coder0 (symbols A interval [] msg) = Some (o, c) -> completes c x ->
  decode A interval scale find (length msg) [] (decoder_of (o ++ x)) = Some msg.
Proof. exact model_roundtrip. Qed.

(** ** C23 *)
(** EndOfData always terminates *)
Theorem C23_terminates : forall ys o c, Forall valid_sym ys -> encode_all coder0 ys = Some (o, c) ->
  forall fuel, (32 <= fuel)%nat -> flush fuel (low c) (high c) = end_of_data c.
Proof. intros ys o c V H. apply end_of_data_terminates. exact (proj1 (encode_all_stable _ _ _ V H)). Qed.

(** Missing in the partial theorem: pending underflow bits, and continuations below the coder's
    low bound; C23 itself is false, see the two refutations. *)
Theorem C23_decodes_partial : forall ys o c t, Forall valid_sym ys -> encode_all coder0 ys = Some (o, c) ->
  under c = 0%nat -> low c <= val 31 (end_of_data c ++ t) -> decodes (decoder_of (o ++ end_of_data c ++ t)) ys.
Proof. exact eod_roundtrip. Qed.
(** in particular when the output is followed by ones *)
Theorem C23_ones_partial : forall ys o c, Forall valid_sym ys -> encode_all coder0 ys = Some (o, c) ->
  under c = 0%nat -> decodes (decoder_of (o ++ end_of_data c ++ repeat true 31)) ys.
Proof. exact eod_ones. Qed.

(** one symbol [1,2) of 3: EndOfData drops the pending underflow bit, and whatever follows,
    the decoder reports another symbol *)
Theorem C23_underflow_refuted : exists ys o c, Forall valid_sym ys /\ encode_all coder0 ys = Some (o, c) /\
  forall t, ~ decodes (decoder_of (o ++ end_of_data c ++ t)) ys.
Proof.
  exists [mk_sym 1 2 3], [], (mk_coder 357913940 1789569703 1). split; [repeat constructor; cbn; lia|]. split; [vm_compute; reflexivity|].
  intros t [H _]. rewrite decoder_of_spec in H. revert H.
  assert (E : val 31 ([] ++ end_of_data (mk_coder 357913940 1789569703 1) ++ t) = 357913940) by (vm_compute; reflexivity).
  rewrite E. vm_compute. intros [H _]. apply H. reflexivity.
Qed.
(** one symbol [1,4) of 5, no underflow bits: the zeros that pad the last byte lead below the
    symbol *)
Theorem C23_zero_padding_refuted : exists ys o c, Forall valid_sym ys /\ encode_all coder0 ys = Some (o, c) /\ under c = 0%nat /\
  forall n, ~ decodes (decoder_of (o ++ end_of_data c ++ repeat false n)) ys.
Proof.
  exists [mk_sym 1 4 5], [], (mk_coder 429496729 1717986915 0). split; [repeat constructor; cbn; lia|]. split; [vm_compute; reflexivity|]. split; [reflexivity|].
  intros n [H _]. rewrite decoder_of_spec in H. revert H.
  assert (E : val 31 ([] ++ end_of_data (mk_coder 429496729 1717986915 0) ++ repeat false n) = 429496728).
  { destruct n; vm_compute; reflexivity. }
  rewrite E. vm_compute. intros [H _]. apply H. reflexivity.
Qed.

(** ** Non-vacuity *)
Example C22_run : exists o c x, encode_all coder0 [mk_sym 0 1 3; mk_sym 2 3 3] = Some (o, c) /\ completes c x /\
  (under c > 0)%nat /\ o <> [] /\ decodes (decoder_of (o ++ x)) [mk_sym 0 1 3; mk_sym 2 3 3].
Proof.
  destruct (C22_encode_total [mk_sym 0 1 3; mk_sym 2 3 3]) as (o & c & E); [repeat constructor; cbn; lia|].
  destruct (C22_completion_exists [mk_sym 0 1 3; mk_sym 2 3 3] o c) as (x & X); [repeat constructor; cbn; lia|auto|].
  exists o, c, x. split; auto. split; auto. split; [|split].
  - vm_compute in E. injection E as <- <-. cbn. lia.
  - vm_compute in E. injection E as <- <-. discriminate.
  - eapply C22_roundtrip; eauto. repeat constructor; cbn; lia.
Qed.
(** a model: three symbols with equal probability, then (after each) a quarter/half split *)
Definition ex_interval (h : list bool) (a : bool) : sym :=
  if Nat.even (length h) then (if a then mk_sym 0 1 3 else mk_sym 1 3 3) else (if a then mk_sym 0 3 4 else mk_sym 3 4 4).
Definition ex_scale (h : list bool) : Z := if Nat.even (length h) then 3 else 4.
Definition ex_find (h : list bool) (p : Z) : bool := if Nat.even (length h) then p <? 1 else p <? 3.
Example C22_model : model_ok bool ex_interval ex_scale ex_find.
Proof.
  intros h a. unfold ex_interval, ex_scale, ex_find, valid_sym. change (2 ^ 29) with 536870912.
  destruct (Nat.even (length h)), a; cbn [s_low s_high s_scale]; (split; [lia|split; [reflexivity|]]); intros p H; try apply Z.ltb_lt; try apply Z.ltb_ge; lia.
Qed.
Example C23_partial_run : exists o c, encode_all coder0 [mk_sym 0 1 2; mk_sym 1 2 4] = Some (o, c) /\ under c = 0%nat /\ low c <= val 31 (end_of_data c ++ []).
Proof.
  destruct (encode_all coder0 [mk_sym 0 1 2; mk_sym 1 2 4]) as [[o c]|] eqn:E; [|vm_compute in E; discriminate].
  exists o, c. split; auto. vm_compute in E. injection E as <- <-. split; [reflexivity|]. vm_compute. discriminate.
Qed.

Print Assumptions C22_encode_total.
Print Assumptions C22_roundtrip.
Print Assumptions C22_completion_exists.
Print Assumptions C22_any_continuation.
Print Assumptions C22_message_roundtrip.
Print Assumptions C23_terminates.
Print Assumptions C23_decodes_partial.
Print Assumptions C23_ones_partial.
Print Assumptions C23_underflow_refuted.
Print Assumptions C23_zero_padding_refuted.
