(** C63: PPM compression with a trained dictionary. *)
From Verif Require Import Base ArithModel ArithSpec ArithProofs PpmModel PpmSpec PpmProofs PpmProofs2 PpmProofs3 PpmProofs4.
Local Open Scope Z_scope.

(** ** Training *)
(** the dictionary of a text: level [i] has counted, for every context and symbol, how often the symbol followed the context while this
    was the first level whose context size was available (the top level counts the whole text after its first symbols) *)
Theorem C63_statistics : forall gs h, descending gs -> ends_with_order0 gs -> Forall byte h -> exists t, train (trainer0 gs) (map Train h) = Some t /\
  forall i g v, nth_error (tr_builder t) i = Some (g, v) -> forall c s, stat v c s = seen h c s (csize g) (upto gs i).
Proof. intros gs h D O B. destruct (train_counts gs h D O B) as (t & T & _ & S). eauto. Qed.
(** nothing is lost or counted twice, whatever contexts are given up on the way *)
Theorem C63_nothing_lost : forall gs es t, descending gs -> ends_with_order0 gs -> bytes_only es -> train (trainer0 gs) es = Some t ->
  builder_mass (tr_builder t) = trained es.
Proof. intros. exact (ti_mass _ _ _ (trained_inv _ _ _ H H0 H1 H2)). Qed.
(** a context that is given up disappears from its level, and its counts are added to the shorter context of the next *)
Theorem C63_pop_moves : forall gs es t i c t', descending gs -> ends_with_order0 gs -> bytes_only es -> train (trainer0 gs) es = Some t ->
  train1 t (Pop i c) = Some t' -> exists g v g' v' w w', nth_error (tr_builder t) i = Some (g, v) /\ nth_error (tr_builder t) (S i) = Some (g', v') /\
    nth_error (tr_builder t') i = Some (g, w) /\ nth_error (tr_builder t') (S i) = Some (g', w') /\
    (forall j, j <> i -> j <> S i -> nth_error (tr_builder t') j = nth_error (tr_builder t) j) /\
    (forall x s, stat w x s = if list_eq_dec Z.eq_dec c x then 0 else stat v x s) /\
    (forall x s, stat w' x s = stat v' x s + if list_eq_dec Z.eq_dec (lastn (csize g') c) x then stat v c s else 0).
Proof.
  intros gs es t i c t' D O B T H. pose proof (ti_b _ _ _ (trained_inv _ _ _ D O B T)) as I. cbn [train1] in H.
  destruct (b_pop i c (tr_builder t)) as [b|] eqn:P; inversion H; subst. exact (b_pop_stat _ _ _ _ _ D I P).
Qed.
(** the numbers from which the memory consumption is computed are those of the contexts and entries there are *)
Theorem C63_memory_counters : forall gs es t, descending gs -> ends_with_order0 gs -> bytes_only es -> train (trainer0 gs) es = Some t ->
  forall g v, In (g, v) (tr_builder t) -> n_contexts v = Z.of_nat (length (ctxs v)) /\
    n_entries v = fold_right (fun e a => Z.of_nat (length (snd e)) + a) 0 (ctxs v).
Proof.
  intros gs es t D O B T g v I. destruct (ti_b _ _ _ (trained_inv _ _ _ D O B T)) as [_ F]. rewrite Forall_forall in F. exact (proj2 (F _ I)).
Qed.

(** ** The dictionary *)
(** a context that was seen is predicted with its own statistics *)
Theorem C63_seen_context : forall gs es t, descending gs -> ends_with_order0 gs -> bytes_only es -> train (trainer0 gs) es = Some t ->
  forall g v c k, In (g, v) (tr_builder t) -> 1 <= pbits g -> In (c, k) (ctxs v) -> lookup (build_level (g, v)) c = Some (1, probs g k).
Proof.
  intros gs es t D O B T g v c k I W Ic. destruct (ti_b _ _ _ (trained_inv _ _ _ D O B T)) as [_ F]. rewrite Forall_forall in F.
  apply lookup_seen; auto. exact (F _ I).
Qed.
(** with counts that fit, above order 0, these are the counts themselves *)
Theorem C63_small_counts_exact : forall g l, csize g <> 0%nat -> (forall s k, In (s, k) l -> 1 <= k) -> mass l < 2 ^ pbits g -> probs g l = l.
Proof.
  intros g l N P M. destruct (max_count_bounds l 0 ltac:(lia) P) as [B1 B2]. apply probs_same; auto.
  - intros s k I. split; [eauto|]. exact (B2 _ _ I).
  - unfold max_count, exit_count, scale_max. lia.
Qed.
(** with any dictionary that was trained on something, every message can be compressed: no byte is impossible *)
Theorem C63_every_byte_encodable : forall gs es t, descending gs -> ends_with_order0 gs -> bytes_only es -> train (trainer0 gs) es = Some t -> 1 <= trained es ->
  forall msg, Forall byte msg -> exists ys, intervals (dictionary t) [] msg = Some ys.
Proof.
  intros gs es t D O B T N msg M. apply intervals_total; auto. intros ctx so Hs. eapply predict_total; eauto. eapply trained_inv; eauto.
Qed.

(** ** Round trip *)
(** For any dictionary whose training fits the probability types, and any message: the compressor's calls to the coder succeed, some
    continuation of its output denotes the final interval, and from each such bit stream the decompressor gets exactly the message.
    Missing: what EndOfData writes is not always such a continuation (see below, and C23). *)
Theorem C63_roundtrip_partial : forall gs es t, descending gs -> ends_with_order0 gs -> bytes_only es -> train (trainer0 gs) es = Some t -> 1 <= trained es ->
  fits (trained es) gs -> forall msg, Forall byte msg -> exists ys o c, intervals (dictionary t) [] msg = Some ys /\ encode_all coder0 ys = Some (o, c) /\
    (exists x, completes c x) /\ forall x, completes c x -> decompress (S (length msg)) (dictionary t) [] (decoder_of (o ++ x)) = Some msg.
Proof.
  intros gs es t D O B T N F msg M. pose proof (trained_inv _ _ _ D O B T) as I. pose proof (good_build _ _ _ I F) as G.
  destruct (C63_every_byte_encodable _ _ _ D O B T N msg M) as [ys Y]. pose proof (intervals_valid _ _ G _ _ Y) as V.
  destruct (encode_all_some coder0 ys stable0 V) as (o & c & E & _). exists ys, o, c. split; [auto|]. split; [auto|]. split.
  - apply completes_exists. exact (encode_all_stable _ _ _ V E).
  - intros x X. eapply good_roundtrip; eauto.
Qed.
(** the same when the coder ends without pending underflow bits and what follows EndOfData's bits does not lead below the interval *)
Theorem C63_end_of_data_partial : forall gs es t, descending gs -> ends_with_order0 gs -> bytes_only es -> train (trainer0 gs) es = Some t ->
  fits (trained es) gs -> forall msg ys o c r, intervals (dictionary t) [] msg = Some ys -> encode_all coder0 ys = Some (o, c) ->
  under c = 0%nat -> low c <= val 31 (end_of_data c ++ r) -> decompress (S (length msg)) (dictionary t) [] (decoder_of (o ++ end_of_data c ++ r)) = Some msg.
Proof.
  intros gs es t D O B T F msg ys o c r Y E U L. pose proof (good_build _ _ _ (trained_inv _ _ _ D O B T) F) as G.
  apply (intervals_decompress _ _ G _ ys); auto. apply (eod_roundtrip ys o c); auto. exact (intervals_valid _ _ G _ _ Y).
Qed.
(** different messages never share their intervals *)
Theorem C63_injective : forall gs es t, descending gs -> ends_with_order0 gs -> bytes_only es -> train (trainer0 gs) es = Some t -> fits (trained es) gs ->
  forall m1 m2 ys, intervals (dictionary t) [] m1 = Some ys -> intervals (dictionary t) [] m2 = Some ys -> m1 = m2.
Proof.
  intros gs es t D O B T F m1 m2 ys Y1 Y2. pose proof (good_build _ _ _ (trained_inv _ _ _ D O B T) F) as G. pose proof (intervals_valid _ _ G _ _ Y1) as V.
  destruct (encode_all_some coder0 ys stable0 V) as (o & c & E & _). destruct (completes_exists c (encode_all_stable _ _ _ V E)) as [x X].
  pose proof (good_roundtrip _ _ _ _ _ _ (S (length m1) + length m2) G Y1 E X ltac:(lia)). pose proof (good_roundtrip _ _ _ _ _ _ (S (length m1) + length m2) G Y2 E X ltac:(lia)). congruence.
Qed.

(** ** What does not hold *)
(** with more training than the Probability type can add up, different messages become the same: one level of u8, trained on "aa" *)
Definition u8_only : list cfg := [mkCfg 0 8].
Definition trained_on (gs : list cfg) (h : list Z) : trainer := match train (trainer0 gs) (map Train h) with Some t => t | None => trainer0 gs end.
Theorem C63_wrapped_sum_refuted : exists t ys, train (trainer0 u8_only) [Train 97; Train 97] = Some t /\
  intervals (dictionary t) [] [0] = Some ys /\ intervals (dictionary t) [] [255] = Some ys.
Proof. exists (trained_on u8_only [97; 97]). eexists. split; [|split]; vm_compute; reflexivity. Qed.
(** the same above order 0, where the levels are meant to be small: u8 with one symbol of context, over a full u32 order-0 level *)
Definition two_levels : list cfg := [mkCfg 1 8; mkCfg 0 32].
Definition text2 : list Z := concat (map (fun x => [7; x]) (1 :: repeat 2 254 ++ [3; 4; 5])) ++ [7].
Theorem C63_wrapped_sum_order1_refuted : exists t ys, train (trainer0 two_levels) (map Train text2) = Some t /\
  intervals (dictionary t) [] [7; 1; 7] = Some ys /\ intervals (dictionary t) [] [7; 4; 7] = Some ys.
Proof. exists (trained_on two_levels text2). eexists. split; [|split]; vm_compute; reflexivity. Qed.
(** a dictionary trained on nothing can compress no byte at all *)
Theorem C63_empty_dictionary_refuted : forall gs ctx s, predict (dictionary (trainer0 gs)) ctx (Some s) = None.
Proof.
  intros gs ctx s. unfold dictionary, build. cbn [trainer0 tr_builder]. induction gs as [|g gs IH]; [reflexivity|]. cbn [map predict].
  rewrite IH. unfold build_level. cbn [fst snd ctxs level0 fold_left lookup m_contexts m_symbols find_context]. unfold lookup. cbn [m_contexts find_context]. destruct (_ <? _)%nat; reflexivity.
Qed.
(** a context that was never seen is predicted with the statistics of another one *)
Theorem C63_unseen_context_refuted : exists t g v c c' k, train (trainer0 two_levels) [Train 5; Train 97; Train 98] = Some t /\ In (g, v) (tr_builder t) /\
  ~ In c (map fst (ctxs v)) /\ c' <> c /\ In (c', k) (ctxs v) /\ lookup (build_level (g, v)) c = Some (1, probs g k).
Proof.
  exists (trained_on two_levels [5; 97; 98]). eexists (mkCfg 1 8), _, [50], [97], [(98, 1)]. split; [vm_compute; reflexivity|]. split; [left; vm_compute; reflexivity|].
  split; [cbn; intros [E|[E|[]]]; discriminate|]. split; [discriminate|]. split; [cbn; auto|]. vm_compute. reflexivity.
Qed.
(** what the compressor really writes for the one byte 3, with the dictionary of the text "a": whatever bits follow (they are what is in
    the decompressor's buffer), the message does not come out *)
Definition u32_only : list cfg := [mkCfg 0 32].
Definition dict_a : trainer := Eval vm_compute in trained_on u32_only [97].
Definition ys_3 : list sym := [mk_sym 3 4 257; mk_sym 256 257 257].
Definition out_3 : list bool := [false; false; false; false; false; false; true; true; true; true; true; true; true].
Definition coder_3 : coder := mk_coder 24936448 1090338303 2.
Definition after_3 (r : list bool) : decoder := Eval vm_compute in
  match decode_symbol (dictionary dict_a) [] (decoder_of (out_3 ++ end_of_data coder_3 ++ r)) with Some (_, d) => d | None => decoder_of [] end.
Theorem C63_end_of_data_refuted : exists t ys o c, train (trainer0 u32_only) [Train 97] = Some t /\ intervals (dictionary t) [] [3] = Some ys /\
  encode_all coder0 ys = Some (o, c) /\ forall fuel r, decompress fuel (dictionary t) [] (decoder_of (o ++ end_of_data c ++ r)) <> Some [3].
Proof.
  exists dict_a, ys_3, out_3, coder_3. split; [vm_compute; reflexivity|]. split; [vm_compute; reflexivity|]. split; [vm_compute; reflexivity|].
  intros fuel r. destruct fuel as [|fuel]; [discriminate|].
  assert (E1 : decode_symbol (dictionary dict_a) [] (decoder_of (out_3 ++ end_of_data coder_3 ++ r)) = Some (Some 3, after_3 r)) by (vm_compute; reflexivity).
  cbn [decompress]. rewrite E1. destruct fuel as [|fuel]; [discriminate|].
  assert (E2 : forall d, decode_symbol (dictionary dict_a) [] (after_3 r) <> Some (None, d)).
  { intros d. assert (L : exists l, lookup (hd (mkM (mkCfg 0 0) [] []) (dictionary dict_a)) [] = Some (1, l) /\ total l 1 = 257 /\ exists a b c, scan l 0 (get_probability (after_3 r) 257) = Some (a, b, c)).
    { eexists. split; [vm_compute; reflexivity|]. split; [vm_compute; reflexivity|]. do 3 eexists. vm_compute. reflexivity. }
    destruct L as (l & L & Tl & a & b & c & Sc). assert (Dc : decode_symbol (dictionary dict_a) [] (after_3 r) =
      match do_decode l 1 (after_3 r) with None => None | Some (Some s, d') => Some (Some s, d') | Some (None, d') => Some (None, d') end).
    { change (dictionary dict_a) with [hd (mkM (mkCfg 0 0) [] []) (dictionary dict_a)]. cbn [decode_symbol].
      change (length (@nil Z) <? csize (m_cfg (hd (mkM (mkCfg 0 0) [] []) (dictionary dict_a))))%nat with false. cbv iota.
      change (lastn (csize (m_cfg (hd (mkM (mkCfg 0 0) [] []) (dictionary dict_a)))) []) with (@nil Z). rewrite L. reflexivity. }
    rewrite Dc. unfold do_decode. rewrite Tl, Sc. destruct (symbol_decoded _ _); discriminate. }
  change (push_context (top_size (dictionary dict_a)) [] 3) with (@nil Z). cbn [decompress].
  destruct (decode_symbol (dictionary dict_a) [] (after_3 r)) as [[[s|] d]|]; [|exfalso; apply (E2 d); reflexivity|discriminate].
  destruct (decompress fuel _ _ d); discriminate.
Qed.

(** ** Non-vacuity *)
Definition three_levels : list cfg := [mkCfg 2 16; mkCfg 1 16; mkCfg 0 32].
Definition abra : list tstep := map Train [97; 98; 114; 97; 99; 97; 100; 97; 98; 114; 97] ++ [Pop 0 [97; 98]] ++ [Train 97; Pop 1 [98]].
Example C63_run : exists t, descending three_levels /\ ends_with_order0 three_levels /\ bytes_only abra /\ train (trainer0 three_levels) abra = Some t /\
  trained abra = 12 /\ fits (trained abra) three_levels /\ builder_mass (tr_builder t) = 12.
Proof.
  eexists. split; [cbn; lia|]. split; [exists [mkCfg 2 16; mkCfg 1 16], (mkCfg 0 32); auto|]. split.
  { intros s I. cbn in I. unfold byte. repeat destruct I as [I|I]; try (inversion I; subst; lia); try contradiction. }
  split; [vm_compute; reflexivity|]. split; [reflexivity|]. split; [split; [vm_compute; discriminate|]|vm_compute; reflexivity].
  intros g [<-|[<-|[<-|[]]]]; vm_compute; discriminate.
Qed.
(** a context of two symbols was given up, and the message goes through three levels *)
Example C63_run_message : exists t ys o c, train (trainer0 three_levels) abra = Some t /\ intervals (dictionary t) [] [97; 98; 99] = Some ys /\ (length ys >= 6)%nat /\
  encode_all coder0 ys = Some (o, c).
Proof. eexists _, _, _, _. split; [vm_compute; reflexivity|]. split; [vm_compute; reflexivity|]. split; [vm_compute; lia|vm_compute; reflexivity]. Qed.
(** the bound on the training is tight for one level: one symbol fits in u8, two do not *)
Example C63_tight : fits 1 u8_only /\ ~ fits 2 u8_only.
Proof. split; [split; [lia|]; intros g [<-|[]]; cbn; lia|]. intros [_ H]. specialize (H _ (or_introl eq_refl)). cbn in H. lia. Qed.
Example C63_statistics_example : seen [97; 98; 97; 98; 97; 99] [97] 98 1 None = 2.
Proof. reflexivity. Qed.

Print Assumptions C63_statistics.
Print Assumptions C63_nothing_lost.
Print Assumptions C63_pop_moves.
Print Assumptions C63_memory_counters.
Print Assumptions C63_seen_context.
Print Assumptions C63_small_counts_exact.
Print Assumptions C63_every_byte_encodable.
Print Assumptions C63_roundtrip_partial.
Print Assumptions C63_end_of_data_partial.
Print Assumptions C63_injective.
Print Assumptions C63_wrapped_sum_refuted.
Print Assumptions C63_wrapped_sum_order1_refuted.
Print Assumptions C63_empty_dictionary_refuted.
Print Assumptions C63_unseen_context_refuted.
Print Assumptions C63_end_of_data_refuted.
