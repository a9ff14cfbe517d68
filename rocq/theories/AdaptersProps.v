(** C49: the data source and consumer adapters neither lose, repeat nor reorder bytes. *)
From Verif Require Import Base AdaptersModel AdaptersSpec AdaptersProofs.

(** ConsumeAll offers the consumer the bytes in order, each until it takes it; it returns how many were
    taken, and that is all of them unless the token was cancelled. *)
Theorem C49_consume_all {S} (C : Consumer S) out eods : honest C out eods -> forall F s d s' n,
  consume_all F C s d 0 = Ok (s', n) ->
  n <= length d /\ out s' = out s ++ firstn n d /\ eods s' = eods s /\ (n = length d \/ c_tok C s' = false).
Proof. exact (consume_all_honest C out eods). Qed.
Print Assumptions C49_consume_all.

(** It returns if the consumer takes something at every call. *)
Theorem C49_consume_all_returns {S} (C : Consumer S) :
  (forall s d, d <> [] -> exists s' k, c_proc C s d = Ok (s', k) /\ 0 < k) ->
  forall s d, exists F, consume_all F C s d 0 <> Hang /\ consume_all F C s d 0 <> Thr.
Proof. intros H s d. exists (1 + length d). apply consume_all_ends; [exact H | lia | lia]. Qed.
Print Assumptions C49_consume_all_returns.

(** The sources: an array loses nothing whatever the consumer does; a stream nothing unless cancelled; the
    mediator hands over everything it was given, and EndOfData after it, unless cancelled; a pipe loses
    nothing if the consumer always takes something. *)
Theorem C49_array : lossless byte_array_source (fun x => x).
Proof. exact byte_array_lossless. Qed.
Print Assumptions C49_array.

Theorem C49_stream F cap : cap <> 0 -> lossless_unless_cancelled (stream_source F cap) (fun x => fst x).
Proof. exact (stream_lossless F cap). Qed.
Print Assumptions C49_stream.

Theorem C49_mediator {S} (C : Consumer S) out eods : honest C out eods -> forall F m chunks ended s m' s',
  let m1 := fold_left med_process chunks m in
  s_read (mediator F) S C (if (ended : bool) then med_eod m1 else m1) s = Ok (m', s') -> c_tok C s' = true ->
  out s' = out s ++ fst m ++ concat chunks /\ eods s' = (if ended || snd m then 1 else 0) + eods s /\ m' = ([], false).
Proof.
  intros Hh F m chunks ended s m' s' m1 H T.
  assert (E1 : m1 = (fst m ++ concat chunks, snd m)).
  { subst m1. clear. revert m. induction chunks as [ | c l IH]; intros [b e]; cbn [fold_left concat].
    - rewrite app_nil_r. reflexivity.
    - rewrite IH. cbn [med_process fst snd]. rewrite <- app_assoc. reflexivity. }
  rewrite E1 in H. clear E1 m1.
  replace (if ended then med_eod (fst m ++ concat chunks, snd m) else (fst m ++ concat chunks, snd m))
    with (fst m ++ concat chunks, ended || snd m) in H by (destruct ended; reflexivity).
  destruct (mediator_lossless F S C _ s m' s' (h_proper Hh) H T) as [Fd E].
  destruct (fed_honest C out eods Hh _ _ _ _ _ Fd) as (t & Et & O & D & _). rewrite app_nil_r in Et. subst t.
  cbn [fst snd] in *. destruct ended; cbn [med_eod fst snd orb] in *; repeat split; assumption.
Qed.
Print Assumptions C49_mediator.

Theorem C49_pipe {S} (C : Consumer S) out eods : honest C out eods ->
  (forall s d s' k, c_proc C s d = Ok (s', k) -> d <> [] -> 0 < k) -> forall cap rem o s rem' o' s',
  s_read (pipe_source cap) S C (rem, o) s = Ok ((rem', o'), s') ->
  exists t, rem = t ++ rem' /\ out s' = out s ++ t.
Proof.
  intros Hh Pos cap rem o s rem' o' s' H.
  destruct (pipe_whole cap S C (h_proper Hh) _ _ _ _ _ H Pos) as (e & _ & Fd).
  destruct (fed_honest C out eods Hh _ _ _ _ _ Fd) as (t & Et & O & _). exists t. auto.
Qed.
Print Assumptions C49_pipe.

(** What a consumer receives from a lossless source is the front of what the source had, the rest stays,
    and EndOfData comes at most once and only when nothing is left. *)
Theorem C49_lossless_means Sr rest : lossless_unless_cancelled Sr rest ->
  forall S (C : Consumer S) out eods, honest C out eods -> forall x s x' s',
  s_read Sr S C x s = Ok (x', s') -> c_tok C s' = true ->
  exists t, rest x = t ++ rest x' /\ out s' = out s ++ t /\
  (eods s' = eods s \/ (eods s' = 1 + eods s /\ rest x' = [])).
Proof.
  intros L S C out eods Hh x s x' s' H T. destruct (L S C (h_proper Hh) x s x' s' H T) as (e & B & Fd).
  destruct (fed_honest C out eods Hh _ _ _ _ _ Fd) as (t & Et & O & D & N). exists t.
  split; [exact Et | ]. split; [exact O | ]. destruct e; [left; exact D | right; split; [lia | apply N; lia]].
Qed.
Print Assumptions C49_lossless_means.

(** DataTaker delivers exactly the first [count] bytes (all, if there are fewer) and leaves the others in
    the source; EndOfData is only told if there were not more. *)
Theorem C49_taker Sr rest : lossless_unless_cancelled Sr rest ->
  forall S (C : Consumer S) out eods, honest C out eods -> forall F x count s x' left' s',
  s_read (data_taker F Sr false) S C (x, count) s = Ok ((x', left'), s') -> c_tok C s' = true ->
  out s' = out s ++ firstn count (rest x) /\ rest x' = skipn count (rest x) /\ left' = 0 /\
  (eods s' = eods s \/ (eods s' = 1 + eods s /\ length (rest x) <= count)).
Proof.
  intros L S C out eods Hh F x count s x' left' s' H T. cbn [data_taker s_read fst snd] in H.
  destruct (taker_loop F Sr C false x (count, s)) as [[x1 [lf1 s1]] | | ] eqn:E; try discriminate.
  injection H as <- <- <-.
  destruct (taker_loop_fed Sr rest L S C (h_proper Hh) _ _ _ _ _ E T) as (Z & (e & B & G & N) & R). cbn [fst snd] in *.
  destruct (fed_honest C out eods Hh _ _ _ _ _ G) as (t & Et & O & D & _). rewrite app_nil_r in Et. subst t.
  split; [exact O | ]. split; [exact R | ]. split; [exact Z | ].
  destruct e; [left; exact D | right; split; [lia | apply N; lia]].
Qed.
Print Assumptions C49_taker.

(** With discardRest it delivers the same. *)
Theorem C49_taker_discard Sr rest : lossless_unless_cancelled Sr rest ->
  forall S (C : Consumer S) out eods, honest C out eods -> forall F x count s x' left' s',
  s_read (data_taker F Sr true) S C (x, count) s = Ok ((x', left'), s') -> c_tok C s' = true ->
  out s' = out s ++ firstn count (rest x) /\ left' = 0 /\ exists t, rest x = t ++ rest x'.
Proof.
  intros L S C out eods Hh F x count s x' left' s' H T. cbn [data_taker s_read fst snd] in H.
  destruct (taker_loop F Sr C true x (count, s)) as [[x1 [lf1 s1]] | | ] eqn:E; try discriminate.
  injection H as <- <- <-.
  destruct (taker_loop_delivers true Sr rest L S C (h_proper Hh) _ _ _ _ _ E T) as (Z & (e & B & G) & R). cbn [fst snd] in *.
  destruct (fed_honest C out eods Hh _ _ _ _ _ G) as (t & Et & O & D & _). rewrite app_nil_r in Et. subst t. auto.
Qed.
Print Assumptions C49_taker_discard.

(** DataSkipper: with processRest it is a lossless source of what follows the first [count] bytes; without,
    the consumer sees none of them and the source is left [count] bytes (or all it has) further on. *)
Theorem C49_skipper F Sr rest : lossless_unless_cancelled Sr rest ->
  lossless_unless_cancelled (data_skipper F Sr true) (fun st => skipn (snd st) (rest (fst st))).
Proof. exact (data_skipper_lossless F Sr rest). Qed.
Print Assumptions C49_skipper.

Theorem C49_skipper_only Sr rest : lossless_unless_cancelled Sr rest ->
  forall S (C : Consumer S) out eods, honest C out eods -> forall F x count s x' left' s',
  s_read (data_skipper F Sr false) S C (x, count) s = Ok ((x', left'), s') -> c_tok C s' = true ->
  out s' = out s /\ exists t, rest x = t ++ rest x' /\ (eods s' = eods s -> count = length t + left').
Proof.
  intros L S C out eods Hh F x count s x' left' s' H T. cbn [data_skipper s_read fst snd] in H.
  destruct (s_read Sr _ (skipping F C false) x (count, s)) as [[x1 [lf1 s1]] | | ] eqn:E; try discriminate.
  injection H as <- <- <-.
  destruct (L _ _ (skipping_proper C F false (h_proper Hh)) _ _ _ _ E T) as (e & B & Fd).
  assert (Q : forall ls r ls' r' e, fed (skipping F C false) ls r ls' r' e ->
            out (snd ls') = out (snd ls) /\ eods (snd ls') = e + eods (snd ls)).
  { clear - Hh. intros ls r ls' r' e H. induction H; [auto | | ].
    - destruct s as [l s]. cbn [skipping c_proc] in H. rewrite andb_false_r in H. injection H as <- <-. exact IHfed.
    - destruct s as [l s]. cbn [skipping c_eod snd] in *. destruct (h_eod Hh s) as [Ho He]. rewrite Ho, He in *.
      destruct IHfed; split; [assumption | lia]. }
  destruct (Q _ _ _ _ _ Fd) as [Qo Qe]. cbn [snd] in Qo, Qe. split; [exact Qo | ].
  destruct (fed_skipping_only C F (h_proper Hh) _ _ _ _ _ Fd) as (t & Et & A). exists t. split; [exact Et | ].
  intros Ee. apply A. lia.
Qed.
Print Assumptions C49_skipper_only.

(** DataAligner: what was delivered, what is buffered and what the source still has is always the same
    stream of bytes; the consumer has received a multiple of the alignment; less than that is buffered. *)
Theorem C49_aligner F a ub Sr rest : a <> 0 -> lossless_unless_cancelled Sr rest ->
  forall S (C : Consumer S) out eods, honest C out eods -> forall x buf s x' buf' s',
  s_read (data_aligner F a ub Sr) S C (x, buf) s = Ok ((x', buf'), s') -> length buf < a -> c_tok C s' = true ->
  out s' ++ buf' ++ rest x' = out s ++ buf ++ rest x /\ length buf' < a /\
  (exists q, length (out s') = length (out s) + a * q) /\ (ub = false -> buf = [] -> buf' = []).
Proof. exact (data_aligner_exact F a ub Sr rest). Qed.
Print Assumptions C49_aligner.

(** A reactive source delivers everything and then EndOfData, once, unless cancelled. *)
Theorem C49_reactive F Sr rest : lossless_unless_cancelled Sr rest ->
  forall S (C : Consumer S) out eods, honest C out eods -> forall x s x' s',
  s_read (reactive_source F Sr) S C x s = Ok (x', s') -> c_tok C s' = true ->
  out s' = out s ++ rest x /\ eods s' = 1 + eods s /\ rest x' = [].
Proof.
  intros L S C out eods Hh x s x' s' H T.
  destruct (reactive_lossless F Sr rest L S C (h_proper Hh) x s x' s' H T) as [Fd N].
  destruct (fed_honest C out eods Hh _ _ _ _ _ Fd) as (t & Et & O & D & _). rewrite app_nil_r in Et. subst t. auto.
Qed.
Print Assumptions C49_reactive.

(** DataSourceReader::ReadToEnd returns exactly what the source had. *)
Theorem C49_read_to_end F Sr rest x x' result : lossless_unless_cancelled Sr rest ->
  read_to_end F Sr x = Ok (x', result) -> result = rest x /\ rest x' = [].
Proof. exact (read_to_end_exact F Sr rest x x' result). Qed.
Print Assumptions C49_read_to_end.

(** They compose. *)
Theorem C49_composed F cap bytes chunks skip take x' result : cap <> 0 ->
  read_to_end F (data_taker F (data_skipper F (stream_source F cap) true) false) (((bytes, chunks), skip), take) = Ok (x', result) ->
  result = firstn take (skipn skip bytes).
Proof.
  intros Hc H.
  destruct (read_to_end_exact _ _ _ _ _ _
     (data_taker_lossless F _ _ (data_skipper_lossless F _ _ (stream_lossless F cap Hc))) H) as [-> _]. reflexivity.
Qed.
Print Assumptions C49_composed.

(** The interceptor sees exactly what the consumer took, and the consumer does not notice. *)
Theorem C49_interceptor {S} (C : Consumer S) : proper C -> forall log n s r log' n' s' r' e,
  fed (intercepting C) (log, n, s) r (log', n', s') r' e ->
  fed C s r s' r' e /\ exists t, r = t ++ r' /\ log' = log ++ t /\ n' = e + n.
Proof.
  intros P log n s r log' n' s' r' e H. split; [exact (intercepting_transparent C _ _ _ _ _ H) | ].
  destruct (fed_honest _ _ _ (intercepting_honest C P) _ _ _ _ _ H) as (t & A & B & D & _). exists t. auto.
Qed.
Print Assumptions C49_interceptor.

(** ByteDataConsumer fills its destination with the front of what it is given and swallows the rest. *)
Theorem C49_byte_data_consumer tok w room f r w' room' f' r' e :
  fed (byte_data_consumer tok) (w, room, f) r (w', room', f') r' e ->
  exists t, r = t ++ r' /\ w' = w ++ firstn room t /\ room' = room - length t /\ f' = (f || negb (e =? 0)).
Proof. intros H. exact (fed_byte_data tok _ _ _ _ _ H). Qed.
Print Assumptions C49_byte_data_consumer.

(** Cutting into packets and joining them again is exact unless cancelled. *)
Theorem C49_packets {S} (C : Consumer S) out eods F n : honest C out eods ->
  forall s d s' k, c_proc (packeter (depacketer F C) (Some n)) s d = Ok (s', k) -> c_tok C s' = true ->
  k = n /\ n <= length d /\ out s' = out s ++ firstn n d.
Proof. exact (packets_exact C out eods F n). Qed.
Print Assumptions C49_packets.

(** * What does not hold *)

(** A taker over a stream whose next chunk is longer than what is to be taken never returns. *)
Lemma spin F s d off : off < length d -> consume_all F (taking storage false) (0, s) d off = Hang.
Proof.
  revert off. induction F; intros off H; [reflexivity | ]. cbn [consume_all].
  change (c_tok (taking storage false) (0, s)) with true. cbn [andb].
  destruct (Nat.ltb_spec off (length d)); [ | lia].
  cbn [taking c_proc Nat.min Nat.eqb]. rewrite Nat.add_0_r. apply IHF. exact H.
Qed.

Lemma taker_spin chunk count F G : 0 < count < length chunk ->
  taker_loop F (stream_source G (length chunk)) storage false (chunk, [length chunk]) (count, []) = Hang.
Proof.
  intros H. destruct F; [reflexivity | ]. cbn [taker_loop fst snd].
  change (c_tok storage []) with true. cbn [andb]. destruct (Nat.eqb_spec count 0); [lia | ]. cbn [negb].
  cbn [stream_source s_read]. cbv zeta.
  change (c_tok (taking storage false) (count, [])) with true.
  replace (read_size true [length chunk] (length chunk) (length chunk)) with (length chunk)
    by (unfold read_size; cbn [hd negb]; rewrite andb_false_r; lia).
  destruct (Nat.eqb_spec (length chunk) 0); [lia | ]. cbn [negb]. rewrite firstn_all.
  destruct G; [reflexivity | ].
  cbn [consume_all]. change (c_tok (taking storage false) (count, [])) with true. cbn [andb].
  destruct (Nat.ltb_spec 0 (length chunk)); [ | lia]. cbn [skipn taking c_proc storage].
  replace (Nat.min count (length chunk)) with count by lia. destruct (Nat.eqb_spec count 0); [lia | ].
  rewrite firstn_length. replace (Nat.min count (length chunk)) with count by lia. rewrite Nat.sub_diag. cbn [app Nat.add].
  change (c_proc storage) with (fun (s : list byte) d => @Ok (list byte * nat) (s ++ d, length d)).
  rewrite spin by lia. reflexivity.
Qed.
Theorem C49_taker_returns_refuted : forall chunk count, 0 < count < length chunk ->
  forall F, s_read (data_taker F (stream_source F (length chunk)) false) _ storage ((chunk, [length chunk]), count) [] = Hang.
Proof. intros chunk count H F. cbn [data_taker s_read fst snd]. rewrite taker_spin by exact H. reflexivity. Qed.
Print Assumptions C49_taker_returns_refuted.

(** A taker that has taken what it should does not tell EndOfData: reading it to the end never returns. *)
Theorem C49_taker_end_refuted : forall Sr dis x F, read_to_end F (data_taker F Sr dis) (x, 0) = Hang.
Proof.
  intros Sr dis x F. unfold read_to_end. cbn [reactive_source s_read].
  assert (G : forall n, reactive_loop n (data_taker F Sr dis) storage (x, 0) (false, []) = Hang).
  { induction n; [reflexivity | ]. cbn [reactive_loop]. cbn [storage c_tok snd andb fst negb].
    cbn [data_taker s_read fst snd]. destruct F as [ | F']; [reflexivity | ]. cbn [taker_loop fst snd Nat.eqb negb].
    rewrite andb_false_r. exact IHn. }
  rewrite G. reflexivity.
Qed.
Print Assumptions C49_taker_end_refuted.

(** A consumer that takes one byte and is then cancelled. *)
Definition once : Consumer (list byte * bool) :=
  mkC (fun s d => Ok ((fst s ++ firstn 1 d, false), Nat.min 1 (length d))) (fun s => s) snd.
Lemma once_proper : proper once.
Proof.
  constructor.
  - intros s d s' k H. cbn [once c_proc] in H. injection H as <- <-. pose proof (Nat.le_min_r 1 (length d)) as Q. exact Q.
  - intros s d s' k H T. cbn in H. injection H as <- <-. discriminate.
  - intros s T. exact T.
Qed.

(** After a cancellation: the aligner has thrown away what was buffered, the mediator all it held, the
    stream source the rest of the chunk it had read; the skipping consumer says it took everything, and
    the depacketer that the packet was processed. *)
Theorem C49_cancelled_loses_refuted :
  s_read (data_aligner 9 2 true byte_array_source) _ once ([2; 3], [1]) ([], true) = Ok (([3], []), ([1], false)) /\
  s_read (mediator 9) _ once ([1; 2; 3], false) ([], true) = Ok (([], false), ([1], false)) /\
  s_read (stream_source 9 8) _ once ([1; 2; 3], [3]) ([], true) = Ok (([], []), ([1], false)) /\
  c_proc (skipping 9 once true) (1, ([], true)) [1; 2; 3] = Ok ((0, ([2], false)), 3) /\
  p_proc (depacketer 9 once) ([], true) [1; 2; 3] = Ok (([1], false), true).
Proof. repeat split. Qed.
Print Assumptions C49_cancelled_loses_refuted.

(** At the end of the data an aligner keeps the bytes that do not fill a chunk; without buffer reading to
    the end does not return. *)
Theorem C49_aligner_tail_refuted :
  read_to_end 9 (data_aligner 9 2 true byte_array_source) ([1; 2; 3], []) = Ok (([], [3]), [1; 2]) /\
  forall F, read_to_end F (data_aligner F 2 false byte_array_source) ([1], []) = Hang.
Proof.
  split; [reflexivity | ]. intros F. unfold read_to_end. cbn [reactive_source s_read].
  assert (G : forall n, reactive_loop n (data_aligner F 2 false byte_array_source) storage ([1], []) (false, []) = Hang).
  { induction n; [reflexivity | ]. cbn [reactive_loop]. cbn [storage c_tok snd andb fst negb].
    destruct F as [ | F]; [reflexivity | ]. cbn. exact IHn. }
  rewrite G. reflexivity.
Qed.
Print Assumptions C49_aligner_tail_refuted.

(** A pipe source drops what it read if the consumer takes nothing, and throws, having delivered part, if
    the consumer takes part. *)
Definition slow : Consumer (list byte) := mkC (fun s d => Ok (s ++ firstn 1 d, Nat.min 1 (length d))) (fun s => s) (fun _ => true).
Definition busy : Consumer (list byte) := mkC (fun s d => Ok (s, 0)) (fun s => s) (fun _ => true).
Theorem C49_pipe_refuted :
  s_read (pipe_source 8) _ busy ([1; 2], [2]) [] = Ok (([], []), []) /\
  s_read (pipe_source 8) _ slow ([1; 2], [2]) [] = Thr.
Proof. split; reflexivity. Qed.
Print Assumptions C49_pipe_refuted.

(** A packeter with a fixed size throws when offered less than a packet. *)
Theorem C49_packeter_short_refuted {S} (P : PConsumer S) s d n : length d < n -> c_proc (packeter P (Some n)) s d = Thr.
Proof. intros H. cbn [packeter c_proc]. destruct (Nat.ltb_spec (length d) n); [reflexivity | lia]. Qed.
Print Assumptions C49_packeter_short_refuted.

(** * Non-trivial instances *)
(** The consumer that takes one byte at a time, with the end-of-data count, is honest. *)
Definition slow2 : Consumer (list byte * nat) :=
  mkC (fun s d => Ok ((fst s ++ firstn 1 d, snd s), Nat.min 1 (length d))) (fun s => (fst s, 1 + snd s)) (fun _ => true).
Example C49_honest_met : honest slow2 fst snd.
Proof.
  constructor; [constructor | | ]; auto.
  - intros s d s' k H. cbn [slow2 c_proc] in H. injection H as <- <-. pose proof (Nat.le_min_r 1 (length d)) as Q. exact Q.
  - intros s d s' k H. cbn in H. injection H as <- <-. split; [ | reflexivity]. cbn [fst].
    destruct d as [ | b d]; reflexivity.
Qed.
Example C49_taker_met :
  s_read (data_taker 9 (stream_source 9 2) false) _ slow2 (([1; 2; 3; 4; 5], [2; 1; 2]), 3) ([], 0)
  = Ok ((([4; 5], [2]), 0), ([1; 2; 3], 0)).
Proof. reflexivity. Qed.
Example C49_taker_short_met :
  s_read (data_taker 9 byte_array_source false) _ slow2 ([1; 2], 3) ([], 0) = Ok (([], 0), ([1; 2], 1)).
Proof. reflexivity. Qed.
Example C49_skipper_met :
  s_read (data_skipper 9 (stream_source 9 4) true) _ slow2 (([1; 2; 3; 4; 5], [4]), 3) ([], 0)
  = Ok ((([5], []), 0), ([4], 0)).
Proof. reflexivity. Qed.
Example C49_aligner_met :
  s_read (data_aligner 9 2 true byte_array_source) _ slow2 ([2; 3; 4; 5], [1]) ([], 0) = Ok (([3; 4; 5], []), ([1; 2], 0)) /\
  s_read (data_aligner 9 2 true byte_array_source) _ slow2 ([3; 4; 5], []) ([1; 2], 0) = Ok (([], [5]), ([1; 2; 3; 4], 0)).
Proof. split; reflexivity. Qed.
Example C49_composed_met :
  read_to_end 12 (data_taker 12 (data_skipper 12 (stream_source 12 2) true) false) ((([1; 2; 3; 4; 5; 6], [2; 2; 1]), 2), 7)
  = Ok (((([], []), 0), 0), [3; 4; 5; 6]).
Proof. reflexivity. Qed.
