(** C58: integers and sizes as text. *)
From Verif Require Import Base ITextModel ITextSpec ITextProofs ITextProofs2.
From Coq Require Import Lia.
Local Open Scope Z_scope.

(** What FromString<T> returns is what the text denotes, and it fits T -- or the text is a lone sign. *)
Theorem C58_from_string_sound t s v : std_type t -> from_string t s = IOk v ->
  (denotes s v /\ fits t v) \/ (v = 0 /\ (s = [43] \/ s = [45])).
Proof.
  intros Ht H. destruct (sign_cases s) as [->|[(g & d & -> & Hne & Hd)|[Hne Hno]]].
  - discriminate H.
  - destruct g.
    + rewrite from_string_value in H by (assumption || discriminate).
      destruct d as [|c d]; [right; split; [|left; reflexivity]|left].
      * cbn [signed_num] in H. destruct (fitsb t (num [])); [|discriminate H]. injection H as <-. reflexivity.
      * destruct (fitsb t (signed_num Plus (c :: d))) eqn:F; [|discriminate H]. injection H as <-.
        split; [exists Plus, (c :: d); repeat split; auto; discriminate|apply fitsb_spec; exact F].
    + destruct (is_signed t) eqn:S.
      * rewrite from_string_value in H by (assumption || auto).
        destruct d as [|c d]; [right; split; [|right; reflexivity]|left].
        -- cbn [signed_num] in H. change (num []) with 0 in H. change (- 0) with 0 in H. destruct (fitsb t 0); [|discriminate H]. injection H as <-. reflexivity.
        -- destruct (fitsb t (signed_num Minus (c :: d))) eqn:F; [|discriminate H]. injection H as <-.
           split; [exists Minus, (c :: d); repeat split; auto; discriminate|apply fitsb_spec; exact F].
      * cbn [sign_text app] in H. rewrite from_string_minus_unsigned in H by assumption.
        destruct d as [|c d]; [|discriminate H]. injection H as <-. right. rewrite conv_zero by exact Ht. split; [reflexivity|right; reflexivity].
    + rewrite from_string_value in H by (assumption || discriminate). left.
      destruct (fitsb t (signed_num NoSign d)) eqn:F; [|discriminate H]. injection H as <-.
      split; [exists NoSign, d; repeat split; auto|apply fitsb_spec; exact F].
  - rewrite from_string_format in H by assumption. discriminate H.
Qed.

(** Every text that denotes a value of the type is accepted -- except a minus in front of an unsigned zero. *)
Theorem C58_from_string_complete t s v : std_type t -> denotes s v -> fits t v ->
  (hd 0 s = 45 -> is_signed t = true) -> from_string t s = IOk v.
Proof.
  intros Ht (g & d & -> & Hn & Hd & ->) Hf Hm.
  rewrite from_string_value; try assumption.
  - rewrite (proj2 (fitsb_spec _ _) Hf). reflexivity.
  - destruct g, d; try discriminate; congruence.
  - intros ->. apply Hm. reflexivity.
Qed.

(** The refusals tell the reason: out of range, no number at all, nothing at all.  No digit string, however long,
    overflows silently. *)
Theorem C58_from_string_refusals t s : std_type t ->
  (forall v, denotes s v -> ~ fits t v -> from_string t s = IRange) /\
  (s <> [] -> (forall v, ~ denotes s v) -> s <> [43] -> s <> [45] -> from_string t s = IFormat) /\
  from_string t [] = IArgument.
Proof.
  intros Ht. split; [|split; [|reflexivity]].
  - intros v (g & d & -> & Hn & Hd & ->) Hf.
    assert (Hne : sign_text g ++ d <> []) by (destruct g, d; try discriminate; congruence).
    assert (D : g = Minus /\ is_signed t = false \/ (g = Minus -> is_signed t = true)) by (destruct (is_signed t); [right; reflexivity|destruct g; auto; right; discriminate]).
    destruct D as [[-> S]|D].
    + cbn [sign_text app]. rewrite from_string_minus_unsigned by assumption. destruct d; [congruence|reflexivity].
    + rewrite from_string_value by assumption. destruct (fitsb t (signed_num g d)) eqn:F; [|reflexivity].
      exfalso. apply Hf. apply fitsb_spec. exact F.
  - intros Hne Hno N1 N2. destruct (sign_cases s) as [->|[(g & d & -> & _ & Hd)|[_ H]]]; [congruence| |].
    + exfalso. destruct d as [|c d].
      * destruct g; cbn in *; congruence.
      * eapply (Hno (signed_num g (c :: d))). exists g, (c :: d). repeat split; auto; discriminate.
    + apply from_string_format; assumption.
Qed.

(** ToString writes the canonical text: the only one without plus, leading zeros or minus zero; its 32-byte buffer
    is never left. *)
Theorem C58_to_string_canonical w v : 8 <= w <= 64 -> fits (unsigned_t w) v \/ fits (signed_t w) v ->
  exists s, to_string w v = Some s /\ canonical s v /\ (forall s', canonical s' v -> s' = s).
Proof.
  intros Hw Hv. destruct (to_string_canonical w v Hw Hv) as (s & E & C). exists s. split; [exact E|]. split; [exact C|].
  intros s' C'. exact (canonical_unique s' s v C' C).
Qed.

Lemma canonical_denotes s v : canonical s v -> denotes s v.
Proof. intros (g & d & A & B & C & D & _). exists g, d. auto. Qed.

(** Round trip. *)
Theorem C58_round_trip w v t : 8 <= w <= 64 -> t = unsigned_t w \/ t = signed_t w -> fits t v ->
  exists s, to_string w v = Some s /\ from_string t s = IOk v.
Proof.
  intros Hw Ht Hv. assert (S : std_type t) by (destruct Ht as [->| ->]; constructor; lia).
  destruct (to_string_canonical w v Hw ltac:(destruct Ht as [->| ->]; auto)) as (s & E & C).
  exists s. split; [exact E|]. apply C58_from_string_complete; auto; [apply canonical_denotes; exact C|].
  intros Hh. destruct C as (g & d & -> & Hn & Hd & Hval & _ & Hz & _).
  destruct g; cbn [sign_text app hd] in Hh; [discriminate| |].
  - specialize (Hz eq_refl). pose proof (num_bounds d Hd). cbn [signed_num] in Hval.
    unfold is_signed. apply Z.ltb_lt. unfold fits in Hv. lia.
  - destruct d as [|c d]; [congruence|]. cbn [hd] in Hh. subst c. inversion Hd as [|? ? Hc _]. unfold digit_char in Hc. lia.
Qed.

(** Text, number, text: what is accepted is rewritten into its canonical form. *)
Theorem C58_normalises w t s v s' : 8 <= w <= 64 -> t = unsigned_t w \/ t = signed_t w ->
  from_string t s = IOk v -> to_string w v = Some s' -> (s' = s <-> canonical s v).
Proof.
  intros Hw Ht H H'. assert (S : std_type t) by (destruct Ht as [->| ->]; constructor; lia).
  assert (F : fits t v).
  { destruct (C58_from_string_sound t s v S H) as [[_ F]|[-> _]]; [exact F|]. pose proof (std_limits t S). unfold fits; lia. }
  destruct (to_string_canonical w v Hw ltac:(destruct Ht as [->| ->]; auto)) as (s2 & E & C).
  rewrite E in H'. injection H' as <-. split; [intros <-; exact C|]. intros C'. exact (canonical_unique s2 s v C C').
Qed.

(** Sizes: the biggest unit that stays within the allowed error is taken, the count is the nearest. *)
Theorem C58_human_size size delta whitespace : 0 < size < 2 ^ 64 -> 0 <= delta < size -> size + delta < 2 ^ 64 ->
  exists n i d, to_human size delta whitespace = Some (d ++ (if whitespace then [32] else []) ++ unit_text i) /\
    human (d ++ unit_text i) n i /\ nearest size n (unit_size i) /\ Z.abs (n * unit_size i - size) <= delta /\
    (forall j n', (i < j <= 6)%nat -> nearest size n' (unit_size j) -> delta < Z.abs (n' * unit_size j - size)).
Proof.
  intros Hs Hd Hsum. unfold to_human. cbv zeta. destruct (Z.eqb_spec size 0); [lia|].
  destruct (human_loop_spec size delta (if whitespace then [32] else []) Hs Hd Hsum (length suffixes) ltac:(cbn; lia))
    as (i & d & Hi & E & A & B & C & D & G). change (length suffixes) with 6%nat in *.
  exists (rounded_in_units size i), i, d. split; [exact E|]. split; [exists d; repeat split; auto|].
  split; [apply rounded_nearest; lia|]. split; [exact D|].
  intros j n' Hj Hn. replace n' with (rounded_in_units size j); [apply G; exact Hj|].
  pose proof (rounded_nearest size j ltac:(lia) ltac:(lia)) as Hr. unfold nearest in *. pose proof (unit_pos j). nia.
Qed.

Theorem C58_human_reads s n i : human s n i -> n * unit_size i < 2 ^ 64 -> from_human s = IOk (n * unit_size i).
Proof. exact (from_human_value s n i). Qed.

(** What is written without a blank is read back, within the allowed error. *)
Theorem C58_human_round_trip size delta : 0 < size < 2 ^ 64 -> 0 <= delta < size -> size + delta < 2 ^ 64 ->
  exists s r, to_human size delta false = Some s /\ from_human s = IOk r /\ Z.abs (r - size) <= delta.
Proof.
  intros Hs Hd Hsum. destruct (C58_human_size size delta false Hs Hd Hsum) as (n & i & d & E & H & _ & A & _).
  exists (d ++ unit_text i), (n * unit_size i). split; [exact E|]. split; [|exact A]. apply from_human_value; [exact H|lia].
Qed.
(** The size 0 has its own text. *)
Theorem C58_human_zero delta : to_human 0 delta false = Some [48] /\ from_human [48] = IOk 0.
Proof. split; reflexivity. Qed.

(** Refuted: a text without a digit is not a number -- a lone sign reads as 0; minus zero is a number -- not for
    unsigned types; bool and char come back from their text -- "true" is refused, the char '5' comes back as 5. *)
Theorem C58_sign_only_refuted t : std_type t -> from_string t [45] = IOk 0 /\ from_string t [43] = IOk 0.
Proof.
  intros Ht. destruct (is_signed t) eqn:S.
  - pose proof (from_string_value t Minus [] Ht ltac:(constructor) ltac:(discriminate) ltac:(auto)) as P.
    pose proof (from_string_value t Plus [] Ht ltac:(constructor) ltac:(discriminate) ltac:(discriminate)) as Q.
    cbn [sign_text app signed_num] in P, Q. change (num []) with 0 in *. change (- 0) with 0 in P.
    assert (F : fitsb t 0 = true) by (apply fitsb_spec; pose proof (std_limits t Ht); unfold fits; lia).
    rewrite F in P, Q. auto.
  - pose proof (from_string_value t Plus [] Ht ltac:(constructor) ltac:(discriminate) ltac:(discriminate)) as Q.
    cbn [sign_text app signed_num] in Q. change (num []) with 0 in *.
    assert (F : fitsb t 0 = true) by (apply fitsb_spec; pose proof (std_limits t Ht); unfold fits; lia).
    rewrite F in Q. split; [|exact Q].
    rewrite from_string_minus_unsigned by (assumption || constructor). rewrite conv_zero by exact Ht. reflexivity.
Qed.
Theorem C58_minus_zero_refuted t : std_type t -> is_signed t = false -> denotes [45; 48] 0 /\ from_string t [45; 48] = IRange.
Proof.
  intros Ht Hs. split.
  - exists Minus, [48]. repeat split; [discriminate|]. constructor; [unfold digit_char; lia|constructor].
  - rewrite from_string_minus_unsigned; [reflexivity|exact Hs|]. constructor; [unfold digit_char; lia|constructor].
Qed.
Theorem C58_bool_round_trip_refuted b : from_string bool_t (bool_to_string b) = IFormat.
Proof. destruct b; reflexivity. Qed.
Theorem C58_char_round_trip_refuted c : digit_char c -> from_string (signed_t 8) (char_to_string c) = IOk (c - 48).
Proof.
  intros Hc. unfold char_to_string.
  pose proof (from_string_value (signed_t 8) NoSign [c] ltac:(constructor; lia) ltac:(constructor; [exact Hc|constructor]) ltac:(discriminate) ltac:(discriminate)) as P.
  cbn [sign_text app signed_num] in P. rewrite num_one in P. unfold digit_char in Hc.
  assert (F : fitsb (signed_t 8) (c - 48) = true) by (apply fitsb_spec; unfold fits, signed_t; cbn; lia).
  rewrite F in P. exact P.
Qed.
(** Refuted: sizes -- "16E" is read as 0 without complaint; a size of 2^64 - 1 cannot be written (0.01f of it is
    10737418 * 2^34); a text with the blank is not read back. *)
Theorem C58_human_overflow_refuted : from_human [49; 54; 69] = IOk 0.
Proof. reflexivity. Qed.
Theorem C58_human_max_refuted : to_human (2 ^ 64 - 1) (10737418 * 2 ^ 34) false = None.
Proof. vm_compute. reflexivity. Qed.
Theorem C58_human_blank_refuted : exists s, to_human 1024 10 true = Some s /\ from_human s = IFormat.
Proof. exists [49; 32; 107]. split; vm_compute; reflexivity. Qed.

(** Non-vacuity. *)
Example C58_parses_s8 : from_string (signed_t 8) [45; 49; 50; 56] = IOk (-128).
Proof. reflexivity. Qed.
Example C58_refuses_s8 : from_string (signed_t 8) [49; 50; 56] = IRange.
Proof. reflexivity. Qed.
Example C58_prints_min : to_string 64 (- 2 ^ 63) = Some [45;57;50;50;51;51;55;50;48;51;54;56;53;52;55;55;53;56;48;56].
Proof. vm_compute. reflexivity. Qed.
Example C58_human_1500000 : to_human 1500000 15000 false = Some [49;52;54;53;107].
Proof. vm_compute. reflexivity. Qed.

Print Assumptions C58_from_string_sound.
Print Assumptions C58_from_string_complete.
Print Assumptions C58_from_string_refusals.
Print Assumptions C58_to_string_canonical.
Print Assumptions C58_round_trip.
Print Assumptions C58_normalises.
Print Assumptions C58_human_size.
Print Assumptions C58_human_reads.
Print Assumptions C58_human_round_trip.
Print Assumptions C58_human_zero.
Print Assumptions C58_sign_only_refuted.
Print Assumptions C58_minus_zero_refuted.
Print Assumptions C58_bool_round_trip_refuted.
Print Assumptions C58_char_round_trip_refuted.
Print Assumptions C58_human_overflow_refuted.
Print Assumptions C58_human_max_refuted.
Print Assumptions C58_human_blank_refuted.

(** a bool is written as a word *)
From Coq Require Import Ascii String.
Import ListNotations.
Definition chars (s : String.string) : list Z := map (fun a => Z.of_N (Ascii.N_of_ascii a)) (String.list_ascii_of_string s).
Local Open Scope string_scope.
Theorem C58_bool_text : bool_to_string true = chars "true" /\ bool_to_string false = chars "false".
Proof. split; reflexivity. Qed.
Print Assumptions C58_bool_text.
