(** C90: language codes, checkpoint profiles, bandwidth reports. *)
From Coq Require Import ZArith List Bool Lia.
From Verif Require Import LangModel LangSpec LangProofs.
Import ListNotations.
Open Scope Z_scope.

(** * Language codes *)

(** Reading refuses exactly the texts that are not of two or three characters. *)
Theorem C90_language_code_lengths : forall s,
  from_string s = None <-> (length s <> 2 /\ length s <> 3)%nat.
Proof.
  intros s. destruct s as [|a [|b [|c [|d r]]]]; cbn; try (split; [intros _; lia | reflexivity]).
  - unfold from_string, from_2letter. cbn [length firstn Nat.eqb Nat.ltb Nat.leb].
    split; [|lia]. destruct (str_eqb _ _); [discriminate|]. destruct (str_eqb _ _); discriminate.
  - split; [discriminate | lia].
Qed.
Print Assumptions C90_language_code_lengths.

(** A code read from three nonzero bytes is written as these with letters
    capitalized, and that text is read as the same code. *)
Theorem C90_language_code_roundtrip : forall s t, Code3 s -> Forall2 Capital s t ->
  exists c, from_string s = Some c /\ to_string c = t /\ from_string t = Some c.
Proof.
  intros s t H K. apply capital_upper in K. subst t.
  destruct (code3 s H) as (a & b & c & -> & A & B & C).
  exists (upper a * 65536 + upper b * 256 + upper c). split; [reflexivity|]. split.
  - apply to_string_of; now apply upper_byte.
  - cbn [map]. unfold from_string. cbn. now rewrite !upper_idem.
Qed.
Print Assumptions C90_language_code_roundtrip.

(** Codes of such texts are equal exactly if the texts are up to the case of
    letters, and ordered as the capitalized texts. *)
Theorem C90_language_codes_compare : forall s t c d, Code3 s -> Code3 t ->
  from_string s = Some c -> from_string t = Some d ->
  (c = d <-> Same_text s t) /\
  (forall s' t', Forall2 Capital s s' -> Forall2 Capital t t' -> (code_lt c d = true <-> Lex s' t')).
Proof.
  intros s t c d H K Hc Hd.
  destruct (code3 s H) as (a1 & a2 & a3 & -> & A1 & A2 & A3).
  destruct (code3 t K) as (b1 & b2 & b3 & -> & B1 & B2 & B3).
  cbn in Hc, Hd. injection Hc as <-. injection Hd as <-.
  pose proof (upper_byte a1 A1). pose proof (upper_byte a2 A2). pose proof (upper_byte a3 A3).
  pose proof (upper_byte b1 B1). pose proof (upper_byte b2 B2). pose proof (upper_byte b3 B3).
  split.
  - rewrite same_text_upper. cbn [map]. split.
    + intros E. assert (upper a1 = upper b1 /\ upper a2 = upper b2 /\ upper a3 = upper b3) as (-> & -> & ->) by lia.
      reflexivity.
    + intros E. injection E as -> -> ->. reflexivity.
  - intros s' t' Hs Ht. apply capital_upper in Hs, Ht. subst. cbn [map].
    unfold code_lt. rewrite Z.ltb_lt. now apply lex3.
Qed.
Print Assumptions C90_language_codes_compare.

(** A number is refused exactly if it has more than three bytes; three ASCII
    bytes, other than three zeros, give the code of the text they are. *)
Theorem C90_language_code_of_number_partial : forall n, 0 <= n < 2 ^ 32 ->
  (of_u32 n = None <-> 2 ^ 24 <= n) /\
  (forall a b c, 0 <= a < 128 -> 0 <= b < 128 -> 0 <= c < 128 -> n = a * 65536 + b * 256 + c ->
   of_u32 n = from_string [a; b; c]).
Proof.
  intros n N. unfold of_u32. split.
  - destruct (Z.eqb_spec (n / 2 ^ 24) 0) as [E|E]; cbn [negb].
    + split; [discriminate|]. intros L. exfalso. revert E L. Z.div_mod_to_equations; lia.
    + split; [|reflexivity]. intros _. destruct (Z.lt_ge_cases n (2 ^ 24)) as [L|]; [|assumption].
      exfalso. apply E. now apply Z.div_small.
  - intros a b c A B C ->.
    assert (S : (a * 65536 + b * 256 + c) / 2 ^ 24 = 0) by (apply Z.div_small; lia).
    rewrite S. cbn [Z.eqb negb]. unfold from_string. cbn [length Nat.eqb of_string]. f_equal.
    unfold upper_code.
    assert (U : forall x, 0 <= x < 128 -> 0 <= upper x < 128 /\ (x = 0 -> upper x = 0)).
    { intros x X. destruct (upper_cases x); lia. }
    destruct (U a A) as [UA ZA], (U b B) as [UB ZB], (U c C) as [UC ZC].
    destruct (Z.eqb_spec (a * 65536 + b * 256 + c) 0) as [E|E].
    + assert (a = 0 /\ b = 0 /\ c = 0) as (-> & -> & ->) by lia. reflexivity.
    + destruct (bytes_of a b c) as (-> & -> & ->); try lia.
      unfold schar. destruct (Z.ltb_spec (upper a) 128), (Z.ltb_spec (upper b) 128), (Z.ltb_spec (upper c) 128); try lia.
      apply Z.mod_small. lia.
Qed.
Print Assumptions C90_language_code_of_number_partial.

(** Not true: a number gives the code of the text of its bytes (bytes from
    128 on are subtracted from the others). *)
Theorem C90_language_code_of_number_refuted :
  ~ (forall a b c, 0 <= a < 256 -> 0 <= b < 256 -> 0 <= c < 256 ->
     of_u32 (a * 65536 + b * 256 + c) = from_string [a; b; c]).
Proof. intros H. specialize (H 65 65 128 ltac:(lia) ltac:(lia) ltac:(lia)). vm_compute in H. discriminate. Qed.
Print Assumptions C90_language_code_of_number_refuted.

(** Not true: every code can be read from the text it is written as.  The
    code for any language is written as the empty text, which is refused. *)
Theorem C90_any_language_roundtrip_refuted :
  ~ (forall s c, from_string s = Some c -> from_string (to_string c) = Some c).
Proof. intros H. specialize (H [88; 88] 0 eq_refl). vm_compute in H. discriminate. Qed.
Print Assumptions C90_any_language_roundtrip_refuted.

(** Two characters are read as Russian or English, whatever the case, or as
    any language. *)
Theorem C90_two_letter_codes : forall a b,
  (Same_text [a; b] [82; 85] /\ from_string [a; b] = from_string [82; 85; 83]) \/
  (Same_text [a; b] [69; 78] /\ from_string [a; b] = from_string [69; 78; 71]) \/
  (~ Same_text [a; b] [82; 85] /\ ~ Same_text [a; b] [69; 78] /\ from_string [a; b] = Some 0).
Proof.
  intros a b. rewrite !same_text_upper.
  unfold from_string at 1 3 5. cbn [length Nat.eqb]. unfold from_2letter. cbn [length Nat.ltb Nat.leb firstn].
  unfold str_eqb. destruct (list_eq_dec _ _ _) as [E|E].
  - left. split; [exact E | reflexivity].
  - destruct (list_eq_dec _ _ _) as [F|F].
    + right; left. split; [exact F | reflexivity].
    + right; right. repeat split; assumption.
Qed.
Print Assumptions C90_two_letter_codes.

(** Not true: the text of two letters of a code is read as that code. *)
Theorem C90_two_letter_roundtrip_refuted :
  ~ (forall s c, Code3 s -> from_string s = Some c -> from_string (to_2letter c) = Some c).
Proof.
  intros H. assert (C : Code3 [68; 69; 85]) by (split; [reflexivity | repeat constructor; lia]).
  specialize (H _ (68 * 65536 + 69 * 256 + 85) C eq_refl). vm_compute in H. discriminate.
Qed.
Print Assumptions C90_two_letter_roundtrip_refuted.

Example C90_language_example :
  option_map to_string (from_string [114; 117; 115]) = Some [82; 85; 83]
  /\ option_map to_2letter (from_string [114; 117; 115]) = Some [114; 117]
  /\ Code3 [114; 117; 115] /\ Forall2 Capital [114; 117; 115] [82; 85; 83].
Proof.
  repeat split; repeat constructor; unfold Capital; lia.
Qed.

(** * Profiles *)

(** After any history, starting, any checkpoints and stopping give the
    checkpoints in order, each with the time since the one before. *)
Theorem C90_profile_of_checkpoints : forall p t0 cs,
  exists out, stopped (p ++ PStart t0 :: map (fun c => PCheckpoint (fst c) (snd c)) cs) = Some out /\
  Profile 0 t0 cs out.
Proof.
  intros p t0 cs. unfold stopped. rewrite prun_app. cbn [prun pstep fst].
  destruct (checks_run cs t0 [] 0 eq_refl) as (out & P & times' & R & D).
  exists out. rewrite Z.add_0_r in P. split; [|exact P].
  fold (checks cs). rewrite R. cbn [pstep snd p_times]. now rewrite D.
Qed.
Print Assumptions C90_profile_of_checkpoints.

(** Checkpoints before the first start or after a stop are ignored. *)
Theorem C90_checkpoints_of_a_stopped_profiler : forall p cs,
  stopped (map (fun c => PCheckpoint (fst c) (snd c)) cs) = Some [] /\
  stopped (p ++ PStop :: map (fun c => PCheckpoint (fst c) (snd c)) cs) = Some [].
Proof.
  intros p cs. unfold stopped. rewrite prun_app. cbn [prun pstep fst]. fold (checks cs).
  rewrite !checks_idle by reflexivity. now split.
Qed.
Print Assumptions C90_checkpoints_of_a_stopped_profiler.

(** The times of a profile add up to the time from the start to the last
    checkpoint. *)
Theorem C90_profile_times_add_up : forall p t0 cs n t out,
  stopped (p ++ PStart t0 :: map (fun c => PCheckpoint (fst c) (snd c)) (cs ++ [(n, t)])) = Some out ->
  sum (map snd out) = t - t0.
Proof.
  intros p t0 cs n t out H.
  destruct (C90_profile_of_checkpoints p t0 (cs ++ [(n, t)])) as (out' & E & P).
  rewrite E in H. injection H as ->. clear E. remember 0%nat as k eqn:Hk. clear Hk.
  revert k t0 out P. induction cs as [|[m u] cs IH]; cbn [app]; intros k t0 out P.
  - inversion P as [|? ? ? ? ? ? ? P'|? ? ? ? ? P']; subst; inversion P'; subst; cbn; lia.
  - inversion P as [|? ? ? ? ? ? ? P'|? ? ? ? ? P']; subst; apply IH in P'; cbn [map snd];
      unfold sum in *; cbn [fold_right]; lia.
Qed.
Print Assumptions C90_profile_times_add_up.

Example C90_profile_example :
  stopped [PStart 1; PCheckpoint [97] 2; PStart 5; PCheckpoint [97] 7; PCheckpoint [] 8; PCheckpoint [] 12]
  = Some [(Named [97], 2); (Numbered 1, 1); (Numbered 2, 4)].
Proof. reflexivity. Qed.

(** * Bandwidth *)

(** Each report gives the bytes processed in all and those since the report
    before, modulo 2^64, and the speed in KB/s as long as the bytes since the
    report before are fewer than 2^64 / 1000. *)
Theorem C90_bandwidth_reports : forall p ns ms,
  p = [] \/ (exists q m, p = q ++ [BReport m]) ->
  Forall (fun o => o <> BReport 0) p -> 0 < ms -> Forall (fun n => 0 <= n) ns ->
  exists r, reported (p ++ map BPush ns) ms = Some r /\
  r_total r = (bytes p + sum ns) mod 2 ^ 64 /\ r_data r = sum ns mod 2 ^ 64 /\
  (sum ns * 1000 < 2 ^ 64 -> r_speed r = sum ns * 1000 / (1024 * ms)).
Proof.
  intros p ns ms B L M F.
  assert (N0 : 0 <= sum ns) by (induction F; cbn; unfold sum in *; lia).
  unfold reported.
  assert (L2 : Live (p ++ map BPush ns)).
  { apply Forall_app. split; [exact L|]. clear. induction ns; constructor; [discriminate|assumption]. }
  destruct (brun_total _ bstate0 L2 eq_refl) as (s & R & T).
  rewrite R. cbn [bstep]. destruct (Z.eqb_spec ms 0) as [|_]; [lia|].
  eexists. split; [reflexivity|]. cbn [r_total r_data r_speed].
  assert (S : b_since s = u64 (sum ns)).
  { rewrite brun_app in R. destruct (brun bstate0 p) as [s1|] eqn:R1; [|discriminate].
    assert (Z1 : b_since s1 = 0).
    { destruct B as [->|(q & m & ->)]; [cbn in R1; injection R1 as <-; reflexivity|].
      rewrite brun_app in R1. destruct (brun bstate0 q) as [s0|]; [|discriminate]. cbn [brun bstep] in R1.
      destruct (m =? 0); [discriminate|]. injection R1 as <-. reflexivity. }
    destruct (brun_pushes ns s1) as (s' & R' & S'); [now rewrite Z1|].
    rewrite R' in R. injection R as ->. now rewrite S', Z1. }
  rewrite T, S. split; [|split; [reflexivity|]].
  - unfold u64. cbn [b_total bstate0]. rewrite !bytes_app. f_equal.
    assert (bytes (map BPush ns) = sum ns) as ->.
    { unfold bytes. rewrite map_map. now rewrite map_id. }
    cbn. lia.
  - intros Q. rewrite (u64_small (sum ns)) by lia. rewrite u64_small by lia.
    rewrite Z.div_div by lia. f_equal. lia.
Qed.
Print Assumptions C90_bandwidth_reports.

(** Not true: the speed is right whatever was processed. *)
Theorem C90_bandwidth_overflow_refuted :
  ~ (forall n ms, 0 <= n < 2 ^ 64 -> 0 < ms ->
     exists r, reported [BReport 1; BPush n] ms = Some r /\ r_speed r = n * 1000 / (1024 * ms)).
Proof.
  intros H. destruct (H (2 ^ 61) 10000) as (r & E & S); [lia|lia|].
  vm_compute in E. injection E as <-. vm_compute in S. discriminate.
Qed.
Print Assumptions C90_bandwidth_overflow_refuted.

Example C90_bandwidth_example :
  reported [BPush 5; BReport 10000; BPush 4096000; BPush 1024000] 10000 = Some (BR 5120000 5120005 500).
Proof. reflexivity. Qed.
