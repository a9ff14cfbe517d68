(** C54: the UTF-8 helpers, against UTF-8 as RFC 3629 defines it. *)
From Verif Require Import Base Utf8Model Utf8Spec Utf8Proofs.
Local Open Scope Z_scope.

Lemma encs_concat cs : encs cs = concat (map enc cs).
Proof. unfold encs. apply flat_map_concat_map. Qed.
Lemma enc_symbols cs : Forall scalar cs -> Forall symbol (map enc cs).
Proof. intros F. apply Forall_map. eapply Forall_impl; [ | exact F]. intros c [H _]. apply enc_symbol, H. Qed.
Lemma encs_len cs : Forall scalar cs -> (length cs <= length (encs cs))%nat.
Proof. intros F. rewrite encs_concat. rewrite <- (map_length enc cs). apply symbols_len, enc_symbols, F. Qed.

(** Standing at a code point, Get returns it, Next moves behind it, and Prev from behind it moves back; whatever is around it. *)
Theorem C54_get_next_prev c before after : scalar c ->
  get (enc c ++ after) = Some c /\ next (enc c ++ after) = (true, length (enc c)) /\ prev (rev (before ++ enc c)) = (true, length (enc c)).
Proof.
  intros [H _]. split; [apply get_enc, H | ]. split; [apply next_symbol, enc_symbol, H | ]. rewrite rev_app_distr. apply prev_symbol, enc_symbol, H.
Qed.
Print Assumptions C54_get_next_prev.
(** At the end Get and Next throw, at the beginning Prev does. *)
Theorem C54_ends : get [] = None /\ next [] = (false, 0%nat) /\ prev [] = (false, 0%nat).
Proof. repeat split. Qed.
Print Assumptions C54_ends.

(** A client that reads with Get and goes on with Next. *)
Fixpoint walk (fuel : nat) (s : list Z) : option (list Z) :=
  match fuel with
  | O => None
  | S f => match s with
           | [] => Some []
           | _ => match get s, next s with Some c, (true, k) => option_map (cons c) (walk f (skipn k s)) | _, _ => None end
           end
  end.
Theorem C54_walk cs : Forall scalar cs -> walk (S (length (encs cs))) (encs cs) = Some cs.
Proof.
  intros F. assert (G : forall f, (length cs < f)%nat -> walk f (encs cs) = Some cs).
  - induction F as [ | c cs [Hc _] F IH]; intros [ | f] Hf; try (cbn in Hf; lia); [reflexivity | ]. cbn [walk encs flat_map]. fold (encs cs).
    pose proof (symbol_nonempty _ (enc_symbol c Hc)) as Ne.
    destruct (enc c ++ encs cs) as [ | x l] eqn:E; [apply (f_equal (@length Z)) in E; rewrite app_length in E; cbn in E; lia | ].
    rewrite <- E, get_enc, next_symbol, skipn_app_all by (apply enc_symbol || idtac; assumption). rewrite IH by (cbn in Hf; lia). reflexivity.
  - apply G. pose proof (encs_len cs F). lia.
Qed.
Print Assumptions C54_walk.
(** Two texts have the same bytes only if they are the same. *)
Theorem C54_injective cs ds : Forall scalar cs -> Forall scalar ds -> encs cs = encs ds -> cs = ds.
Proof. intros F1 F2 E. pose proof (C54_walk cs F1) as W. rewrite E, C54_walk in W by assumption. congruence. Qed.
Print Assumptions C54_injective.

(** Utf8Strlen counts the code points, and Utf8Validate accepts every UTF-8 text. *)
Theorem C54_strlen cs : Forall scalar cs -> strlen (encs cs) = Some (length cs) /\ validate (encs cs) = true.
Proof.
  intros F. assert (E : strlen (encs cs) = Some (length cs)).
  - unfold strlen. pose proof (encs_len cs F). rewrite encs_concat in *. rewrite strlen_symbols; [rewrite map_length; reflexivity | apply enc_symbols, F | rewrite map_length; lia].
  - split; [exact E | ]. unfold validate. rewrite E. reflexivity.
Qed.
Print Assumptions C54_strlen.
(** What Utf8Validate accepts, exactly: lead bytes followed by as many continuation bytes as they announce. *)
Theorem C54_validate_iff s : bytes s -> (validate s = true <-> exists us, Forall symbol us /\ s = concat us).
Proof.
  intros B. unfold validate. split.
  - intros H. destruct (strlen s) as [n | ] eqn:E; [ | discriminate]. destruct (strlen_sound _ _ _ _ B E) as (us & Es & F & _). eauto.
  - intros (us & F & ->). unfold strlen. pose proof (symbols_len us F). rewrite strlen_symbols by (assumption || lia). reflexivity.
Qed.
Print Assumptions C54_validate_iff.
(** Get succeeds exactly where Next does, and Next then moves over one such symbol. *)
Theorem C54_next_iff_get s : bytes s ->
  ((exists c, get s = Some c) <-> fst (next s) = true) /\
  (fst (next s) = true -> exists u t, s = u ++ t /\ symbol u /\ snd (next s) = length u).
Proof.
  intros B. split; [apply next_get, B | ]. intros H. destruct (next s) as [[ | ] k] eqn:E; [ | discriminate].
  destruct (next_sound s k B E) as (u & t & H1 & H2 & H3). exists u, t. auto.
Qed.
Print Assumptions C54_next_iff_get.

(** Utf8Substring by symbols is the substring of the text; a position behind the end throws. *)
Theorem C54_substring_symbols cs pos count : Forall scalar cs ->
  substring true (encs cs) pos count =
    (if Nat.leb pos (length cs)
     then Some (encs (match count with None => skipn pos cs | Some n => firstn n (skipn pos cs) end)) else None).
Proof.
  intros F. unfold substring. pose proof (encs_len cs F) as L. pose proof (enc_symbols cs F) as Sy. rewrite encs_concat in *. rewrite <- (map_length enc cs) in L.
  destruct (Nat.leb_spec pos (length cs)).
  - rewrite skip_symbols_sym; [ | assumption | rewrite map_length; lia | lia]. rewrite Nat.sub_0_r, skipn_map.
    assert (Fs : Forall scalar (skipn pos cs)). { rewrite <- (firstn_skipn pos cs), Forall_app in F. apply F. }
    destruct count as [n | ]; [ | rewrite encs_concat; reflexivity].
    rewrite take_symbols_sym; [ | apply enc_symbols, Fs | | lia].
    + rewrite Nat.sub_0_r, firstn_map, encs_concat. reflexivity.
    + pose proof (symbols_len _ (enc_symbols _ Fs)). lia.
  - rewrite skip_symbols_short; [reflexivity | assumption | rewrite map_length; lia | lia].
Qed.
Print Assumptions C54_substring_symbols.
(** By bytes it never cuts a code point: it starts at the first one at or behind [pos] and takes as many whole ones as fit [n] bytes. *)
Theorem C54_substring_bytes cs pos n : Forall scalar cs -> (pos <= length (encs cs))%nat ->
  exists a b c, cs = a ++ b ++ c /\ substring false (encs cs) pos (Some n) = Some (encs b) /\
    (pos <= length (encs a))%nat /\ (forall a' x, a = a' ++ [x] -> (length (encs a') < pos)%nat) /\
    (length (encs b) <= n)%nat /\ (forall x c', c = x :: c' -> (n < length (encs (b ++ [x])))%nat).
Proof.
  intros F Hp. unfold substring. pose proof (encs_len cs F) as L. pose proof (enc_symbols cs F) as Sy. rewrite encs_concat in *. rewrite <- (map_length enc cs) in L.
  destruct (skip_symbols_byte (map enc cs) (S (length (concat (map enc cs)))) pos 0 0 Sy ltac:(lia) ltac:(lia)) as (ua & ub & E1 & -> & H1 & H2).
  apply map_eq_app in E1. destruct E1 as (a & r & -> & <- & <-). rewrite !Forall_app in F. destruct F as [_ Fr].
  pose proof (symbols_len _ (enc_symbols r Fr)).
  destruct (take_symbols_byte (map enc r) (S (length (concat (map enc r)))) n 0 [] (enc_symbols r Fr) ltac:(lia) ltac:(cbn; lia)) as (ub & uc & E2 & -> & H3 & H4).
  apply map_eq_app in E2. destruct E2 as (b & c & -> & <- & <-). exists a, b, c. rewrite !encs_concat. split; [reflexivity | ]. split; [reflexivity | ]. split; [cbn in H1; lia | ].
  split; [ | split; [cbn in H3; lia | ]].
  - intros a' x ->. rewrite encs_concat. apply (H2 _ (enc x)). rewrite map_app. reflexivity.
  - intros x c' ->. rewrite encs_concat, map_app, concat_app, app_length. cbn [map concat]. rewrite app_nil_r. apply (H4 _ _ eq_refl).
Qed.
Print Assumptions C54_substring_bytes.

(** Utf8ToLower of a text lowers each of its letters (Latin, and Cyrillic U+0401..U+042F) and nothing else; a second time it changes nothing. *)
Theorem C54_to_lower cs : Forall scalar cs -> to_lower (encs cs) = Some (encs (map low cs)) /\ to_lower (encs (map low cs)) = Some (encs (map low cs)).
Proof.
  intros F. split; [apply lower_encs, F | ]. rewrite lower_encs by (apply Forall_map; eapply Forall_impl; [ | exact F]; apply low_range).
  rewrite map_map. do 2 f_equal. apply map_ext. apply low_idem.
Qed.
Print Assumptions C54_to_lower.
(** Comparing the bytes compares the code points; without case, the lowered ones. *)
Theorem C54_collate cs ds : Forall scalar cs -> Forall scalar ds ->
  collate true (encs cs) (encs ds) = Some (lexcmp cs ds) /\ collate false (encs cs) (encs ds) = Some (lexcmp (map low cs) (map low ds)).
Proof.
  intros F1 F2. unfold collate. split; [rewrite cmp_encs by assumption; reflexivity | ].
  rewrite !lower_encs by assumption. rewrite cmp_encs; [reflexivity | | ]; apply Forall_map; (eapply Forall_impl; [apply low_range | assumption]).
Qed.
Print Assumptions C54_collate.

(** Utf8Validate accepts what no text encodes to: overlong forms, surrogates, numbers beyond U+10FFFF; Get even returns them. *)
Theorem C54_validate_rfc_refuted :
  exists l, l = [ ([0xe0; 0x80; 0x80], 0); ([0xed; 0xa0; 0x80], 0xd800); ([0xf4; 0x90; 0x80; 0x80], 0x110000); ([0xf0; 0x80; 0x80; 0xaf], 0x2f) ] /\
  Forall (fun p => validate (fst p) = true /\ get (fst p) = Some (snd p) /\ ~ exists cs, Forall scalar cs /\ fst p = encs cs) l.
Proof.
  eexists. split; [reflexivity | ].
  assert (G : forall s c, get s = Some c -> (forall t, scalar c -> s <> enc c ++ t) -> s <> [] -> ~ exists cs, Forall scalar cs /\ s = encs cs).
  { intros s c Hg Hn Ne (cs & F & E). destruct cs as [ | d cs]; [apply Ne; exact E | ]. inversion F as [ | ? ? Hd F']; subst. cbn [encs flat_map] in *.
    rewrite get_enc in Hg by apply Hd. injection Hg as <-. eapply Hn; [exact Hd | reflexivity]. }
  repeat (apply Forall_cons || apply Forall_nil); cbn [fst snd]; (split; [reflexivity | ]); (split; [reflexivity | ]); (eapply G; [reflexivity | | discriminate]); intros t [Sc1 Sc2] Ec; first [lia | discriminate | (exfalso; apply Sc2; vm_compute; split; congruence) | (exfalso; destruct Sc1 as [_ Sc1]; vm_compute in Sc1; discriminate)].
Qed.
Print Assumptions C54_validate_rfc_refuted.
(** The letter U+0400 is not lowered (its small letter is U+0450), nor is any capital outside the two alphabets. *)
Theorem C54_to_lower_all_refuted : to_lower (encs [0x400]) = Some (encs [0x400]) /\ to_lower (encs [0xc4]) = Some (encs [0xc4]).
Proof. split; reflexivity. Qed.
Print Assumptions C54_to_lower_all_refuted.
(** Next that throws leaves the position moved, into the middle of the next symbol's text. *)
Theorem C54_next_strong_guarantee_refuted : exists s, bytes s /\ next s = (false, 2%nat) /\ get (skipn 0 s) = None /\ get (skipn 1 s) = Some 0x41.
Proof. exists [0xd0; 0x41]. repeat split; repeat constructor; lia. Qed.
Print Assumptions C54_next_strong_guarantee_refuted.

(** non-vacuity: a text of one to four byte code points *)
Example C54_text : Forall scalar [0x41; 0x416; 0x20ac; 0x1f600] /\ encs [0x41; 0x416; 0x20ac; 0x1f600] = [0x41; 0xd0; 0x96; 0xe2; 0x82; 0xac; 0xf0; 0x9f; 0x98; 0x80].
Proof. split; [ | reflexivity]. repeat constructor; lia. Qed.
Example C54_text_ops : substring true (encs [0x41; 0x416; 0x20ac; 0x1f600]) 1 (Some 2%nat) = Some (encs [0x416; 0x20ac])
  /\ substring false (encs [0x41; 0x416; 0x20ac; 0x1f600]) 2 (Some 5%nat) = Some (encs [0x20ac]) /\ to_lower (encs [0x41; 0x416]) = Some (encs [0x61; 0x436]).
Proof. repeat split; reflexivity. Qed.
