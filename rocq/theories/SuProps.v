(** C60: StringUtils, StringJoiner and the edit distance. *)
From Verif Require Import Base SvModel SvSpec SvProofs SuModel SuSpec SuProofs SuProofs2.
From Coq Require Import Lia.

(** ReplaceAll ends for every pattern of at least one character and replaces every occurrence, from the left,
    without looking at what it put in; there is only one such string. *)
Theorem C60_replace_all str from to fuel : from <> [] -> (length str <= fuel)%nat ->
  exists out, replace_all fuel str from to = Some out /\ replaced from to str out /\
    (forall out', replaced from to str out' -> out' = out).
Proof.
  intros Hf Hl. destruct (replace_all_spec str from to fuel Hf Hl) as (out & E & R). exists out. split; [exact E|]. split; [exact R|].
  exact (replaced_unique from to str out Hf R).
Qed.
(** With an empty pattern and a non-empty string it never ends. *)
Theorem C60_replace_all_empty_refuted str to fuel : str <> [] -> replace_all fuel str [] to = None.
Proof.
  intros N. assert (E : find str [] 0 = Found 0).
  { pose proof (find_spec str [] 0) as F. destruct (find str [] 0) as [i| |]; cbn [least] in F; [| |destruct F].
    - destruct F as (_ & _ & M). destruct i as [|i]; [reflexivity|]. exfalso. apply (M 0%nat); [lia|]. exists [], str. split; reflexivity.
    - exfalso. apply (F 0%nat); [lia|]. exists [], str. split; reflexivity. }
  unfold replace_all. rewrite E. apply replace_loop_forever. destruct str; [congruence|cbn; lia].
Qed.
(** One character for another; characters filtered or removed: exactly those, the rest in order. *)
Theorem C60_replace_char s from to :
  length (replace_char s from to) = length s /\
  (forall i c, nth_error s i = Some c -> nth_error (replace_char s from to) i = Some (if (c =? from)%Z then to else c)).
Proof.
  rewrite replace_char_spec. split; [apply map_length|]. intros i c E. rewrite nth_error_map, E. reflexivity.
Qed.
Theorem C60_filter_out s chars :
  (forall c, In c (filter_out s chars) <-> In c s /\ ~ In c chars) /\
  (forall a b, filter_out (a ++ b) chars = filter_out a chars ++ filter_out b chars) /\
  (Forall (fun c => ~ In c chars) s -> filter_out s chars = s).
Proof.
  repeat split.
  - rewrite filter_out_spec in H. apply filter_In in H. apply H.
  - rewrite filter_out_spec in H. apply filter_In in H as [_ H]. intros I. apply among_iff in I. rewrite I in H. discriminate H.
  - intros [H N]. rewrite filter_out_spec. apply filter_In. split; [exact H|]. destruct (among c chars) eqn:A; [|reflexivity].
    apply among_iff in A. contradiction.
  - intros a b. rewrite !filter_out_spec. apply filter_app.
  - intros F. rewrite filter_out_spec. induction F as [|c s H F IH]; [reflexivity|]. cbn [filter].
    destruct (among c chars) eqn:A; [apply among_iff in A; contradiction|]. cbn [negb]. rewrite IH. reflexivity.
Qed.
Theorem C60_remove_char s ch :
  (forall c, In c (remove_char s ch) <-> In c s /\ c <> ch) /\
  (forall a b, remove_char (a ++ b) ch = remove_char a ch ++ remove_char b ch) /\
  (~ In ch s -> remove_char s ch = s).
Proof.
  unfold remove_char. repeat split.
  - apply filter_In in H. apply H.
  - apply filter_In in H as [_ H]. destruct (Z.eqb_spec c ch); [discriminate H|assumption].
  - intros [H N]. apply filter_In. split; [exact H|]. destruct (Z.eqb_spec c ch); [contradiction|reflexivity].
  - intros a b. apply filter_app.
  - intros N. induction s as [|c s IH]; [reflexivity|]. cbn [filter]. destruct (Z.eqb_spec c ch) as [->|]; [exfalso; apply N; left; reflexivity|].
    cbn [negb]. rewrite IH; [reflexivity|]. intros H. apply N. right. exact H.
Qed.

(** ExtractPrefix and ExtractSuffix: the first and last n characters, the whole string when it is shorter. *)
Theorem C60_extract s n :
  (exists b, s = extract_prefix s n ++ b /\ length (extract_prefix s n) = Nat.min n (length s)) /\
  (exists a, s = a ++ extract_suffix s n /\ length (extract_suffix s n) = Nat.min n (length s)).
Proof.
  split.
  - exists (skipn n s). unfold extract_prefix. rewrite firstn_skipn, firstn_length. auto.
  - unfold extract_suffix. cbv zeta. exists (firstn (length s - Nat.min (length s) n) s).
    rewrite (firstn_all2 (skipn _ s)) by (rewrite skipn_length; lia). rewrite firstn_skipn, skipn_length. split; [reflexivity|lia].
Qed.
(** StartsWith, EndsWith, Contains and the removal of a prefix or suffix. *)
Theorem C60_starts_with s p : starts_with_str s p = true <-> exists b, s = p ++ b.
Proof. exact (starts_with_str_spec s p). Qed.
Theorem C60_ends_with s p : ends_with_str s p = true <-> exists a, s = a ++ p.
Proof. exact (ends_with_str_spec s p). Qed.
Theorem C60_contains s p : contains_str s p = true <-> exists a b, s = a ++ p ++ b.
Proof.
  rewrite contains_str_spec. unfold occurs. split; [intros (i & a & b & E & _); eauto|intros (a & b & E); exists (length a), a, b; auto].
Qed.
Theorem C60_remove_prefix s p :
  (forall b, s = p ++ b -> remove_prefix_str s p = b) /\ ((forall b, s <> p ++ b) -> remove_prefix_str s p = s).
Proof. exact (remove_prefix_str_spec s p). Qed.
Theorem C60_remove_suffix s p :
  (forall a, s = a ++ p -> remove_suffix_str s p = a) /\ ((forall a, s <> a ++ p) -> remove_suffix_str s p = s).
Proof. exact (remove_suffix_str_spec s p). Qed.

(** Split: the loop ends; the pieces are those of cutting at the leftmost delimiter again and again, [limit] times at most. *)
Definition cuts (limit : nat) : option nat := if (limit =? 0)%nat then None else Some limit.
Theorem C60_split_string s del limit fuel : del <> [] -> (length s + 2 <= fuel)%nat ->
  exists l, split_static fuel s del limit = Some l /\
    split_as (leftmost del) (cuts limit) s l /\ (forall l', split_as (leftmost del) (cuts limit) s l' -> l' = l) /\
    join del l = s /\
    (forall p, In p (removelast l) -> ~ exists i, occurs p del i) /\
    (limit = 0%nat -> forall p, In p l -> ~ exists i, occurs p del i) /\
    (limit <> 0%nat -> (length l <= limit + 1)%nat).
Proof.
  intros N Hf. destruct (split_static_spec s del limit fuel N Hf) as (l & E & S). fold (cuts limit) in S. exists l. split; [exact E|]. split; [exact S|].
  assert (Pieces : forall p, In p (removelast l) -> ~ exists i, occurs p del i) by (intros p Hp (i & O); exact (split_pieces del _ s l N S p Hp i O)).
  split; [exact (split_fun del s _ l S)|]. split; [exact (split_join del _ s l S)|]. split; [exact Pieces|]. split.
  - intros -> p Hp. cbn [cuts Nat.eqb] in S. pose proof (split_nonempty _ _ _ _ S) as Nl.
    rewrite (app_removelast_last [] Nl) in Hp. apply in_app_or in Hp. destruct Hp as [Hp|[<-|[]]]; [exact (Pieces p Hp)|].
    intros (i & O). exact (split_last del s l S i O).
  - intros Hl. unfold cuts in S. destruct (Nat.eqb_spec limit 0) as [->|_]; [congruence|]. exact (split_count _ _ _ _ S).
Qed.
Theorem C60_split_any s set limit fuel : (length s + 2 <= fuel)%nat ->
  exists l, split_any fuel s set limit = Some l /\ split_as (leftmost_any set) (cuts limit) s l /\
    (limit <> 0%nat -> (length l <= limit + 1)%nat).
Proof.
  intros Hf. destruct (split_any_spec s set limit fuel Hf) as (l & E & S). fold (cuts limit) in S. exists l. split; [exact E|]. split; [exact S|].
  intros Hl. unfold cuts in S. destruct (Nat.eqb_spec limit 0) as [->|_]; [congruence|]. exact (split_count _ _ _ _ S).
Qed.
(** Joining pieces that do not contain the character and splitting at it gives the pieces back. *)
Theorem C60_join_split c l fuel : l <> [] -> Forall (fun p => ~ In c p) l -> (length (join [c] l) + 2 <= fuel)%nat ->
  split_static fuel (join [c] l) [c] 0 = Some l.
Proof.
  intros N F Hf. destruct (split_static_spec (join [c] l) [c] 0 fuel ltac:(discriminate) Hf) as (l' & E & S).
  rewrite E. f_equal. cbn [Nat.eqb] in S. exact (split_fun [c] _ None l (join_splits c l N F) l' S).
Qed.
(** With an empty delimiter the loop over a split without limit never ends. *)
Theorem C60_split_empty_delimiter_refuted s fuel : split_static fuel s [] 0 = None.
Proof.
  unfold split_static, split_init. assert (E : static_search [] s 0 = Some (0%nat, 0%nat)).
  { unfold static_search, std_find. cbn [Nat.leb skipn]. rewrite search_nil. reflexivity. }
  rewrite E. assert (G : forall n, split_all (static_search []) s 0 fuel (mkR (Some 0%nat) (Some (0%nat, 0%nat)) n) = None); [|apply G].
  induction fuel as [|fuel IH]; intros n; [reflexivity|].
  change (match split_all (static_search []) s 0 fuel (mkR (Some 0%nat) (static_search [] s 0) n) with
          | Some l => Some (ref_str (make_ref s 0 (Some 0%nat)) :: l) | None => None end = None).
  rewrite E, IH. reflexivity.
Qed.
(** Iterating a second time after First() does not see the pieces again: First() keeps the position of the next delimiter. *)
Definition split_drain (del s : view) (n : nat) : srange :=
  Nat.iter n (split_next (static_search del) s 0) (split_init (static_search del) s).
Theorem C60_split_first_again_refuted :
  let s : view := [97; 47; 98]%Z in                                  (* "a/b" *)
  split_static 9 s [47]%Z 0 = Some [[97]; [98]]%Z /\
  split_get s (split_drain [47]%Z s 2) = None /\
  split_all (static_search [47]%Z) s 0 9 (split_first (split_drain [47]%Z s 2)) = Some [s].
Proof. vm_compute. repeat split; reflexivity. Qed.
(** The StringRef of a piece is not a view of the piece alone: find sees what follows it, substr can leave it. *)
Theorem C60_string_ref_refuted :
  let piece := mkRef [97; 47; 98]%Z 0 1 in                    (* "a" of "a/b" *)
  ref_str piece = [97]%Z /\ ref_find piece [97; 47]%Z 0 = Some 0%nat /\ (forall i, ~ occurs (ref_str piece) [97; 47]%Z i) /\
  ref_str (ref_substr piece 0 (Some 3%nat)) = [97; 47; 98]%Z.
Proof.
  repeat split; try reflexivity. cbv zeta. intros i H. apply occurs_inside in H. cbn in H. lia.
Qed.

(** Strip: what remains between the longest ends made of the given characters; there is only one such string. *)
Theorem C60_strip s chars :
  stripped true true s chars (strip s chars) /\ (forall m, stripped true true s chars m -> m = strip s chars) /\
  stripped true false s chars (left_strip s chars) /\ stripped false true s chars (right_strip s chars).
Proof.
  split; [apply strip_spec|]. split; [|split; [apply left_strip_spec|apply right_strip_spec]].
  intros m H. exact (stripped_unique s chars m (strip s chars) H (strip_spec s chars)).
Qed.
(** Justify: the string and enough fillers to reach the width, none if it is already that long. *)
Theorem C60_justify left s width filler :
  exists pad, justify left s width filler = (if left then s ++ pad else pad ++ s) /\
    Forall (eq filler) pad /\ length (justify left s width filler) = Nat.max (length s) width.
Proof.
  exists (repeat filler (width - length s)). unfold justify.
  assert (E : (if (length s <? width)%nat then width - length s else 0)%nat = (width - length s)%nat) by (destruct (Nat.ltb_spec (length s) width); lia).
  rewrite E. split; [reflexivity|]. split; [apply Forall_forall; intros x H; symmetry; exact (repeat_spec _ _ _ H)|].
  destruct left; rewrite app_length, repeat_length; lia.
Qed.

(** StringJoiner: prefix, the items with the separator between them, suffix: when something stands before the second item. *)
Theorem C60_joiner_partial sep prefix suffix l : prefix <> [] \/ (forall x, hd_error l = Some x -> x <> []) ->
  joiner sep prefix suffix (map (pair true) l) = prefix ++ join sep l ++ suffix.
Proof. exact (joiner_spec sep prefix suffix l). Qed.
Theorem C60_joiner_refuted : joiner [44]%Z [] [] (map (pair true) [[]; [97]]%Z) <> join [44]%Z [[]; [97]]%Z.
Proof. vm_compute. discriminate. Qed.

(** EditDistance is the least number of insertions, deletions and replacements (strings shorter than 2^31). *)
Theorem C60_edit_distance s1 s2 : short s1 -> short s2 ->
  edits (edit_distance s1 s2) s1 s2 /\ (forall n, edits n s1 s2 -> (edit_distance s1 s2 <= n)%nat).
Proof. exact (edit_distance_spec s1 s2). Qed.

(** Cases. *)
Example C60_ex_replace : replace_all 9 [97; 97; 97; 98; 97; 97]%Z [97; 97]%Z [97]%Z = Some [97; 97; 98; 97]%Z.
Proof. vm_compute. reflexivity. Qed.
Example C60_ex_split : split_static 9 [97; 44; 44; 98]%Z [44]%Z 0 = Some [[97]; []; [98]]%Z /\ split_static 9 [97; 44; 44; 98]%Z [44]%Z 1 = Some [[97]; [44; 98]]%Z.
Proof. vm_compute. auto. Qed.
Example C60_ex_any : split_any 9 [97; 44; 59; 98]%Z [44; 59]%Z 0 = Some [[97]; []; [98]]%Z.
Proof. vm_compute. auto. Qed.
Example C60_ex_strip : strip [32; 97; 32; 98; 9]%Z [32; 9]%Z = [97; 32; 98]%Z.
Proof. vm_compute. reflexivity. Qed.
Example C60_ex_join : join [44]%Z [[97]; []; [98]]%Z = [97; 44; 44; 98]%Z /\ Forall (fun p => ~ In 44%Z p) [[97]; []; [98]]%Z.
Proof. split; [reflexivity|]. repeat constructor; cbn; intuition lia. Qed.
(** "kitten" to "sitting" *)
Example C60_ex_distance : edit_distance [107; 105; 116; 116; 101; 110]%Z [115; 105; 116; 116; 105; 110; 103]%Z = 3%nat /\ short [107; 105; 116; 116; 101; 110]%Z.
Proof. split; [vm_compute; reflexivity|]. unfold short. cbn. lia. Qed.

Print Assumptions C60_replace_all.
Print Assumptions C60_split_string.
Print Assumptions C60_split_any.
Print Assumptions C60_join_split.
Print Assumptions C60_strip.
Print Assumptions C60_joiner_partial.
Print Assumptions C60_edit_distance.

(** The StringRef of a piece finds the first occurrence that starts in the piece at or after pos, and says where counted from
    the beginning of the piece (it may reach over the end of the piece, see C60_string_ref_refuted). *)
Theorem C60_string_ref_find (r : sref) (s : view) (pos : nat) : (r_begin r <= r_end r <= length (r_owner r))%nat ->
  match ref_find r s pos with
  | Some i => (pos <= i)%nat /\ (r_begin r + i < r_end r)%nat /\ occurs (r_owner r) s (r_begin r + i) /\
              forall j, (pos <= j < i)%nat -> ~ occurs (r_owner r) s (r_begin r + j)
  | None => forall j, (pos <= j)%nat -> (r_begin r + j < r_end r)%nat -> ~ occurs (r_owner r) s (r_begin r + j)
  end.
Proof.
  intros B. unfold ref_find, std_find. destruct (pos + r_begin r <=? length (r_owner r))%nat eqn:L.
  2: { apply Nat.leb_gt in L. intros j H1 H2. lia. }
  apply Nat.leb_le in L. pose proof (search_spec s (skipn (pos + r_begin r) (r_owner r))) as S.
  assert (Q : forall j, occurs (r_owner r) s (pos + r_begin r + j) <-> occurs (skipn (pos + r_begin r) (r_owner r)) s j).
  { intros j. rewrite !occurs_iff. rewrite skipn_length, skipn_skipn. replace (j + (pos + r_begin r))%nat with (pos + r_begin r + j)%nat by lia. split; intros (A & E); (split; [lia|exact E]). }
  destruct (search (skipn (pos + r_begin r) (r_owner r)) s) as [i|] eqn:E.
  - destruct S as [A N]. destruct (r_end r <=? pos + r_begin r + i)%nat eqn:F.
    + apply Nat.leb_le in F. intros j H1 H2 H3. apply (N (j - pos)%nat); [lia|]. apply Q. replace (pos + r_begin r + (j - pos))%nat with (r_begin r + j)%nat by lia. exact H3.
    + apply Nat.leb_gt in F. replace (pos + r_begin r + i - r_begin r)%nat with (pos + i)%nat by lia. split; [lia|]. split; [lia|]. split.
      * replace (r_begin r + (pos + i))%nat with (pos + r_begin r + i)%nat by lia. apply Q. exact A.
      * intros j H1 H3. apply (N (j - pos)%nat); [lia|]. apply Q. replace (pos + r_begin r + (j - pos))%nat with (r_begin r + j)%nat by lia. exact H3.
  - intros j H1 H2 H3. apply (S (j - pos)%nat). apply Q. replace (pos + r_begin r + (j - pos))%nat with (r_begin r + j)%nat by lia. exact H3.
Qed.
Print Assumptions C60_string_ref_find.
