(** C88: areas of thread operations, the object pool, reading lines, sequence
    numbers. *)
From Coq Require Import ZArith List Bool Lia.
From Verif Require Import ScopesModel ScopesSpec ScopesProofs.
Import ListNotations.
Open Scope Z_scope.

(** * Areas of thread operations *)

(** In any interleaving of threads, as long as the areas of a kind in a
    thread were ended innermost first and by that thread, an operation is
    reported in a constrained area exactly if it is among the operations of
    some open area of the thread ... *)
Theorem C88_restricted_operations_are_reported : forall es t l op,
  NoDup (begun es) -> open_areas t Restricted es = Some l ->
  (snd (tstep (trun es) (Check t Restricted op)) = Error <-> covered op l) /\
  (snd (tstep (trun es) (Check t Restricted op)) = Silent <-> ~ covered op l).
Proof.
  intros es t l op ND H. destruct (trun_inv t Restricted es l ND H) as (E & _ & _).
  cbn [tstep snd]. rewrite E. rewrite <- land_union.
  destruct (Z.eqb_spec (Z.land op (union l)) 0); split; split; intros; try congruence; tauto.
Qed.
Print Assumptions C88_restricted_operations_are_reported.

(** ... and an exclusive operation is accepted exactly if it is. *)
Theorem C88_exclusive_operations_are_checked : forall es t l op,
  NoDup (begun es) -> open_areas t Exclusive es = Some l ->
  (snd (tstep (trun es) (Check t Exclusive op)) = Silent <-> covered op l) /\
  (snd (tstep (trun es) (Check t Exclusive op)) = Fatal <-> ~ covered op l).
Proof.
  intros es t l op ND H. destruct (trun_inv t Exclusive es l ND H) as (E & _ & _).
  cbn [tstep snd]. rewrite E. rewrite <- land_union.
  destruct (Z.eqb_spec (Z.land op (union l)) 0); split; split; intros; try congruence; tauto.
Qed.
Print Assumptions C88_exclusive_operations_are_checked.

(** The destructor of an area in a foreign thread is fatal and leaves all
    masks as they were. *)
Theorem C88_foreign_end_is_fatal : forall es t t' k i ops es',
  t <> t' -> (forall e, In e es' -> forall u, e <> End u i) -> NoDup (begun (es ++ Begin t k i ops :: es')) ->
  let s := trun (es ++ Begin t k i ops :: es') in
  snd (tstep s (End t' i)) = Fatal /\ t_mask (fst (tstep s (End t' i))) = t_mask s.
Proof.
  intros es t t' k i ops es' N NE ND s.
  assert (A : exists o, t_area s i = Some (Area t k o)).
  { unfold s; clear s. induction es' as [|e es' IH] using rev_ind.
    - unfold trun; rewrite fold_left_app; cbn [fold_left tstep fst t_area]. unfold set_area.
      rewrite Nat.eqb_refl. eauto.
    - assert (ND' := ND). change (Begin t k i ops :: es' ++ [e]) with ((Begin t k i ops :: es') ++ [e]) in *.
      rewrite app_assoc, begun_snoc in ND'.
      destruct IH as [o Ho].
      + intros e' He. apply NE, in_or_app; now left.
      + clear - ND'. revert ND'; generalize (begun (es ++ Begin t k i ops :: es')). intros x; induction x as [|a x IHx]; intros H; [constructor|].
        cbn in H; inversion H; subst. constructor; [intros I; apply H2, in_or_app; now left | now apply IHx].
      + rewrite app_assoc. unfold trun in *; rewrite fold_left_app; cbn [fold_left].
        set (r := fold_left _ (es ++ Begin t k i ops :: es') tstate0) in *.
        assert (NEe : forall u, e <> End u i) by (apply NE, in_or_app; right; now left).
        destruct e as [t1 k1 j o1|t1 j|t1 k1 o1]; cbn [tstep].
        * cbn [fst t_area]. unfold set_area. destruct (Nat.eqb_spec i j) as [->|]; [|eauto].
          exfalso. apply NoDup_remove_2 in ND'. rewrite app_nil_r in ND'. apply ND'.
          unfold begun; rewrite flat_map_app; apply in_or_app; right; now left.
        * assert (j <> i) by (intros ->; now apply (NEe t1)).
          destruct (t_area r j) as [a|]; [|cbn [fst]; eauto].
          destruct (Nat.eqb (a_thread a) t1); cbn [fst t_area]; unfold set_area;
            (destruct (Nat.eqb_spec i j); [congruence|eauto]).
        * destruct k1; cbn [fst]; eauto. }
  destruct A as [o Ho]. cbn [tstep]. rewrite Ho. cbn [a_thread].
  destruct (Nat.eqb_spec t t'); [congruence|]. now split.
Qed.
Print Assumptions C88_foreign_end_is_fatal.

(** Not true: after all areas have ended, whatever their order, nothing is
    restricted any more.  When the first of two areas ends first, the end of
    the second restores the mask of the first, for ever. *)
Theorem C88_ended_areas_do_not_restrict_refuted :
  ~ (forall es t op, NoDup (begun es) ->
     (forall i, In i (begun es) -> In (End t i) es) ->
     (forall e, In e es -> match e with Begin u _ _ _ | End u _ | Check u _ _ => u = t end) ->
     snd (tstep (trun es) (Check t Restricted op)) = Silent).
Proof.
  intros H.
  specialize (H [Begin 0 Restricted 1 1; Begin 0 Restricted 2 2; End 0 1; End 0 2] 0%nat 1).
  assert (X : snd (tstep (trun [Begin 0 Restricted 1 1; Begin 0 Restricted 2 2; End 0 1; End 0 2])
                         (Check 0 Restricted 1)) = Silent).
  { apply H.
    - repeat constructor; cbn; intuition discriminate.
    - intros i [<-|[<-|[]]]; cbn; tauto.
    - intros e [<-|[<-|[<-|[<-|[]]]]]; reflexivity. }
  discriminate X.
Qed.
Print Assumptions C88_ended_areas_do_not_restrict_refuted.

Example C88_areas_example :
  let es := [Begin 0 Restricted 1 1; Begin 1 Restricted 2 4; Begin 0 Exclusive 3 2; Begin 0 Restricted 4 2; End 1 2; End 0 4] in
  open_areas 0 Restricted es = Some [(1%nat, 1)] /\ open_areas 0 Exclusive es = Some [(3%nat, 2)]
  /\ NoDup (begun es)
  /\ snd (tstep (trun es) (Check 0 Restricted 1)) = Error
  /\ snd (tstep (trun es) (Check 0 Restricted 2)) = Silent
  /\ snd (tstep (trun es) (Check 0 Exclusive 2)) = Silent
  /\ snd (tstep (trun es) (Check 1 Exclusive 2)) = Fatal.
Proof. repeat split. repeat constructor; cbn; intuition discriminate. Qed.

(** * The object pool *)

(** Collecting garbage destroys no object that is referenced from outside
    the pool or by an object that stays. *)
Theorem C88_collecting_keeps_referenced_objects : forall w hs x,
  In x hs ->
  e_refs w x <> 0%nat \/ (exists y, In y (collect_garbage w hs) /\ In x (owns w y)) ->
  In x (collect_garbage w hs).
Proof. intros w hs x H [R|R]; apply (collect_safe w hs []); tauto. Qed.
Print Assumptions C88_collecting_keeps_referenced_objects.

(** If no object was added twice, as many collections as there are objects
    leave only objects referenced from outside or by another that is left. *)
Theorem C88_repeated_collecting_is_complete : forall w hs x, NoDup hs ->
  In x (collect_times (length hs) w hs) ->
  e_refs w x <> 0%nat \/ exists y, In y (collect_times (length hs) w hs) /\ In x (owns w y).
Proof.
  intros w hs x ND H. apply use_count_more; [now apply collect_times_nodup | assumption|].
  apply collect_stable; [|assumption]. now apply collect_times_stable.
Qed.
Print Assumptions C88_repeated_collecting_is_complete.

(** Not true: one collection is enough.  An object referenced by a later one
    stays though that one is destroyed. *)
Theorem C88_one_collecting_is_complete_refuted :
  ~ (forall w hs x, NoDup hs -> In x (collect_garbage w hs) ->
     e_refs w x <> 0%nat \/ exists y, In y (collect_garbage w hs) /\ In x (owns w y)).
Proof.
  intros H.
  specialize (H (World (fun _ => 0%nat) (fun y => match y with 2%nat => [1%nat] | _ => [] end)) [1%nat; 2%nat] 1%nat).
  destruct H as [H|(y & [<-|[]] & [])].
  - repeat constructor; cbn; intuition discriminate.
  - now left.
  - now apply H.
Qed.
Print Assumptions C88_one_collecting_is_complete_refuted.

(** Not true: an object without other references is destroyed at last.  One
    added twice never is. *)
Theorem C88_unreferenced_objects_are_collected_refuted :
  ~ (forall w hs x, e_refs w x = 0%nat -> (forall y, ~ In x (owns w y)) ->
     exists n, ~ In x (collect_times n w hs)).
Proof.
  intros H.
  destruct (H (World (fun _ => 0%nat) (fun _ => [])) [1%nat; 1%nat] 1%nat eq_refl ltac:(intros y [])) as [n Hn].
  apply Hn. clear.
  assert (E : forall m, collect_times m (World (fun _ => 0%nat) (fun _ => [])) [1%nat; 1%nat] = [1%nat; 1%nat]).
  { induction m as [|m IH]; [reflexivity|]. cbn [collect_times].
    change (collect_garbage (World (fun _ => 0%nat) (fun _ => [])) [1%nat; 1%nat]) with [1%nat; 1%nat]. exact IH. }
  rewrite E. now left.
Qed.
Print Assumptions C88_unreferenced_objects_are_collected_refuted.

Example C88_pool_example :
  let w := World (fun x => if Nat.eqb x 5 then 1%nat else 0%nat)
                 (fun y => match y with 2%nat => [1%nat] | 5%nat => [3%nat] | _ => [] end) in
  collect_garbage w [1; 2; 3; 4; 5]%nat = [1; 3; 5]%nat
  /\ collect_times 5 w [1; 2; 3; 4; 5]%nat = [3; 5]%nat.
Proof. split; reflexivity. Qed.

(** * Reading lines *)

(** Every text is divided into lines; reading them one by one gives these
    lines, comes to the end of the text exactly after the last of them, and
    not before. *)
Theorem C88_lines_are_read : forall text, exists ls, Lines text ls /\
  fst (read_lines (length ls) (reader0 text)) = ls /\
  at_end (snd (read_lines (length ls) (reader0 text))) = true /\
  forall m, (m < length ls)%nat -> at_end (snd (read_lines m (reader0 text))) = false.
Proof.
  intros text. destruct (lines_exist (length text) text (le_n _)) as [ls H]. exists ls.
  destruct (read_lines_spec text ls H []) as [E F]. cbn [app length] in E, F.
  assert (T : forall n r, rd_text (snd (read_lines n r)) = rd_text r).
  { induction n as [|n IH]; intros r; cbn [read_lines]; [reflexivity|].
    unfold read_line. destruct (scan _) as [a b].
    specialize (IH (Reader (rd_text r) (rd_pos r + a + b))).
    destruct (read_lines n _) as [x y]. exact IH. }
  unfold reader0. split; [exact H|]. split; [now rewrite E|]. split.
  - rewrite E. apply Nat.eqb_refl.
  - intros m Hm. unfold at_end. rewrite T. apply Nat.eqb_neq. specialize (F m Hm). cbn [rd_text]. lia.
Qed.
Print Assumptions C88_lines_are_read.

(** There is only one division into lines. *)
Theorem C88_lines_are_unique : forall text ls ls', Lines text ls -> Lines text ls' -> ls = ls'.
Proof.
  assert (Q : forall t ls ls', Lines t ls -> Lines t ls' -> (length ls <= length ls')%nat -> ls = ls').
  { intros t ls ls' H H' L.
    destruct (read_lines_spec t ls H []) as [E F], (read_lines_spec t ls' H' []) as [E' F'].
    cbn [app length] in *.
    destruct (Nat.eq_dec (length ls) (length ls')) as [X|X].
    - rewrite X in E. rewrite E in E'. now injection E'.
    - specialize (F' (length ls) ltac:(lia)). rewrite E in F'. cbn [snd rd_pos] in F'. lia. }
  intros text ls ls' H H'. destruct (Nat.le_ge_cases (length ls) (length ls')).
  - now apply (Q text).
  - symmetry. now apply (Q text).
Qed.
Print Assumptions C88_lines_are_unique.

(** At the end further lines are empty, the reader stays there and Peek throws. *)
Theorem C88_after_the_end : forall text ls, Lines text ls ->
  let r := snd (read_lines (length ls) (reader0 text)) in
  read_line r = ([], r) /\ peek r = None.
Proof.
  intros text ls H. destruct (read_lines_spec text ls H []) as [E _]. cbn [app length] in E.
  unfold reader0. rewrite E. cbn [snd]. unfold read_line, peek, at_end; cbn [rd_text rd_pos].
  rewrite skipn_all. cbn [scan firstn]. rewrite !Nat.add_0_r, Nat.eqb_refl. now split.
Qed.
Print Assumptions C88_after_the_end.

(** Not true: the lines tell whether the text ended with a line end. *)
Theorem C88_lines_determine_the_text_refuted :
  ~ (forall t t' ls, ~ In 13 t -> ~ In 13 t' -> Lines t ls -> Lines t' ls -> t = t').
Proof.
  intros H. specialize (H [65] [65; 10] [[65]]).
  assert (N : no_newline [65]) by (split; intros [X|[]]; discriminate).
  assert (E : [65] = [65; 10]).
  { apply H.
    - intros [X|[]]; discriminate.
    - intros [X|[X|[]]]; discriminate.
    - apply L_last; [discriminate|exact N].
    - apply (L_lf [65] [] []); [exact N | constructor]. }
  discriminate E.
Qed.
Print Assumptions C88_lines_determine_the_text_refuted.

Example C88_lines_example :
  fst (read_lines 5 (reader0 [65; 13; 10; 10; 66; 67; 13; 68; 10])) = [[65]; []; [66; 67]; [68]; []]
  /\ peek (snd (read_lines 2 (reader0 [65; 13; 10; 10; 66; 67; 13; 68; 10]))) = Some 66.
Proof. split; reflexivity. Qed.

(** * Sequence numbers *)

(** The i-th number given (by calls of any threads, in the order of their
    increments) is the start plus i, wrapped to the w bits of the type; no
    number is given twice among the first 2^w. *)
Theorem C88_sequence_numbers : forall n w s, 0 < w -> 0 <= s < 2 ^ w ->
  length (next_times n w s) = n /\
  (forall i, (i < n)%nat -> nth_error (next_times n w s) i = Some ((s + Z.of_nat i) mod 2 ^ w)) /\
  (Z.of_nat n <= 2 ^ w -> NoDup (next_times n w s)).
Proof.
  intros n w s Hw Hs. split; [apply next_times_length|]. split.
  - intros; now apply next_times_nth.
  - now apply next_times_nodup.
Qed.
Print Assumptions C88_sequence_numbers.

Example C88_sequence_example : next_times 4 2 3 = [3; 0; 1; 2].
Proof. reflexivity. Qed.
