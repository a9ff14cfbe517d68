(** C59: string_view. *)
From Verif Require Import Base SvModel SvSpec SvProofs.
From Coq Require Import Lia.

(** find: the first occurrence from pos on, npos if there is none; nothing outside the view is read. *)
Theorem C59_find d v pos : least (occurs d v) pos (find d v pos).
Proof. exact (find_spec d v pos). Qed.
(** rfind: the last occurrence that starts at pos or before. *)
Theorem C59_rfind d v pos : greatest (occurs d v) pos (rfind d v pos).
Proof. exact (rfind_spec d v pos). Qed.
(** find_first_of, and find_first_not_of for a set of at least one character. *)
Theorem C59_find_first_of d v pos : least (one_of d v) pos (find_first_of d v pos).
Proof.
  unfold find_first_of. destruct v as [|x v]; [|exact (first_loop_spec true d (x :: v) _ pos eq_refl)].
  intros j _ (c & _ & H). destruct H.
Qed.
Theorem C59_find_first_not_of_partial d v pos : v <> [] -> least (none_of d v) pos (find_first_not_of d v pos).
Proof. intros H. unfold find_first_not_of. destruct v as [|x v]; [congruence|exact (first_loop_spec false d (x :: v) _ pos eq_refl)]. Qed.
(** find_last_of and find_last_not_of, when the start is inside the view. *)
Theorem C59_find_last_of_partial d v pos : inside d pos -> greatest (one_of d v) pos (find_last_of d v pos).
Proof.
  intros H. unfold find_last_of. destruct v as [|x v]; [|exact (last_from_spec true d (x :: v) pos H)].
  intros j _ (c & _ & H'). destruct H'.
Qed.
Theorem C59_find_last_not_of_partial d v pos : inside d pos -> v <> [] -> greatest (none_of d v) pos (find_last_not_of d v pos).
Proof. intros H Hv. unfold find_last_not_of. destruct v as [|x v]; [congruence|exact (last_from_spec false d (x :: v) pos H)]. Qed.

(** substr, remove_prefix, remove_suffix, at: exactly the part asked for, or an exception. *)
Theorem C59_substr d pos count : 
  (forall s, substr d pos count = Some s <->
    exists a b, d = a ++ s ++ b /\ length a = pos /\
      match count with Some c => (length s <= c)%nat /\ (b <> [] -> length s = c) | None => b = [] end) /\
  (substr d pos count = None <-> (length d < pos)%nat).
Proof.
  split; [intros s; apply substr_spec|]. unfold substr. destruct (Nat.ltb_spec pos (length d + 1)); split; try discriminate; lia || reflexivity.
Qed.
Theorem C59_remove d n :
  (forall s, remove_prefix d n = Some s <-> exists a, d = a ++ s /\ length a = n) /\
  (forall s, remove_suffix d n = Some s <-> exists b, d = s ++ b /\ length b = n).
Proof.
  unfold remove_prefix, remove_suffix. split; intros s; destruct (Nat.ltb_spec n (length d + 1)) as [H|H].
  - split; [intros E; injection E as <-; exists (firstn n d); rewrite firstn_skipn; split; [reflexivity|rewrite firstn_length; lia]|].
    intros (a & -> & <-). rewrite skipn_app, skipn_all, Nat.sub_diag. reflexivity.
  - split; [discriminate|]. intros (a & -> & <-). rewrite app_length in H. lia.
  - split; [intros E; injection E as <-; exists (skipn (length d - n) d); rewrite firstn_skipn; split; [reflexivity|rewrite skipn_length; lia]|].
    intros (b & -> & <-). rewrite app_length. replace (length s + length b - length b)%nat with (length s) by lia.
    rewrite firstn_app, Nat.sub_diag, firstn_all. cbn. rewrite app_nil_r. reflexivity.
  - split; [discriminate|]. intros (b & -> & <-). rewrite app_length in H. lia.
Qed.
Theorem C59_at d pos : at_ d pos = nth_error d pos.
Proof.
  unfold at_. destruct (Nat.ltb_spec pos (length d)); [reflexivity|]. symmetry. apply nth_error_None. lia.
Qed.
Theorem C59_starts_ends d x : (starts_with d x = true <-> exists b, d = x ++ b) /\ (ends_with d x = true <-> exists a, d = a ++ x).
Proof. split; [apply starts_with_spec|apply ends_with_spec]. Qed.

(** The comparison operators are those of the lexicographic order, for views shorter than 2^31 characters; the order
    is a strict total order. *)
Theorem C59_compare_partial a b : short a -> short b ->
  ((compare a b < 0)%Z <-> lex_lt a b) /\ (compare a b = 0%Z <-> a = b) /\ ((0 < compare a b)%Z <-> lex_lt b a).
Proof.
  intros Ha Hb. pose proof (compare_lt a b Ha Hb) as L. pose proof (compare_zero a b Ha Hb) as E. split; [exact L|]. split; [exact E|].
  split.
  - intros H. destruct (lex_total a b) as [X|[X|X]]; [apply L in X; lia|apply E in X; lia|exact X].
  - intros H. destruct (Z.lt_trichotomy (compare a b) 0) as [X|[X|X]]; [|apply E in X; subst; destruct (lex_irrefl b H)|exact X].
    apply L in X. destruct (lex_irrefl a (lex_trans _ _ _ X H)).
Qed.
Theorem C59_order_total : (forall a, ~ lex_lt a a) /\ (forall a b c, lex_lt a b -> lex_lt b c -> lex_lt a c) /\
  (forall a b, lex_lt a b \/ a = b \/ lex_lt b a).
Proof. split; [exact lex_irrefl|]. split; [exact lex_trans|exact lex_total]. Qed.
(** Views of equal length, however long, are told apart exactly. *)
Theorem C59_equal_length a b : length a = length b -> compare a b = 0%Z <-> a = b.
Proof. exact (compare_eq_sized a b). Qed.

(** Refuted: views of 2^32 characters equal the empty view; with 2^31 characters more the longer one is the lesser. *)
Theorem C59_compare_refuted b : (zlen b = 2 ^ 32 -> compare [] b = 0)%Z /\ (zlen b = 2 ^ 31 -> compare b [] < 0)%Z.
Proof.
  unfold compare. cbv zeta. rewrite Nat.min_0_r, Nat.min_0_l. cbn [length traits_compare Nat.min Z.eqb].
  replace (zlen (@nil Z)) with 0%Z by reflexivity. split; intros ->; vm_compute; reflexivity.
Qed.
(** Refuted: find_first_not_of and find_last_not_of with an empty set; find_last_of on an empty view or from a
    position outside reads what is not there. *)
Theorem C59_not_of_empty_refuted :
  ~ least (none_of [] []) 0 (find_first_not_of [] [] 0) /\
  ~ least (none_of [7; 8]%Z []) 1 (find_first_not_of [7; 8]%Z [] 1) /\
  ~ greatest (none_of [7; 8]%Z []) None (find_last_not_of [7; 8]%Z [] None).
Proof.
  repeat split.
  - cbn. intros (_ & (c & H & _) & _). discriminate.
  - cbn. lia.
  - cbn. intros H. apply (H 0%nat I). exists 7%Z. split; [reflexivity|tauto].
Qed.
Theorem C59_last_outside_refuted x v : find_last_of [] (x :: v) None = Fault /\ find_last_not_of [] (x :: v) None = Fault /\
  (forall d p, (length d <= p)%nat -> find_last_of d (x :: v) (Some p) = Fault).
Proof.
  split; [reflexivity|]. split; [reflexivity|]. intros d p H. unfold find_last_of, last_from. cbn [last_loop].
  apply nth_error_None in H. rewrite H. reflexivity.
Qed.

(** Non-vacuity. *)
Example C59_find_runs : find [1;2;1;2;3]%Z [1;2;3]%Z 0 = Found 2 /\ rfind [1;2;1;2;3]%Z [1;2]%Z None = Found 2 /\ rfind [1;2;1;2;3]%Z [1;2]%Z (Some 1) = Found 0.
Proof. repeat split; reflexivity. Qed.
Example C59_last_runs : inside [1;2;1]%Z None /\ find_last_of [1;2;1]%Z [2]%Z None = Found 1.
Proof. split; [discriminate|reflexivity]. Qed.
Example C59_compare_runs : (compare [1;2] [1;3;0] < 0)%Z /\ short [1;2]%Z.
Proof. split; vm_compute; reflexivity. Qed.

Print Assumptions C59_find.
Print Assumptions C59_rfind.
Print Assumptions C59_find_first_of.
Print Assumptions C59_find_first_not_of_partial.
Print Assumptions C59_find_last_of_partial.
Print Assumptions C59_find_last_not_of_partial.
Print Assumptions C59_substr.
Print Assumptions C59_remove.
Print Assumptions C59_at.
Print Assumptions C59_starts_ends.
Print Assumptions C59_compare_partial.
Print Assumptions C59_order_total.
Print Assumptions C59_equal_length.
Print Assumptions C59_compare_refuted.
Print Assumptions C59_not_of_empty_refuted.
Print Assumptions C59_last_outside_refuted.
