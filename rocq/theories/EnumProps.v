(** * C73: enumerators, their adapters and the Enumerable functions *)
From Coq Require Import List Arith Bool ZArith Lia Sorted.
From Verif Require Import EnumModel EnumSpec EnumProofs.
Import ListNotations.

(** ** T1. For every source and every sequence of calls, each adapter answers as a cursor over the expected list *)
Theorem C73_container_cursor : forall A (l : list A), enumerates_all iterators (l, 0) l.
Proof. intros. apply (iterators_at l 0). lia. Qed.
Theorem C73_empty_cursor : forall A, enumerates_all (@empty A) tt [].
Proof. intros. apply empty_is. Qed.
Theorem C73_one_item_cursor : forall A (x : A), enumerates_all one_item (true, x) [x].
Proof. intros. apply one_item_is. Qed.
Theorem C73_join_cursor : forall A (a b : list A), enumerates_all join (join_init a b) (a ++ b).
Proof. intros. apply join_is. Qed.
Theorem C73_cast_cursor : forall S A (cast : S -> option A) l, enumerates (caster cast) (l, None) (map cast l).
Proof. intros. apply caster_is. Qed.
Theorem C73_of_type_cursor : forall S A (cast : S -> option A) l, enumerates_all (of_type cast) (oft_find cast l) (those_of cast l).
Proof. intros. apply of_type_is. Qed.
Theorem C73_where_cursor : forall S A (cast : S -> option A) (p : S -> bool) l,
  enumerates (wrapper cast p) (wrap_find p l) (map cast (filter p l)).
Proof. intros. apply wrapper_is. Qed.
Theorem C73_transform_cursor : forall S A (f : S -> option A) (l : list S), enumerates (transformer f) l (map f l).
Proof. intros. apply transformer_is. Qed.
Theorem C73_skip : forall A n (l : list A), skip_src n l = skipn n l.
Proof. intros. apply skip_is. Qed.
Theorem C73_take_cursor : forall A n (l : list A), enumerates_all (taker n) (l, 0) (firstn n l).
Proof. intros. pose proof (taker_at n 0 l) as H. now rewrite Nat.sub_0_r in H. Qed.
Theorem C73_flatten_cursor : forall A (l : list (list A)), enumerates_all flattener (flat_find l) (concat l).
Proof. intros. apply flattener_is. Qed.

(** a walk over any of them gives the list, and only that *)
Theorem C73_walk : forall A (m : machine A) s l, enumerates_all m s l ->
  (exists s', walk m s l s') /\ forall l2 s2, walk m s l2 s2 -> l2 = l.
Proof.
  intros A m s l H. destruct (enumerates_walk m l s H) as [s' W]. split; [eauto|].
  intros l2 s2 W2. now destruct (walk_det m s l s' W l2 s2 W2).
Qed.
(** Take shares its source: a walk over it takes exactly its items, so the next Take goes on behind them *)
Theorem C73_take_source : forall A n (l : list A) items s', walk (taker n) (l, 0) items s' -> items = firstn n l /\ fst s' = skipn n l.
Proof.
  intros A n l items s' W. pose proof (taker_walk n l 0) as T. rewrite Nat.sub_0_r in T.
  destruct (walk_det _ _ _ _ T _ _ W) as [-> ->]. auto.
Qed.
(** FuncEnumerator: a walk gives the values up to the first index that is not valid *)
Theorem C73_func_walk_partial : forall A (f : nat -> A) v n, (forall i, i < n -> v i = true) -> v n = false ->
  walk (func (fun i => Some (f i)) v) 0 (map f (seq 0 n)) n.
Proof. intros A f v n Hv Hn. pose proof (func_walk f v n 0 (Nat.le_0_l n) Hv Hn) as H. now rewrite Nat.sub_0_r in H. Qed.
(** but Next behind the end does not throw as that of every other enumerator does *)
Theorem C73_func_cursor_refuted : ~ (forall A (f : nat -> A) v n, (forall i, i < n -> v i = true) -> v n = false ->
  enumerates_all (func (fun i => Some (f i)) v) 0 (map f (seq 0 n))).
Proof.
  intros H. specialize (H nat (fun i => i) (fun _ => false) 0). assert (F := H ltac:(lia) eq_refl [Next]). discriminate.
Qed.

(** ** T2. The consuming functions: their result and the enumerator they leave *)
Theorem C73_aggregate : forall A B (f : B -> A -> B) (g : A -> A -> A) b l,
  aggregate f b l = (fold_left f l b, []) /\
  aggregate1 g l = (match l with [] => None | x :: r => Some (fold_left g r x) end, []).
Proof. intros. split; [apply aggregate_is|apply aggregate1_is]. Qed.
Theorem C73_all_any : forall A (p : A -> bool) l,
  all p l = (forallb p l, drop_while p l) /\ any_of p l = (existsb p l, drop_while (fun x => negb (p x)) l) /\
  (fst (any l) = true <-> l <> []) /\ snd (any l) = l.
Proof.
  intros. split; [apply all_is|]. split; [apply any_of_is|]. split; [|reflexivity].
  destruct l; cbn; split; intros; congruence.
Qed.
Theorem C73_count : forall A (p : A -> bool) l, count 0 p l = (length (filter p l), []).
Proof. intros. apply (count_is p l 0). Qed.
Theorem C73_for_each_calls : forall A (l : list A), for_each [] l = (l, []) /\ to_vector [] l = (l, []).
Proof. intros. split; [apply (for_each_is l [])|apply (to_vector_is l [])]. Qed.
Theorem C73_index_of : forall A (p : A -> bool) l,
  (exists i x, index_of 0 p l = (Some i, skipn i l) /\ nth_error l i = Some x /\ p x = true /\
     forall j y, j < i -> nth_error l j = Some y -> p y = false) \/
  (index_of 0 p l = (None, []) /\ forall x, In x l -> p x = false).
Proof.
  intros A p l. destruct (index_of_is p l 0) as [H|[E1 E2]]; [left; exact H|right]. split; [exact E1|].
  intros x Hx. rewrite forallb_forall in E2. specialize (E2 x Hx). now destruct (p x).
Qed.
Theorem C73_element_at : forall A i (l : list A), element_at i 0 l = (nth_error l i, skipn i l).
Proof. intros. pose proof (element_at_is l i 0 (Nat.le_0_l i)) as H. now rewrite Nat.sub_0_r in H. Qed.
Theorem C73_first_last : forall A (p : A -> bool) l,
  first l = (hd_error l, l) /\
  first_of p l = (find p l, drop_while (fun x => negb (p x)) l) /\
  first_or p l = (find p l, drop_while (fun x => negb (p x)) l) /\
  last_of None p l = (find p (rev l), []).
Proof.
  intros. split; [now destruct l|]. split; [apply first_of_is|]. split; [apply first_or_is|].
  rewrite last_of_is. now destruct (find p (rev l)).
Qed.
Theorem C73_single : forall A (l : list A) x, fst (single l) = Some x <-> l = [x].
Proof.
  intros A l x. destruct l as [|a [|b l]]; cbn; split; intros H; congruence.
Qed.
Theorem C73_sequence_equal : forall A B (p : A -> B -> bool) l m,
  (fst (fst (sequence_equal p l m)) = true <-> Forall2 (fun x y => p x y = true) l m) /\
  exists k, snd (fst (sequence_equal p l m)) = skipn k l /\ snd (sequence_equal p l m) = skipn k m /\
    Forall2 (fun x y => p x y = true) (firstn k l) (firstn k m).
Proof.
  intros. split; [apply sequence_equal_result|]. destruct (sequence_equal_is p l m) as [k H]. exists k.
  destruct (sequence_equal p l m) as [[r l'] m']. cbn in *. tauto.
Qed.
(** one enumerator given twice: exactly the sequences of even length compare equal to themselves, the others throw *)
Theorem C73_sequence_equal_to_itself : forall A (p : A -> A -> bool) l n, (forall x, p x x = true) -> length l < n ->
  sequence_equal_same p n l = if Nat.even (length l) then Some true else None.
Proof. intros. now apply same_is. Qed.
Theorem C73_sequence_equal_same_refuted : ~ (forall (l : list nat), exists n, sequence_equal_same Nat.eqb n l = Some true).
Proof.
  intros H. destruct (H [7]) as [n Hn]. destruct n as [|n]; [discriminate|]. cbn in Hn. discriminate.
Qed.

(** ** T3. Diff leads from one sequence to the other; for ascending sequences it is the two set differences *)
Theorem C73_diff : forall A (cmp : A -> A -> Z) s d, exists e,
  enumerates_all (differ cmp) (diff_find cmp s d) e /\ leads cmp s d e /\
  (orders cmp -> ascending cmp s -> ascending cmp d ->
     removed_items e = not_in cmp d s /\ added_items e = not_in cmp s d /\
     StronglySorted (fun x y => (cmp (item x) (item y) < 0)%Z) e).
Proof.
  intros A cmp s d. destruct (chosen_exists cmp _ s d (le_n _)) as [e C]. exists e.
  split; [now apply differ_is|]. split; [now apply chosen_leads|]. intros O Hs Hd.
  destruct (chosen_sorted cmp O s d e C Hs Hd) as [H1 H2]. split; [exact H1|]. split; [exact H2|]. now apply (chosen_ascending cmp O s d).
Qed.
(** sequences that are not ascending: an item both have may be reported as removed and added *)
Theorem C73_diff_unsorted_refuted : ~ (forall (s d : list Z) e,
  enumerates_all (differ Z.sub) (diff_find Z.sub s d) e -> forall x, In (Added x) e -> ~ In x s).
Proof.
  intros H. specialize (H [2; 1]%Z [1; 2]%Z [Added 1; Removed 1]%Z).
  assert (E : enumerates_all (differ Z.sub) (diff_find Z.sub [2; 1]%Z [1; 2]%Z) [Added 1; Removed 1]%Z).
  { apply differ_is. apply ch_more; [lia|]. apply ch_same; [lia|]. apply ch_rem. apply ch_done. }
  apply (H E 1%Z); cbn; auto.
Qed.

(** ** T4. Enumerables *)
(** % and Get: at any later time, the concatenation of what the parts then hold *)
Theorem C73_joiner : forall A (es : list (enumerable A)) t,
  joiner_get (fold_left joiner_add es None) t = concat (map (fun e => e t) es).
Proof.
  intros A es t.
  assert (G : forall (es : list (enumerable A)) (r : option (enumerable A)), joiner_get (fold_left joiner_add es r) t = joiner_get r t ++ concat (map (fun e => e t) es)).
  { clear es. intros es. induction es as [|e l IH]; intros r.
    - cbn. now rewrite app_nil_r.
    - cbn [fold_left map concat]. rewrite IH. destruct r; cbn; [now rewrite app_assoc|reflexivity]. }
  rewrite G. reflexivity.
Qed.
(** Clone and Reverse keep what was there when they were called *)
Theorem C73_snapshots : forall A (e : enumerable A) now t, clone_at e now t = e now /\ reverse_at e now t = rev (e now).
Proof. intros. unfold clone_at, reverse_at. now rewrite (to_vector_is (e now) []). Qed.
(** DefaultIfEmpty is decided when it is called *)
Theorem C73_default_if_empty_partial : forall A (e : enumerable A) now x,
  default_if_empty e now x now = match e now with [] => [x] | l => l end.
Proof. intros. unfold default_if_empty. destruct (e now) eqn:E; cbn; auto. Qed.
Theorem C73_default_if_empty_refuted : ~ (forall A (e : enumerable A) now x t,
  default_if_empty e now x t = match e t with [] => [x] | l => l end).
Proof. intros H. specialize (H nat (fun t => match t with O => [] | _ => [1; 2] end) 0 9 1). discriminate. Qed.

Definition builder_of {A} (l : list A) : builder A := fold_left builder_add l builder_new.
(** EnumerableBuilder: what Get gives is good until the next Add *)
Lemma builder_items : forall A (l : list A) b, items (fold_left builder_add l b) = items b ++ l /\ epoch (fold_left builder_add l b) = epoch b + length l.
Proof.
  intros A l. induction l as [|x l IH]; intros b; cbn [fold_left length]; [rewrite app_nil_r; split; [reflexivity|lia]|].
  destruct (IH (builder_add b x)) as [-> ->]. cbn. rewrite <- app_assoc. split; [reflexivity|lia].
Qed.
Theorem C73_builder_partial : forall A (l : list A), built_items (builder_of l) (builder_get (builder_of l)) = Some l.
Proof.
  intros. unfold built_items, builder_get. cbn [taken upto]. rewrite Nat.eqb_refl, firstn_all.
  unfold builder_of. destruct (builder_items A l builder_new) as [-> _]. reflexivity.
Qed.
Theorem C73_builder_add_after_get_refuted : forall A (l more : list A), more <> [] ->
  built_items (builder_of (l ++ more)) (builder_get (builder_of l)) = None.
Proof.
  intros A l more H. unfold built_items. cbn [taken builder_get]. unfold builder_of.
  rewrite (proj2 (builder_items A l builder_new)), (proj2 (builder_items A (l ++ more) builder_new)), app_length. cbn.
  destruct more; [contradiction|]. cbn. destruct (Nat.eqb_spec (length l) (length l + S (length more))); [lia|reflexivity].
Qed.

(** ** T5. ToRange: every operation is exact about the position *)
Theorem C73_range : forall A (l : list A) k s, at_position l k s ->
  r_valid s = (k <? length l) /\ r_get s = nth_error l k /\ r_copy l s = Some s /\
  (k < length l -> exists s', r_next s = Some s' /\ at_position l (S k) s') /\ (k = length l -> r_next s = None) /\
  (forall k' s', at_position l k' s' -> (r_equals s s' = true <-> k = k')).
Proof.
  intros A l k s H. split; [now apply r_valid_at|]. split; [now apply r_get_at|]. split; [now apply r_copy_at with k|].
  split; [|split].
  - intros L. destruct (r_next_at l k s H) as [[_ E]|[E _]]; [exact E|lia].
  - intros L. destruct (r_next_at l k s H) as [[E _]|[_ E]]; [lia|exact E].
  - intros k' s' H'. unfold r_equals. destruct H as [-> _], H' as [-> _]. apply Nat.eqb_eq.
Qed.
Theorem C73_range_ends : forall A (l : list A), at_position l 0 (r_first l) /\
  exists s, r_last l = Some s /\ at_position l (Nat.pred (length l)) s.
Proof. intros. split; [apply r_first_at|apply r_last_at]. Qed.

(** ** T6. Loops *)
(** for (auto x : enumerable): every item once, in order *)
Theorem C73_range_for : forall A S (body : A -> S -> S) l s, range_for body l s = Some (fold_left (fun s x => body x s) l s).
Proof. intros. apply range_for_is. Qed.
(** two iterators that are not the end cannot be compared, not even with themselves *)
Theorem C73_iterator_compare_refuted : forall A (l : list A), iter_ne l IterAt IterAt = None.
Proof. reflexivity. Qed.
(** FOR_EACH ... WHERE without break: the body on the selected items in order, all items used up *)
Theorem C73_for_each_macro : forall A S (p : A -> bool) (body : A -> S -> S) l s,
  for_each_macro p (fun x s => (body x s, Normal)) l s = Some ([], fold_left (fun s x => body x s) (filter p l) s).
Proof.
  intros. rewrite for_each_macro_is. f_equal. revert s. induction l as [|x l IH]; intros s; cbn; [reflexivity|].
  destruct (p x); cbn; apply IH.
Qed.
(** break leaves the loop at once: the body saw the selected items up to that one, and the enumerator stands behind it *)
Theorem C73_for_each_break : forall A S (p : A -> bool) (body : A -> S -> S * outcome) pre x post s s1 s2,
  (forall y s, In y pre -> p y = true -> snd (body y s) = Normal) ->
  fold_left (fun s y => fst (body y s)) (filter p pre) s = s1 ->
  p x = true -> body x s1 = (s2, Break) ->
  for_each_macro p body (pre ++ x :: post) s = Some (post, s2).
Proof.
  intros A S p body pre x post s s1 s2 HN HF Hx HB. rewrite for_each_macro_is. f_equal. revert s HF.
  induction pre as [|y pre IH]; intros s HF; cbn in *.
  - subst s1. now rewrite Hx, HB.
  - destruct (p y) eqn:E; cbn in *.
    + pose proof (HN y s (or_introl eq_refl) E) as N. destruct (body y s) as [s' o]. cbn in *. subst o. apply IH; auto.
    + apply IH; auto.
Qed.

(** ** The hypotheses can be met *)
Example C73_ex_join : run join (join_init [1] [2; 3]) [Next; Get; Next; Valid; Get; Next; Valid; Get; Next] =
  [Moved; Got 2; Moved; IsValid true; Got 3; Moved; IsValid false; Thrown; Thrown].
Proof. reflexivity. Qed.
Example C73_ex_flatten : run flattener (flat_find [[]; [1; 2]; []; [3]; []]) [Get; Next; Get; Next; Get; Next; Valid] =
  [Got 1; Moved; Got 2; Moved; Got 3; Moved; IsValid false].
Proof. reflexivity. Qed.
Example C73_ex_diff : exists s, walk (differ Z.sub) (diff_find Z.sub [1; 2; 4] [2; 3; 4; 5])%Z [Removed 1; Added 3; Added 5]%Z s.
Proof.
  eexists. eapply walk_item; [reflexivity..|]. eapply walk_item; [reflexivity..|]. eapply walk_item; [reflexivity..|]. now apply walk_end.
Qed.
Example C73_ex_orders : orders Z.sub /\ ascending Z.sub [1; 2; 4]%Z.
Proof.
  split; [split; intros; lia|]. unfold ascending.
  apply SSorted_cons; [apply SSorted_cons; [apply SSorted_cons; [apply SSorted_nil|]|]|].
  - apply Forall_nil.
  - apply Forall_cons; [reflexivity|apply Forall_nil].
  - apply Forall_cons; [reflexivity|]. apply Forall_cons; [reflexivity|apply Forall_nil].
Qed.
Example C73_ex_break : for_each_macro Nat.even (fun x s => (s ++ [x], if x =? 4 then Break else Normal)) [1; 2; 3; 4; 5; 6] [] = Some ([5; 6], [2; 4]).
Proof. reflexivity. Qed.
Example C73_ex_func : walk (func (fun i => Some (i * i)) (fun i => i <? 3)) 0 [0; 1; 4] 3.
Proof. apply (C73_func_walk_partial nat (fun i => i * i) (fun i => i <? 3) 3); [intros i H; now apply Nat.ltb_lt|reflexivity]. Qed.
Example C73_ex_range : at_position [5; 6; 7] 2 ([7], 2).
Proof. split; [reflexivity|]. split; [reflexivity|cbn; lia]. Qed.

Print Assumptions C73_container_cursor.
Print Assumptions C73_empty_cursor.
Print Assumptions C73_one_item_cursor.
Print Assumptions C73_join_cursor.
Print Assumptions C73_cast_cursor.
Print Assumptions C73_of_type_cursor.
Print Assumptions C73_where_cursor.
Print Assumptions C73_transform_cursor.
Print Assumptions C73_skip.
Print Assumptions C73_take_cursor.
Print Assumptions C73_flatten_cursor.
Print Assumptions C73_walk.
Print Assumptions C73_take_source.
Print Assumptions C73_func_walk_partial.
Print Assumptions C73_func_cursor_refuted.
Print Assumptions C73_aggregate.
Print Assumptions C73_all_any.
Print Assumptions C73_count.
Print Assumptions C73_for_each_calls.
Print Assumptions C73_index_of.
Print Assumptions C73_element_at.
Print Assumptions C73_first_last.
Print Assumptions C73_single.
Print Assumptions C73_sequence_equal.
Print Assumptions C73_sequence_equal_to_itself.
Print Assumptions C73_sequence_equal_same_refuted.
Print Assumptions C73_diff.
Print Assumptions C73_diff_unsorted_refuted.
Print Assumptions C73_joiner.
Print Assumptions C73_snapshots.
Print Assumptions C73_default_if_empty_partial.
Print Assumptions C73_default_if_empty_refuted.
Print Assumptions C73_builder_partial.
Print Assumptions C73_builder_add_after_get_refuted.
Print Assumptions C73_range.
Print Assumptions C73_range_ends.
Print Assumptions C73_range_for.
Print Assumptions C73_iterator_compare_refuted.
Print Assumptions C73_for_each_macro.
Print Assumptions C73_for_each_break.
