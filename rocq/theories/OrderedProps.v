(** C37: ordered_map / ordered_set: a map that iterates in insertion order. *)
From Coq Require Import List Arith Lia Bool Sorting.Sorted Sorting.Permutation.
From Verif Require Import FlatSpec FlatProofs FlatProps OrderedSpec OrderedModel OrderedProofs.
Import ListNotations.
Set Implicit Arguments.

Section P.
Variables C K V : Type.
Variable less : C -> K -> K -> bool.
Variable c0 : C.
Variable dflt : V.
Notation st := (st C K V).
Notation content := (content K V).
Notation entry := (entry K V).

(** What one call does to the sequence of entries, under comparator [c]. *)
Inductive insert_spec (c : C) (l : content) (throws : bool) (pos : option nat) (k : K) (v : V) : content -> option (nat * bool) -> Prop :=
| is_old x : stored (less c) l k = Some x -> insert_spec c l throws pos k v l (Some (hnd x, false))
| is_throw : stored (less c) l k = None -> throws = true -> insert_spec c l throws pos k v l None
| is_new h : stored (less c) l k = None -> throws = false -> ~ has l h ->
    insert_spec c l throws pos k v (put_before l pos {| hnd := h; key := k; val := v |}) (Some (h, true)).
Inductive sstep (c : C) (l : content) : op K V -> content -> Prop :=
| s_insert t p k v l' r : insert_spec c l t p k v l' r -> sstep c l (Insert t p (k, v)) l'
| s_index t k l' r : insert_spec c l t None k dflt l' r -> sstep c l (Index t k) l'
| s_write h v : has l h -> sstep c l (Write h v) (OrderedSpec.write l h v)
| s_erase h : has l h -> sstep c l (EraseIt h) (drop l h)
| s_range a b l' : drop_range l a b l' -> sstep c l (EraseRange a b) l'
| s_key_some k x : stored (less c) l k = Some x -> sstep c l (EraseKey k) (drop l (hnd x))
| s_key_none k : stored (less c) l k = None -> sstep c l (EraseKey k) l
| s_clear : sstep c l Clear [].
Inductive ssteps (c : C) : content -> list (op K V) -> content -> Prop :=
| ss_nil l : ssteps c l [] l
| ss_cons l o l1 os l2 : sstep c l o l1 -> ssteps c l1 os l2 -> ssteps c l (o :: os) l2.

(** reachable: built from an empty container with any comparator object by any calls *)
Definition reachable (s : st) : Prop := exists c os, runs less dflt (empty K V c) os = Some s.

Section Ord.
Hypothesis O : forall c, strict_weak_order (less c).

Lemma has_in (s : st) h : I less s -> has (view s) h <-> In h (ord s).
Proof. intros H. unfold has. rewrite (view_hnd H). tauto. Qed.
Lemma valid_in (s : st) h : valid s (Some h) = true <-> In h (ord s).
Proof. cbn. rewrite existsb_exists. split. - intros (j&Hj&E). apply Nat.eqb_eq in E. now subst. - intros Hj. exists h. split; auto. apply Nat.eqb_refl. Qed.

Lemma insert_ok (s : st) p k v t s' r : I less s -> do_insert less t s p (k, v) = (s', r) ->
  I less s' /\ cmp s' = cmp s /\ insert_spec (cmp s) (view s) t p k v (view s') r.
Proof.
  intros H D. destruct (@do_insert_ok _ _ _ _ O _ _ _ _ _ _ H D) as (A&B&E). split; auto. split; auto. cbn in E. destruct (stored _ _ _) as [x|] eqn:S.
  - destruct E as (->&->). now apply is_old.
  - destruct t. + destruct E as (->&->). now apply is_throw. + destruct E as (i&->&N&->). apply is_new; auto. now rewrite has_in.
Qed.

Lemma step_ok (s : st) o s' : I less s -> step less dflt s o = Some s' -> I less s' /\ cmp s' = cmp s /\ sstep (cmp s) (view s) o (view s').
Proof.
  intros H S. destruct o; cbn [step] in S.
  - destruct (valid s pos); [|discriminate]. injection S as <-. destruct e as (k, v). destruct (do_insert less throws s pos (k, v)) as (s', r) eqn:D. cbn.
    destruct (@insert_ok _ _ _ _ _ _ _ H D) as (A&B&E). split; auto. split; auto. econstructor; eauto.
  - injection S as <-. destruct (do_insert less throws s None (k, dflt)) as (s', r) eqn:D. cbn.
    destruct (@insert_ok _ _ _ _ _ _ _ H D) as (A&B&E). split; auto. split; auto. econstructor; eauto.
  - destruct (valid s (Some i)) eqn:Va; [|discriminate]. injection S as <-. apply valid_in in Va. destruct (@write_ok _ _ _ _ s i v H Va) as (A&B).
    split; auto. split; auto. rewrite B. constructor. now apply has_in.
  - destruct (valid s (Some i)) eqn:Va; [|discriminate]. injection S as <-. apply valid_in in Va. destruct (@erase_it_ok _ _ _ _ s i H) as (A&B).
    split; auto. split; auto. rewrite B. constructor. now apply has_in.
  - destruct (valid s first && valid s last) eqn:Va; [|discriminate]. apply andb_true_iff in Va. destruct Va as (Va&_).
    destruct (@erase_range_view _ _ _ _ _ _ _ _ _ H Va S) as (A&B&E). split; auto. split; auto. now constructor.
  - injection S as <-. unfold erase_key. rewrite (@find_ok _ _ _ _ O s k H). destruct (stored _ _ _) as [x|] eqn:Q; cbn [option_map fst].
    + destruct (@erase_it_ok _ _ _ _ s (hnd x) H) as (A&B). split; auto. split; auto. rewrite B. now constructor.
    + split; auto. split; auto. now constructor.
  - injection S as <-. destruct (@clear_ok C K V less s) as (A&B). split; auto. split; auto. rewrite B. constructor.
Qed.
Lemma runs_ok os : forall s s' : st, I less s -> runs less dflt s os = Some s' -> I less s' /\ cmp s' = cmp s /\ ssteps (cmp s) (view s) os (view s').
Proof.
  induction os as [|o os IH]; intros s s' H R; cbn in R.
  - injection R as <-. split; auto. split; auto. constructor.
  - destruct (step less dflt s o) as [s1|] eqn:S; [|discriminate]. destruct (@step_ok _ _ _ H S) as (A&B&D). destruct (IH s1 s' A R) as (A'&B'&D'). split; auto. split; [congruence|].
    econstructor; eauto. now rewrite <- B.
Qed.
Lemma reach_I (s : st) : reachable s -> I less s.
Proof. intros (c&os&R). eapply runs_ok; eauto. apply empty_ok. Qed.

(** Any history of calls is the history of an insertion-ordered map: new entries go to the end (or just
    before the hint), entries keep their place and handle (iterators stay valid) until erased, an
    insertion with a key that is there changes nothing, a failed insertion changes nothing. *)
Theorem C37_ordered_is_a_map c os s : runs less dflt (empty K V c) os = Some s -> ssteps c [] os (view s) /\ cmp s = c.
Proof. intros R. destruct (@runs_ok _ _ _ (proj1 (@empty_ok C K V less c)) R) as (A&B&D). auto. Qed.

(** One call from any reachable state, with its result. *)
Theorem C37_insert (s : st) p k v t s' r : reachable s -> do_insert less t s p (k, v) = (s', r) ->
  insert_spec (cmp s) (view s) t p k v (view s') r.
Proof. intros H D. apply reach_I in H. now destruct (@insert_ok _ _ _ _ _ _ _ H D). Qed.

(** What iterators show is the content; no two entries share a key; lookups find exactly the entry of the key. *)
Theorem C37_lookup (s : st) : reachable s ->
  items s = map (fun x => (key x, val x)) (view s) /\
  (forall x, In x (view s) <-> deref s (hnd x) = Some (key x, val x)) /\
  (forall x y, In x (view s) -> In y (view s) -> same (less (cmp s)) (key x) (key y) = true -> x = y) /\
  forall k, (forall x, stored (less (cmp s)) (view s) k = Some x <-> In x (view s) /\ same (less (cmp s)) k (key x) = true) /\
    find less s k = option_map (@hnd K V) (stored (less (cmp s)) (view s) k) /\
    at_key less s k = option_map (@val K V) (stored (less (cmp s)) (view s) k) /\
    count less s k = (match stored (less (cmp s)) (view s) k with Some _ => 1 | None => 0 end).
Proof.
  intros H. apply reach_I in H. split; [apply items_view|]. split; [intros x; now apply (@in_view _ _ _ less)|]. split.
  { intros x y Hx Hy S. apply (@in_view _ _ _ _ s _ H) in Hx, Hy. assert (E : hnd x = hnd y) by (eapply same_unique; eauto). rewrite E in Hx. destruct x, y; cbn in *. congruence. }
  intros k. split; [intros; now apply stored_iff|]. split; [now apply find_ok|]. unfold at_key, count. rewrite (@find_ok _ _ _ _ O s k H). destruct (stored _ _ _) as [x|] eqn:E; cbn; auto.
  apply (@stored_iff _ _ _ _ O s _ _ H) in E. destruct E as (E&_). apply (@in_view _ _ _ _ s _ H) in E. now rewrite E.
Qed.

(** Only invalid iterators (or a range whose end is not reached) are undefined. *)
Theorem C37_defined (s : st) o : reachable s -> step less dflt s o = None <->
  match o with
  | Insert _ (Some h) _ | Write h _ | EraseIt h => ~ has (view s) h
  | EraseRange a b => ~ exists l', drop_range (view s) a b l'
  | _ => False
  end.
Proof.
  intros H. apply reach_I in H. assert (V1 : forall h, valid s (Some h) = false <-> ~ has (view s) h).
  { intros h. rewrite has_in by auto. rewrite <- valid_in. destruct (valid s (Some h)); split; congruence. }
  destruct o; cbn [step]; try (split; [discriminate|tauto]).
  - destruct pos as [h|]; [|split; [discriminate|tauto]]. rewrite <- V1. destruct (valid s (Some h)); split; congruence.
  - rewrite <- V1. destruct (valid s (Some i)); split; congruence.
  - rewrite <- V1. destruct (valid s (Some i)); split; congruence.
  - split.
    + intros S (l'&D). inversion D as [p q r E Ea Eb]; subst.
      assert (HM : map (@hnd K V) (view s) = map (@hnd K V) p ++ map (@hnd K V) q ++ map (@hnd K V) r) by (rewrite E, !map_app; auto).
      rewrite (view_hnd H) in HM.
      assert (Hd : forall l : list entry, option_map (@hnd K V) (hd_error l) = hd_error (map (@hnd K V) l)) by (intros [|]; auto).
      rewrite !Hd, map_app in S.
      assert (Vv : forall l, (forall i, In i l -> In i (ord s)) -> valid s (hd_error l) = true).
      { intros [|i l] Hl; [reflexivity|]. change (hd_error (i :: l)) with (Some i). apply valid_in, Hl. now left. }
      rewrite !Vv in S.
      * cbn [andb] in S. eapply (@erase_range_total C K V less); [exact H|exact HM| |exact S]. rewrite HM, !app_length. lia.
      * intros i Hi. rewrite HM. apply in_or_app. right. apply in_or_app. auto.
      * intros i Hi. rewrite HM. apply in_or_app. auto.
    + intros N. destruct (valid s first && valid s last) eqn:Va; auto. apply andb_true_iff in Va. destruct Va as (Va&_).
      destruct (erase_range (length (ord s)) s first last) as [s'|] eqn:S; auto. exfalso. apply N. exists (view s'). eapply erase_range_view; eauto.
Qed.

(** Copies.  Two containers compare equal when their items are equal, in order. *)
Lemma put_end (l : content) e : put_before l None e = l ++ [e]. Proof. destruct l; reflexivity. Qed.
Lemma range_items es : forall s : st, I less s ->
  (forall i j e f, i < j -> nth_error (items s ++ es) i = Some e -> nth_error (items s ++ es) j = Some f -> same (less (cmp s)) (fst f) (fst e) = false) ->
  I less (insert_range less s es) /\ cmp (insert_range less s es) = cmp s /\ items (insert_range less s es) = items s ++ es.
Proof.
  unfold insert_range. induction es as [|(k, v) es IH]; intros s H D; cbn [fold_left].
  - split; auto. split; auto. now rewrite app_nil_r.
  - destruct (do_insert less false s None (k, v)) as (s1, r) eqn:E. cbn [fst]. destruct (@insert_ok _ _ _ _ _ _ _ H E) as (A&B&Sp).
    assert (N : stored (less (cmp s)) (view s) k = None).
    { destruct (stored (less (cmp s)) (view s) k) as [x|] eqn:Q; auto. exfalso. apply (@stored_iff _ _ _ _ O s _ _ H) in Q. destruct Q as (Q1&Q2).
      apply (in_map (fun x => (key x, val x))) in Q1. rewrite <- items_view in Q1. apply In_nth_error in Q1. destruct Q1 as (i&Q1). pose proof (nth_error_Some_lt _ _ Q1) as L.
      specialize (D i (length (items s)) (key x, val x) (k, v) L). rewrite nth_error_app1 in D by auto. rewrite nth_error_app2, Nat.sub_diag in D by lia. specialize (D Q1 eq_refl). cbn in D. congruence. }
    assert (HI : items s1 = items s ++ [(k, v)]).
    { rewrite !items_view. inversion Sp as [x Q|Q|h Q1 Q2 Q3]; subst; try congruence. rewrite put_end, map_app. reflexivity. }
    destruct (IH s1 A) as (A'&B'&C').
    { rewrite HI, B, <- app_assoc. exact D. }
    split; auto. split; [congruence|]. rewrite C', HI, <- app_assoc. reflexivity.
Qed.
Lemma items_distinct (s : st) : I less s -> forall i j e f, i < j -> nth_error (items s) i = Some e -> nth_error (items s) j = Some f -> same (less (cmp s)) (fst f) (fst e) = false.
Proof.
  intros H i j e f L Hi Hj. rewrite items_view in Hi, Hj. rewrite nth_error_map in Hi, Hj.
  destruct (nth_error (view s) i) as [x|] eqn:Ex; [|discriminate]. destruct (nth_error (view s) j) as [y|] eqn:Ey; [|discriminate]. injection Hi as <-. injection Hj as <-. cbn.
  destruct (same _ _ _) eqn:S; auto. exfalso. assert (hnd y = hnd x).
  { pose proof Ex as Ex'. pose proof Ey as Ey'. apply nth_error_In in Ex', Ey'. apply (@in_view _ _ _ _ s _ H) in Ex', Ey'. eapply same_unique; eauto. }
  pose proof (i_nodup H) as ND. rewrite <- (view_hnd H) in ND. rewrite NoDup_nth_error in ND. assert (i = j); [|lia]. apply ND.
  - rewrite map_length. eapply nth_error_Some_lt; eauto.
  - rewrite !nth_error_map, Ex, Ey. cbn. congruence.
Qed.

(** Copy construction and copy assignment from another object reproduce the content whenever the target's
    comparator orders keys as the source's does. *)
Theorem C37_copy_partial (s : st) : reachable s -> (forall x y, less c0 x y = less (cmp s) x y) -> items (copy less c0 s) = items s.
Proof.
  intros H E. apply reach_I in H. unfold copy. destruct (@range_items (items s) (empty K V c0)) as (_&_&R); auto. { apply empty_ok. }
  cbn. intros i j e f L Hi Hj. pose proof (@items_distinct _ H _ _ _ _ L Hi Hj) as Q. unfold same in *. now rewrite !E.
Qed.
Theorem C37_copy_assign_partial (s o : st) : reachable s -> reachable o -> (forall x y, less (cmp s) x y = less (cmp o) x y) ->
  items (copy_assign less false s o) = items o.
Proof.
  intros H Ho E. apply reach_I in H, Ho. unfold copy_assign. destruct (@range_items (items o) (clear s)) as (_&_&R); auto. { apply clear_ok. }
  cbn. intros i j e f L Hi Hj. pose proof (@items_distinct _ Ho _ _ _ _ L Hi Hj) as Q. unfold same in *. now rewrite !E.
Qed.
(** erase(key) says how many elements it erased: one if the key is there, none otherwise *)
Theorem C37_erase_count (s : st) k : reachable s ->
  snd (erase_key less s k) = (match stored (less (cmp s)) (view s) k with Some _ => 1 | None => 0 end) /\
  snd (erase_key less s k) = count less s k.
Proof.
  intros H. pose proof (proj2 (proj2 (proj2 (C37_lookup H))) k) as (_ & F & _ & N). rewrite N. unfold erase_key. rewrite F.
  destruct (stored _ _ _); cbn; auto.
Qed.

End Ord.
End P.

(** m = m must leave m as it was; it empties the container (ordered_map.h:202-207, ordered_set.h:178-183). *)
Theorem C37_self_assignment_refuted :
  ~ (forall s : st unit nat nat, reachable (fun _ => Nat.ltb) 0 s -> items (copy_assign (fun _ => Nat.ltb) true s s) = items s).
Proof.
  intros H. specialize (H (fst (do_insert (fun _ => Nat.ltb) false (empty nat nat tt) None (1, 10)))). cbn in H. assert (E : [] = [(1, 10)]); [|discriminate]. apply H.
  exists tt, [Insert false None (1, 10)]. reflexivity.
Qed.
(** every self-assignment does *)
Theorem C37_self_assignment_clears (C K V : Type) (less : C -> K -> K -> bool) (s : st C K V) : items (copy_assign less true s s) = [].
Proof. reflexivity. Qed.

(** A copy must have the same content; the copy constructor uses a default comparator, and entries which
    that one does not tell apart are lost (ordered_map.h:182-188, ordered_set.h:158-164). *)
Theorem C37_copy_refuted :
  ~ (forall (less : bool -> nat -> nat -> bool), (forall c, strict_weak_order (less c)) -> forall s : st bool nat nat, reachable less 0 s -> items (copy less false s) = items s).
Proof.
  intros H. specialize (H (fun c => if c then Nat.ltb else tens)). assert (O : forall c : bool, strict_weak_order (if c then Nat.ltb else tens)) by (intros [|]; [apply ltb_swo|apply tens_swo]).
  specialize (H O). destruct (runs (fun c : bool => if c then Nat.ltb else tens) 0 (empty nat nat true) [Insert false None (12, 1); Insert false None (13, 2)]) as [s|] eqn:R; [|discriminate].
  assert (X := H s). assert (Q : reachable (fun c : bool => if c then Nat.ltb else tens) 0 s) by (eexists _, _; exact R). specialize (X Q). injection R as <-. vm_compute in X. discriminate.
Qed.

(** ---- non-vacuity ---- *)
Definition ex_ops : list (op nat nat) :=
  [Insert false None (30, 1); Insert false None (11, 2); Insert false (Some 0) (50, 3); Insert false None (35, 9); Insert true None (70, 4); Index false 99; Write 1 22].
Example C37_run : option_map (fun s => (items s, ord s, srt s, find (fun _ : unit => tens) s 38, count (fun _ => tens) s 70)) (runs (fun _ => tens) 0 (empty nat nat tt) ex_ops)
  = Some ([(50, 3); (30, 1); (11, 22); (99, 0)], [2; 0; 1; 4], [1; 0; 2; 4], Some 0, 0).
Proof. reflexivity. Qed.
Example C37_run_erase : option_map (@items unit nat nat) (runs (fun _ => tens) 0 (empty nat nat tt) (ex_ops ++ [EraseKey 98; EraseRange (Some 2) (Some 1); Insert false (Some 1) (55, 5)]))
  = Some [(55, 5); (11, 22)].
Proof. reflexivity. Qed.
Example C37_range_ub : runs (fun _ => tens) 0 (empty nat nat tt) (ex_ops ++ [EraseRange (Some 1) (Some 2)]) = None.
Proof. reflexivity. Qed.

Print Assumptions C37_ordered_is_a_map.
Print Assumptions C37_insert.
Print Assumptions C37_lookup.
Print Assumptions C37_defined.
Print Assumptions C37_copy_partial.
Print Assumptions C37_copy_assign_partial.
Print Assumptions C37_self_assignment_refuted.
Print Assumptions C37_self_assignment_clears.
Print Assumptions C37_copy_refuted.

Print Assumptions C37_erase_count.
