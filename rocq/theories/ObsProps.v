(** C57: observable collections. *)
From Verif Require Import Base CollModel CollSpec CollProofs ObsModel ObsSpec ObsProofs ObsProofs2 ObsProofs3.

(** Dictionaries over ordered containers: an observer that connects whenever it likes has, after every single event,
    exactly the content of the dictionary at that moment (up to equivalence of keys), whatever calls follow; Added
    comes only for keys it has not, Updated only for keys it has, Removed only with the value it has. *)
Theorem C57_dictionary : forall K V lt copied, swo lt -> forall before after,
  let run := d_run K V (list (K * V)) (fun l => l) (s_get K V lt) (s_add K V lt copied) (s_set K V lt) (s_remove K V lt copied) in
  let c := fst (run [] before) in
  observes (op * K * V) (dcopy K V) (list (K * V)) (d_honest K V) (d_replay K V (eqv lt)) (d_agrees K V (eqv lt))
    d_empty (d_populate K V (list (K * V)) (fun l => l) c) c (snd (run c after)) (fst (run c after)) /\ increasing K (K * V) fst lt (fst (run c after)).
Proof.
  intros K V lt copied W before after. cbv zeta. pose proof (eqv_equiv lt W) as Q. pose proof (sorted_laws K V lt W copied) as L.
  destruct (d_observes K V (eqv lt) Q _ _ _ _ _ _ _ L [] before I) as [_ I1]. destruct (d_observes K V (eqv lt) Q _ _ _ _ _ _ _ L _ after I1) as [O I2]. split; [exact O | apply inc_spec, I2].
Qed.
(** Dictionaries in insertion order *)
Theorem C57_ordered_dictionary : forall K V lt, swo lt -> forall before after,
  let eqk := eqv lt in
  let run := d_run K V (list (K * V)) (fun l => l) (o_get K V eqk) (o_add K V eqk) (o_set K V eqk) (o_remove K V eqk) in
  let c := fst (run [] before) in
  observes (op * K * V) (dcopy K V) (list (K * V)) (d_honest K V) (d_replay K V eqk) (d_agrees K V eqk)
    d_empty (d_populate K V (list (K * V)) (fun l => l) c) c (snd (run c after)) (fst (run c after)).
Proof.
  intros K V lt W before after. cbv zeta. pose proof (eqv_equiv lt W) as Q. pose proof (ordered_laws K V (eqv lt) Q) as L.
  destruct (d_observes K V (eqv lt) Q _ _ _ _ _ _ _ L [] before I) as [_ I1]. destruct (d_observes K V (eqv lt) Q _ _ _ _ _ _ _ L _ after I1) as [O I2]. exact O.
Qed.
(** What the calls return. *)
Theorem C57_dictionary_results : forall K V lt copied, swo lt -> forall c k v, increasing K (K * V) fst lt c ->
  let assoc := assoc K V (eqv lt) in
  snd (d_add K V _ (s_add K V lt copied) c k v) = (match assoc c k with Some _ => false | None => true end) /\
  snd (d_remove K V _ (s_get K V lt) (s_remove K V lt copied) c k) = (match assoc c k with Some _ => true | None => false end) /\
  forall pred, snd (d_remove_where K V _ (fun l => l) (s_remove K V lt copied) pred c) = length (filter pred c) /\
    forall k', assoc (fst (fst (d_remove_where K V _ (fun l => l) (s_remove K V lt copied) pred c))) k' = assoc (filter (fun e => negb (pred e)) c) k'.
Proof. intros K V lt copied W c k v I. apply inc_spec in I. exact (d_results K V (eqv lt) (eqv_equiv lt W) _ _ _ _ _ _ _ (sorted_laws K V lt W copied) c k v I). Qed.

(** The observable value of a key: what was signalled last (the first time by the populator) is always what Get
    returns, if the comparer used is the equivalence of the dictionary; Set is seen by Get. *)
Theorem C57_key_value : forall K V N lt copied (some : V -> N) null comparer key, swo lt -> (forall k, comparer key k = eqv lt k key) -> forall before after,
  let run := d_run K V (list (K * V)) (fun l => l) (s_get K V lt) (s_add K V lt copied) (s_set K V lt) (s_remove K V lt copied) in
  let get := kv_get K V (list (K * V)) (s_get K V lt) N some null key in
  let c := fst (run [] before) in
  kv_seen K V N some null comparer key (get c) (map fst (snd (run c after))) = get (fst (run c after)) /\
  forall star n, (forall v, star n = Some v -> some v = n) -> (star n = None -> n = null) ->
    get (fst (kv_set K V (list (K * V)) (s_get K V lt) (s_set K V lt) (s_remove K V lt copied) N star key c n)) = n.
Proof.
  intros K V N lt copied some null comparer key W Hc before after. cbv zeta. pose proof (eqv_equiv lt W) as Q. pose proof (sorted_laws K V lt W copied) as L.
  destruct (d_observes K V (eqv lt) Q _ _ _ _ _ _ _ L [] before I) as [_ I1]. split.
  - exact (kv_follows K V (eqv lt) Q _ _ _ _ _ _ _ L N some null comparer key _ after Hc I1).
  - intros star n H1 H2. exact (kv_set_get K V (eqv lt) Q _ _ _ _ _ _ _ L N some null star key _ n I1 H1 H2).
Qed.

(** Sets *)
Theorem C57_set : forall K lt copied, swo lt -> forall before after,
  let run := e_run K (list K) (fun l => l) (fun c k => u_add K K (fun x => x) lt (copied c) c k) (fun c k => u_remove K K (fun x => x) lt (copied c) c k) in
  let c := fst (run [] before) in
  observes (op * K) (scopy K) (list K) (s_honest K) (s_replay K (eqv lt)) (s_agrees K (eqv lt)) s_empty (e_populate K (list K) (fun l => l) c) c (snd (run c after)) (fst (run c after)) /\
  increasing K K (fun x => x) lt (fst (run c after)).
Proof.
  intros K lt copied W before after. cbv zeta. pose proof (eqv_equiv lt W) as Q. pose proof (sorted_set_laws K lt copied W) as L.
  destruct (e_observes K (eqv lt) Q _ _ _ _ _ L [] before I) as [_ I1]. destruct (e_observes K (eqv lt) Q _ _ _ _ _ L _ after I1) as [O I2]. split; [exact O | apply inc_spec, I2].
Qed.
Theorem C57_set_results : forall K lt copied, swo lt -> forall c k, increasing K K (fun x => x) lt c ->
  let has := has K (eqv lt) in
  let add := fun c k => u_add K K (fun x => x) lt (copied c) c k in let remove := fun c k => u_remove K K (fun x => x) lt (copied c) c k in
  snd (e_add K _ add c k) = negb (has c k) /\ snd (e_remove K _ remove c k) = has c k /\
  forall pred, snd (e_remove_where K _ (fun l => l) remove pred c) = length (filter pred c) /\
    forall k', has (fst (fst (e_remove_where K _ (fun l => l) remove pred c))) k' = has (filter (fun e => negb (pred e)) c) k'.
Proof. intros K lt copied W c k I. apply inc_spec in I. exact (e_results K (eqv lt) (eqv_equiv lt W) _ _ _ _ _ (sorted_set_laws K lt copied W) c k I). Qed.
(** The observable entry of a set *)
Theorem C57_set_entry : forall K lt copied comparer key, swo lt -> (forall k, comparer key k = eqv lt k key) -> forall before after,
  let add := fun c k => u_add K K (fun x => x) lt (copied c) c k in let remove := fun c k => u_remove K K (fun x => x) lt (copied c) c k in
  let run := e_run K (list K) (fun l => l) add remove in
  let get := fun c => u_contains K K (fun x => x) lt c key in
  let c := fst (run [] before) in
  en_seen K comparer key (get c) (map fst (snd (run c after))) = get (fst (run c after)) /\ forall b, get (fst (en_set K (list K) add remove key c b)) = b.
Proof.
  intros K lt copied comparer key W Hc before after. cbv zeta. pose proof (eqv_equiv lt W) as Q. pose proof (sorted_set_laws K lt copied W) as L.
  destruct (e_observes K (eqv lt) Q _ _ _ _ _ L [] before I) as [_ I1].
  assert (Hw : forall c k, inc K K (fun x => x) lt c -> u_contains K K (fun x => x) lt c k = has K (eqv lt) c k).
  { intros c k I. rewrite has_lookup. apply contains_spec; [exact W | apply inc_nd; assumption]. }
  split.
  - exact (en_follows K (eqv lt) Q _ _ _ _ _ L (u_contains K K (fun x => x) lt) comparer key _ after Hc Hw I1).
  - intros b. exact (en_set_get K (eqv lt) Q _ _ _ _ _ L (u_contains K K (fun x => x) lt) key _ b Hw I1).
Qed.

(** Lists: exactly, with positions. *)
Theorem C57_list : forall A eqA before after,
  let run := ol_run A eqA in
  let c := fst (run [] before) in
  observes (op * nat * A) (list A) (list A) (l_honest A) (l_replay A) eq [] (ol_populate A 0 c) c (snd (run c after)) (fst (run c after)).
Proof. intros. apply ol_observes. Qed.
(** Calls act as on a plain list: RemoveAll and Clear in many steps, RemoveAt and Remove in one. *)
Theorem C57_list_results : forall A eqA (c : list A) pred x i,
  (exists t, ol_remove_all A pred c = Some (filter (fun x => negb (pred x)) c, t, length (filter pred c))) /\
  (exists t, ol_clear A (S (length c)) c = Some ([], t)) /\
  match l_remove A eqA c x with
  | Some c' => exists t, ol_remove A eqA c x = Some (c', t, true)
  | None => ol_remove A eqA c x = Some (c, [], false)
  end /\
  option_map fst (ol_remove_at A c i) = l_remove_at A c i.
Proof.
  intros A eqA c pred x i. split; [ | split; [ | split]].
  - destruct (remove_loop_follows A pred (length c) c 0 0 []) as (c' & t & r & E & _ & E1 & E2); [lia | reflexivity | reflexivity | reflexivity | ]. exists t. unfold ol_remove_all. cbn [length skipn app Nat.add] in *. rewrite E, E1, E2. reflexivity.
  - destruct (ol_clear_follows A (S (length c)) c ltac:(lia)) as (t & E & _). exists t. exact E.
  - unfold ol_remove, l_remove. pose proof (index_of_spec A eqA c x) as H. destruct (index_of A eqA c x) as [j | ]; [ | reflexivity]. destruct H as (a & y & b & -> & <- & _).
    pose proof (ol_remove_at_follows A (a ++ y :: b) (length a)) as R. destruct (ol_remove_at A (a ++ y :: b) (length a)) as [[c' t] | ]; [ | rewrite app_length in R; cbn in R; lia]. destruct R as (_ & z & _ & _ & ->). exists t. reflexivity.
  - pose proof (ol_remove_at_follows A c i) as R. unfold l_remove_at. destruct (ol_remove_at A c i) as [[c' t] | ] eqn:E.
    + destruct R as (_ & z & Hz & _ & ->). replace (Nat.ltb i (length c)) with true; [reflexivity | ]. symmetry. apply Nat.ltb_lt. apply nth_error_Some. congruence.
    + replace (Nat.ltb i (length c)) with false; [reflexivity | ]. symmetry. apply Nat.ltb_ge. exact R.
Qed.

(** Multimaps: the values of every key, in order, if values are compared for equality. *)
Theorem C57_multi_dictionary : forall K V lt veq copied, swo lt -> (forall a b : V, veq a b = true <-> a = b) -> forall before after,
  let run := mm_run K V lt veq copied in
  let c := fst (run [] before) in
  observes (op * K * V) (mcopy K V) (list (K * V)) (m_honest K V) (m_replay K V (eqv lt) veq) (m_agrees K V (eqv lt)) m_empty (mm_populate K V c) c (snd (run c after)) (fst (run c after)) /\
  nondecreasing K (K * V) fst lt (fst (run c after)).
Proof.
  intros K V lt veq copied W HV before after. cbv zeta. destruct (mm_observes K V lt W veq HV copied [] before I) as [_ I1]. destruct (mm_observes K V lt W veq HV copied _ after I1) as [O I2]. split; [exact O | apply nd_spec, I2].
Qed.
Theorem C57_multi_dictionary_results : forall K V lt veq copied, swo lt -> (forall a b : V, veq a b = true <-> a = b) -> forall c k v, nondecreasing K (K * V) fst lt c ->
  let values := values K V (eqv lt) in
  snd (mm_remove_first K V lt veq copied c k (Some v)) = existsb (veq v) (values c k) /\
  (forall v', snd (mm_remove_first K V lt veq copied c k v') = false -> fst (fst (mm_remove_first K V lt veq copied c k v')) = c) /\
  snd (mm_remove_first K V lt veq copied c k None) = (match values c k with [] => false | _ => true end) /\
  snd (mm_remove_all K V lt veq copied c k) = length (values c k) /\
  (forall k', values (fst (fst (mm_remove_all K V lt veq copied c k))) k' = if eqv lt k k' then [] else values c k') /\
  (forall pred, snd (mm_remove_where K V lt veq copied pred c) = length (filter pred c)) /\
  (forall pred, (forall a b, eqv lt (fst a) (fst b) = true -> snd a = snd b -> pred a = pred b) ->
     forall k', values (fst (fst (mm_remove_where K V lt veq copied pred c))) k' = values (filter (fun e => negb (pred e)) c) k').
Proof. intros K V lt veq copied W HV c k v N. apply nd_spec in N. exact (mm_results K V lt W veq HV copied c k v N). Qed.

(** Multisets: how many of every value. *)
Theorem C57_multi_set : forall K lt copied, swo lt -> forall before after,
  let run := mso_run K lt copied in
  let c := fst (run [] before) in
  observes (op * K) (K -> nat) (list K) (ms_honest K) (ms_replay K (eqv lt)) (ms_agrees K (eqv lt)) (fun _ => 0) (mso_populate K c) c (snd (run c after)) (fst (run c after)) /\
  nondecreasing K K (fun x => x) lt (fst (run c after)).
Proof.
  intros K lt copied W before after. cbv zeta. destruct (mso_observes K lt W copied [] before I) as [_ I1]. destruct (mso_observes K lt W copied _ after I1) as [O I2]. split; [exact O | apply nd_spec, I2].
Qed.
Theorem C57_multi_set_results : forall K lt copied, swo lt -> forall c k, nondecreasing K K (fun x => x) lt c ->
  let count := count K (eqv lt) in
  snd (mso_remove_first K lt copied c k) = (match count c k with 0 => false | _ => true end) /\
  snd (mso_remove_all K lt copied c k) = count c k /\
  (forall k', count (fst (fst (mso_remove_all K lt copied c k))) k' = if eqv lt k k' then 0 else count c k') /\
  (forall pred, snd (mso_remove_where K lt copied pred c) = length (filter pred c)) /\
  (forall pred k', count (fst (fst (mso_remove_where K lt copied pred c))) k' = count (filter (fun e => negb (pred e)) c) k').
Proof. intros K lt copied W c k N. apply nd_spec in N. exact (mso_results K lt W copied c k N). Qed.

(** Refuted *)
Definition rank (a b : nat * nat) : bool := Nat.ltb (fst a) (fst b).
Lemma rank_swo : swo rank.
Proof. repeat split; unfold rank; intros; rewrite ?Nat.ltb_lt, ?Nat.ltb_irrefl in *; try reflexivity; lia. Qed.
(** A handler that changes the dictionary: the observers behind it get the events in the wrong order and end with
    another content. *)
Theorem C57_reentrant_handler_refuted :
  exists (hs : list (dev nat nat -> list (dop nat nat))) o,
    let d := Nat.ltb in
    let '(c, logs) := rexec nat nat (list (nat * nat)) (fun l => l) (s_get nat nat d) (s_add nat nat d (fun _ => false)) (s_set nat nat d) (s_remove nat nat d (fun _ => false)) 5 hs [] [[]; []] o in
    exists log, nth_error logs 1 = Some log /\ ~ d_agrees nat nat (eqv d) (replay_all _ _ (d_replay nat nat (eqv d)) d_empty log) c /\
      ~ all_honest _ _ (d_honest nat nat) (d_replay nat nat (eqv d)) d_empty log.
Proof.
  exists [fun e => match e with (Added, k, _) => [DRemove nat nat k] | _ => [] end; fun _ => []], (DAdd nat nat 1 5). cbn. eexists. split; [reflexivity | ]. split.
  - intros H. specialize (H 1). discriminate H.
  - intros [H _]. discriminate H.
Qed.
(** RemoveWhere of a multiset removes the first equivalent value, which need not be the one the predicate chose. *)
Theorem C57_multi_set_remove_where_refuted : exists pred c, nondecreasing _ _ (fun x => x) rank c /\
  exists x, In x (fst (fst (mso_remove_where _ rank (fun _ => false) pred c))) /\ pred x = true.
Proof. exists (fun x => Nat.eqb (snd x) 8), [(1, 7); (1, 8)]. split; [apply nd_spec; cbn; repeat constructor | ]. exists (1, 8). split; [cbn; auto | reflexivity]. Qed.
(** Removing signals the argument, not what was stored: equivalent, but not equal. *)
Theorem C57_removed_value_refuted : exists c k, nondecreasing _ _ (fun x => x) rank c /\
  exists c' e t, mso_remove_first _ rank (fun _ => false) c k = (c', (e, c') :: t, true) /\ fst e = Removed /\ ~ In (snd e) c.
Proof. exists [(1, 7)], (1, 8). split; [apply nd_spec; cbn; repeat constructor | ]. eexists _, _, _. split; [reflexivity | ]. split; [reflexivity | ]. cbn. intros [H | []]. discriminate H. Qed.
(** The observable value of a key, when the comparer is finer than the order of the dictionary (as the default Equals
    is for a dictionary that ignores case): an update through an equivalent key is not signalled. *)
Theorem C57_key_value_comparer_refuted : exists key before after,
  let d := rank in
  let run := d_run _ nat (list (nat * nat * nat)) (fun l => l) (s_get _ nat d) (s_add _ nat d (fun _ => false)) (s_set _ nat d) (s_remove _ nat d (fun _ => false)) in
  let get := kv_get _ nat (list (nat * nat * nat)) (s_get _ nat d) (option nat) Some None key in
  let c := fst (run [] before) in
  let same (a b : nat * nat) := Nat.eqb (fst a) (fst b) && Nat.eqb (snd a) (snd b) in
  kv_seen _ nat (option nat) Some None same key (get c) (map fst (snd (run c after))) <> get (fst (run c after)).
Proof. exists (1, 0), [DSet _ _ (1, 0) 5], [DSet _ _ (1, 1) 6]. cbn. discriminate. Qed.

(** Cases *)
Example C57_ex_dictionary :
  d_run nat nat (list (nat * nat)) (fun l => l) (s_get nat nat Nat.ltb) (s_add nat nat Nat.ltb (fun _ => true)) (s_set nat nat Nat.ltb) (s_remove nat nat Nat.ltb (fun _ => true))
    [(1, 5)] [DSet nat nat 1 6; DAdd nat nat 1 7; DAdd nat nat 0 2; DRemoveWhere nat nat (fun e => Nat.eqb (snd e) 6)] =
  ([(0, 2)], [((Updated, 1, 6), [(1, 6)]); ((Added, 0, 2), [(0, 2); (1, 6)]); ((Removed, 1, 6), [(0, 2)])]).
Proof. reflexivity. Qed.
Example C57_ex_list : ol_run nat Nat.eqb [4; 5; 4] [LRemoveAll nat (Nat.eqb 4); LInsert nat 0 9; LInsert nat 7 9] =
  ([9; 5], [((Removed, 0, 4), [5; 4]); ((Removed, 1, 4), [5]); ((Added, 0, 9), [9; 5])]).
Proof. reflexivity. Qed.
Example C57_ex_multi : mm_run nat nat Nat.ltb Nat.eqb (fun _ => false) [] [MAdd _ _ 1 5; MAdd _ _ 1 6; MAdd _ _ 0 7; MRemoveFirst _ _ 1 (Some 6)] =
  ([(0, 7); (1, 5)], [((Added, 1, 5), [(1, 5)]); ((Added, 1, 6), [(1, 5); (1, 6)]); ((Added, 0, 7), [(0, 7); (1, 5); (1, 6)]); ((Removed, 1, 6), [(0, 7); (1, 5)])]).
Proof. reflexivity. Qed.
Example C57_ex_veq : forall a b, Nat.eqb a b = true <-> a = b. Proof. exact Nat.eqb_eq. Qed.
Example C57_ex_comparer : forall key k : nat, Nat.eqb key k = eqv Nat.ltb k key.
Proof.
  intros a b. unfold eqv. destruct (Nat.eqb_spec a b) as [-> | H]; [rewrite Nat.ltb_irrefl; reflexivity | ]. destruct (Nat.ltb_spec b a); [reflexivity | ]. destruct (Nat.ltb_spec a b); [reflexivity | lia].
Qed.

Print Assumptions C57_dictionary. Print Assumptions C57_ordered_dictionary. Print Assumptions C57_dictionary_results. Print Assumptions C57_key_value.
Print Assumptions C57_set. Print Assumptions C57_set_results. Print Assumptions C57_set_entry. Print Assumptions C57_list. Print Assumptions C57_list_results.
Print Assumptions C57_multi_dictionary. Print Assumptions C57_multi_dictionary_results. Print Assumptions C57_multi_set. Print Assumptions C57_multi_set_results.
Print Assumptions C57_reentrant_handler_refuted. Print Assumptions C57_multi_set_remove_where_refuted. Print Assumptions C57_removed_value_refuted. Print Assumptions C57_key_value_comparer_refuted.
