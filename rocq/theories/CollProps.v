(** C56: plain dictionaries, sets, lists, multimaps and multisets. *)
From Coq Require Import Permutation.
From Verif Require Import Base CollModel CollSpec CollProofs.

Section C56.
  Variables K E : Type.
  Variable key : E -> K.
  Variable lt : K -> K -> bool.
  Hypothesis W : swo lt.
  Notation look := (lookup K E key lt). Notation incr := (increasing K E key lt). Notation ndec := (nondecreasing K E key lt). Notation cls := (class K E key lt).

  (** In an ordered container with unique keys, lookup by key is lookup up to equivalence under the comparator. *)
  Theorem C56_unique_reads : forall l k, incr l ->
    find_elem K E key lt l k = look l k /\ u_contains K E key lt l k = (match look l k with Some _ => true | None => false end) /\
    u_find K E key lt l k = (match look l k with Some _ => from K E key lt l k | None => [] end) /\
    u_rfind K E key lt l k = (match look l k with Some _ => rev (upto K E key lt l k) | None => [] end).
  Proof.
    intros l k I. apply (inc_spec K E key lt) in I. pose proof (inc_nd K E key lt W l I) as N. destruct (u_find_spec K E key lt W l k I) as [F1 F2].
    split; [apply find_elem_spec; assumption | ]. split; [apply contains_spec; assumption | ]. rewrite F1, F2. unfold lookup. destruct (cls l k); split; reflexivity.
  Qed.

  (** Add: refused when the key is there; otherwise that key, and nothing else, is added.  Copying first makes no difference. *)
  Theorem C56_unique_add : forall copied l e, incr l ->
    match look l (key e) with
    | Some _ => u_add K E key lt copied l e = None
    | None => exists l', u_add K E key lt copied l e = Some l' /\ incr l' /\ Permutation l' (e :: l) /\
                forall k, look l' k = if eqv lt (key e) k then Some e else look l k
    end.
  Proof.
    intros copied l e I. apply (inc_spec K E key lt) in I. pose proof (u_add_spec K E key lt W copied l e I) as H. unfold lookup. destruct (cls l (key e)); [ | exact H].
    destruct H as (l' & H1 & H2 & H3 & H4). exists l'. split; [exact H1 | ]. split; [apply inc_spec, H2 | ]. split; [exact H3 | ]. intros k. rewrite H4. destruct (eqv lt (key e) k); reflexivity.
  Qed.

  (** Set: the key is there with the new value (the stored key stays the first one), the others as before. *)
  Theorem C56_unique_set : forall update l e, incr l -> (forall a b, key (update a b) = key a) ->
    let l' := u_set K E key lt update l e in
    incr l' /\ forall k, look l' k = if eqv lt (key e) k then Some (match look l (key e) with None => e | Some x => update x e end) else look l k.
  Proof.
    intros update l e I Hk. cbv zeta. apply (inc_spec K E key lt) in I. destruct (u_set_spec K E key lt W update l e I Hk) as [H1 H2]. split; [apply inc_spec, H1 | ].
    intros k. unfold lookup. rewrite H2. destruct (eqv lt (key e) k); [ | reflexivity]. destruct (cls l (key e)); reflexivity.
  Qed.

  (** Remove / TryRemove. *)
  Theorem C56_unique_remove : forall copied l k0, incr l ->
    match look l k0 with
    | None => u_remove K E key lt copied l k0 = None
    | Some x => exists l', u_remove K E key lt copied l k0 = Some l' /\ incr l' /\ Permutation l (x :: l') /\ forall k, look l' k = if eqv lt k0 k then None else look l k
    end.
  Proof.
    intros copied l k0 I. apply (inc_spec K E key lt) in I. pose proof (u_remove_spec K E key lt W copied l k0 I) as H. unfold lookup. destruct (cls l k0) as [ | x r] eqn:C; [exact H | ].
    destruct H as (l' & H1 & H2 & H3 & H4). exists l'. split; [exact H1 | ]. split; [apply inc_spec, H2 | ]. split; [exact H3 | ]. intros k. rewrite H4. destruct (eqv lt k0 k); reflexivity.
  Qed.

  (** RemoveWhere, in every container: exactly what satisfies the predicate goes, and the number is returned. *)
  Theorem C56_remove_where : forall pred (l : list E),
    remove_where pred l = (filter (fun e => negb (pred e)) l, length (filter pred l)) /\
    (incr l -> incr (fst (remove_where pred l))) /\ (ndec l -> ndec (fst (remove_where pred l))).
  Proof.
    intros pred l. rewrite remove_where_spec. split; [reflexivity | ]. cbn [fst]. split; intros H.
    - apply inc_spec. apply inc_spec in H. apply filter_inc, H.
    - apply nd_spec. apply nd_spec in H. apply filter_nd, H.
  Qed.

  (** Many values of a key: what GetAll, Count, GetFirst and Find give. *)
  Theorem C56_multi_reads : forall l k, ndec l ->
    m_range K E key lt l k = cls l k /\ m_count K E key lt l k = length (cls l k) /\ m_first K E key lt l k = hd_error (cls l k) /\
    m_find K E key lt l k = match cls l k with [] => [] | _ => from K E key lt l k end.
  Proof. intros l k N. apply m_reads; [exact W | apply nd_spec, N]. Qed.

  (** Add puts a value behind all those of its key, and touches no other key. *)
  Theorem C56_multi_add : forall l e, ndec l ->
    ndec (m_add K E key lt l e) /\ Permutation (m_add K E key lt l e) (e :: l) /\
    forall k, cls (m_add K E key lt l e) k = if eqv lt (key e) k then cls l k ++ [e] else cls l k.
  Proof. intros l e N. apply nd_spec in N. destruct (m_add_spec K E key lt W l e N) as (H1 & H2 & H3). split; [apply nd_spec, H1 | ]. auto. Qed.

  (** RemoveFirst takes the first of the key that matches. *)
  Theorem C56_multi_remove_first : forall matches copied l k, ndec l ->
    match find matches (cls l k) with
    | None => m_remove_first K E key lt matches copied l k = None
    | Some x => exists a b, l = a ++ x :: b /\ eqv lt (key x) k = true /\ matches x = true /\ (forall y, In y a -> eqv lt (key y) k = true -> matches y = false) /\
                  m_remove_first K E key lt matches copied l k = Some (a ++ b) /\ ndec (a ++ b)
    end.
  Proof.
    intros matches copied l k N. apply nd_spec in N. pose proof (m_remove_first_spec K E key lt W matches copied l k N) as H. destruct (find matches (cls l k)) as [x | ]; [ | exact H].
    destruct H as (a & b & H1 & H2 & H3 & H4 & H5). exists a, b. repeat split; auto. apply nd_spec. rewrite H1 in N. exact (nd_del K E key lt a x b N).
  Qed.
  Theorem C56_multiset_remove_first : forall copied l k, ndec l ->
    match cls l k with
    | [] => ms_remove_first K E key lt copied l k = None
    | x :: _ => exists a b, l = a ++ x :: b /\ ms_remove_first K E key lt copied l k = Some (a ++ b) /\ (forall y, In y a -> lt (key y) k = true) /\ ndec (a ++ b)
    end.
  Proof.
    intros copied l k N. apply nd_spec in N. pose proof (ms_remove_first_spec K E key lt W copied l k N) as H. destruct (cls l k) as [ | x r]; [exact H | ].
    destruct H as (a & b & H1 & H2 & H3). exists a, b. repeat split; auto. apply nd_spec. rewrite H1 in N. exact (nd_del K E key lt a x b N).
  Qed.

  (** RemoveAll of a key removes all of that key and nothing else, and returns how many. *)
  Theorem C56_multi_remove_all : forall copied l k, ndec l ->
    m_remove_all K E key lt copied l k = match cls l k with [] => None | _ => Some (filter (fun e => negb (eqv lt (key e) k)) l, length (cls l k)) end /\
    ndec (filter (fun e => negb (eqv lt (key e) k)) l).
  Proof. intros copied l k N. apply nd_spec in N. split; [apply m_remove_all_spec; assumption | ]. apply nd_spec, filter_nd, N. Qed.
End C56.

(** Lists *)
Section C56l.
  Variable A : Type.
  Variable eqA : A -> A -> bool.
  Theorem C56_list_index_of : forall l x,
    match index_of A eqA l x with
    | Some i => (exists y, nth_error l i = Some y /\ eqA y x = true) /\ forall j z, j < i -> nth_error l j = Some z -> eqA z x = false
    | None => forall z, In z l -> eqA z x = false
    end.
  Proof.
    intros l x. pose proof (index_of_spec A eqA l x) as H. destruct (index_of A eqA l x) as [i | ]; [ | exact H]. destruct H as (a & y & b & -> & <- & H1 & H2). split.
    - exists y. split; [ | exact H1]. rewrite nth_error_app2, Nat.sub_diag by lia. reflexivity.
    - intros j z Hj Hz. rewrite nth_error_app1 in Hz by assumption. apply H2. eapply nth_error_In; exact Hz.
  Qed.
  Theorem C56_list_positions : forall (a b : list A) x y i,
    l_get A (a ++ y :: b) (length a) = Some y /\ (l_get A a i = None <-> length a <= i) /\
    l_set A (a ++ y :: b) (length a) x = Some (a ++ x :: b) /\ (l_set A a i x = None <-> length a <= i) /\
    l_insert A (a ++ b) (length a) x = Some (a ++ x :: b) /\ (l_insert A a i x = None <-> length a < i) /\
    l_remove_at A (a ++ y :: b) (length a) = Some (a ++ b) /\ (l_remove_at A a i = None <-> length a <= i).
  Proof.
    intros a b x y i. unfold l_get, l_set, l_insert, l_remove_at.
    assert (L1 : Nat.ltb (length a) (length (a ++ y :: b)) = true) by (apply Nat.ltb_lt; rewrite app_length; cbn; lia).
    assert (L2 : Nat.leb (length a) (length (a ++ b)) = true) by (apply Nat.leb_le; rewrite app_length; lia).
    rewrite L1, L2. rewrite erase_at_app, insert_at_app. split; [rewrite nth_error_app2, Nat.sub_diag by lia; reflexivity | ]. split.
    { destruct (Nat.ltb_spec i (length a)); [ | split; auto]. split; [intros H0; apply nth_error_None in H0; lia | intros; lia]. }
    split. { f_equal. replace (a ++ y :: b) with ((a ++ [y]) ++ b) by (rewrite <- app_assoc; reflexivity). replace (S (length a)) with (length (a ++ [y])) by (rewrite app_length; cbn; lia).
      rewrite skipn_app, skipn_all, Nat.sub_diag. rewrite <- app_assoc. rewrite firstn_app, firstn_all, Nat.sub_diag. cbn. rewrite app_nil_r. reflexivity. }
    split. { destruct (Nat.ltb_spec i (length a)); split; intros; try discriminate; auto; lia. }
    split; [reflexivity | ]. split. { destruct (Nat.leb_spec i (length a)); split; intros; try discriminate; auto; lia. }
    split; [reflexivity | ]. destruct (Nat.ltb_spec i (length a)); split; intros; try discriminate; auto; lia.
  Qed.
  (** TryRemove takes the first equal one; RemoveAll all that satisfy the predicate, counting them. *)
  Theorem C56_list_remove : forall l x,
    match l_remove A eqA l x with
    | Some l' => exists a y b, l = a ++ y :: b /\ l' = a ++ b /\ eqA y x = true /\ forall z, In z a -> eqA z x = false
    | None => forall z, In z l -> eqA z x = false
    end.
  Proof.
    intros l x. unfold l_remove. pose proof (index_of_spec A eqA l x) as H. destruct (index_of A eqA l x) as [i | ]; [ | exact H]. destruct H as (a & y & b & -> & <- & H1 & H2).
    exists a, y, b. rewrite erase_at_app. auto.
  Qed.
  Theorem C56_list_remove_all : forall pred (l : list A), l_remove_all A pred l = (filter (fun x => negb (pred x)) l, length (filter pred l)).
  Proof. intros. unfold l_remove_all. rewrite remove_all_count. reflexivity. Qed.
End C56l.

(** Copy on write *)
Section C56c.
  Variables C V : Type.
  (** The contents after any history of changes, clears, assignments, enumerations and destructions of
      enumerators is what the changes alone make of it. *)
  Theorem C56_value : forall l c0,
    content C V (run C V (start C V c0) l) =
      Some (fold_left (fun c o => match o with OChange _ _ f => plain_change f c | OClear _ _ e => e | OAssign _ _ a => a | _ => c end) l c0).
  Proof.
    intros l c0. assert (G : forall s c, inv C V s -> content C V s = Some c ->
      content C V (run C V s l) = Some (fold_left (fun c o => match o with OChange _ _ f => plain_change f c | OClear _ _ e => e | OAssign _ _ a => a | _ => c end) l c)).
    { induction l as [ | o l IH]; intros s c I Hc; [exact Hc | ]. destruct (step_keeps C V s o I) as [(K1 & _) K2]. cbn [run fold_left]. apply IH; [exact K1 | ]. rewrite K2, Hc. destruct o; reflexivity. }
    apply G; [apply start_inv | reflexivity].
  Qed.

  (** An enumerator shows what the collection held when it was made, as long as it lives, whatever is done to the
      collection in between; and it keeps alive the very container it goes over. *)
  Theorem C56_snapshot : forall before view after c0 s e,
    s = run C V (start C V c0) before ->
    In e (ens C V (run C V (enumerate C V view s) after)) -> e_id C V e = next C V s ->
    shows C V (run C V (enumerate C V view s) after) e = option_map view (content C V s) /\ e_kept C V e = e_map C V e.
  Proof.
    intros before view after c0 s e Hs He Hid. assert (I : inv C V s) by (rewrite Hs; apply run_inv, start_inv).
    assert (I2 : inv C V (enumerate C V view s)) by (apply (step_keeps C V s (OEnum C V view) I)).
    assert (Hn : e_id C V e < next C V (enumerate C V view s)).
    { rewrite Hid. unfold enumerate. destruct (match holder C V s with Some hm => _ | None => _ end). cbn. lia. }
    destruct (run_keeps C V after (enumerate C V view s) e I2 He Hn) as [H1 H2]. destruct I2 as (_ & _ & I3). destruct (I3 e H1) as (_ & H4 & _). split; [ | exact H4].
    unfold shows. rewrite H2. unfold enumerate in *. destruct (match holder C V s with Some hm => _ | None => _ end) as [h m]. cbn in *.
    destruct H1 as [<- | H1]; [reflexivity | ]. exfalso. destruct I as (_ & _ & I3'). destruct (I3' e H1) as (_ & _ & H5 & _). lia.
  Qed.
End C56c.

(** Refuted *)
Lemma nat_swo : swo Nat.ltb.
Proof. repeat split; intros; rewrite ?Nat.ltb_lt, ?Nat.ltb_irrefl in *; try reflexivity; lia. Qed.
(** ReverseFind of a multimap or multiset: the greatest key is there and nothing is enumerated; for a key below
    all others the element before the first is read. *)
Theorem C56_reverse_find_refuted :
  (exists l k, nondecreasing nat nat (fun x => x) Nat.ltb l /\ In k l /\ m_rfind nat nat (fun x => x) Nat.ltb l k = Some []) /\
  (exists l k, nondecreasing nat nat (fun x => x) Nat.ltb l /\ m_rfind nat nat (fun x => x) Nat.ltb l k = None).
Proof.
  split.
  - exists [1; 2], 2. split; [apply nd_spec; cbn; repeat constructor | ]. split; [cbn; auto | reflexivity].
  - exists [1; 2], 0. split; [apply nd_spec; cbn; repeat constructor | reflexivity].
Qed.
(** For every key that is there and is not the greatest, and none in between, it is right. *)
Theorem C56_reverse_find_partial : forall K E (key : E -> K) lt, swo lt -> forall l k, nondecreasing K E key lt l ->
  (exists e, In e l /\ lt k (key e) = true) -> (exists e, In e l /\ lt k (key e) = false) ->
  m_rfind K E key lt l k = Some (match class K E key lt l k with [] => [] | _ => rev (upto K E key lt l k) end).
Proof.
  intros K E key lt W l k N (g & G1 & G2) (b & B1 & B2). apply nd_spec in N. destruct (ub_split K E key lt W l k N) as [U1 U2]. destruct (three K E key lt W l k N) as (El & L & U).
  unfold m_rfind. replace (Nat.eqb (upper_bound K E key lt l k) (length l)) with false.
  2: { symmetry. apply Nat.eqb_neq. intros Q. rewrite Q, skipn_all in U2. assert (I : In g (filter (fun e => lt k (key e)) l)) by (apply filter_In; auto). rewrite <- U2 in I. destruct I. }
  assert (Hb : In b (upto K E key lt l k)) by (apply filter_In; rewrite B2; auto).
  destruct (upper_bound K E key lt l k) as [ | p] eqn:Eu; [cbn in U1; rewrite <- U1 in Hb; destruct Hb | ]. cbv zeta.
  set (lo := filter (fun e => lt (key e) k) l) in *. set (c := class K E key lt l k) in *. set (h := filter (fun e => lt k (key e)) l) in *.
  assert (Hp : nth_error l p = nth_error (lo ++ c) p). { rewrite El, app_assoc. rewrite nth_error_app1; [ | lia]. reflexivity. }
  destruct c as [ | x r] eqn:Ec.
  - rewrite app_nil_r in *. destruct (nth_error lo p) as [e | ] eqn:Ep; [ | apply nth_error_None in Ep; lia]. rewrite Hp. assert (I : In e lo) by (eapply nth_error_In; exact Ep). apply filter_In in I. destruct I as [_ ->]. reflexivity.
  - rewrite Hp. rewrite app_length in U. cbn [length] in U. rewrite nth_error_app2 by lia. destruct (nth_error (x :: r) (p - length lo)) as [e | ] eqn:Ep; [ | apply nth_error_None in Ep; cbn [length] in Ep; lia].
    assert (I : In e (class K E key lt l k)) by (fold c; rewrite Ec; eapply nth_error_In; exact Ep). apply filter_In in I. destruct I as [_ I]. apply eqv_iff in I. destruct I as [-> _]. rewrite <- U1. reflexivity.
Qed.
(** RemoveWhere copies before it asks the predicate: a predicate that makes an enumerator of the collection sees
    it change under it. *)
Theorem C56_enumerate_in_remove_where_refuted :
  exists c0 (c1 : list nat), let s := copy_on_write (list nat) (list nat) (start (list nat) (list nat) c0) in
    let s' := enumerate (list nat) (list nat) (fun c => c) s in
    let s2 := write (list nat) (list nat) (fun _ => c1) s' in
    map (shows (list nat) (list nat) s') (ens _ _ s') = [Some c0] /\ map (shows (list nat) (list nat) s2) (ens _ _ s2) = [Some c1] /\ c0 <> c1.
Proof. exists [1; 2], [2]. cbn. repeat split; congruence. Qed.

(** The hypotheses can be met: here keys are equivalent without being equal. *)
Definition par (a b : nat * nat) : bool := Nat.ltb (fst a) (fst b).
Example C56_ex_order : swo par.
Proof. repeat split; unfold par; intros; rewrite ?Nat.ltb_lt, ?Nat.ltb_irrefl in *; try reflexivity; lia. Qed.
Example C56_ex_inc : increasing _ _ (fun x => x) par [(1, 7); (2, 5); (4, 0)].
Proof. apply inc_spec. cbn. repeat constructor. Qed.
Example C56_ex_add : u_add _ _ (fun x => x) par true [(1, 7); (2, 5); (4, 0)] (3, 3) = Some [(1, 7); (2, 5); (3, 3); (4, 0)] /\
  u_add _ _ (fun x => x) par false [(1, 7); (2, 5); (4, 0)] (2, 3) = None.
Proof. split; reflexivity. Qed.
Example C56_ex_multi : m_add _ _ (fun x => x) par [(1, 7); (2, 5); (2, 4); (3, 0)] (2, 9) = [(1, 7); (2, 5); (2, 4); (2, 9); (3, 0)].
Proof. reflexivity. Qed.
Example C56_ex_snapshot :
  let s := run (list nat) (list nat) (start _ _ []) [OChange _ _ (fun l => Some (1 :: l)); OEnum _ _ (fun l => l); OChange _ _ (fun l => Some (2 :: l)); OEnum _ _ (fun l => l); OClear _ _ []; ODrop _ _ 1] in
  map (shows _ _ s) (ens _ _ s) = [Some [1]] /\ content _ _ s = Some [].
Proof. split; reflexivity. Qed.

Print Assumptions C56_unique_reads. Print Assumptions C56_unique_add. Print Assumptions C56_unique_set. Print Assumptions C56_unique_remove.
Print Assumptions C56_remove_where. Print Assumptions C56_multi_reads. Print Assumptions C56_multi_add. Print Assumptions C56_multi_remove_first.
Print Assumptions C56_multiset_remove_first. Print Assumptions C56_multi_remove_all. Print Assumptions C56_list_index_of. Print Assumptions C56_list_positions.
Print Assumptions C56_list_remove. Print Assumptions C56_list_remove_all. Print Assumptions C56_value. Print Assumptions C56_snapshot.
Print Assumptions C56_reverse_find_refuted. Print Assumptions C56_reverse_find_partial. Print Assumptions C56_enumerate_in_remove_where_refuted.
