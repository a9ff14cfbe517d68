(* C78: key sets and casters of collections show exactly the wrapped collection, and tell its changes. *)
From Coq Require Import List Bool Arith Lia ZArith Sorting.Sorted.
From Verif Require Import TxEnumModel TxDictModel TxDictSpec TxDictProofs TxDictProps ViewModel ViewSpec ViewProofs.
Import ListNotations.
Local Open Scope nat_scope.

(* The key set of a transactional dictionary: every diff that leads from content c to content m (C12: what a commit
   sends) becomes, without an exception, the diff of the key sets: new keys are Added, vanished keys Removed, each
   once, in key order, and keys whose value changed do not appear. *)
Theorem C78_key_diff_exact :
  forall (K V : Type) (klt cmp : K -> K -> bool),
  (forall a, klt a a = false) -> (forall a b c, klt a b = true -> klt b c = true -> klt a c = true) ->
  (forall a b, cmp a b = true <-> a = b) ->
  forall (c m : dict K V) d, exact_diff klt c m d ->
  exists kd, keys_diff K V cmp d = Some kd /\ exact_key_diff klt c m kd.
Proof. intros K V klt cmp I T C c m d X. exact (keys_of_exact K V klt cmp I T C c m d X). Qed.

(* Its observers are called exactly if the set of keys changed. *)
Theorem C78_key_observers_called_iff_keys_changed :
  forall (K V : Type) (klt cmp : K -> K -> bool),
  (forall a, klt a a = false) -> (forall a b c, klt a b = true -> klt b c = true -> klt a c = true) ->
  (forall a b, cmp a b = true <-> a = b) ->
  forall (c m : dict K V) d, exact_diff klt c m d ->
  match keys_invoke K V cmp d with
  | Called kd => exact_key_diff klt c m kd /\ exists k, ~ (has_key c k <-> has_key m k)
  | NotCalled => forall k, has_key c k <-> has_key m k
  | Thrown => False
  end.
Proof.
  intros K V klt cmp I T C c m d X. destruct (keys_of_exact K V klt cmp I T C c m d X) as (kd & E & Y).
  unfold keys_invoke. rewrite E. destruct kd as [|[o k] kd].
  - intros k. pose proof (proj2 (xk_added _ _ _ _ _ _ Y k)) as A. pose proof (proj2 (xk_removed _ _ _ _ _ _ Y k)) as R.
    unfold has_key in *. destruct (c k), (m k); split; intros H; try congruence; exfalso.
    + apply R. split; [discriminate | congruence].
    + apply A. split; [discriminate | congruence].
  - split; [exact Y|]. exists k. intros Q. destruct o.
    + pose proof (proj1 (xk_added _ _ _ _ _ _ Y k) (or_introl eq_refl)) as [P N]. apply N, Q, P.
    + pose proof (proj1 (xk_removed _ _ _ _ _ _ Y k) (or_introl eq_refl)) as [P N]. apply N, Q, P.
    + exact (xk_updated _ _ _ _ _ _ Y k (or_introl eq_refl)).
Qed.

(* Put together with the model of TransactionalDictionary: along every history of calls, the key set of every commit. *)
Theorem C78_keys_of_a_transactional_dictionary :
  forall (K V : Type) (klt cmp : K -> K -> bool) (veq : V -> V -> bool),
  (forall a, klt a a = false) -> (forall a b c, klt a b = true -> klt b c = true -> klt a c = true) ->
  (forall a b, klt a b = false -> klt b a = false -> a = b) -> (forall a b, veq a b = true <-> a = b) ->
  (forall a b, cmp a b = true <-> a = b) ->
  forall ops, history klt (fun s o r =>
      match o, private s, r with
      | OCommit, Some m, RCommit (Some d) =>
          exists kd, keys_diff K V cmp d = Some kd /\ exact_key_diff klt (content s) m kd
      | _, _, _ => True
      end) (@sinit K V) ops (snd (run klt veq (init K V) ops)).
Proof.
  intros K V klt cmp veq I T To Ve C ops.
  refine (history_map K V klt _ _ _ ops _ _ (@C12_dictionary_commit_and_diff_exact K V klt veq I T To Ve ops)).
  intros s o r H. destruct o; try exact Logic.I. unfold commit_ok in H. destruct (private s) as [m|]; [|exact Logic.I].
  destruct r as [| | | | | | | |sent]; try exact Logic.I. destruct sent as [d|]; [|exact Logic.I].
  destruct H as [[H _]|(d' & H & X & _)]; [discriminate|]. injection H as <-.
  exact (keys_of_exact K V klt cmp I T C _ _ _ X).
Qed.

(* The key set of an observable dictionary tells its observers exactly the changes of the set of keys. *)
Theorem C78_observable_keys :
  forall (K V : Type) (cmp : K -> K -> bool), (forall a b, cmp a b = true <-> a = b) ->
  forall (c m : dict K V) evs, dict_calls cmp c evs m -> set_calls (has_key c) (keys_events K V evs) (has_key m).
Proof. intros K V cmp C c m evs. exact (keys_calls K V cmp C c evs m). Qed.

(* A cast dictionary, set or list tells its observers exactly the changes of what it shows. *)
Theorem C78_observable_casters :
  forall (K A B : Type) (cast : A -> B),
  (forall eqk (c m : dict K A) evs, dict_calls eqk c evs m ->
     exists m', dict_calls eqk (fun k => match c k with Some a => Some (cast a) | None => None end) (dc_events K A B cast evs) m' /\
                forall k, m' k = match m k with Some a => Some (cast a) | None => None end) /\
  (forall x evs y, list_calls x evs y -> list_calls (map cast x) (lc_events A B cast evs) (map cast y)) /\
  ((forall a a', cast a = cast a' -> a = a') -> forall P Q evs, set_calls P evs Q ->
     set_calls (fun b => exists a, P a /\ cast a = b) (sc_events A B cast evs) (fun b => exists a, Q a /\ cast a = b)).
Proof.
  intros K A B cast. split; [|split].
  - intros eqk c m evs H. exact (cast_dict_calls K A B cast eqk c evs m H).
  - intros x evs y H. exact (cast_list_calls A B cast x evs y H).
  - intros Inj P Q evs H. exact (cast_set_calls A B cast P evs Q Inj H).
Qed.

(* The diffs of a transactional dictionary, cast, replay to the cast dictionary (for every caster); those of a
   transactional set, cast with an injective caster, are the difference of the cast sets. *)
Theorem C78_transactional_casters :
  forall (K A B : Type) (klt : K -> K -> bool) (cast : A -> B),
  (forall (c m : dict K A) d, exact_diff klt c m d ->
     forall k, replay klt (dc_events K A B cast d) (fun k => match c k with Some a => Some (cast a) | None => None end) k = match m k with Some a => Some (cast a) | None => None end) /\
  ((forall a a', cast a = cast a' -> a = a') -> forall (P Q : A -> Prop) d,
     (forall a, In (OpAdded, a) d <-> Q a /\ ~ P a) -> (forall a, In (OpRemoved, a) d <-> P a /\ ~ Q a) ->
     let im (R : A -> Prop) b := exists a, R a /\ cast a = b in
     (forall b, In (OpAdded, b) (sc_events A B cast d) <-> im Q b /\ ~ im P b) /\
     (forall b, In (OpRemoved, b) (sc_events A B cast d) <-> im P b /\ ~ im Q b)).
Proof.
  intros K A B klt cast. split.
  - intros c m d X k. rewrite <- (ed_replay X k). clear X. unfold replay.
    assert (G : forall d (c : dict K A) (c' : dict K B), (forall k, c' k = cast_dict K A B cast c k) ->
      fold_left (fun m e => apply_entry klt e m) (dc_events K A B cast d) c' k =
      match fold_left (fun m e => apply_entry klt e m) d c k with Some a => Some (cast a) | None => None end).
    { clear. induction d as [|[o [k1 a]] d IH]; intros c c' E; cbn [dc_events map fold_left fst snd]; [apply E|].
      apply IH. intros x. destruct o; cbn [apply_entry fst snd]; unfold apply_entry, upd, cast_dict; cbn [fst snd];
        destruct (klt k1 x || klt x k1); [apply E | reflexivity | apply E | reflexivity | apply E | reflexivity]. }
    apply G. reflexivity.
  - intros Inj P Q d HA HR im. unfold sc_events, im.
    assert (M : forall o b, In (o, b) (map (fun e => (fst e, cast (snd e))) d) <-> exists a, cast a = b /\ In (o, a) d).
    { intros o b. rewrite in_map_iff. split.
      - intros ([o' a] & E & I). cbn in E. injection E as <- <-. exists a; auto.
      - intros (a & <- & I). exists (o, a). auto. }
    split; intros b; rewrite M; split.
    + intros (a & E & I). apply HA in I as [I N]. split; [exists a; auto|]. intros (a' & I' & E'). assert (a' = a) by (apply Inj; congruence). subst a'. auto.
    + intros [(a & I & E) N]. exists a. split; [exact E|]. apply HA. split; [exact I|]. intro I'. apply N. exists a; auto.
    + intros (a & E & I). apply HR in I as [I N]. split; [exists a; auto|]. intros (a' & I' & E'). assert (a' = a) by (apply Inj; congruence). subst a'. auto.
    + intros [(a & I & E) N]. exists a. split; [exact E|]. apply HR. split; [exact I|]. intro I'. apply N. exists a; auto.
Qed.

(* Reading through a caster: Contains, Find, IndexOf, Get and GetCount agree with what its enumerator shows, as long as
   casting back undoes casting for the items of the collection. *)
Theorem C78_caster_reads :
  forall (A B : Type) (cast : A -> B) (back : B -> option A) (aeq : A -> A -> bool),
  (forall a b, aeq a b = true <-> a = b) ->
  forall items, (forall a, In a items -> back (cast a) = Some a) -> (forall a b, back b = Some a -> cast a = b) ->
  let shown := sc_enum A B cast items in
  length shown = sc_count A items /\
  (forall i, lc_get A B cast items i = nth_error shown i) /\
  forall b,
  (sc_contains A B back aeq items b = true <-> In b shown) /\
  match sc_find A B cast back aeq items b with
  | [] => ~ In b shown
  | x :: r => x = b /\ exists pre, shown = pre ++ x :: r /\ ~ In b pre
  end /\
  match lc_index_of A B back aeq items b with
  | None => ~ In b shown
  | Some i => nth_error shown i = Some b /\ forall j, j < i -> nth_error shown j <> Some b
  end.
Proof.
  intros A B cast back aeq S items R1 R2 shown. unfold shown, sc_enum.
  split; [apply map_length|]. split.
  { intros i. unfold lc_get. destruct (nth_error items i) eqn:E.
    - now rewrite (map_nth_error cast _ _ E).
    - symmetry. apply nth_error_None. rewrite map_length. now apply nth_error_None. }
  intros b. split; [|split].
  - apply contains_in; [exact S | split; assumption].
  - apply (find_spec A B cast back aeq S). split; assumption.
  - apply (lc_index_spec A B cast back aeq S). split; assumption.
Qed.

(* A dictionary m with the items in key order: the cast dictionary shows the cast dictionary in key order and finds the
   same keys; its key set shows exactly the keys, each once, in order. *)
Theorem C78_dictionary_reads :
  forall (K A B : Type) (klt : K -> K -> bool) (cast : A -> B) (m : dict K A) items, listing klt m items ->
  (StronglySorted (fun p q => klt (fst p) (fst q) = true) (dc_enum K A B cast items) /\
   (forall k b, In (k, b) (dc_enum K A B cast items) -> dc_get A B cast (m k) = Some b) /\
   (forall k, dc_get A B cast (m k) = None -> m k = None) /\
   (forall k b, dc_get A B cast (m k) = Some b -> In (k, b) (dc_enum K A B cast items))) /\
  StronglySorted (fun p q => klt p q = true) (keys_enum K A items) /\
  (forall k, In k (keys_enum K A items) <-> has_key m k).
Proof.
  intros K A B klt cast m items [S L]. unfold dc_enum, keys_enum.
  assert (M : forall k b, In (k, b) (map (fun p => (fst p, cast (snd p))) items) <-> exists a, In (k, a) items /\ cast a = b).
  { intros k b. rewrite in_map_iff. split.
    - intros ([k' a] & E & I). cbn in E. injection E as <- <-. exists a; auto.
    - intros (a & I & <-). exists (k, a); auto. }
  split; [split; [|split; [|split]]|split].
  - clear L M. induction S as [|[k a] l S IH F]; cbn [map]; constructor; [exact IH|].
    apply Forall_map. cbn. exact F.
  - intros k b I. apply M in I as (a & I & <-). apply L in I. now rewrite I.
  - intros k. unfold dc_get. destruct (m k); [discriminate | reflexivity].
  - intros k b E. apply M. destruct (m k) as [a|] eqn:Em; [|discriminate]. cbn in E. injection E as <-. exists a. split; [now apply L | reflexivity].
  - clear L M. induction S as [|[k a] l S IH F]; cbn [map]; constructor; [exact IH|]. apply Forall_map. exact F.
  - intros k. unfold has_key. rewrite in_map_iff. split.
    + intros ([k' a] & <- & I). apply L in I. cbn. congruence.
    + intros H. destruct (m k) as [a|] eqn:Em; [|congruence]. exists (k, a). split; [reflexivity | now apply L].
Qed.

(* The default casts between shared_ptr types undo each other for every collection without null pointers. *)
Theorem C78_pointer_casts :
  forall is_src items, (forall p, In p items -> exists o, p = Some o /\ is_src o = true) ->
  (forall a, In a items -> ptr_back is_src (ptr_cast a) = Some a) /\ (forall a b, ptr_back is_src b = Some a -> ptr_cast a = b).
Proof.
  intros is_src items H. split.
  - intros a I. destruct (H a I) as (o & -> & E). unfold ptr_back, ptr_cast. now rewrite E.
  - intros a b. unfold ptr_back, ptr_cast. destruct b as [o|]; [|discriminate]. destruct (is_src o); [|discriminate]. intro Q. now injection Q.
Qed.

(* With a null pointer among the items the views contradict themselves: it is enumerated, but not found. *)
Theorem C78_null_pointer_refuted :
  exists is_src items, let eqp (a b : option nat) := match a, b with Some x, Some y => x =? y | None, None => true | _, _ => false end in
  In None (sc_enum _ _ ptr_cast items) /\ sc_contains _ _ (ptr_back is_src) eqp items None = false.
Proof. exists (fun _ => true), [Some 1; None]. cbn. auto. Qed.

(* With a caster that is not injective the calls to the observers of a cast set are not those of any set: replacing
   one item by another with the same image first adds what is already there and then removes it for good. *)
Theorem C78_non_injective_set_caster_refuted :
  exists (cast : nat -> nat) evs (P Q : nat -> Prop), set_calls P evs Q /\ (exists a, Q a) /\
  ~ set_calls (fun b => exists a, P a /\ cast a = b) (sc_events _ _ cast evs) (fun b => exists a, Q a /\ cast a = b).
Proof.
  exists (fun _ => 7), [(OpAdded, 0); (OpRemoved, 1)], (fun x => x = 1), (fun x => x = 0).
  split; [|split].
  - apply sc_add; [discriminate|]. apply sc_rem; [now right|]. apply sc_nil. intros x. lia.
  - exists 0. reflexivity.
  - intros H. cbn in H. inversion H as [| ? ? ? ? N R |]; subst. apply N. exists 1. auto.
Qed.

(* Cases meeting the hypotheses. *)
Example C78_case_keys : keys_diff Z Z Z.eqb [(OpAdded, (0, 5)); (OpRemoved, (2, 20)); (OpAdded, (2, 25)); (OpRemoved, (3, 30))]%Z
  = Some [(OpAdded, 0%Z); (OpRemoved, 3%Z)].
Proof. reflexivity. Qed.
Example C78_case_history :
  nth 13 (snd (run Z.ltb Z.eqb (init Z Z) demo)) RUnit = RCommit (Some [(OpAdded, (0, 5)); (OpRemoved, (2, 20)); (OpAdded, (2, 25)); (OpRemoved, (3, 30))]%Z).
Proof. reflexivity. Qed.
Example C78_case_events : dict_calls Nat.eqb (fun _ => None) [(OpAdded, (1, 10)); (OpUpdated, (1, 11)); (OpAdded, (2, 20)); (OpRemoved, (1, 11))]
    (put Nat.eqb 1 None (put Nat.eqb 2 (Some 20) (put Nat.eqb 1 (Some 11) (put Nat.eqb 1 (Some 10) (fun _ => None))))) /\
  keys_events nat nat [(OpAdded, (1, 10)); (OpUpdated, (1, 11)); (OpAdded, (2, 20)); (OpRemoved, (1, 11))] = [(OpAdded, 1); (OpAdded, 2); (OpRemoved, 1)].
Proof. split; [|reflexivity]. apply dc_add; [reflexivity|]. eapply dc_upd; [reflexivity|]. apply dc_add; [reflexivity|]. apply dc_rem; [reflexivity|]. apply dc_nil. Qed.
Example C78_case_pointers : forall p, In p [Some 1; Some 2] -> exists o, p = Some o /\ (fun o => o <? 5) o = true.
Proof. intros p [<-|[<-|[]]]; eexists; split; reflexivity. Qed.

Print Assumptions C78_key_diff_exact.
Print Assumptions C78_key_observers_called_iff_keys_changed.
Print Assumptions C78_keys_of_a_transactional_dictionary.
Print Assumptions C78_observable_keys.
Print Assumptions C78_observable_casters.
Print Assumptions C78_transactional_casters.
Print Assumptions C78_caster_reads.
Print Assumptions C78_dictionary_reads.
Print Assumptions C78_pointer_casts.
Print Assumptions C78_null_pointer_refuted.
Print Assumptions C78_non_injective_set_caster_refuted.
