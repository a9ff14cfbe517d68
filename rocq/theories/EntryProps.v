(* C80: a value that shows one entry of a collection tells its observers that entry, always. *)
From Coq Require Import List Bool Arith Lia ZArith Sorting.Sorted.
From Verif Require Import TxEnumModel TxDictModel TxDictSpec TxDictProofs TxDictProps ViewSpec ViewProofs EntryModel EntrySpec EntryProofs.
Import ListNotations.
Local Open Scope nat_scope.

(* The value of one key of an observable dictionary: after any history of changes of the dictionary (and so after each
   change of it) an observer knows what the dictionary holds for the key - the value, or null - and what Get returns. *)
Theorem C80_observer_knows_the_entry :
  forall (K V W : Type) (wrap : V -> W) (null : W) (cmp : K -> K -> bool), (forall a b, cmp a b = true <-> a = b) ->
  forall (key : K) (c m : dict K V) evs, dict_calls cmp c evs m ->
  knows (kv_populator V W wrap null (c key) ++ kv_events K V W wrap null cmp key evs) =
  Some (match m key with Some v => wrap v | None => null end) /\
  kv_get V W wrap null (m key) = match m key with Some v => wrap v | None => null end.
Proof.
  intros K V W wrap null cmp C key c m evs H. split; [|reflexivity].
  apply (events_tell K V W wrap null cmp C key c evs m H (kv_populator V W wrap null (c key))). reflexivity.
Qed.

(* It is called exactly for the changes of that key. *)
Theorem C80_called_for_the_key_only :
  forall (K V W : Type) (wrap : V -> W) (null : W) (cmp : K -> K -> bool), (forall a b, cmp a b = true <-> a = b) ->
  forall (key : K) o (k : K) (v : V),
  kv_events K V W wrap null cmp key [(o, (k, v))] =
    (match cmp key k, o with
     | false, _ => []
     | true, OpRemoved => [null]
     | true, _ => [wrap v]
     end) /\
  forall evs evs', kv_events K V W wrap null cmp key (evs ++ evs') = kv_events K V W wrap null cmp key evs ++ kv_events K V W wrap null cmp key evs'.
Proof.
  intros K V W wrap null cmp C key o k v. split.
  - cbn. destruct (cmp key k), o; reflexivity.
  - intros evs evs'. unfold kv_events. apply flat_map_app.
Qed.

(* The value of one key of a transactional dictionary: a diff that leads from c to m makes a call exactly if the entry
   changed, and the call carries the new entry - also if the diff removes the old value and adds a new one. *)
Theorem C80_transactional_exact :
  forall (K V W : Type) (wrap : V -> W) (null : W) (klt cmp : K -> K -> bool), (forall a b, cmp a b = true <-> a = b) ->
  (forall a, klt a a = false) -> (forall a b, klt a b = false -> klt b a = false -> a = b) ->
  forall (key : K) (c m : dict K V) d, exact_diff klt c m d ->
  match kv_diff K V W wrap null cmp key d with
  | None => m key = c key
  | Some w => m key <> c key /\ w = match m key with Some v => wrap v | None => null end
  end.
Proof. intros K V W wrap null klt cmp C I T key c m d X. exact (diff_tells K V W wrap null cmp C key klt I T c m d X). Qed.

(* Put together with the model of TransactionalDictionary: along every history of calls, for every commit. *)
Theorem C80_value_of_a_transactional_dictionary :
  forall (K V W : Type) (wrap : V -> W) (null : W) (klt cmp : K -> K -> bool) (veq : V -> V -> bool),
  (forall a, klt a a = false) -> (forall a b c, klt a b = true -> klt b c = true -> klt a c = true) ->
  (forall a b, klt a b = false -> klt b a = false -> a = b) -> (forall a b, veq a b = true <-> a = b) ->
  (forall a b, cmp a b = true <-> a = b) ->
  forall (key : K) ops, history klt (fun s o r =>
      match o, private s, r with
      | OCommit, Some m, RCommit (Some d) =>
          match kv_diff K V W wrap null cmp key d with
          | None => m key = content s key
          | Some w => m key <> content s key /\ w = match m key with Some v => wrap v | None => null end
          end
      | OCommit, Some m, RCommit None => m key = content s key
      | _, _, _ => True
      end) (@sinit K V) ops (snd (run klt veq (init K V) ops)).
Proof.
  intros K V W wrap null klt cmp veq I T To Ve C key ops.
  refine (history_map K V klt _ _ _ ops _ _ (@C12_dictionary_commit_and_diff_exact K V klt veq I T To Ve ops)).
  intros s o r H. destruct o; try exact Logic.I. unfold commit_ok in H. destruct (private s) as [m|]; [|exact Logic.I].
  destruct r as [| | | | | | | |sent]; try exact Logic.I. destruct sent as [d|].
  - destruct H as [[H _]|(d' & H & X & _)]; [discriminate|]. injection H as <-.
    exact (diff_tells K V W wrap null cmp C key klt I To _ _ _ X).
  - destruct H as [[_ H]|(d' & H & _)]; [|discriminate]. symmetry. apply H || apply (H key).
Qed.

(* Set: afterwards the value is what was set, no other key is touched, and the dictionary's calls say so. *)
Theorem C80_set_is_get :
  forall (K V W : Type) (wrap : V -> W) (null : W) (as_value : W -> option V) (cmp : K -> K -> bool),
  (forall a b, cmp a b = true <-> a = b) -> shows wrap null as_value ->
  forall (key : K) w (m : dict K V),
  let after := dict_do K V cmp m (kv_set K V W as_value key w) in
  dict_calls cmp m (snd after) (fst after) /\
  kv_get V W wrap null (fst after key) = w /\
  (forall k, k <> key -> fst after k = m k).
Proof. intros K V W wrap null as_value cmp C Sh key w m. exact (set_done K V W wrap null as_value cmp C Sh key w m). Qed.

(* The two ways of showing both meet the hypothesis: an optional value, and a value that may itself be null. *)
Theorem C80_both_value_types :
  (forall V : Type, @shows V (option V) Some None (fun w => w)) /\
  (forall (V : Type) (null : V) (is_null : V -> bool), (forall v, is_null v = true <-> v = null) ->
     @shows V V (fun v => v) null (fun w => if is_null w then None else Some w)).
Proof.
  split.
  - intros V. split; [intros w v ->; reflexivity|auto].
  - intros V null is_null H. split.
    + intros w v E. destruct (is_null w); [discriminate|]. congruence.
    + intros w E. apply H. destruct (is_null w); [reflexivity|discriminate].
Qed.

(* The entry of a set: the same. *)
Theorem C80_set_entry :
  forall (T : Type) (cmp : T -> T -> bool), (forall a b, cmp a b = true <-> a = b) ->
  forall (key : T) (contains : bool) (P Q : T -> Prop) evs, (contains = true <-> P key) -> set_calls P evs Q ->
  exists b, knows (se_populator contains ++ se_events T cmp key evs) = Some b /\ (b = true <-> Q key).
Proof. intros T cmp C key contains P Q evs Hc H. apply (set_events_tell T cmp C key P evs Q H (se_populator contains) contains); [reflexivity|exact Hc]. Qed.
Theorem C80_set_entry_set :
  forall (T : Type) (cmp : T -> T -> bool), (forall a b, cmp a b = true <-> a = b) ->
  forall (key : T) (value : bool) (content : T -> bool),
  let after := se_set T key cmp value content in
  set_calls (fun x => content x = true) (snd after) (fun x => fst after x = true) /\
  fst after key = value /\ (forall x, x <> key -> fst after x = content x).
Proof. intros T cmp C key value content. exact (set_entry_done T cmp C key value content). Qed.

(* GetSetEntry(set, key, equalsCmp) does not use the comparer it is given but a default constructed one of its type: with
   a comparer that carries state the observer can be told nothing of a change of its own key. *)
Theorem C80_given_comparer_ignored_refuted :
  exists (default_made given : nat -> nat -> bool) evs (P Q : nat -> Prop),
  (forall a b, given a b = true <-> a = b) /\ set_calls P evs Q /\ ~ P 1 /\ Q 1 /\
  knows (se_populator false ++ se_events nat (entry_comparer default_made given) 1 evs) = Some false /\
  knows (se_populator false ++ se_events nat given 1 evs) = Some true.
Proof.
  exists (fun _ _ => false), Nat.eqb, [(OpAdded, 1)], (fun _ => False), (fun x => x = 1 \/ False).
  split; [apply Nat.eqb_eq|]. split; [apply sc_add; [tauto|]; apply sc_nil; tauto|]. split; [tauto|]. split; [auto|]. split; reflexivity.
Qed.

(* With a comparer coarser than the dictionary's own equality the observer is told another key's value: it then knows
   something else than Get returns. *)
Theorem C80_coarser_comparer_refuted :
  exists (cmp : nat -> nat -> bool) (c m : dict nat nat) evs,
  (forall a, cmp a a = true) /\ dict_calls Nat.eqb c evs m /\
  knows (kv_populator nat (option nat) Some None (c 1) ++ kv_events nat nat (option nat) Some None cmp 1 evs) <>
  Some (kv_get nat (option nat) Some None (m 1)).
Proof.
  exists (fun a b => Nat.even a || negb (Nat.even b)), (fun _ => None), (put Nat.eqb 3 (Some 7) (fun _ => None)), [(OpAdded, (3, 7))].
  split; [intros a; destruct (Nat.even a); reflexivity|]. split; [apply dc_add; [reflexivity|apply dc_nil]|]. cbn. discriminate.
Qed.

(* A dictionary of values that can be null may hold null for a key; shown as a value it looks like a missing key. *)
Theorem C80_null_looks_like_missing_refuted :
  exists (V : Type) (null : V) (c m : dict nat V),
  has_key c 1 /\ ~ has_key m 1 /\ kv_get V V (fun v => v) null (c 1) = kv_get V V (fun v => v) null (m 1).
Proof.
  exists nat, 0, (fun _ => Some 0), (fun _ => None). unfold has_key. split; [discriminate|]. split; [|reflexivity]. intros H. apply H. reflexivity.
Qed.

(* the hypotheses are met *)
Example C80_example_calls :
  let c : dict nat nat := put Nat.eqb 1 (Some 5) (fun _ => None) in
  let evs := [(OpAdded, (2, 9)); (OpUpdated, (1, 6)); (OpRemoved, (2, 9)); (OpRemoved, (1, 6)); (OpAdded, (1, 8))] in
  (exists m, dict_calls Nat.eqb c evs m /\ m 1 = Some 8 /\ m 2 = None) /\
  kv_populator nat (option nat) Some None (c 1) ++ kv_events nat nat (option nat) Some None Nat.eqb 1 evs = [Some 5; Some 6; None; Some 8].
Proof.
  cbn zeta. split; [|reflexivity]. eexists. split.
  - apply dc_add; [reflexivity|]. eapply dc_upd; [reflexivity|]. apply dc_rem; [reflexivity|]. apply dc_rem; [reflexivity|]. apply dc_add; [reflexivity|]. apply dc_nil.
  - split; reflexivity.
Qed.
Example C80_example_diff :
  let c : dict nat nat := fun k => if k =? 1 then Some 5 else None in
  let m : dict nat nat := fun k => if k =? 1 then Some 6 else None in
  exact_diff Nat.ltb c m [(OpRemoved, (1, 5)); (OpAdded, (1, 6))] /\
  kv_diff nat nat (option nat) Some None Nat.eqb 1 [(OpRemoved, (1, 5)); (OpAdded, (1, 6))] = Some (Some 6) /\
  kv_diff nat nat (option nat) Some None Nat.eqb 2 [(OpRemoved, (1, 5)); (OpAdded, (1, 6))] = None.
Proof.
  cbn zeta. split; [|split; reflexivity]. split.
  - intros k v. cbn [In]. destruct (k =? 1) eqn:E; [apply Nat.eqb_eq in E; subst k|apply Nat.eqb_neq in E]; split.
    + intros [H|[H|[]]]; [injection H as <-; split; [reflexivity|discriminate]|discriminate].
    + intros ([= <-] & _). auto.
    + intros [H|[H|[]]]; congruence.
    + intros (H & _). discriminate.
  - intros k v. cbn [In]. destruct (k =? 1) eqn:E; [apply Nat.eqb_eq in E; subst k|apply Nat.eqb_neq in E]; split.
    + intros [H|[H|[]]]; [discriminate|injection H as <-; split; [reflexivity|discriminate]].
    + intros ([= <-] & _). auto.
    + intros [H|[H|[]]]; congruence.
    + intros (H & _). discriminate.
  - intros x [H|[H|[]]]; discriminate.
  - constructor; [constructor; [constructor|constructor]|]. constructor; [|constructor]. right. auto.
  - intros k. unfold replay, apply_entry, upd. cbn [fold_left fst snd]. destruct (k =? 1) eqn:E; [apply Nat.eqb_eq in E; subst k; reflexivity|].
    apply Nat.eqb_neq in E. destruct (1 <? k) eqn:A; [reflexivity|]. destruct (k <? 1) eqn:B; [reflexivity|]. exfalso. apply Nat.ltb_ge in A, B. lia.
Qed.

Print Assumptions C80_observer_knows_the_entry.
Print Assumptions C80_called_for_the_key_only.
Print Assumptions C80_transactional_exact.
Print Assumptions C80_value_of_a_transactional_dictionary.
Print Assumptions C80_set_is_get.
Print Assumptions C80_both_value_types.
Print Assumptions C80_set_entry.
Print Assumptions C80_set_entry_set.
Print Assumptions C80_given_comparer_ignored_refuted.
Print Assumptions C80_coarser_comparer_refuted.
Print Assumptions C80_null_looks_like_missing_refuted.
