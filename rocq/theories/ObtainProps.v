(* C81: values taken from a signal, futures for the first value of a signal, futures for calls in an executor. *)
From Coq Require Import List Bool Arith Lia Permutation.
From Verif Require Import Conc TxEnumModel ObtainModel ObtainSpec ObtainProofs.
Import ListNotations.
Local Open Scope nat_scope.

(* GetValueFromSignal and GetTupleFromSignal, for every populator that calls the slot with the values [l] and then returns
   or throws: with an exception handler that returns (as the default one) the answer is the first value, or null if there
   is none, and the handler was called once for each further value and once for the populator's own exception. *)
Theorem C81_value_from_signal :
  forall (A W : Type) (wrap : A -> W) (null : W) (l : list A) (own : bool),
  get_value A true W wrap null (Some (l, own)) = Answer (match l with v :: _ => wrap v | [] => null end) /\
  has_value A true (Some (l, own)) = Answer (match l with _ :: _ => true | [] => false end) /\
  handled (send_current_state (option A) A (value_slot A) true None l own) = (length l - 1) + (if own then 1 else 0).
Proof.
  intros A W wrap null l own. unfold get_value, has_value, connector_send, send_current_state. rewrite pop_values. cbn [final handled thrown].
  destruct own; cbn [thrown final handled]; destruct l as [|v l]; cbn [hd_error]; (split; [reflexivity|]; split; [reflexivity|]; cbn; lia).
Qed.

(* With a handler that throws: a second value, or an exception of the populator, is an error of the caller. *)
Theorem C81_value_from_strict_signal :
  forall (A W : Type) (wrap : A -> W) (null : W) (l : list A) (own : bool),
  get_value A false W wrap null (Some (l, own)) =
    match l, own with
    | [], false => Answer null
    | [v], false => Answer (wrap v)
    | _, _ => Raised
    end.
Proof.
  intros A W wrap null l own. unfold get_value, connector_send, send_current_state.
  destruct l as [|a [|b l]], own; reflexivity.
Qed.

(* A dummy connector has no value. *)
Theorem C81_dummy_connector :
  forall (A W : Type) (returns : bool) (wrap : A -> W) (null : W),
  get_value A returns W wrap null None = Answer null /\ has_value A returns None = Answer false /\
  get_values A returns None = Answer [] /\ get_op_values A returns None = Answer [].
Proof. intros A W returns wrap null. repeat split. Qed.

(* GetValuesFromSignal: all values, in the order of the calls; with a handler that returns also if the populator throws. *)
Theorem C81_values_from_signal :
  forall (A : Type) (l : list A) (own : bool),
  get_values A true (Some (l, own)) = Answer l /\
  get_values A false (Some (l, own)) = (if own then Raised else Answer l).
Proof.
  intros A l own. unfold get_values, connector_send, send_current_state. rewrite !pop_collect. destruct own; cbn; auto.
Qed.

(* GetValuesFromSignal for a collection's signal: if the populator only adds, the collection's elements; otherwise the
   added ones are returned and the handler is told once for each of the others (a strict handler makes it an error). *)
Theorem C81_collection_from_signal :
  forall (A : Type) (l : list (cop * A)) (own : bool),
  get_op_values A true (Some (l, own)) = Answer (added l) /\
  (only_adds l -> added l = map snd l) /\
  handled (send_current_state (list A) (cop * A) (collect_op_slot A) true [] l own) + length (added l) = length l + (if own then 1 else 0) /\
  (only_adds l -> get_op_values A false (Some (l, own)) = if own then Raised else Answer (map snd l)) /\
  (~ only_adds l -> get_op_values A false (Some (l, own)) = Raised).
Proof.
  intros A l own. split; [|split; [|split; [|split]]].
  - unfold get_op_values, connector_send, send_current_state. destruct (pop_op_true A l [] 0 own) as (h & E & L). rewrite E. destruct own; reflexivity.
  - intros H. induction l as [|[o a] l IH]; [reflexivity|]. assert (o = OpAdded) as -> by exact (H (o, a) (or_introl eq_refl)).
    cbn. f_equal. apply IH. intros c Hc. apply H. right. exact Hc.
  - unfold send_current_state. destruct (pop_op_true A l [] 0 own) as (h & E & L). rewrite E. cbn [thrown]. destruct own; cbn; lia.
  - intros H. unfold get_op_values, connector_send, send_current_state. rewrite pop_op_adds by exact H. destruct own; reflexivity.
  - intros H. unfold get_op_values, connector_send, send_current_state. rewrite pop_op_other by exact H. reflexivity.
Qed.

(* AsyncFunction: whatever the executor does with the task - copy it, drop it without a call, call it once, several times
   or at the same time in several threads, before or after the caller has its future - at every moment the future holds
   exactly what the first call that ended with a value or a std::exception ended with; if there is none it is empty as long
   as a copy of the task exists (or the caller has not returned yet), and holds BrokenPromise from then on. *)
Theorem C81_async_future :
  forall (V E : Type) ls (s : ast V E), steps (@astep V E) (ainit V E) ls s ->
  result s = match first_outcome (calls s) with
             | Some o => Some o
             | None => if (copies s =? 0) && (match caller_at s with CDone => true | _ => false end) then Some Broken else None
             end.
Proof.
  intros V E ls s H. destruct (ainv_reach V E ls s H) as [R _ _ _ _]. rewrite R. unfold resultof.
  destruct (first_outcome (calls s)); [reflexivity|]. destruct (copies s), (caller_at s); reflexivity.
Qed.

(* What it holds, it keeps. *)
Theorem C81_async_result_is_final :
  forall (V E : Type) ls (s : ast V E), steps (@astep V E) (ainit V E) ls s -> forall r, result s = Some r ->
  forall ls' s', steps (@astep V E) s ls' s' -> result s' = Some r.
Proof.
  intros V E ls s H r R ls' s' H'. destruct (ainv_reach V E ls s H) as [Q _ _ _ S0].
  assert (C : caller_at s <> CStart).
  { intros X. destruct (S0 (or_introl X)) as [_ Y]. rewrite R in Q. unfold resultof in Q. rewrite Y, X in Q. cbn in Q. destruct (copies s); discriminate. }
  exact (ares_stays_all V E s ls' s' r C H' R).
Qed.

(* The caller always gets its future; of what the function throws, only what is not a std::exception leaves the task. *)
Theorem C81_async_calls :
  forall (V E : Type) ls (s : ast V E), steps (@astep V E) (ainit V E) ls s ->
  (caller_at s = CAdded -> exists s', astep V E s AGet = Some s' /\ caller_at s' = CDone) /\
  escaped s = others (calls s) /\ running s <= copies s.
Proof.
  intros V E ls s H. destruct (ainv_reach V E ls s H) as [_ N X T _]. split; [|auto].
  intros C. unfold astep. rewrite C, T, C. eexists. split; [reflexivity|]. unfold release. cbn. destruct (copies s); reflexivity.
Qed.

(* SignalToFutureWrapper: in every schedule - values sent while it connects, from any number of threads, its destruction at
   any moment - the future holds the first value that reached the slot; it is broken exactly if there was none before the
   destruction; each further value was an exception for the signal's handler; the promise is never used after its
   destruction; GetFuture never throws. *)
Theorem C81_signal_to_future :
  forall (V : Type) ls (s : wst V), steps (@wstep V) (winit V) ls s ->
  wresult s = match wsets s with
              | v :: _ => Some (Some v)
              | [] => match wphase s with Gone => Some None | _ => None end
              end /\
  whandled s = length (wsets s) - 1 /\ dangling s = false /\ wrefused s = false.
Proof. intros V ls s H. destruct (winv_reach V ls s H) as [R N D T _ _]. auto. Qed.

(* No value is lost: while the wrapper lives every value sent reached the slot or is on its way in it, and those are
   finished before the wrapper is destroyed. *)
Theorem C81_signal_values_reach_the_future :
  forall (V : Type) ls (s : wst V), steps (@wstep V) (winit V) ls s ->
  (wphase s = Alive -> forall ls' s', ~ In WRelease ls' -> steps (@wstep V) s ls' s' ->
     Permutation (wsets s' ++ entered s') (wsets s ++ entered s ++ flat_map (fun l => match l with WEnter v => [v] | _ => [] end) ls')) /\
  (wphase s = Gone -> entered s = [] /\ leaving s = 0).
Proof.
  intros V ls s H. split.
  - intros P ls' s' N H'. exact (nothing_lost V s ls' s' P N H').
  - intros P. destruct (winv_reach V ls s H) as [_ _ _ _ _ I]. apply I. auto.
Qed.

(* "A value from a signal that has more than one is an error": with the default handler the exception is only logged, and
   the caller gets the first value. *)
Theorem C81_ambiguous_value_refuted :
  exists l : list nat, 1 < length l /\ get_value nat true (option nat) Some None (Some (l, false)) <> Raised.
Proof. exists [1; 2]. split; [cbn; lia|discriminate]. Qed.
(* "An exception of the function reaches the future": one that is not a std::exception leaves it broken instead. *)
Theorem C81_other_exception_refuted :
  exists ls (s : ast nat nat), steps (@astep nat nat) (ainit nat nat) ls s /\ calls s = [ThrewOther] /\ escaped s = 1 /\ result s = Some Broken.
Proof.
  exists [AMake; AAdd; ABegin; AGet; AEnd ThrewOther; ADrop]. apply exec_obs. vm_compute. auto.
Qed.
(* "A null value can be told from no value": for nullable types both are null. *)
Theorem C81_null_value_refuted :
  exists null : nat, get_value nat true nat (fun v => v) null (Some ([null], false)) = get_value nat true nat (fun v => v) null (Some ([], false)).
Proof. exists 0. reflexivity. Qed.

(* the hypotheses are met *)
Example C81_example_async :
  (exists s : ast nat nat, steps (@astep nat nat) (ainit nat nat) [AMake; AAdd; ACopy; ADrop; ABegin; AEnd (Returned 7); ADrop; AGet] s /\ result s = Some (Val 7)) /\
  (exists s : ast nat nat, steps (@astep nat nat) (ainit nat nat) [AMake; AAdd; AGet; ACopy; ABegin; ABegin; AEnd (Threw 3); AEnd (Returned 7)] s /\ result s = Some (Exc 3)) /\
  (exists s : ast nat nat, steps (@astep nat nat) (ainit nat nat) [AMake; AAdd; ADrop; AGet] s /\ result s = Some Broken).
Proof. split; [|split]; apply exec_obs; vm_compute; reflexivity. Qed.
Example C81_example_signal :
  (exists s : wst nat, steps (@wstep nat) (winit nat) [WPopulate 5; WConnected; WEnter 6; WGetFuture; WRelease; WEnter 8; WSet 0; WLeave; WDisconnected; WDestroy] s /\
     wresult s = Some (Some 5) /\ wsets s = [5; 6] /\ whandled s = 1 /\ wphase s = Gone) /\
  (exists s : wst nat, steps (@wstep nat) (winit nat) [WConnected; WEnter 6; WEnter 7; WSet 1; WGetFuture; WGetFuture] s /\
     wresult s = Some (Some 7) /\ entered s = [6] /\ wtaken s = true) /\
  (exists s : wst nat, steps (@wstep nat) (winit nat) [WConnected; WRelease; WDisconnected; WDestroy] s /\ wresult s = Some None).
Proof. split; [|split]; apply exec_obs; vm_compute; auto. Qed.

Print Assumptions C81_value_from_signal.
Print Assumptions C81_value_from_strict_signal.
Print Assumptions C81_dummy_connector.
Print Assumptions C81_values_from_signal.
Print Assumptions C81_collection_from_signal.
Print Assumptions C81_async_future.
Print Assumptions C81_async_result_is_final.
Print Assumptions C81_async_calls.
Print Assumptions C81_signal_to_future.
Print Assumptions C81_signal_values_reach_the_future.
Print Assumptions C81_ambiguous_value_refuted.
Print Assumptions C81_other_exception_refuted.
Print Assumptions C81_null_value_refuted.
