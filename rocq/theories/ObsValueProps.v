(* C77: observers of an ObservableValue know its value. *)
From Coq Require Import List Bool Arith Lia.
From Verif Require Import ObsValueModel ObsValueSpec ObsValueProofs.
Import ListNotations.

(* Get returns what the Sets before it left: a register that keeps its value when told an equal one. *)
Theorem C77_get_returns_the_last_value_set :
  forall T eqb by_ref pol D v0 ops s, history T eqb by_ref pol D v0 ops s ->
  val s = register eqb v0 (log s) /\
  forall l1 v l2, log s = l1 ++ EGet v :: l2 -> v = register eqb v0 l2.
Proof.
  intros T eqb by_ref pol D v0 ops s H. split.
  - symmetry. exact (reg_run T eqb by_ref pol D v0 _ _ _ H eq_refl).
  - intros l1 v l2 E. pose proof (gets_run T eqb by_ref pol D v0 _ _ _ H eq_refl I) as A.
    rewrite E in A. exact (allsuf_app T _ _ _ _ A).
Qed.

(* A slot is called only while connected, or once before its connect returns (population); in particular never after
   its token has been destroyed.  Whatever the slots do. *)
Theorem C77_told_only_while_connected :
  forall T eqb by_ref pol D v0 ops s, history T eqb by_ref pol D v0 ops s ->
  forall l1 c v l2, log s = l1 ++ ERecv c v :: l2 ->
  In c (observers l2) \/ (forall e, In e l2 -> ~ about c e).
Proof.
  intros T eqb by_ref pol D v0 ops s H l1 c v l2 E.
  pose proof (recv_run T eqb by_ref pol D _ _ _ H (wf_init T v0) I) as A.
  rewrite E in A. exact (allsuf_app T _ _ _ _ A).
Qed.

(* What an observer was told last is the value now; if it was told nothing, the value has not changed since it
   connected, and it did not ask for the value or the population policy found nothing to say. *)
Definition up_to_date {T} (eqb : T -> T -> bool) (pol : policy T) (c : nat) (s : st T) : Prop :=
  match last_told c (log s) with
  | Some v => v = val s
  | None => exists send, connect_info c (log s) = Some (send, val s) /\
      (send = true -> match pol with Mandatory => False | Conditional d => eqb (val s) d = true | Disabled => True end)
  end.

Lemma good_up T eqb pol c s : good T eqb pol c s -> up_to_date eqb pol c s.
Proof.
  unfold good, up_to_date. destruct (last_told c (log s)); [auto|]. intros (b & A & B). exists b. split; [exact A|].
  intros ->. destruct pol; cbn in B; auto; [discriminate|]. destruct (eqb (val s) dflt); [reflexivity | discriminate].
Qed.

(* Values passed by reference (class types): slots may call anything, also Set, as long as none does while populated. *)
Theorem C77_observers_know_the_value :
  forall T eqb pol v0 ops s, history T eqb true pol no_set_in_populating v0 ops s ->
  forall c, In c (observers (log s)) -> up_to_date eqb pol c s.
Proof.
  intros T eqb pol v0 ops s H c I. apply good_up.
  pose proof (wf_run T eqb true pol no_set_in_populating _ _ _ H (wf_init T v0)) as (_ & _ & C & _).
  refine (good_run T eqb true pol no_set_in_populating (fun o H => H) (or_introl eq_refl) _ _ _ H (wf_init T v0) c _ _).
  - now rewrite C.
  - intros [].
Qed.

(* Values passed by value (built-in types): provided no slot calls Set. *)
Theorem C77_observers_know_the_value_by_value :
  forall T eqb by_ref pol v0 ops s, history T eqb by_ref pol no_set_in_slots v0 ops s ->
  forall c, In c (observers (log s)) -> up_to_date eqb pol c s.
Proof.
  intros T eqb by_ref pol v0 ops s H c I. apply good_up.
  pose proof (wf_run T eqb by_ref pol no_set_in_slots _ _ _ H (wf_init T v0)) as (_ & _ & C & _).
  refine (good_run T eqb by_ref pol no_set_in_slots (fun o H => H) (or_intror (fun o H => H)) _ _ _ H (wf_init T v0) c _ _).
  - now rewrite C.
  - intros [].
Qed.

(* ... and then nobody is told a value equal to the one it was told before. *)
Theorem C77_no_repeated_notification :
  forall T eqb by_ref pol v0 ops s, history T eqb by_ref pol no_set_in_slots v0 ops s ->
  forall l1 c w l2 u, log s = l1 ++ ERecv c w :: l2 -> last_told c l2 = Some u -> eqb u w = false.
Proof.
  intros T eqb by_ref pol v0 ops s H l1 c w l2 u E L.
  assert (A : allsuf T (q_rep T eqb) (log s)).
  { refine (rep_run T eqb by_ref pol no_set_in_slots (fun o H => H) (or_intror (fun o H => H)) _ _ _ (fun o H => H) H (wf_init T v0) _ I).
    right. intros d []. }
  rewrite E in A. exact (allsuf_app T _ _ _ _ A u L).
Qed.

(* With slots that do not call back: one Set tells every observer the new value, exactly once, in the order in which
   they connected, or nothing at all if the value is equal to the old one. *)
Theorem C77_set_tells_every_observer_once :
  forall T eqb by_ref pol v0 ops s, history T eqb by_ref pol silent v0 ops s ->
  forall v s', run T eqb by_ref pol silent s (COp (OSet v)) s' ->
  val s' = (if eqb (val s) v then val s else v) /\
  log s' = (if eqb (val s) v then [] else rev (map (fun c => ERecv c v) (observers (log s)))) ++ ESet v :: log s.
Proof.
  intros T eqb by_ref pol v0 ops s H v s' R.
  pose proof (wf_run T eqb by_ref pol silent _ _ _ H (wf_init T v0)) as (_ & _ & C & _).
  inversion R as [? ? Q | ? ? ? Q R1 | | | | | | | | |]; subst; rewrite Q.
  - split; reflexivity.
  - apply silent_all in R1; [|intros c I; exact I|reflexivity].
    rewrite R1. cbn. rewrite <- C. split; reflexivity.
Qed.

(* ... and connect tells the new observer the value at once exactly if asked to and the policy says so. *)
Theorem C77_connect_populates_by_the_policy :
  forall T eqb by_ref pol (s s' : st T) send, run T eqb by_ref pol silent s (COp (OConnect send)) s' ->
  exists c, (log s' = EConn c send (val s) :: ERecv c (val s) :: log s /\ send = true /\
             match pol with Mandatory => True | Conditional d => eqb (val s) d = false | Disabled => False end) \/
            (log s' = EConn c send (val s) :: log s /\
             (send = true -> match pol with Mandatory => False | Conditional d => eqb (val s) d = true | Disabled => True end)).
Proof.
  intros T eqb by_ref pol s s' send R. exists (next s).
  inversion R as [| | | ? ? Q | ? ? ops s1 Q F R1 | | | | | |]; subst.
  - right. split; [reflexivity|]. intros ->. destruct pol; cbn in Q; [discriminate | destruct (eqb (val s) dflt); [reflexivity | discriminate] | exact I].
  - left. apply silent_ops in R1; [|exact F]. subst s1. split; [reflexivity|].
    apply andb_true_iff in Q as [Q1 Q2]. split; [exact Q1|].
    destruct pol; cbn in Q2; [exact I | destruct (eqb (val s) dflt); [discriminate | reflexivity] | discriminate].
Qed.

(* Every call comes to an end when its slots do, also when slots have been disconnected meanwhile. *)
Theorem C77_calls_complete :
  forall T eqb by_ref pol D (s : st T) o, (forall c, o = ODisconnect c -> In c (conns s)) ->
  exists s', run T eqb by_ref pol D s (COp o) s'.
Proof.
  intros T eqb by_ref pol D s o V.
  assert (A : forall hs a s1, exists s', run T eqb by_ref pol D s1 (CAll hs a) s').
  { induction hs as [|c hs IH]; intros a s1; [eexists; apply r_all_nil|].
    destruct (alive T c s1) eqn:E.
    - destruct (IH a (emit T (ERecv c (if by_ref then val s1 else a)) s1)) as [s2 R].
      exists s2. eapply r_all_call with (ops := []); [exact E | constructor | apply r_ops_nil | exact R].
    - destruct (IH a s1) as [s2 R]. exists s2. apply r_all_skip; assumption. }
  destruct o as [v| |send|c].
  - destruct (eqb (val s) v) eqn:E; [eexists; apply r_set_same, E|].
    destruct (A (conns s) v (store T v (emit T (ESet v) s))) as [s' R]. exists s'. apply r_set; assumption.
  - eexists; apply r_get.
  - destruct (send && need_populate T eqb pol (val s)) eqn:E; [|eexists; apply r_conn_quiet, E].
    eexists. eapply r_conn_pop with (ops := []); [exact E | constructor | apply r_ops_nil].
  - eexists. apply r_disc. apply alive_in. now apply V.
Qed.

(* A slot of a built-in value that calls Set leaves the observers after it with the old value: the second observer is
   told 2 (by the nested Set) and then 1, while the value is 2. *)
Theorem C77_reentrant_set_by_value_refuted :
  exists ops s c, history nat Nat.eqb false Mandatory no_set_in_populating 0 ops s /\
    In c (observers (log s)) /\ last_told c (log s) = Some 1 /\ val s = 2.
Proof.
  exists [OConnect true; OConnect true; OSet 1].
  exists (mk 2 [0; 1] 2 [ERecv 1 1; ERecv 1 2; ERecv 0 2; ESet 2; ERecv 0 1; ESet 1; EConn 1 true 0; ERecv 1 0; EConn 0 true 0; ERecv 0 0]), 1.
  split; [|cbn; auto]. unfold history.
  eapply r_ops_cons; [eapply r_conn_pop with (ops := []); [reflexivity | constructor | apply r_ops_nil]|].
  eapply r_ops_cons; [eapply r_conn_pop with (ops := []); [reflexivity | constructor | apply r_ops_nil]|].
  eapply r_ops_cons; [|apply r_ops_nil].
  apply r_set; [reflexivity|]. cbn.
  eapply r_all_call with (ops := [OSet 2]); [reflexivity | repeat constructor | |].
  - eapply r_ops_cons; [|apply r_ops_nil]. apply r_set; [reflexivity|]. cbn.
    eapply r_all_call with (ops := []); [reflexivity | constructor | apply r_ops_nil |].
    eapply r_all_call with (ops := []); [reflexivity | constructor | apply r_ops_nil |]. apply r_all_nil.
  - eapply r_all_call with (ops := []); [reflexivity | constructor | apply r_ops_nil |]. apply r_all_nil.
Qed.

(* A slot that calls Set while it is populated misses that change: it is not yet among the handlers. *)
Theorem C77_set_while_populating_refuted :
  exists ops s c, history nat Nat.eqb true Mandatory any 0 ops s /\
    In c (observers (log s)) /\ last_told c (log s) = Some 0 /\ val s = 1.
Proof.
  exists [OConnect true]. exists (mk 1 [0] 1 [EConn 0 true 1; ESet 1; ERecv 0 0]), 0.
  split; [|cbn; auto]. unfold history.
  eapply r_ops_cons; [|apply r_ops_nil].
  eapply r_conn_pop with (ops := [OSet 1]) (s1 := mk 1 [] 1 [ESet 1; ERecv 0 0]); [reflexivity | repeat constructor |].
  eapply r_ops_cons; [|apply r_ops_nil]. apply r_set; [reflexivity|]. apply r_all_nil.
Qed.

(* A case that meets the hypotheses of the positive theorems: by reference, the same re-entrant slot, then a
   connection that is not populated, and a disconnection by a slot. *)
Example C77_case :
  exists s, history nat Nat.eqb true (Conditional 0) no_set_in_populating 0
      [OConnect true; OConnect true; OSet 1; OConnect false; OGet; OSet 3] s /\
    observers (log s) = [1; 2] /\ last_told 1 (log s) = Some 3 /\ last_told 2 (log s) = Some 3 /\ last_told 0 (log s) = Some 3 /\ val s = 3.
Proof.
  exists (mk 3 [1; 2] 3 [ERecv 2 3; ERecv 1 3; EDisc 0; ERecv 0 3; ESet 3; EGet 2; EConn 2 false 2; ERecv 1 2; ERecv 1 2; ERecv 0 2; ESet 2; ERecv 0 1; ESet 1; EConn 1 true 0; EConn 0 true 0]).
  split; [|cbn; repeat split]. unfold history.
  eapply r_ops_cons; [eapply r_conn_quiet; reflexivity|].
  eapply r_ops_cons; [eapply r_conn_quiet; reflexivity|].
  eapply r_ops_cons.
  { apply r_set; [reflexivity|]. cbn.
    eapply r_all_call with (ops := [OSet 2]); [reflexivity | repeat constructor | |].
    - eapply r_ops_cons; [|apply r_ops_nil]. apply r_set; [reflexivity|]. cbn.
      eapply r_all_call with (ops := []); [reflexivity | constructor | apply r_ops_nil |].
      eapply r_all_call with (ops := []); [reflexivity | constructor | apply r_ops_nil |]. apply r_all_nil.
    - eapply r_all_call with (ops := []); [reflexivity | constructor | apply r_ops_nil |]. apply r_all_nil. }
  cbn.
  eapply r_ops_cons; [eapply r_conn_quiet; reflexivity|].
  eapply r_ops_cons; [eapply r_get|].
  eapply r_ops_cons; [|apply r_ops_nil].
  apply r_set; [reflexivity|]. cbn.
  eapply r_all_call with (ops := [ODisconnect 0]); [reflexivity | repeat constructor | |].
  - eapply r_ops_cons; [|apply r_ops_nil]. apply r_disc. reflexivity.
  - cbn. eapply r_all_call with (ops := []); [reflexivity | constructor | apply r_ops_nil |].
    eapply r_all_call with (ops := []); [reflexivity | constructor | apply r_ops_nil |]. apply r_all_nil.
Qed.

Print Assumptions C77_get_returns_the_last_value_set.
Print Assumptions C77_told_only_while_connected.
Print Assumptions C77_observers_know_the_value.
Print Assumptions C77_observers_know_the_value_by_value.
Print Assumptions C77_no_repeated_notification.
Print Assumptions C77_set_tells_every_observer_once.
Print Assumptions C77_connect_populates_by_the_policy.
Print Assumptions C77_calls_complete.
Print Assumptions C77_reentrant_set_by_value_refuted.
Print Assumptions C77_set_while_populating_refuted.
