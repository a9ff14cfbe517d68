From Coq Require Import List Arith Bool ZArith Lia Sorted.
From Verif Require Import Base Conc TimerModel TimerSpec.
Import ListNotations.
Set Implicit Arguments.
Local Open Scope Z_scope.

Lemma fupd_dec A (f : nat -> A) t a u : {u = t /\ fupd f t a u = a} + {u <> t /\ fupd f t a u = f u}.
Proof.
  destruct (Nat.eq_dec u t) as [->|N]; [left|right]; split; auto; [apply fupd_same|now apply fupd_other].
Qed.

(** ** Layer A: the queue *)
Definition before_ (a b : entry) : Prop := e_due a < e_due b \/ (e_due a = e_due b /\ (e_seq a < e_seq b)%nat).

Definition hold (w : wpc) : option nat :=
  match w with WPopped id | WExec id _ | WRun id _ | WAfter id _ | WDrainExec _ id | WDrainRun _ id => Some id | _ => None end.

Record invA (s : st) : Prop := {
  a_sort : StronglySorted before_ (queue s);
  a_in : forall e, In e (queue s) -> (e_seq e < seq s)%nat /\ e_due e = due (infos s (e_id e)) /\ queued (infos s (e_id e)) = true;
  a_nd : NoDup (map e_id (queue s));
  a_q : forall id, queued (infos s id) = true -> In id (map e_id (queue s));
  a_np : forall id, pushed (infos s id) = false -> queued (infos s id) = false /\ hold (wp s) <> Some id /\ removed (infos s id) = false /\ erased (infos s id) = false;
  a_nx : forall id, (next s <= id)%nat -> infos s id = no_info;
  a_h : forall id, hold (wp s) = Some id -> queued (infos s id) = false /\ pushed (infos s id) = true;
  a_er : forall id, erased (infos s id) = removed (infos s id) }.

Lemma initA : invA init.
Proof. constructor; cbn; try easy; try constructor. Qed.

Lemma in_insert e q x : In x (insert e q) <-> x = e \/ In x q.
Proof.
  induction q as [|y q IH]; cbn; [intuition|]. destruct (e_due e <? e_due y); cbn; [intuition|]. rewrite IH. intuition.
Qed.
Lemma insert_ids e q : exists l1 l2, map e_id q = l1 ++ l2 /\ map e_id (insert e q) = l1 ++ e_id e :: l2.
Proof.
  induction q as [|y q IH]; cbn; [exists [], []; auto|]. destruct (e_due e <? e_due y); cbn; [exists [], (e_id y :: map e_id q); auto|].
  destruct IH as (l1 & l2 & H1 & H2). exists (e_id y :: l1), l2. cbn. split; congruence.
Qed.
Lemma insert_nodup e q : NoDup (map e_id q) -> ~ In (e_id e) (map e_id q) -> NoDup (map e_id (insert e q)).
Proof.
  destruct (insert_ids e q) as (l1 & l2 & H1 & H2). rewrite H1, H2. intros ND N.
  apply NoDup_Add with (a := e_id e) (l := l1 ++ l2); [apply Add_app|auto].
Qed.
Lemma insert_sorted e q : StronglySorted before_ q -> (forall x, In x q -> (e_seq x < e_seq e)%nat) -> StronglySorted before_ (insert e q).
Proof.
  induction 1 as [|y q S IH F]; cbn; intros H; [repeat constructor|].
  destruct (e_due e <? e_due y) eqn:E.
  - apply Z.ltb_lt in E. constructor; [now constructor|]. constructor; [left; auto|].
    rewrite Forall_forall in *. intros x Hx. specialize (F x Hx). unfold before_ in *. lia.
  - apply Z.ltb_ge in E. constructor; [apply IH; auto|]. rewrite Forall_forall in *. intros x Hx. apply in_insert in Hx.
    destruct Hx as [->|Hx]; [|auto]. unfold before_. specialize (H y (or_introl eq_refl)). lia.
Qed.
Lemma filter_sorted A (R : A -> A -> Prop) f l : StronglySorted R l -> StronglySorted R (filter f l).
Proof.
  induction 1; cbn; [constructor|]. destruct (f a); auto. constructor; auto. rewrite Forall_forall in *.
  intros x Hx. apply filter_In in Hx. apply H0. tauto.
Qed.
Lemma filter_ids_nodup f q : NoDup (map e_id q) -> NoDup (map e_id (filter f q)).
Proof.
  induction q as [|y q IH]; cbn; auto. intros H. inversion H; subst. destruct (f y); cbn; auto. constructor; auto.
  intros X. apply H2. apply in_map_iff in X. destruct X as (z & E & Z). apply filter_In in Z. rewrite <- E. apply in_map. tauto.
Qed.

Lemma pushA s id : invA s -> queued (infos s id) = false -> pushed (infos s id) = true -> hold (wp s) <> Some id -> invA (push s id).
Proof.
  intros [SO IN ND Q NP NX H ER] Qf Pt Hh. unfold push. destruct (erased (infos s id)) eqn:E; [constructor; auto|].
  assert (Ni : ~ In id (map e_id (queue s))).
  { intros X. apply in_map_iff in X. destruct X as (x & <- & Hx). apply IN in Hx. destruct Hx as (_ & _ & Hx). congruence. }
  set (i := infos s id) in *. set (i' := mk_info _ _ _ _ _ _ _). 
  constructor; cbn [now infos next queue seq stop wp log].
  - apply insert_sorted; auto. intros x Hx. now apply IN in Hx.
  - intros e. rewrite in_insert. intros [->|He]; cbn [e_seq e_due e_id].
    + rewrite fupd_same. cbn. auto.
    + destruct (IN e He) as (A & B & C). rewrite fupd_other by (intros X; apply Ni; rewrite <- X; now apply in_map). auto.
  - apply insert_nodup; auto.
  - intros j. destruct (insert_ids (mk_entry (due i) (seq s) id) (queue s)) as (l1 & l2 & H1 & H2). rewrite H2.
    destruct (fupd_dec (infos s) id i' j) as [[-> X]|[N X]]; rewrite X; intros Hj; apply in_or_app.
    + right. now left.
    + apply Q in Hj. rewrite H1 in Hj. apply in_app_or in Hj. cbn. tauto.
  - intros j. destruct (fupd_dec (infos s) id i' j) as [[-> X]|[N X]]; rewrite X; [|apply NP]. cbn. congruence.
  - intros j Hj. destruct (fupd_dec (infos s) id i' j) as [[-> X]|[N X]]; rewrite X; [|auto]. unfold i in *. rewrite NX in Pt by auto. discriminate.
  - intros j Hj. destruct (fupd_dec (infos s) id i' j) as [[-> X]|[N X]]; rewrite X; auto. congruence.
  - intros j. destruct (fupd_dec (infos s) id i' j) as [[-> X]|[N X]]; rewrite X; auto. cbn. rewrite <- E. apply ER.
Qed.

(** changing what Layer A does not look at *)
Lemma frameA s s' : invA s -> queue s' = queue s -> seq s' = seq s -> (next s' >= next s)%nat ->
  (forall id, queued (infos s' id) = queued (infos s id) /\ due (infos s' id) = due (infos s id) /\ pushed (infos s' id) = pushed (infos s id)
      /\ removed (infos s' id) = removed (infos s id) /\ erased (infos s' id) = erased (infos s id)) ->
  (forall id, (next s' <= id)%nat -> infos s' id = no_info) ->
  (forall id, hold (wp s') = Some id -> hold (wp s) = Some id) -> invA s'.
Proof.
  intros [SO IN ND Q NP NX H ER] E1 E2 E3 K KN HH.
  assert (K1 := fun j => proj1 (K j)). assert (K2 := fun j => proj1 (proj2 (K j))). assert (K3 := fun j => proj1 (proj2 (proj2 (K j)))).
  assert (K4 := fun j => proj1 (proj2 (proj2 (proj2 (K j))))). assert (K5 := fun j => proj2 (proj2 (proj2 (proj2 (K j))))).
  constructor; rewrite ?E1, ?E2; auto.
  - intros e He. rewrite K1, K2. auto.
  - intros j. rewrite K1. apply Q.
  - intros j. rewrite K1, K3, K4, K5. intros Hj. destruct (NP j Hj) as (A & B & C). split; [|split]; auto.
  - intros j Hj. rewrite K1, K3. auto.
  - intros j. rewrite K4, K5. auto.
Qed.

Lemma wpA s w : invA s -> (forall id, hold w = Some id -> hold (wp s) = Some id) -> invA (set_wp s w).
Proof. intros I H. apply frameA with s; cbn; auto. apply I. Qed.
Lemma logA s e : invA s -> invA (logged s e).
Proof. intros I. apply frameA with s; cbn; auto. apply I. Qed.
Lemma infoA s id i : invA s -> (id < next s)%nat -> queued i = queued (infos s id) -> due i = due (infos s id) -> pushed i = pushed (infos s id) ->
  removed i = removed (infos s id) -> erased i = erased (infos s id) -> invA (set_info s id i).
Proof.
  intros I L A B C D E. apply frameA with s; cbn; auto.
  - intros j. destruct (fupd_dec (infos s) id i j) as [[-> X]|[N X]]; rewrite X; auto.
  - intros j Hj. rewrite fupd_other by lia. now apply I.
Qed.
Lemma pushed_lt s id : invA s -> pushed (infos s id) = true -> (id < next s)%nat.
Proof. intros I H. destruct (le_lt_dec (next s) id) as [L|L]; auto. rewrite (a_nx I L) in H. discriminate. Qed.

Lemma eraseA s id : invA s -> pushed (infos s id) = true -> invA (erase s id).
Proof.
  intros I P. pose proof I as [SO IN ND Q NP NX H ER]. unfold erase. set (i' := mk_info _ _ _ _ _ _ _).
  assert (QI : forall e, In e (if queued (infos s id) then filter (fun e => negb (Nat.eqb (e_id e) id)) (queue s) else queue s) <-> In e (queue s) /\ e_id e <> id).
  { intros e. destruct (queued (infos s id)) eqn:E.
    - rewrite filter_In. rewrite negb_true_iff, Nat.eqb_neq. tauto.
    - split; [|tauto]. intros He. split; auto. intros X. apply IN in He. rewrite X in He. destruct He as (_ & _ & He). congruence. }
  constructor; cbn [now infos next queue seq stop wp log].
  - destruct (queued (infos s id)); auto. now apply filter_sorted.
  - intros e He. apply QI in He. destruct He as [He Ne]. rewrite fupd_other by auto. auto.
  - destruct (queued (infos s id)); auto. now apply filter_ids_nodup.
  - intros j. destruct (fupd_dec (infos s) id i' j) as [[-> X]|[N X]]; rewrite X; [discriminate|]. intros Hj. apply Q in Hj.
    apply in_map_iff in Hj. destruct Hj as (e & <- & He). apply in_map. apply QI. auto.
  - intros j. destruct (fupd_dec (infos s) id i' j) as [[-> X]|[N X]]; rewrite X; [cbn; congruence|auto].
  - intros j Hj. rewrite fupd_other; auto. intros ->. rewrite NX in P by auto. discriminate.
  - intros j Hj. destruct (fupd_dec (infos s) id i' j) as [[-> X]|[N X]]; rewrite X; auto.
  - intros j. destruct (fupd_dec (infos s) id i' j) as [[-> X]|[N X]]; rewrite X; auto.
Qed.

Lemma popA s e q id s1 w : invA s -> queue s = e :: q -> pop s = Some (id, s1) -> hold w = Some id -> hold (wp s) = None -> invA (set_wp s1 w).
Proof.
  intros I E. unfold pop. rewrite E. intros [= <- <-] Hw Hn. pose proof I as [SO IN ND Q NP NX H ER]. rewrite E in *.
  set (i' := mk_info _ _ _ _ _ _ _). destruct (IN e (or_introl eq_refl)) as (A & B & C).
  assert (Pe : pushed (infos s (e_id e)) = true).
  { destruct (pushed (infos s (e_id e))) eqn:X; auto. destruct (NP _ X). congruence. }
  cbn [map] in ND, Q. inversion ND as [|? ? Nq ND']; subst.
  constructor; cbn [set_wp now infos next queue seq stop wp log].
  - now inversion SO.
  - intros x Hx. rewrite fupd_other; [apply IN; now right|]. intros X. apply Nq. rewrite <- X. now apply in_map.
  - auto.
  - intros j. destruct (fupd_dec (infos s) (e_id e) i' j) as [[-> X]|[N X]]; rewrite X; [discriminate|]. intros Hj. apply Q in Hj. destruct Hj; congruence.
  - intros j. destruct (fupd_dec (infos s) (e_id e) i' j) as [[-> X]|[N X]]; rewrite X; [cbn; congruence|]. intros Hj. destruct (NP j Hj) as (F1 & F2 & F3). split; auto.
    split; auto. rewrite Hw. congruence.
  - intros j Hj. rewrite fupd_other; auto. intros ->. rewrite NX in Pe by auto. discriminate.
  - intros j Hj. rewrite Hw in Hj. injection Hj as <-. rewrite fupd_same. auto.
  - intros j. destruct (fupd_dec (infos s) (e_id e) i' j) as [[-> X]|[N X]]; rewrite X; auto. cbn. auto.
Qed.

Lemma hold_wake w : hold (wake w) = hold w.
Proof. now destruct w. Qed.

Lemma stepA s l s' : invA s -> step s l = Some s' -> invA s'.
Proof.
  intros I. destruct l; cbn [step].
  - intros [= <-]. apply frameA with s; cbn; auto. apply I.
  - intros [= <-]. pose proof I as [SO IN ND Q NP NX H ER]. set (i' := mk_info _ _ _ _ _ _ _).
    assert (Ni : ~ In (next s) (map e_id (queue s))).
    { intros X. apply in_map_iff in X. destruct X as (x & E & Hx). apply IN in Hx. destruct Hx as (_ & _ & Hx). rewrite E, NX in Hx by auto. discriminate. }
    constructor; cbn [now infos next queue seq stop wp log]; auto.
    + intros e He. rewrite fupd_other; auto. intros X. apply Ni. rewrite <- X. now apply in_map.
    + intros j. destruct (fupd_dec (infos s) (next s) i' j) as [[-> X]|[N X]]; rewrite X; [discriminate|auto].
    + intros j. destruct (fupd_dec (infos s) (next s) i' j) as [[-> X]|[N X]]; rewrite X; auto. intros _. repeat split; auto.
      intros Y. apply H in Y. rewrite NX in Y by auto. destruct Y; discriminate.
    + intros j Hj. rewrite fupd_other by lia. apply NX. lia.
    + intros j Hj. rewrite fupd_other; auto. intros ->. apply H in Hj. rewrite NX in Hj by auto. destruct Hj; discriminate.
    + intros j. destruct (fupd_dec (infos s) (next s) i' j) as [[-> X]|[N X]]; rewrite X; auto.
  - destruct (Nat.ltb id (next s)) eqn:L; [|discriminate]. apply Nat.ltb_lt in L. destruct (pushed (infos s id)) eqn:P; cbn; [discriminate|].
    intros [= <-]. destruct (a_np I id P) as (A & B & C & D). apply wpA; [|intros j; rewrite hold_wake; auto].
    apply pushA; cbn; rewrite ?fupd_same; auto.
    set (i' := mk_info _ _ _ _ _ _ _). pose proof I as [SO IN ND Q NP NX H ER].
    constructor; cbn [set_info now infos next queue seq stop wp log]; auto.
    + intros e He. destruct (fupd_dec (infos s) id i' (e_id e)) as [[E X]|[N X]]; rewrite X; auto. apply IN in He. rewrite E in He. destruct He as (_ & _ & He). congruence.
    + intros j. destruct (fupd_dec (infos s) id i' j) as [[-> X]|[N X]]; rewrite X; cbn; auto; congruence.
    + intros j. destruct (fupd_dec (infos s) id i' j) as [[-> X]|[N X]]; rewrite X; auto; discriminate.
    + intros j Hj. rewrite fupd_other by lia. auto.
    + intros j Hj. destruct (fupd_dec (infos s) id i' j) as [[-> X]|[N X]]; rewrite X; auto.
    + intros j. destruct (fupd_dec (infos s) id i' j) as [[-> X]|[N X]]; rewrite X; cbn; auto; congruence.
  - destruct (pushed (infos s id)) eqn:P; [|discriminate]. destruct (removed (infos s id)); [discriminate|]. intros [= <-]. now apply eraseA.
  - destruct (removed (infos s id)) eqn:R; [|discriminate]. destruct (alive (infos s id)); [|discriminate]. cbn [andb].
    assert (P : (id < next s)%nat).
    { destruct (le_lt_dec (next s) id) as [L|L]; auto. rewrite (a_nx I L) in R. discriminate. }
    assert (K : forall b, invA (kill s b id)) by (intros b; apply logA, infoA; cbn; auto).
    destruct (running (wp s)); [destruct (inTask || _)|destruct inTask]; try discriminate; intros [= <-]; auto.
  - intros [= <-]. apply frameA with s; cbn; auto; [apply I|]. intros j. now rewrite hold_wake.
  - destruct (wp s); try discriminate. intros [= <-]. apply wpA; auto. discriminate.
  - destruct (wp s) as [|[d|]| | | | | | | |]; try discriminate. destruct (d <=? now s); [|discriminate]. intros [= <-]. apply wpA; auto. discriminate.
  - destruct (wp s) eqn:Ew.
    + destruct (stop s); [intros [= <-]; apply wpA; auto; discriminate|]. destruct (queue s) as [|e q] eqn:Eq; [intros [= <-]; apply wpA; auto; discriminate|].
      destruct (due (infos s (e_id e)) <=? now s); [|intros [= <-]; apply wpA; auto; discriminate].
      destruct (pop s) as [[id s1]|] eqn:Ep; [|discriminate]. intros [= <-]. eapply popA; eauto. now rewrite Ew.
    + discriminate.
    + intros [= <-]. apply logA, wpA; auto. now rewrite Ew.
    + destruct (alive (infos s id)); intros [= <-]; apply logA, wpA; auto; now rewrite Ew.
    + intros [= <-]. apply logA, wpA; auto. now rewrite Ew.
    + assert (Hh : hold (wp s) = Some id) by now rewrite Ew. destruct (a_h I Hh) as [Qf Pt].
      destruct (period (infos s id)) as [p|] eqn:Ep; intros [= <-]; [|apply wpA; auto; discriminate].
      assert (E : set_wp (push (restart s id (start + p)) id) WLoop = push (set_wp (restart s id (start + p)) WLoop) id).
      { unfold push, restart, set_info, set_wp. cbn. destruct (erased _); reflexivity. }
      rewrite E. clear E. apply pushA; cbn; rewrite ?fupd_same; auto; [|discriminate].
      unfold restart. set (i' := mk_info _ _ _ _ _ _ _). pose proof I as [SO IN ND Q NP NX H ER].
      assert (Ni : forall e, In e (queue s) -> e_id e <> id).
      { intros e He X. apply IN in He. rewrite X in He. destruct He as (_ & _ & He). congruence. }
      constructor; cbn [restart set_wp set_info now infos next queue seq stop wp log]; auto.
      * intros e He. rewrite fupd_other; auto.
      * intros j. destruct (fupd_dec (infos s) id i' j) as [[-> X]|[N X]]; rewrite X; auto.
      * intros j. destruct (fupd_dec (infos s) id i' j) as [[-> X]|[N X]]; rewrite X; [cbn; congruence|]. intros Hj. destruct (NP j Hj) as (A & B & C). split; auto. split; auto. discriminate.
      * intros j Hj. assert (j <> id) by (intros ->; rewrite NX in Pt by auto; discriminate). rewrite fupd_other; auto.
      * discriminate.
      * intros j. destruct (fupd_dec (infos s) id i' j) as [[-> X]|[N X]]; rewrite X; auto. cbn. auto.
    + destruct (queue s) as [|e q] eqn:Eq; [intros [= <-]; apply wpA; auto; discriminate|].
      destruct (limit <? due (infos s (e_id e))); [intros [= <-]; apply wpA; auto; discriminate|].
      destruct (pop s) as [[id s1]|] eqn:Ep; [|discriminate]. intros [= <-]. eapply popA; eauto. now rewrite Ew.
    + destruct (alive (infos s id)); intros [= <-]; apply logA, wpA; auto; rewrite ?Ew; auto; discriminate.
    + intros [= <-]. apply logA, wpA; auto. discriminate.
    + discriminate.
Qed.

(** ** Case analysis of a step *)
Ltac inv_step H :=
  repeat match type of H with
         | None = Some _ => discriminate H
         | (match ?x with _ => _ end) = Some _ => let E := fresh "E" in destruct x eqn:E; try discriminate H
         end; try (injection H as <-).
Ltac step_cases H l :=
  destruct l; cbn [step] in H; inv_step H.

Ltac upd := match goal with
  | H : context [fupd ?f ?t ?p ?u] |- _ => let E := fresh "E" in let N := fresh "N" in
      destruct (fupd_dec f t p u) as [[? E]|[N E]]; rewrite E in *; clear E
  | |- context [fupd ?f ?t ?p ?u] => let E := fresh "E" in let N := fresh "N" in
      destruct (fupd_dec f t p u) as [[? E]|[N E]]; rewrite E in *; clear E
  end.
Ltac flds := cbn [set_info set_wp logged now infos next queue seq stop wp log due period erased queued alive pushed removed e_due e_seq e_id] in *.

Lemma pop_inv s id s1 : pop s = Some (id, s1) -> exists e q, queue s = e :: q /\ id = e_id e /\
  s1 = mk_st (now s) (fupd (infos s) (e_id e) (mk_info (due (infos s (e_id e))) (period (infos s (e_id e))) (erased (infos s (e_id e))) false (alive (infos s (e_id e))) (pushed (infos s (e_id e))) (removed (infos s (e_id e)))))
      (next s) q (seq s) (stop s) (wp s) (EPopped (e_id e) (now s) :: log s).
Proof. unfold pop. destruct (queue s) as [|e q]; [discriminate|]. intros [= <- <-]. exists e, q. auto. Qed.

Ltac popinv :=
  match goal with
  | H : pop _ = Some (?a, ?b) |- _ =>
      apply pop_inv in H; let x := fresh "x" in let q := fresh "q" in let Hq := fresh "Hq" in
      destruct H as (x & q & Hq & -> & ->)
  end.

(** ** Layer B1: tokens *)
Definition invR (s : st) : Prop :=
  forall b id, In (EReleased b id) (log s) ->
    alive (infos s id) = false /\ (id < next s)%nat /\ (b = false -> running (wp s) <> Some id).

Lemma stepR s l s' : invA s -> invR s -> step s l = Some s' -> invR s'.
Proof.
  intros A R H.
  assert (KEEP : forall s1, log s1 = log s -> (next s <= next s1)%nat -> (forall id, (id < next s)%nat -> alive (infos s1 id) = alive (infos s id)) ->
     (forall id, running (wp s1) = Some id -> running (wp s) = Some id) -> invR s1).
  { intros s1 E1 E2 E3 E4 b id Hin. rewrite E1 in Hin. destruct (R b id Hin) as (X & Y & Z). rewrite E3 by auto. repeat split; auto; [lia|]. intros Hb Hr. apply (Z Hb). auto. }
  assert (ONE : forall s1 e, invR s1 -> (forall b id, e <> EReleased b id) -> invR (logged s1 e)).
  { intros s1 e R1 N b id Hin. destruct Hin as [X|X]; [now apply N in X|]. exact (R1 b id X). }
  assert (PUSH : forall s1 id, invR s1 -> invR (push s1 id)).
  { intros s1 id R1. unfold push. destruct (erased _); auto. intros b j Hin. flds. destruct Hin as [X|X]; [discriminate|]. destruct (R1 b j X) as (P & Q & S). repeat split; auto. upd; subst; auto. }
  assert (RW : forall w, running (wake w) = running w) by (now intros []).
  step_cases H l.
  - apply KEEP; auto.
  - intros b id Hin. flds. destruct Hin as [X|X]; [discriminate|]. destruct (R b id X) as (P & Q & S). repeat split; auto. upd; subst; auto. lia.
  - assert (INS : invR (push (set_info s id (mk_info (due (infos s id)) (period (infos s id)) (erased (infos s id)) (queued (infos s id)) (alive (infos s id)) true (removed (infos s id)))) id)).
    { apply PUSH. apply KEEP; auto. intros j Hj. flds. upd; subst; auto. }
    intros b j Hin. destruct (INS b j Hin) as (P & Q & S). repeat split; auto. intros Hb. specialize (S Hb). cbn [set_wp wp]. now rewrite RW.
  - apply KEEP; auto. intros j Hj. unfold erase. flds. upd; subst; auto.
  - apply andb_prop in E. destruct E as [Er Ea].
    assert (LT : (id < next s)%nat). { destruct (le_lt_dec (next s) id) as [L|L]; auto. rewrite (a_nx A L) in Er. discriminate. }
    intros b j Hin. unfold kill in *. flds. destruct Hin as [X|X].
    + injection X as <- <-. rewrite fupd_same. repeat split; auto. intros -> X. rewrite X in E0. injection E0 as <-. cbn in E1. rewrite Nat.eqb_refl in E1. discriminate.
    + destruct (R b j X) as (P & Q & S). repeat split; auto. upd; subst; auto.
  - apply andb_prop in E. destruct E as [Er Ea].
    assert (LT : (id < next s)%nat). { destruct (le_lt_dec (next s) id) as [L|L]; auto. rewrite (a_nx A L) in Er. discriminate. }
    intros b j Hin. unfold kill in *. flds. destruct Hin as [X|X].
    + injection X as <- <-. rewrite fupd_same. repeat split; auto. intros _ X. congruence.
    + destruct (R b j X) as (P & Q & S). repeat split; auto. upd; subst; auto.
  - apply KEEP; auto. intros j. cbn. now rewrite RW.
  - apply KEEP; auto; discriminate.
  - apply KEEP; auto; discriminate.
  - apply KEEP; auto; discriminate.
  - apply KEEP; auto; discriminate.
  - popinv. intros b j Hin. flds. destruct Hin as [X|X]; [discriminate|]. destruct (R b j X) as (P & Q & S). repeat split; auto; [upd; subst; auto|]. discriminate.
  - apply KEEP; auto; discriminate.
  - apply ONE; [|discriminate]. apply KEEP; auto; discriminate.
  - apply ONE; [|discriminate]. intros b j Hin. destruct (R b j Hin) as (P & Q & S). repeat split; auto. cbn. intros _ [= ->]. congruence.
  - apply ONE; [|discriminate]. apply KEEP; auto; discriminate.
  - apply ONE; [|discriminate]. apply KEEP; auto; discriminate.
  - assert (X : invR (push (restart s id (start + z)) id)).
    { apply PUSH. apply KEEP; try reflexivity; auto; [intros j Hj|intros j]; unfold restart; flds; [upd; subst; auto|now rewrite E]. }
    intros b j Hin. destruct (X b j Hin) as (P & Q & S). repeat split; auto. discriminate.
  - apply KEEP; auto; discriminate.
  - apply KEEP; auto; discriminate.
  - apply KEEP; auto; discriminate.
  - popinv. intros b j Hin. flds. destruct Hin as [X|X]; [discriminate|]. destruct (R b j X) as (P & Q & S). repeat split; auto; [upd; subst; auto|]. discriminate.
  - apply ONE; [|discriminate]. intros b j Hin. destruct (R b j Hin) as (P & Q & S). repeat split; auto. cbn. intros _ [= ->]. congruence.
  - apply ONE; [|discriminate]. apply KEEP; auto; discriminate.
  - apply ONE; [|discriminate]. apply KEEP; auto; discriminate.
Qed.

(** ** Layer B2: times and sleeping *)
Definition ready (w : wpc) : option nat := match w with WPopped id | WExec id _ | WDrainExec _ id => Some id | _ => None end.
Definition disp (w : wpc) : option (nat * Z) := match w with WExec id z | WRun id z | WAfter id z => Some (id, z) | _ => None end.
Definition lim (w : wpc) : option Z := match w with WDrain l | WDrainExec l _ | WDrainRun l _ => Some l | _ => None end.

Record invT (s : st) : Prop := {
  t_due : forall e, In e (queue s) -> last_due (log s) (e_id e) = Some (e_due e);
  t_pre : forall id, ready (wp s) = Some id -> exists d, last_due (log s) id = Some d /\ d <= now s;
  t_dis : forall id z, disp (wp s) = Some (id, z) -> last_dispatch (log s) id = Some z /\ z <= now s;
  t_lim : forall l, lim (wp s) = Some l -> l <= now s;
  t_sl : wp s = WSleep None -> queue s = [] /\ stop s = false;
  t_sd : forall d, wp s = WSleep (Some d) -> (forall e, In e (queue s) -> d <= e_due e) /\ stop s = false }.

Definition quiet (e : event) : Prop := match e with EQueued _ _ | EDispatch _ _ => False | _ => True end.
Lemma last_due_quiet e h id : quiet e -> last_due (e :: h) id = last_due h id.
Proof. now destruct e. Qed.
Lemma last_dispatch_quiet e h id : quiet e -> last_dispatch (e :: h) id = last_dispatch h id.
Proof. now destruct e. Qed.

Lemma stepT s l s' : invA s -> invT s -> step s l = Some s' -> invT s'.
Proof.
  intros A T H.
  pose proof T as [TD TP TI TL TS TSD].
  (* same queue or less, log extended by a quiet event *)
  assert (LOG : forall s1 e, invT s1 -> quiet e -> invT (logged s1 e)).
  { intros s1 e [a b c d e1 f] Q. constructor; flds; auto.
    - intros x Hx. rewrite last_due_quiet; auto.
    - intros id Hid. rewrite last_due_quiet; auto.
    - intros id z Hid. rewrite last_dispatch_quiet; auto. }
  assert (KEEP : forall s1, log s1 = log s -> (forall e, In e (queue s1) -> In e (queue s)) -> now s <= now s1 ->
     (wp s1 = wp s /\ stop s1 = stop s \/ (ready (wp s1) = None \/ ready (wp s1) = ready (wp s)) /\ (disp (wp s1) = None \/ disp (wp s1) = disp (wp s)) /\ (lim (wp s1) = None \/ lim (wp s1) = lim (wp s)) /\ forall d, wp s1 <> WSleep d) -> invT s1).
  { intros s1 E1 E2 E3 E4. constructor; rewrite ?E1.
    - auto.
    - intros id Hid. destruct E4 as [[E4 _]|([E4|E4] & _)]; rewrite E4 in Hid; [|discriminate|]; destruct (TP id Hid) as (d & X & Y); exists d; split; auto; lia.
    - intros id z Hid. destruct E4 as [[E4 _]|(_ & [E4|E4] & _)]; rewrite E4 in Hid; [|discriminate|]; destruct (TI id z Hid) as (X & Y); split; auto; lia.
    - intros z Hid. destruct E4 as [[E4 _]|(_ & _ & [E4|E4] & _)]; rewrite E4 in Hid; [|discriminate|]; specialize (TL z Hid); lia.
    - intros Hw. destruct E4 as [[E4 E5]|(_ & _ & _ & E4)]; [|now apply E4 in Hw]. rewrite E4 in Hw. destruct (TS Hw) as [X Y]. rewrite E5. split; auto.
      destruct (queue s1) as [|x q]; auto. specialize (E2 x (or_introl eq_refl)). rewrite X in E2. contradiction.
    - intros d Hw. destruct E4 as [[E4 E5]|(_ & _ & _ & E4)]; [|now apply E4 in Hw]. rewrite E4 in Hw. destruct (TSD d Hw) as [X Y]. rewrite E5. split; auto. }
  assert (PUSH : forall s1 id, queue s1 = queue s -> now s1 = now s -> log s1 = log s -> (forall d, wp s1 <> WSleep d) ->
     ready (wp s1) <> Some id -> (ready (wp s1) = None \/ ready (wp s1) = ready (wp s)) -> (disp (wp s1) = None \/ disp (wp s1) = disp (wp s)) -> (lim (wp s1) = None \/ lim (wp s1) = lim (wp s)) ->
     queued (infos s id) = false -> invT (push s1 id)).
  { intros s1 id E1 E2 E3 E4 E5 E6 E7 E8 Q. assert (K1 : invT s1).
    { apply KEEP; auto; [now rewrite E1|lia]. }
    unfold push. destruct (erased (infos s1 id)); auto. destruct K1 as [a b c d e1 f]. constructor; flds.
    - intros x. rewrite in_insert. intros [->|Hx]; cbn [last_due e_id e_due]; [now rewrite Nat.eqb_refl|].
      destruct (Nat.eqb id (e_id x)) eqn:Ex; auto. apply Nat.eqb_eq in Ex. subst id. rewrite E1 in Hx. apply (a_in A) in Hx. destruct Hx as (_ & _ & Hx). congruence.
    - intros j Hj. cbn [last_due]. destruct (Nat.eqb id j) eqn:Ej; [apply Nat.eqb_eq in Ej; subst; congruence|auto].
    - intros j z Hj. cbn [last_dispatch]. auto.
    - auto.
    - intros X. now apply E4 in X.
    - intros z X. now apply E4 in X. }
  assert (WK : forall w d, wake w <> WSleep d) by (intros [] d; discriminate).
  assert (WR : forall w, ready (wake w) = ready w) by (now intros []).
  assert (WD : forall w, disp (wake w) = disp w) by (now intros []).
  assert (WL : forall w, lim (wake w) = lim w) by (now intros []).
  assert (POP : forall s0 n w e q, pop s = Some (n, s0) -> queue s = e :: q -> due (infos s (e_id e)) <= now s -> ready w = Some n ->
     disp w = None -> (lim w = None \/ lim w = lim (wp s)) -> (forall d, w <> WSleep d) -> invT (set_wp s0 w)).
  { intros s0 n w e q HP Eq Hd W1 W2 W3 W4. popinv. rewrite Hq in Eq. injection Eq as <- <-.
    assert (IN := a_in A x). rewrite Hq in IN. destruct (IN (or_introl eq_refl)) as (I1 & I2 & I3).
    constructor; flds.
    - intros y Hy. rewrite last_due_quiet by exact I. apply TD. rewrite Hq. now right.
    - intros id Hid. rewrite W1 in Hid. injection Hid as <-. exists (e_due x). rewrite last_due_quiet by exact I. split; [apply TD; rewrite Hq; now left|lia].
    - rewrite W2. discriminate.
    - destruct W3 as [W3|W3]; rewrite W3; [discriminate|auto].
    - intros X. now apply W4 in X.
    - intros d X. now apply W4 in X. }
  step_cases H l.
  - apply KEEP; flds; auto. lia.
  - apply LOG with (s1 := mk_st (now s) (fupd (infos s) (next s) (mk_info (now s + timeout) p false false true false false)) (S (next s)) (queue s) (seq s) (stop s) (wp s) (log s)); [|exact I].
    apply KEEP; flds; auto. lia.
  - apply andb_prop in E. destruct E as [L P]. apply negb_true_iff in P. destruct (a_np A id P) as (Qf & Hh & _).
    set (s1 := set_info s id _).
    assert (EQ : set_wp (push s1 id) (wake (wp (push s1 id))) = push (set_wp s1 (wake (wp s1))) id).
    { unfold push. cbn [set_wp infos]. destruct (erased (infos s1 id)); reflexivity. }
    rewrite EQ. apply PUSH; auto; subst s1; flds; auto; rewrite ?WR, ?WD, ?WL; auto.
    intros X. apply Hh. destruct (wp s); cbn in *; congruence.
  - apply KEEP; unfold erase; flds; auto; [|lia]. intros e He. destruct (queued (infos s id)); auto. apply filter_In in He. tauto.
  - apply LOG; [|exact I]. apply KEEP; flds; auto. lia.
  - apply LOG; [|exact I]. apply KEEP; flds; auto. lia.
  - apply KEEP; flds; auto; [lia|]. right. rewrite WR, WD, WL. auto.
  - apply KEEP; flds; auto; [lia|]. right. repeat split; auto. discriminate.
  - apply KEEP; flds; auto; [lia|]. right. repeat split; auto. discriminate.
  - (* WLoop -> WDrain *) constructor; flds; auto; try discriminate. intros z [= <-]. lia.
  - constructor; flds; auto; try discriminate; rewrite E1; auto.
  - eapply POP; eauto; try discriminate. now apply Z.leb_le.
  - apply Z.leb_gt in E2. constructor; flds; try discriminate; auto; [now rewrite E1|]. intros d [= <-]. split; auto.
    intros x Hx. assert (SO := a_sort A). rewrite E1 in *. assert (IN := a_in A e). rewrite E1 in IN. destruct (IN (or_introl eq_refl)) as (_ & I2 & _).
    rewrite <- I2. destruct Hx as [<-|Hx]; [lia|]. inversion SO as [|? ? S1 S2]; subst. rewrite Forall_forall in S2. specialize (S2 x Hx). unfold before_ in S2. lia.
  - (* WPopped *) constructor; flds; auto; try discriminate.
    intros j z [= <- <-]. cbn [last_dispatch]. rewrite Nat.eqb_refl. split; auto. lia.
  - apply LOG; [|exact I]. apply KEEP; flds; auto; [lia|]. right. rewrite ?E. repeat split; auto. discriminate.
  - apply LOG; [|exact I]. apply KEEP; flds; auto; [lia|]. right. rewrite ?E. repeat split; auto. discriminate.
  - apply LOG; [|exact I]. apply KEEP; flds; auto; [lia|]. right. rewrite ?E. repeat split; auto. discriminate.
  - assert (Hh : hold (wp s) = Some id) by (rewrite ?E; auto). destruct (a_h A Hh) as [Qf Pt].
    assert (EQ : set_wp (push (restart s id (start + z)) id) WLoop = push (set_wp (restart s id (start + z)) WLoop) id).
    { unfold push, restart, set_info, set_wp. cbn. destruct (erased _); reflexivity. }
    rewrite EQ. apply PUSH; unfold restart; flds; auto; discriminate.
  - apply KEEP; flds; rewrite ?E0; auto; try lia; right; repeat split; auto; discriminate.
  - apply KEEP; flds; rewrite ?E0; auto; try lia; right; repeat split; auto; discriminate.
  - apply KEEP; flds; rewrite ?E0; auto; try lia; right; repeat split; auto; discriminate.
  - eapply POP; eauto; try discriminate.
    apply Z.ltb_ge in E1. assert (limit <= now s) by (apply TL; (rewrite ?E; auto)). lia.
  - apply LOG; [|exact I]. apply KEEP; flds; auto; [lia|]. right. rewrite ?E. repeat split; auto. discriminate.
  - apply LOG; [|exact I]. apply KEEP; flds; auto; [lia|]. right. rewrite ?E. repeat split; auto. discriminate.
  - apply LOG; [|exact I]. apply KEEP; flds; auto; [lia|]. right. rewrite ?E. repeat split; auto. discriminate.
Qed.

(** ** Layer B3: counts *)
Definition pend (s : st) (id : nat) : nat :=
  if queued (infos s id) then 1%nat else match ready (wp s) with Some j => if Nat.eqb j id then 1%nat else 0%nat | None => 0%nat end.

Record invC (s : st) : Prop := {
  c_np : forall id, pushed (infos s id) = false -> queuings (log s) id = 0%nat;
  c_st : forall id, (starts (log s) id + pend s id <= queuings (log s) id)%nat;
  c_one : forall id, period (infos s id) = None -> (queuings (log s) id <= 1)%nat;
  c_cr : forall id, (id < next s)%nat -> exists a t, creation (log s) id = Some (a, t, period (infos s id)) /\ (pushed (infos s id) = false -> due (infos s id) = a + t);
  c_nc : forall id, (next s <= id)%nat -> creation (log s) id = None }.

Lemma starts_cons e h id : starts (e :: h) id = ((match e with EStart j _ => if Nat.eqb j id then 1 else 0 | _ => 0 end) + starts h id)%nat.
Proof. unfold starts. cbn. destruct e; auto. destruct (Nat.eqb id0 id); auto. Qed.
Lemma queuings_cons e h id : queuings (e :: h) id = ((match e with EQueued j _ => if Nat.eqb j id then 1 else 0 | _ => 0 end) + queuings h id)%nat.
Proof. unfold queuings. cbn. destruct e; auto. destruct (Nat.eqb id0 id); auto. Qed.

Definition quietc (e : event) : Prop := match e with EQueued _ _ | EStart _ _ | ECreated _ _ _ _ => False | _ => True end.

Lemma initC : invC init.
Proof. constructor; cbn; auto. lia. Qed.

Lemma stepC s l s' : invA s -> invC s -> step s l = Some s' -> invC s'.
Proof.
  intros A C H. pose proof C as [NP ST ON CR NC].
  assert (KEEP : forall s1, (log s1 = log s \/ exists e, log s1 = e :: log s /\ quietc e) -> next s1 = next s ->
     (forall id, period (infos s1 id) = period (infos s id) /\ pushed (infos s1 id) = pushed (infos s id) /\ (pushed (infos s id) = false -> due (infos s1 id) = due (infos s id))) ->
     (forall id, (pend s1 id <= pend s id)%nat) -> invC s1).
  { intros s1 E1 E2 E3 E4.
    assert (L : (forall id, starts (log s1) id = starts (log s) id) /\ (forall id, queuings (log s1) id = queuings (log s) id) /\ (forall id, creation (log s1) id = creation (log s) id)).
    { destruct E1 as [->|(e & -> & Q)]; [auto|]. split; [|split]; intros id; [rewrite starts_cons|rewrite queuings_cons|]; destruct e; try contradiction; auto. }
    destruct L as (L1 & L2 & L3).
    constructor; rewrite ?E2; intros id; rewrite ?L1, ?L2, ?L3; destruct (E3 id) as (P1 & P2 & P3); rewrite ?P1, ?P2; auto.
    - specialize (E4 id). specialize (ST id). lia.
    - intros Hid. destruct (CR id Hid) as (a & t & X & Y). exists a, t. split; auto. intros Hp. rewrite P3; auto. }
  assert (PUSH : forall s1 id, invC s1 -> (id < next s1)%nat -> pushed (infos s1 id) = true -> pend s1 id = 0%nat -> queued (infos s1 id) = false ->
     (period (infos s1 id) = None -> queuings (log s1) id = 0%nat) -> (starts (log s1) id <= queuings (log s1) id)%nat -> invC (push s1 id)).
  { intros s1 id C1 L P Pe Qf Z0 Le. unfold push. destruct (erased (infos s1 id)) eqn:Er; auto. destruct C1 as [np st on cr nc]. constructor; flds.
    - intros j. rewrite queuings_cons. upd; subst; flds; [congruence|]. intros Hj. rewrite np by auto. destruct (Nat.eqb id j) eqn:X; auto. apply Nat.eqb_eq in X. congruence.
    - intros j. rewrite queuings_cons, starts_cons. specialize (st j). unfold pend in *. flds. upd; subst; flds.
      + rewrite Nat.eqb_refl. lia.
      + destruct (Nat.eqb id j) eqn:X; [apply Nat.eqb_eq in X; congruence|]. lia.
    - intros j. rewrite queuings_cons. upd; subst; flds.
      + intros X. rewrite Z0 by auto. destruct (Nat.eqb id id); lia.
      + intros X. destruct (Nat.eqb id j) eqn:Y; [apply Nat.eqb_eq in Y; congruence|]. apply on; auto.
    - intros j Hj. cbn [creation]. destruct (cr j Hj) as (a & t & X & Y). exists a, t. upd; subst; flds; auto.
    - intros j Hj. cbn [creation]. auto. }
  assert (WR : forall w, ready (wake w) = ready w) by (now intros []).
  assert (POP : forall n s0 w, pop s = Some (n, s0) -> ready w = Some n -> ready (wp s) = None -> invC (set_wp s0 w)).
  { intros n s0 w HP W1 W2. popinv. pose proof (a_in A x) as IN. rewrite Hq in IN. destruct (IN (or_introl eq_refl)) as (_ & _ & I3).
    apply KEEP; flds; auto.
    - right. eexists. split; [reflexivity|exact I].
    - intros j. upd; subst; auto.
    - intros j. unfold pend. flds. rewrite W1, W2. upd; subst; flds; [rewrite I3; destruct (Nat.eqb _ _); lia|].
      destruct (queued (infos s j)); auto. destruct (Nat.eqb (e_id x) j) eqn:X; auto. apply Nat.eqb_eq in X. congruence. }
  destruct l; cbn [step] in H.
  - injection H as <-. apply KEEP; flds; auto.
  - injection H as <-. constructor; flds.
    + intros j. rewrite queuings_cons. upd; subst; flds; [intros _|]; apply NP. now rewrite (a_nx A (le_n _)).
    + intros j. rewrite queuings_cons, starts_cons. unfold pend. flds. specialize (ST j). unfold pend in ST. upd; subst; flds; [|exact ST].
      rewrite (a_nx A (le_n _)) in ST. cbn in *. lia.
    + intros j. rewrite queuings_cons. upd; subst; flds; [|apply ON]. intros _. rewrite NP by (now rewrite (a_nx A (le_n _))). lia.
    + intros j Hj. cbn [creation]. upd; subst; flds.
      * rewrite Nat.eqb_refl. exists (now s), timeout. auto.
      * destruct (Nat.eqb (next s) j) eqn:X; [apply Nat.eqb_eq in X; congruence|]. apply CR. lia.
    + intros j Hj. cbn [creation]. destruct (Nat.eqb (next s) j) eqn:X; [apply Nat.eqb_eq in X; lia|]. apply NC. lia.
  - destruct (Nat.ltb id (next s) && negb (pushed (infos s id))) eqn:E; [|discriminate]. injection H as <-.
    apply andb_prop in E. destruct E as [L P]. apply negb_true_iff in P. apply Nat.ltb_lt in L. destruct (a_np A id P) as (Qf & Hh & _ & Er).
    assert (R0 : ready (wp s) <> Some id).
    { intros X. apply Hh. destruct (wp s); cbn in *; congruence. }
    assert (P0 : pend s id = 0%nat).
    { unfold pend. rewrite Qf. destruct (ready (wp s)) as [j|] eqn:R; auto. destruct (Nat.eqb j id) eqn:X; auto. apply Nat.eqb_eq in X. congruence. }
    (* the push, then the wake *)
    unfold push. flds. rewrite fupd_same. flds. rewrite Er. flds. constructor; flds.
    + intros j. rewrite queuings_cons. unfold fupd. destruct (Nat.eqb j id) eqn:X; flds; [discriminate|]. intros Hj. rewrite NP by auto.
      rewrite Nat.eqb_sym, X. auto.
    + intros j. rewrite queuings_cons, starts_cons. specialize (ST j). unfold pend in *. flds. rewrite WR. unfold fupd. destruct (Nat.eqb j id) eqn:X; flds.
      * apply Nat.eqb_eq in X. subst. rewrite Nat.eqb_refl. rewrite Qf in ST. lia.
      * rewrite Nat.eqb_sym, X. lia.
    + intros j. rewrite queuings_cons. unfold fupd. destruct (Nat.eqb j id) eqn:X; flds.
      * apply Nat.eqb_eq in X. subst. rewrite NP by auto. destruct (Nat.eqb id id); lia.
      * rewrite Nat.eqb_sym, X. intros Y. apply ON; auto.
    + intros j Hj. cbn [creation]. destruct (CR j Hj) as (a & t & X & Y). exists a, t. unfold fupd. destruct (Nat.eqb j id) eqn:Z; flds; auto.
      apply Nat.eqb_eq in Z. subst. split; auto; discriminate.
    + intros j Hj. cbn [creation]. auto.
  - destruct (pushed (infos s id) && negb (removed (infos s id))) eqn:E; [|discriminate]. injection H as <-. apply KEEP; unfold erase; flds; auto.
    + intros j. upd; subst; auto.
    + intros j. unfold pend. flds. upd; subst; flds; auto. destruct (queued (infos s id)); auto.
      destruct (ready (wp s)) as [k|]; auto. destruct (Nat.eqb k id); auto.
  - destruct (removed (infos s id) && alive (infos s id)); [|discriminate].
    assert (K : forall b, invC (kill s b id)).
    { intros b. apply KEEP; unfold kill; flds; auto; [right; eexists; split; [reflexivity|exact I]|intros j; upd; subst; auto|intros j; unfold pend; flds; upd; subst; auto]. }
    destruct (running (wp s)); [destruct (inTask || negb (Nat.eqb n id))|destruct inTask]; try discriminate; injection H as <-; auto.
  - injection H as <-. apply KEEP; flds; auto. intros j. unfold pend. flds. now rewrite WR.
  - inv_step H. apply KEEP; flds; auto. intros j. unfold pend. flds. rewrite E. cbn. destruct (queued (infos s j)); auto.
  - inv_step H. apply KEEP; flds; auto. intros j. unfold pend. flds. rewrite E. cbn. destruct (queued (infos s j)); auto.
  - assert (DROP : forall w, ready w = None -> forall j, (pend (set_wp s w) j <= pend s j)%nat).
    { intros w Hw j. unfold pend. flds. rewrite Hw. destruct (queued (infos s j)); auto. lia. }
    destruct (wp s) eqn:Ew.
    + destruct (stop s); [injection H as <-; apply KEEP; flds; auto; now apply DROP|].
      destruct (queue s) as [|e q] eqn:Eq; [injection H as <-; apply KEEP; flds; auto; now apply DROP|].
      destruct (due (infos s (e_id e)) <=? now s); [|injection H as <-; apply KEEP; flds; auto; now apply DROP].
      destruct (pop s) as [[n s0]|] eqn:EP; [|discriminate]. injection H as <-. eapply POP; eauto.
    + discriminate.
    + injection H as <-. apply KEEP; flds; auto; [right; eexists; split; [reflexivity|exact I]|]. intros j. unfold pend. flds. now rewrite Ew.
    + assert (Hr : ready (wp s) = Some id) by now rewrite Ew. assert (Hh : hold (wp s) = Some id) by now rewrite Ew. destruct (a_h A Hh) as [Qf Pt].
      destruct (alive (infos s id)); injection H as <-.
      * constructor; flds.
        -- intros j. rewrite queuings_cons. apply NP.
        -- intros j. rewrite queuings_cons, starts_cons. specialize (ST j). unfold pend in *. flds. rewrite Hr in ST. cbn [ready].
           destruct (Nat.eqb id j) eqn:X; [apply Nat.eqb_eq in X; subst; rewrite Qf in *|]; destruct (queued (infos s j)); lia.
        -- intros j. rewrite queuings_cons. apply ON.
        -- intros j Hj. cbn [creation]. auto.
        -- intros j Hj. cbn [creation]. auto.
      * apply KEEP; flds; auto; [right; eexists; split; [reflexivity|exact I]|]. intros j. unfold pend. flds. rewrite Hr. cbn [ready]. destruct (queued (infos s j)); lia.
    + injection H as <-. apply KEEP; flds; auto; [right; eexists; split; [reflexivity|exact I]|]. intros j. unfold pend. flds. now rewrite Ew.
    + assert (Hh : hold (wp s) = Some id) by now rewrite Ew. destruct (a_h A Hh) as [Qf Pt].
      destruct (period (infos s id)) as [p|] eqn:Ep; injection H as <-; [|apply KEEP; flds; auto; now apply DROP].
      assert (EQ : set_wp (push (restart s id (start + p)) id) WLoop = push (set_wp (restart s id (start + p)) WLoop) id).
      { unfold push, restart, set_info, set_wp. cbn. destruct (erased _); reflexivity. }
      rewrite EQ. apply PUSH; unfold restart; flds; rewrite ?fupd_same; flds; auto.
      * apply KEEP; flds; auto; [intros j; upd; subst; flds; auto; repeat split; auto; congruence|].
        intros j. unfold pend. flds. rewrite Ew. cbn. upd; subst; flds; auto.
      * now apply pushed_lt.
      * unfold pend. flds. rewrite fupd_same. flds. now rewrite Qf.
      * congruence.
      * specialize (ST id). lia.
    + destruct (queue s) as [|e q] eqn:Eq; [injection H as <-; apply KEEP; flds; auto; now apply DROP|].
      destruct (limit <? due (infos s (e_id e))); [injection H as <-; apply KEEP; flds; auto; now apply DROP|].
      destruct (pop s) as [[n s0]|] eqn:EP; [|discriminate]. injection H as <-. eapply POP; eauto.
    + assert (Hr : ready (wp s) = Some id) by now rewrite Ew. assert (Hh : hold (wp s) = Some id) by now rewrite Ew. destruct (a_h A Hh) as [Qf Pt].
      destruct (alive (infos s id)); injection H as <-.
      * constructor; flds.
        -- intros j. rewrite queuings_cons. apply NP.
        -- intros j. rewrite queuings_cons, starts_cons. specialize (ST j). unfold pend in *. flds. rewrite Hr in ST. cbn [ready].
           destruct (Nat.eqb id j) eqn:X; [apply Nat.eqb_eq in X; subst; rewrite Qf in *|]; destruct (queued (infos s j)); lia.
        -- intros j. rewrite queuings_cons. apply ON.
        -- intros j Hj. cbn [creation]. auto.
        -- intros j Hj. cbn [creation]. auto.
      * apply KEEP; flds; auto; [right; eexists; split; [reflexivity|exact I]|]. intros j. unfold pend. flds. rewrite Hr. cbn [ready]. destruct (queued (infos s j)); lia.
    + injection H as <-. apply KEEP; flds; auto; [right; eexists; split; [reflexivity|exact I]|]. intros j. unfold pend. flds. now rewrite Ew.
    + discriminate.
Qed.

(** ** Layer B4: history *)
Definition good (e : event) (h : list event) : Prop :=
  match e with
  | EStart id t => (exists d, last_due h id = Some d /\ d <= t) /\ (forall b, ~ In (EReleased b id) h)
  | EQueued id d => exists a t p, creation h id = Some (a, t, p) /\
      ((queuings h id = 0%nat /\ d = a + t) \/ (exists q z, p = Some q /\ last_dispatch h id = Some z /\ d = z + q))
  | ECreated id _ _ _ => creation h id = None
  | _ => True
  end.
Definition invH (s : st) : Prop := forall e b, happened (log s) e b -> good e b.

Lemma happened_cons x h e b : happened (x :: h) e b -> (e = x /\ b = h) \/ happened h e b.
Proof.
  intros (after & H). destruct after as [|y after]; cbn in H.
  - injection H as -> ->. auto.
  - injection H as -> H. right. exists after. auto.
Qed.

Lemma step_ev s l s' : invA s -> invR s -> invT s -> invC s -> step s l = Some s' ->
  log s' = log s \/ exists e, log s' = e :: log s /\ good e (log s).
Proof.
  intros A R T C H.
  assert (PUSH : forall s1 id, log s1 = log s -> good (EQueued id (due (infos s1 id))) (log s) ->
     log (push s1 id) = log s \/ exists e, log (push s1 id) = e :: log s /\ good e (log s)).
  { intros s1 id E1 G. unfold push. destruct (erased (infos s1 id)); auto. right. cbn. rewrite E1. eauto. }
  assert (START : forall id, ready (wp s) = Some id -> alive (infos s id) = true -> good (EStart id (now s)) (log s)).
  { intros id Hr Ha. split; [now apply T|]. intros b Hin. destruct (R b id Hin). congruence. }
  step_cases H l; try (left; reflexivity); try (right; eexists; split; [reflexivity|exact I]).
  - right. eexists. split; [reflexivity|]. cbn. apply (@c_nc s C). lia.
  - apply andb_prop in E. destruct E as [L P]. apply negb_true_iff in P. apply Nat.ltb_lt in L. apply PUSH; auto. flds. rewrite fupd_same. flds.
    destruct (@c_cr s C id L) as (a & t & X & Y). exists a, t, (period (infos s id)). split; auto. left. split; [now apply C|auto].
  - popinv. right. eexists. split; [reflexivity|exact I].
  - right. eexists. split; [reflexivity|]. apply START; auto; now rewrite E.
  - apply PUSH; auto. unfold restart. flds. rewrite fupd_same. flds.
    assert (Hh : hold (wp s) = Some id) by now rewrite E. destruct (a_h A Hh) as [Qf Pt].
    destruct (@c_cr s C id (pushed_lt _ A Pt)) as (a & t & X & Y). exists a, t, (period (infos s id)). split; auto. right.
    exists z, start. split; auto. split; auto. apply T. now rewrite E.
  - popinv. right. eexists. split; [reflexivity|exact I].
  - right. eexists. split; [reflexivity|]. apply START; auto; now rewrite E.
Qed.

Record inv (s : st) : Prop := { I_A : invA s; I_R : invR s; I_T : invT s; I_C : invC s; I_H : invH s }.

Lemma init_inv : inv init.
Proof.
  constructor; [apply initA| | |apply initC|].
  - intros b id [].
  - constructor; cbn; try easy.
  - intros e b ([|x a] & H); discriminate H.
Qed.

Lemma step_inv s l s' : inv s -> step s l = Some s' -> inv s'.
Proof.
  intros [A R T C H] St. constructor; [eapply stepA|eapply stepR|eapply stepT|eapply stepC|]; eauto.
  destruct (step_ev l A R T C St) as [E|(e & E & G)]; intros x b; rewrite E; [apply H|].
  intros Hx. apply happened_cons in Hx. destruct Hx as [[-> ->]|Hx]; auto.
Qed.

Lemma reach_inv s : reachable s -> inv s.
Proof. intros (ls & H). exact (@steps_inv _ _ step inv step_inv _ _ _ init_inv H). Qed.

(** *** Consequences *)
Lemma takes_earliest s e s' : reachable s -> takes s e s' ->
  e_due e <= now s /\ forall x, In x (queue s) -> x = e \/ e_due e < e_due x \/ (e_due e = e_due x /\ (e_seq e < e_seq x)%nat).
Proof.
  intros Rs (H & He & Hl). apply reach_inv in Rs. destruct Rs as [A R T C _].
  assert (GEN : forall y q, queue s = y :: q -> e_id y = e_id e -> due (infos s (e_id y)) <= now s ->
     e_due e <= now s /\ forall x, In x (queue s) -> x = e \/ e_due e < e_due x \/ (e_due e = e_due x /\ (e_seq e < e_seq x)%nat)).
  { intros y q Hq E D.
    assert (e = y).
    { destruct (Nat.eq_dec (e_seq e) (e_seq y)) as [X|X].
      - pose proof (a_sort A) as SO. rewrite Hq in *. destruct He as [He|He]; auto. inversion SO as [|? ? S1 S2]; subst. rewrite Forall_forall in S2. specialize (S2 e He).
        pose proof (a_in A e) as I1. pose proof (a_in A y) as I2. rewrite Hq in I1, I2. destruct (I1 (or_intror He)) as (_ & I1' & _). destruct (I2 (or_introl eq_refl)) as (_ & I2' & _).
        rewrite E in I2'. unfold before_ in S2. lia.
      - pose proof (a_nd A) as ND. rewrite Hq in *. cbn in ND. inversion ND; subst. destruct He as [He|He]; auto. exfalso. apply H2. rewrite E. now apply in_map. }
    subst y. pose proof (a_in A e) as I1. destruct (I1 He) as (_ & I1' & _). split; [lia|]. intros x Hx. rewrite Hq in Hx. destruct Hx as [Hx|Hx]; [auto|right].
    pose proof (a_sort A) as SO. rewrite Hq in SO. inversion SO as [|? ? S1 S2]; subst. rewrite Forall_forall in S2. exact (S2 x Hx). }
  cbn [step] in H. inv_step H; try (apply (f_equal (@length _)) in Hl; cbn in Hl; lia); try (cbn in Hl; discriminate Hl).
  - popinv. cbn in Hl. injection Hl as Hl. rewrite E1 in Hq. injection Hq as <- <-. eapply GEN; eauto. now apply Z.leb_le.
  - exfalso. unfold push, restart in Hl. cbn in Hl. destruct (erased _) in Hl; [apply (f_equal (@length _)) in Hl; cbn in Hl; lia|discriminate Hl].
  - popinv. cbn in Hl. injection Hl as Hl. rewrite E0 in Hq. injection Hq as <- <-. eapply GEN; eauto. apply Z.ltb_ge in E1.
    assert (limit <= now s) by (apply T; now rewrite E). lia.
Qed.

Lemma start_good s id t b : reachable s -> happened (log s) (EStart id t) b ->
  (exists d, last_due b id = Some d /\ d <= t) /\ forall r, ~ In (EReleased r id) b.
Proof. intros Rs H. apply reach_inv in Rs. exact (I_H Rs H). Qed.
Lemma queued_good s id d b : reachable s -> happened (log s) (EQueued id d) b ->
  exists a t p, creation b id = Some (a, t, p) /\
    ((queuings b id = 0%nat /\ d = a + t) \/ (exists q z, p = Some q /\ last_dispatch b id = Some z /\ d = z + q)).
Proof. intros Rs H. apply reach_inv in Rs. exact (I_H Rs H). Qed.
Lemma created_once s id a t p b : reachable s -> happened (log s) (ECreated id a t p) b -> creation b id = None.
Proof. intros Rs H. apply reach_inv in Rs. exact (I_H Rs H). Qed.
Lemma released_not_running s id : reachable s -> In (EReleased false id) (log s) -> running (wp s) <> Some id.
Proof. intros Rs H. apply reach_inv in Rs. now apply (I_R Rs false id H). Qed.
Lemma oneshot s id a t : reachable s -> creation (log s) id = Some (a, t, None) -> (starts (log s) id <= queuings (log s) id <= 1)%nat.
Proof.
  intros Rs H. apply reach_inv in Rs. destruct Rs as [A R T C _]. split; [pose proof (@c_st s C id); lia|]. apply C.
  destruct (le_lt_dec (next s) id) as [L|L]; [rewrite (@c_nc s C id L) in H; discriminate|]. destruct (@c_cr s C id L) as (x & y & X & _). congruence.
Qed.
Lemma starts_queuings s id : reachable s -> (starts (log s) id <= queuings (log s) id)%nat.
Proof. intros Rs. apply reach_inv in Rs. pose proof (@c_st s (I_C Rs) id). lia. Qed.
Lemma sleeps s : reachable s ->
  (wp s = WSleep None -> queue s = [] /\ stop s = false) /\
  (forall d, wp s = WSleep (Some d) -> (forall e, In e (queue s) -> d <= e_due e) /\ stop s = false).
Proof. intros Rs. apply reach_inv in Rs. split; apply Rs. Qed.
(** what is in the queue has the due time it was last queued with *)
Lemma queue_due s e : reachable s -> In e (queue s) -> last_due (log s) (e_id e) = Some (e_due e).
Proof. intros Rs H. apply reach_inv in Rs. now apply Rs. Qed.

(** ** Layer B5: nothing is lost *)
Definition draining (w : wpc) : bool := match w with WDrain _ | WDrainExec _ _ | WDrainRun _ _ | WDone => true | _ => false end.
Record invL (s : st) : Prop := {
  l_in : forall id, pushed (infos s id) = true -> removed (infos s id) = false -> draining (wp s) = false ->
    queued (infos s id) = true \/ hold (wp s) = Some id \/ (period (infos s id) = None /\ starts (log s) id = 1%nat);
  l_al : forall id, (id < next s)%nat -> removed (infos s id) = false -> alive (infos s id) = true;
  l_run : forall id, (running (wp s) = Some id \/ exists z, wp s = WAfter id z) -> removed (infos s id) = false -> (1 <= starts (log s) id)%nat }.

Lemma initL : invL init.
Proof. constructor; cbn; try easy; try lia. intros id [H|(z & H)]; discriminate. Qed.

Definition quiets (e : event) : Prop := match e with EStart _ _ => False | _ => True end.

Lemma stepL s l s' : invA s -> invC s -> invL s -> step s l = Some s' -> invL s'.
Proof.
  intros A C L H. pose proof L as [LI LA LR].
  assert (WR : forall w, running (wake w) = running w) by (now intros []).
  assert (WH : forall w, hold (wake w) = hold w) by (now intros []).
  assert (WD : forall w, draining (wake w) = draining w) by (now intros []).
  assert (WA : forall w id z, wake w = WAfter id z -> w = WAfter id z) by (intros [] j z Hw; cbn in Hw; congruence).
  assert (KEEP : forall s1, (log s1 = log s \/ exists e, log s1 = e :: log s /\ quiets e) -> next s1 = next s ->
     (forall id, period (infos s1 id) = period (infos s id) /\ pushed (infos s1 id) = pushed (infos s id) /\
        (removed (infos s1 id) = false -> removed (infos s id) = false /\ alive (infos s1 id) = alive (infos s id) /\ (queued (infos s id) = true -> queued (infos s1 id) = true \/ hold (wp s1) = Some id))) ->
     (draining (wp s1) = true \/ (draining (wp s) = draining (wp s1) /\ forall id, hold (wp s) = Some id -> removed (infos s1 id) = false -> hold (wp s1) = Some id \/ (period (infos s id) = None /\ starts (log s) id = 1%nat))) ->
     (forall id, (running (wp s1) = Some id \/ exists z, wp s1 = WAfter id z) -> removed (infos s id) = false -> (running (wp s) = Some id \/ exists z, wp s = WAfter id z)) -> invL s1).
  { intros s1 E1 E2 E3 E4 E5.
    assert (L1 : forall id, starts (log s1) id = starts (log s) id).
    { destruct E1 as [->|(e & -> & Q)]; auto. intros id. rewrite starts_cons. destruct e; try contradiction; auto. }
    constructor; rewrite ?E2.
    - intros id Hp Hr Hd. destruct (E3 id) as (P1 & P2 & P3). destruct (P3 Hr) as (Q1 & Q2 & Q3). rewrite P2 in Hp. rewrite P1, L1.
      destruct E4 as [E4|[E4 E6]]; [congruence|]. rewrite <- E4 in Hd. destruct (LI id Hp Q1 Hd) as [X|[X|X]]; [destruct (Q3 X); auto|destruct (E6 id X Hr); auto|auto].
    - intros id Hid Hr. destruct (E3 id) as (P1 & P2 & P3). destruct (P3 Hr) as (Q1 & Q2 & Q3). rewrite Q2. auto.
    - intros id Hx Hr. destruct (E3 id) as (P1 & P2 & P3). destruct (P3 Hr) as (Q1 & Q2 & Q3). rewrite L1. apply LR; auto. }
  assert (SAME : forall id, period (infos s id) = period (infos s id) /\ pushed (infos s id) = pushed (infos s id) /\
     (removed (infos s id) = false -> removed (infos s id) = false /\ alive (infos s id) = alive (infos s id) /\ (queued (infos s id) = true -> queued (infos s id) = true \/ False))).
  { intros id. repeat split; auto. }
  assert (PUSH : forall s1 id, invL s1 -> invL (push s1 id)).
  { intros s1 id [a b c]. unfold push. destruct (erased (infos s1 id)) eqn:Er; [constructor; auto|]. constructor; flds.
    - intros j. rewrite starts_cons. cbn [plus]. upd; subst; flds; auto.
    - intros j. upd; subst; flds; auto.
    - intros j. rewrite starts_cons. cbn [plus]. upd; subst; flds; auto. }
  assert (POP : forall n s0 w, pop s = Some (n, s0) -> hold w = Some n -> hold (wp s) = None -> draining w = draining (wp s) -> (forall j, running w <> Some j) -> (forall j z, w <> WAfter j z) -> invL (set_wp s0 w)).
  { intros n s0 w HP W1 W2 W3 W4 W5. popinv. apply KEEP; flds; auto.
    - right. eexists. split; [reflexivity|exact I].
    - intros j. upd; subst; flds; auto; repeat split; auto.
    - right. split; auto. intros j Hj. congruence.
    - intros j [X|[z X]]; [now apply W4 in X|now apply W5 in X]. }
  destruct l; cbn [step] in H.
  - injection H as <-. apply KEEP; flds; auto; try (intros j; repeat split; auto; fail).
  - injection H as <-. constructor; flds.
    + intros j. rewrite starts_cons. cbn [plus]. upd; subst; flds; auto; discriminate.
    + intros j. upd; subst; flds; auto. intros Hj. apply LA. lia.
    + intros j. rewrite starts_cons. cbn [plus]. upd; subst; flds; auto. intros Hx _. apply LR; auto. now rewrite (a_nx A (le_n _)).
  - destruct (Nat.ltb id (next s) && negb (pushed (infos s id))) eqn:E; [|discriminate]. injection H as <-.
    apply andb_prop in E. destruct E as [Lt P]. apply negb_true_iff in P. apply Nat.ltb_lt in Lt. destruct (a_np A id P) as (Qf & Hh & Rf & Er).
    unfold push. flds. rewrite fupd_same. flds. rewrite Er. flds. constructor; flds.
    + intros j. rewrite starts_cons, WH, WD. cbn [plus]. unfold fupd. destruct (Nat.eqb j id); flds; auto.
    + intros j. unfold fupd. destruct (Nat.eqb j id) eqn:X; flds; auto.
    + intros j. rewrite starts_cons, WR. cbn [plus]. intros Hx Hr. apply LR.
      * destruct Hx as [Hx|(z & Hx)]; auto. right. exists z. now apply WA.
      * revert Hr. unfold fupd. destruct (Nat.eqb j id) eqn:X; flds; auto. apply Nat.eqb_eq in X. subst. auto.
  - destruct (pushed (infos s id) && negb (removed (infos s id))) eqn:E; [|discriminate]. injection H as <-. apply KEEP; unfold erase; flds; auto.
    intros j. upd; subst; flds; auto; repeat split; auto; discriminate.
  - destruct (removed (infos s id) && alive (infos s id)) eqn:E; [|discriminate]. apply andb_prop in E. destruct E as [Er Ea].
    assert (K : forall b, invL (kill s b id)).
    { intros b. apply KEEP; unfold kill; flds; auto; [right; eexists; split; [reflexivity|exact I]|]. intros j; upd; subst; flds; auto; repeat split; auto; congruence. }
    destruct (running (wp s)); [destruct (inTask || negb (Nat.eqb n id))|destruct inTask]; try discriminate; injection H as <-; auto.
  - injection H as <-. apply KEEP; flds; auto; try (intros j; repeat split; auto; fail).
    + right. rewrite WD, WH. auto.
    + intros j. rewrite WR. intros [X|(z & X)] _; auto. right. exists z. now apply WA.
  - inv_step H. apply KEEP; flds; auto; try (intros j; repeat split; auto; fail); try (right; rewrite ?E; split; auto; discriminate); intros j [X|(z & X)]; discriminate.
  - inv_step H. apply KEEP; flds; auto; try (intros j; repeat split; auto; fail); try (right; rewrite ?E; split; auto; discriminate); intros j [X|(zz & X)]; discriminate.
  - destruct (wp s) eqn:Ew.
    + destruct (stop s).
      * injection H as <-; apply KEEP; flds; auto; try (intros j; repeat split; auto; fail). intros j [X|(z & X)]; discriminate.
      * destruct (queue s) as [|e q] eqn:Eq.
        -- injection H as <-; apply KEEP; flds; auto; try (intros j; repeat split; auto; fail); try (right; rewrite ?Ew; split; auto; discriminate); intros j [X|(z & X)]; discriminate.
        -- destruct (due (infos s (e_id e)) <=? now s).
           ++ destruct (pop s) as [[n s0]|] eqn:EP; [|discriminate]. injection H as <-. eapply POP; eauto; try discriminate.
           ++ injection H as <-; apply KEEP; flds; auto; try (intros j; repeat split; auto; fail); try (right; rewrite ?Ew; split; auto; discriminate); intros j [X|(z & X)]; discriminate.
    + discriminate.
    + injection H as <-; apply KEEP; flds; auto; try (intros j; repeat split; auto; fail).
      * right. eexists. split; [reflexivity|exact I].
      * intros j [X|(z & X)]; discriminate.
    + assert (Hh : hold (wp s) = Some id) by now rewrite ?Ew. destruct (a_h A Hh) as [Qf Pt].
      destruct (alive (infos s id)) eqn:Ea; injection H as <-.
      * constructor; flds.
        -- intros j Hp Hr Hd. destruct (LI j Hp Hr eq_refl) as [X|[X|[X1 X2]]]; auto. right. right. split; auto. rewrite starts_cons, X2.
           destruct (Nat.eqb id j) eqn:Y; auto. apply Nat.eqb_eq in Y. subst. exfalso. pose proof (@c_st s C j) as K1. pose proof (@c_one s C j X1) as K2.
           unfold pend in K1. rewrite Qf, Ew in K1. cbn in K1. rewrite Nat.eqb_refl in K1. lia.
        -- auto.
        -- intros j [X|(z & X)] Hr; [|discriminate]. injection X as <-. rewrite starts_cons, Nat.eqb_refl. lia.
      * assert (Rm : removed (infos s id) = true). { destruct (removed (infos s id)) eqn:Y; auto. rewrite LA in Ea; auto. now apply pushed_lt. }
        apply KEEP; flds; auto; try (intros j; repeat split; auto; fail); [right; eexists; split; [reflexivity|exact I]|].
        intros j [X|(z & X)] Hr; [discriminate|]. injection X as <- <-. congruence.
    + injection H as <-. apply KEEP; flds; auto; try (intros j; repeat split; auto; fail); [right; eexists; split; [reflexivity|exact I]|].
      intros j [X|(z & X)] Hr; [discriminate|]. injection X as <- <-. left. now rewrite ?Ew.
    + assert (Hh : hold (wp s) = Some id) by now rewrite ?Ew. destruct (a_h A Hh) as [Qf Pt].
      destruct (period (infos s id)) as [p|] eqn:Ep; injection H as <-.
      * unfold push, restart. flds. rewrite fupd_same. flds. destruct (erased (infos s id)) eqn:Er; constructor; flds.
        -- intros j. upd; subst; flds; [rewrite <- (a_er A), Er; discriminate|]. intros Hp Hr _. destruct (LI j Hp Hr eq_refl) as [X|[X|X]]; auto. cbn in X. congruence.
        -- intros j. upd; subst; flds; auto.
        -- intros j [X|(z & X)]; discriminate.
        -- intros j. rewrite starts_cons. cbn [plus]. unfold fupd. destruct (Nat.eqb j id) eqn:Y; flds; auto. intros Hp Hr _.
           destruct (LI j Hp Hr eq_refl) as [X|[X|X]]; auto. cbn in X. injection X as ->. rewrite Nat.eqb_refl in Y. discriminate.
        -- intros j. unfold fupd. destruct (Nat.eqb j id) eqn:Y; flds; auto; apply Nat.eqb_eq in Y; subst; auto.
        -- intros j [X|(z & X)]; discriminate.
      * apply KEEP; flds; auto; try (intros j; repeat split; auto; fail); [|intros j [X|(z & X)]; discriminate].
        right. rewrite ?Ew. split; auto. intros j [= <-] Hr. right. split; auto.
        pose proof (@c_st s C id) as K1. pose proof (@c_one s C id Ep) as K2. assert (K3 : (1 <= starts (log s) id)%nat) by (apply LR; eauto). lia.
    + destruct (queue s) as [|e q] eqn:Eq.
      * injection H as <-; apply KEEP; flds; auto; try (intros j; repeat split; auto; fail). intros j [X|(z & X)]; discriminate.
      * destruct (limit <? due (infos s (e_id e))).
        -- injection H as <-; apply KEEP; flds; auto; try (intros j; repeat split; auto; fail). intros j [X|(z & X)]; discriminate.
        -- destruct (pop s) as [[n s0]|] eqn:EP; [|discriminate]. injection H as <-. eapply POP; eauto; try discriminate.
    + destruct (alive (infos s id)) eqn:Ea; injection H as <-.
      * constructor; flds; try discriminate; auto. intros j [X|(z & X)] Hr; [|discriminate]. injection X as <-. rewrite starts_cons, Nat.eqb_refl. lia.
      * apply KEEP; flds; auto; try (intros j; repeat split; auto; fail); [right; eexists; split; [reflexivity|exact I]|]. intros j [X|(z & X)]; discriminate.
    + injection H as <-. apply KEEP; flds; auto; try (intros j; repeat split; auto; fail); [right; eexists; split; [reflexivity|exact I]|]. intros j [X|(z & X)]; discriminate.
    + discriminate.
Qed.

Lemma reach_invL s : reachable s -> invL s.
Proof.
  intros (ls & H). refine (proj2 (@steps_inv _ _ step (fun s => inv s /\ invL s) _ _ _ _ (conj init_inv initL) H)).
  intros s0 l s1 [I L] St. split; [eapply step_inv; eauto|]. eapply stepL; eauto; apply I.
Qed.

Lemma worker_not_stuck s : (forall d, wp s <> WSleep d) -> wp s <> WDone -> exists s', step s W = Some s'.
Proof.
  intros H1 H2. cbn [step]. destruct (wp s) eqn:E; try (eexists; reflexivity).
  - destruct (stop s); [eexists; reflexivity|]. unfold pop. destruct (queue s); [eexists; reflexivity|]. destruct (_ <=? _); eexists; reflexivity.
  - destruct (H1 deadline). reflexivity.
  - destruct (alive _); eexists; reflexivity.
  - destruct (period _); eexists; reflexivity.
  - unfold pop. destruct (queue s); [eexists; reflexivity|]. destruct (_ <? _); eexists; reflexivity.
  - destruct (alive _); eexists; reflexivity.
  - congruence.
Qed.

Lemma due_runs s e q : reachable s -> stop s = false -> (wp s = WLoop \/ exists d, wp s = WSleep d) ->
  queue s = e :: q -> e_due e <= now s -> removed (infos s (e_id e)) = false ->
  exists ls s', steps step s ls s' /\ Forall (fun l => l = W \/ l = Deadline) ls /\
    log s' = [EStart (e_id e) (now s); EDispatch (e_id e) (now s); EPopped (e_id e) (now s)] ++ log s.
Proof.
  intros Rs Hs Hw Hq Hd Hr. pose proof (reach_inv Rs) as [A R T C _]. pose proof (reach_invL Rs) as L.
  pose proof (a_in A e) as IN. rewrite Hq in IN. destruct (IN (or_introl eq_refl)) as (_ & I2 & I3).
  assert (P : pushed (infos s (e_id e)) = true). { destruct (pushed (infos s (e_id e))) eqn:X; auto. destruct (a_np A _ X). congruence. }
  assert (Al : alive (infos s (e_id e)) = true) by (apply L; auto; now apply pushed_lt).
  assert (GO : forall s0, now s0 = now s -> infos s0 = infos s -> stop s0 = false -> queue s0 = e :: q -> log s0 = log s -> wp s0 = WLoop ->
     exists s', steps step s0 [W; W; W] s' /\ log s' = [EStart (e_id e) (now s); EDispatch (e_id e) (now s); EPopped (e_id e) (now s)] ++ log s).
  { intros s0 E1 E2 E3 E4 E5 E6. 
    assert (X : exists s1, step s0 W = Some s1 /\ wp s1 = WPopped (e_id e) /\ now s1 = now s /\ log s1 = EPopped (e_id e) (now s) :: log s /\ alive (infos s1 (e_id e)) = true).
    { cbn [step]. rewrite E6, E3, E4. unfold pop. rewrite E4, E1, E2, <- I2. destruct (e_due e <=? now s) eqn:Y; [|apply Z.leb_gt in Y; lia].
      eexists. split; [reflexivity|]. cbn. rewrite E5, fupd_same. cbn. auto. }
    destruct X as (s1 & S1 & X1 & X2 & X3 & X4).
    assert (Y : exists s2, step s1 W = Some s2 /\ wp s2 = WExec (e_id e) (now s) /\ now s2 = now s /\ log s2 = EDispatch (e_id e) (now s) :: log s1 /\ infos s2 = infos s1).
    { cbn [step]. rewrite X1. eexists. split; [reflexivity|]. cbn. rewrite X2. auto. }
    destruct Y as (s2 & S2 & Y1 & Y2 & Y3 & Y4).
    eexists. split.
    - econstructor; [exact S1|]. econstructor; [exact S2|]. econstructor; [|constructor]. cbn [step]. rewrite Y1, Y4, X4. reflexivity.
    - cbn. rewrite Y2, Y3, X3. reflexivity. }
  destruct Hw as [Hw|(d & Hw)].
  - destruct (GO s) as (s' & S & E); auto. exists [W; W; W], s'. split; auto. split; auto.
  - destruct d as [d|].
    2:{ destruct (t_sl T Hw). congruence. }
    destruct (t_sd T Hw) as [Le _]. rewrite Hq in Le. specialize (Le e (or_introl eq_refl)).
    destruct (GO (set_wp s WLoop)) as (s' & S & E); auto. exists (Deadline :: [W; W; W]), s'. split; [|split; [repeat (constructor; auto)|exact E]].
    econstructor; [|exact S]. cbn [step]. rewrite Hw. destruct (d <=? now s) eqn:Y; auto. apply Z.leb_gt in Y. lia.
Qed.

(** a callback that nobody reset is never lost while the timer runs *)
Lemma never_lost s id : reachable s -> pushed (infos s id) = true -> removed (infos s id) = false -> draining (wp s) = false ->
  (exists e, In e (queue s) /\ e_id e = id) \/ hold (wp s) = Some id \/ (period (infos s id) = None /\ starts (log s) id = 1%nat).
Proof.
  intros Rs P Rm D. pose proof (reach_invL Rs) as L. destruct (l_in L id P Rm D) as [X|X]; auto. left.
  apply (a_q (I_A (reach_inv Rs))) in X. apply in_map_iff in X. destruct X as (e & E & He). eauto.
Qed.
