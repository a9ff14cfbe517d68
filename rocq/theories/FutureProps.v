(** C34: promise / future hand over one result, once, to every waiter. *)
From Coq Require Import List Arith Lia Bool.
From Verif Require Import Conc FutureModel FutureProofs.
Import ListNotations.
Set Implicit Arguments.

(** Every get() on a shared state, by whatever thread and whenever, yields the same result: the one
    established by the single accepted set_value / set_exception / ~promise.  A wait() that reports
    ready does so only after that. *)
Theorem C34_gets_agree : forall (V E : Type) ls (s : st V E) l1 l2 i r1 r2, run (init V E) ls s ->
  In (l1, OGot i r1) ls -> In (l2, OGot i r2) ls -> r1 = r2.
Proof.
  intros V E ls s l1 l2 i r1 r2 Hr H1 H2.
  assert (K : forall l r, In (l, OGot i r) ls -> res s i = Some r).
  { clear H1 H2. induction Hr as [s|s l o s1 ls s2 Hs Hr IH]; intros l0 r [].
    - injection H as -> ->. apply (run_res _ Hr). eapply step_res; [exact Hs|].
      destruct l0 as [p|p|p q|p|p v|p e|t j|t j|t|t|t|j]; cbn [step] in Hs;
        repeat match type of Hs with context [match ?x with _ => _ end] => destruct x eqn:?; try discriminate end;
        injection Hs as Hs; apply (check_got s) in Hs; destruct Hs as (_ & H & _); apply H; reflexivity.
    - eapply IH; eauto. }
  pose proof (K _ _ H1). pose proof (K _ _ H2). congruence.
Qed.

Lemma run_split V E l1 : forall l2 (x z : st V E), run x (l1 ++ l2) z -> exists y, run x l1 y /\ run y l2 z.
Proof.
  induction l1 as [|a l1 IH]; intros l2 x z H; [exists x; split; [constructor|exact H]|].
  cbn in H. inversion H as [|? l o s1 ls s2 Hs Hr]; subst. destruct (IH _ _ _ Hr) as (y & Y1 & Y2).
  exists y. split; [econstructor; eauto|exact Y2].
Qed.
Lemma run_head V E l o ls (x z : st V E) : run x ((l, o) :: ls) z -> exists y, step x l = Some (y, o) /\ run y ls z.
Proof. intros H. inversion H; subst. eexists; split; eauto. Qed.

(** At most one setter is accepted per shared state. *)
Theorem C34_single_assignment : forall (V E : Type) ls (s : st V E) pre l1 mid l2 post i, run (init V E) ls s ->
  ls = pre ++ (l1, OSet i) :: mid ++ (l2, OSet i) :: post -> False.
Proof.
  intros V E ls s pre l1 mid l2 post i Hr ->.
  assert (Hset : forall l (x y : st V E), step x l = Some (y, OSet i) -> res x i = None /\ res y i <> None).
  { clear. intros l x y Hs. destruct l as [p|p|p q|p|p v|p e|t j|t j|t|t|t|j]; cbn [step] in Hs;
      repeat match type of Hs with context [match ?x with _ => _ end] => destruct x eqn:?; try discriminate end;
      try (injection Hs as <- <-; cbn [put res]; rewrite fupd_same; split; [assumption|discriminate]);
      injection Hs as Hs; apply check_got in Hs; destruct Hs as (_ & _ & _ & H); exfalso; eapply H; reflexivity. }
  destruct (run_split _ _ Hr) as (y & _ & R1). destruct (run_head R1) as (s1 & S1 & R1'). destruct (Hset _ _ _ S1) as [_ A].
  destruct (run_split _ _ R1') as (y2 & R2 & R3). destruct (run_head R3) as (s2 & S2 & _). destruct (Hset _ _ _ S2) as [B _].
  destruct (res s1 i) eqn:Er; [|congruence]. rewrite (run_res _ R2 Er) in B. discriminate.
Qed.

(** set_value is refused exactly when the shared state already has a result. *)
Theorem C34_set_value : forall (V E : Type) (s s' : st V E) p v o, step s (LSetValue p v) = Some (s', o) ->
  exists i b, prom s p = Some (i, b) /\
    ((res s i = None /\ o = OSet i /\ res s' i = Some (Val v)) \/ (res s i <> None /\ o = OAlready /\ s' = s)).
Proof.
  intros V E s s' p v o Hs. cbn [step] in Hs. destruct (prom s p) as [[i b]|]; [|discriminate]. exists i, b. split; [reflexivity|].
  destruct (res s i) eqn:Er; injection Hs as <- <-; [right|left]; repeat split; auto; try congruence.
  cbn [put res]. apply fupd_same.
Qed.

(** No lost wake-up: a thread is never left sleeping on a shared state that has its result, so every
    waiter can return; and get() returns only then. *)
Theorem C34_no_lost_wakeup : forall (V E : Type) ls (s : st V E) t i g, run (init V E) ls s ->
  res s i <> None -> thr s t <> TBlocked i g.
Proof.
  intros V E ls s t i g Hr H Hb. destruct (run_inv (init_inv V E) Hr) as (I1 & _). apply H. eapply I1; eauto.
Qed.

(** Every waiter whose shared state has its result returns at its next step, with that result. *)
Theorem C34_waiter_returns : forall (V E : Type) ls (s : st V E) t i g r, run (init V E) ls s ->
  res s i = Some r -> (thr s t = TBlocked i g \/ thr s t = TWoken i g) ->
  exists s', step s (LRun t) = Some (s', if g then OGot i r else OReady i) /\ thr s' t = TIdle.
Proof.
  intros V E ls s t i g r Hr Hres [Hb|Hw].
  - exfalso. refine (C34_no_lost_wakeup t Hr _ Hb). congruence.
  - cbn [step]. rewrite Hw. unfold check. rewrite Hres. eexists. split; [reflexivity|]. cbn. apply fupd_same.
Qed.

(** A shared state without a promise object has a result (BrokenPromise if nothing else): nobody waits
    for a result that can no longer come. *)
Theorem C34_no_orphans : forall (V E : Type) ls (s : st V E) i, run (init V E) ls s -> i < made s ->
  (forall p b, prom s p <> Some (i, b)) -> res s i <> None.
Proof.
  intros V E ls s i Hr Hi Hp. destruct (run_inv (init_inv V E) Hr) as (_ & _ & _ & _ & I5 & _).
  destruct (I5 i Hi) as [(p & b & H)|H]; [|exact H]. exfalso. eapply Hp; eauto.
Qed.

Lemma step_prom V E (s s1 : st V E) l o : step s l = Some (s1, o) -> (forall p q, l <> LSwap p q) ->
  made s <= made s1 /\ forall u i b, prom s1 u = Some (i, b) -> prom s u = Some (i, b) \/ b = true \/ i = made s.
Proof.
  intros Hs Hn.
  assert (Hc : forall t j g, check s t j g = (s1, o) -> made s <= made s1 /\ forall u i b, prom s1 u = Some (i, b) -> prom s u = Some (i, b) \/ b = true \/ i = made s).
  { intros t j g. unfold check. destruct (res s j); intros [= <- <-]; cbn [made prom]; auto. }
  destruct l as [p|p|p q|p|p v|p e|t j|t j|t|t|t|j]; cbn [step] in Hs; try (exfalso; eapply Hn; reflexivity).
  - destruct (prom s p); [discriminate|]. injection Hs as <- <-. cbn [made prom]. split; [lia|]. intros u i b.
    rewrite fupd_eq. destruct (Nat.eqb u p); [intros [= <- <-]; auto|auto].
  - destruct (prom s p) as [[i b]|]; [|discriminate].
    assert (X : forall u k c, fupd (prom s) p None u = Some (k, c) -> prom s u = Some (k, c) \/ c = true \/ k = made s).
    { intros u k c. rewrite fupd_eq. destruct (Nat.eqb u p); [discriminate|auto]. }
    destruct (res s i); injection Hs as <- <-; cbn [made prom put]; auto.
  - destruct (prom s p) as [[i [|]]|]; [| |discriminate]; injection Hs as <- <-; cbn [made prom]; auto.
    split; [lia|]. intros u k c. rewrite fupd_eq. destruct (Nat.eqb u p); [intros [= <- <-]; auto|auto].
  - destruct (prom s p) as [[i b]|]; [|discriminate]. destruct (res s i); injection Hs as <- <-; cbn [made prom put]; auto.
  - destruct (prom s p) as [[i b]|]; [|discriminate]. destruct (res s i); injection Hs as <- <-; cbn [made prom put]; auto.
  - destruct (thr s t); try discriminate. destruct (j <? made s); [|discriminate]. injection Hs as Hs. eauto.
  - destruct (thr s t); try discriminate. destruct (j <? made s); [|discriminate]. injection Hs as Hs. eauto.
  - destruct (thr s t); try discriminate. injection Hs as Hs. eauto.
  - destruct (thr s t); try discriminate. injection Hs as <- <-. cbn [made prom]. auto.
  - destruct (thr s t) as [|? [|]|]; try discriminate. injection Hs as <- <-. cbn [made prom]. auto.
  - destruct (j <? made s); [|discriminate]. injection Hs as <- <-. auto.
Qed.

(** get_future succeeds at most once per shared state ... if promise::swap is not used *)
Theorem C34_get_future_once_partial : forall (V E : Type) ls (s : st V E) pre l1 mid l2 post i, run (init V E) ls s ->
  (forall p q o, ~ In (LSwap p q, o) ls) ->
  ls = pre ++ (l1, OFuture i) :: mid ++ (l2, OFuture i) :: post -> False.
Proof.
  intros V E ls s pre l1 mid l2 post i Hr Hsw ->.
  assert (Hfut : forall l (x y : st V E), step x l = Some (y, OFuture i) ->
    exists p, l = LGetFuture p /\ prom x p = Some (i, false) /\ prom y p = Some (i, true)).
  { clear. intros l x y Hs. destruct l as [p|p|p q|p|p v|p e|t j|t j|t|t|t|j]; cbn [step] in Hs;
      repeat match type of Hs with context [match ?x with _ => _ end] => destruct x eqn:?; try discriminate end;
      try (injection Hs as <- <-; exists p; cbn [prom]; rewrite fupd_same; auto; fail);
      unfold check in Hs; destruct (res x _); try destruct isget; discriminate. }
  (* once retrieved, whoever still owns state i has the flag set *)
  assert (Hkeep : forall ls (x y : st V E), run x ls y -> (forall p q o, ~ In (LSwap p q, o) ls) -> i < made x ->
    (forall p b, prom x p = Some (i, b) -> b = true) -> (forall p b, prom y p = Some (i, b) -> b = true)).
  { clear. intros ls x y Hr. induction Hr as [s|s l o s1 ls s2 Hs Hr IH]; intros Hsw Hi H; [exact H|].
    assert (Hnl : forall p q, l <> LSwap p q) by (intros p q ->; eapply Hsw; left; reflexivity).
    destruct (@step_prom _ _ _ _ _ _ Hs Hnl) as [M P].
    assert (Hm : forall p b, prom s1 p = Some (i, b) -> b = true).
    { intros p b X. destruct (P _ _ _ X) as [Y|[Y|Y]]; [eapply H; exact Y|exact Y|lia]. }
    apply IH; [|lia|exact Hm]. intros p q o' X. eapply Hsw. right. exact X. }
  destruct (run_split _ _ Hr) as (y & R0 & R1). destruct (run_head R1) as (s1 & S1 & R1').
  destruct (Hfut _ _ _ S1) as (p1 & -> & A1 & A2).
  destruct (run_split _ _ R1') as (y2 & R2 & R3). destruct (run_head R3) as (s2 & S2 & _). destruct (Hfut _ _ _ S2) as (p2 & -> & B1 & _).
  pose proof (run_inv (init_inv V E) R0) as HIy. pose proof (step_inv _ HIy S1) as HI1.
  destruct HI1 as (_ & _ & I3 & _ & _ & I6).
  assert (X : false = true); [|discriminate].
  eapply (Hkeep mid s1 y2 R2); [|eapply I3; exact A2| |exact B1].
  - intros p q o X. eapply Hsw. apply in_or_app. right. right. apply in_or_app. left. exact X.
  - intros p b Hp. assert (p = p1) by eauto. subst p. congruence.
Qed.

(** promise::swap (line 299) exchanges the shared states but not the "future retrieved" flags: after a swap a
    second future for the same shared state can be obtained, and the other promise refuses its first one. *)
Theorem C34_get_future_once_refuted :
  ~ (forall ls (s : st nat nat) pre l1 mid l2 post i, run (init nat nat) ls s ->
       ls = pre ++ (l1, OFuture i) :: mid ++ (l2, OFuture i) :: post -> False).
Proof.
  intros H.
  assert (R : exists s, run (init nat nat)
    [(LNew 0, ONone); (LNew 1, ONone); (LGetFuture 0, OFuture 0); (LSwap 0 1, ONone); (LGetFuture 1, OFuture 0); (LGetFuture 0, ORetrieved)] s).
  { eexists. repeat (econstructor; [reflexivity|]). constructor. }
  destruct R as [s R].
  apply (H _ s [(LNew 0, ONone); (LNew 1, ONone)] (LGetFuture 0) [(LSwap 0 1, ONone)] (LGetFuture 1) [(LGetFuture 0, ORetrieved)] 0 R). reflexivity.
Qed.

(** ** Non-vacuity *)
Fixpoint exec V E (s : st V E) (ls : list (lab V E)) : option (st V E * list (lab V E * obs V E)) :=
  match ls with
  | [] => Some (s, [])
  | l :: ls' => match step s l with
                | Some (s1, o) => match exec s1 ls' with Some (s2, os) => Some (s2, (l, o) :: os) | None => None end
                | None => None
                end
  end.
Lemma exec_run V E ls : forall (s : st V E) os, option_map snd (exec s ls) = Some os -> exists s', run s os s'.
Proof.
  induction ls as [|l ls IH]; cbn; intros s os H; [injection H as <-; eexists; constructor|].
  destruct (step s l) as [[s1 o]|] eqn:Es; [|discriminate]. specialize (IH s1).
  destruct (exec s1 ls) as [[s2 os']|]; [|discriminate]. cbn in H. injection H as <-.
  destruct (IH os' eq_refl) as [s' R]. exists s'. econstructor; eauto.
Qed.

Example C34_nonvacuous :
  exists s : st nat nat, run (init nat nat)
    [(LNew 0, ONone); (LGetFuture 0, OFuture 0); (LGet 1 0, ONone); (LWait 2 0, ONone); (LSpurious 1, ONone); (LRun 1, ONone);
     (LSetValue 0 42, OSet 0); (LRun 1, OGot 0 (Val 42)); (LSetValue 0 43, OAlready); (LRun 2, OReady 0);
     (LDestroy 0, OIgnored); (LGet 3 0, OGot 0 (Val 42)); (LNew 0, ONone); (LGet 1 1, ONone); (LDestroy 0, OSet 1); (LRun 1, OGot 1 Broken)] s.
Proof.
  apply exec_run with (ls := [LNew 0; LGetFuture 0; LGet 1 0; LWait 2 0; LSpurious 1; LRun 1; LSetValue 0 42; LRun 1; LSetValue 0 43; LRun 2;
    LDestroy 0; LGet 3 0; LNew 0; LGet 1 1; LDestroy 0; LRun 1]). vm_compute. reflexivity.
Qed.

Print Assumptions C34_gets_agree.
Print Assumptions C34_single_assignment.
Print Assumptions C34_set_value.
Print Assumptions C34_no_lost_wakeup.
Print Assumptions C34_waiter_returns.
Print Assumptions C34_no_orphans.
Print Assumptions C34_get_future_once_partial.
Print Assumptions C34_get_future_once_refuted.
