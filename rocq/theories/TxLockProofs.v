From Coq Require Import List Arith Bool Lia.
From Verif Require Import Base Conc TxLockModel TxLockSpec.
Import ListNotations.
Set Implicit Arguments.

(** holds Guard *)
Definition holding (p : pc) : bool :=
  match p with Check | Result _ | CtorUnlock | DtorSet | DtorBcast | DtorUnlock | Throwing | Busy => true | _ => false end.
(** HasTransaction is true on behalf of this thread *)
Definition owns (p : pc) : bool :=
  match p with CtorUnlock | Live | DtorLock | DtorSet => true | _ => false end.

Definition ending (p : pc) : bool := match p with DtorBcast | DtorUnlock => true | _ => false end.

Record inv (s : st) : Prop := {
  i_guard : forall t, holding (pcs s t) = true <-> guard s = Some t;
  i_own1 : forall t, owns (pcs s t) = true -> has s = true;
  i_own2 : forall t u, owns (pcs s t) = true -> owns (pcs s u) = true -> t = u;
  i_has : has s = true -> exists t, owns (pcs s t) = true;
  i_sleep : forall t, pcs s t = Asleep -> has s = true \/ exists u, pcs s u = DtorBcast;
  i_end : forall t, ending (pcs s t) = true -> has s = false }.

Lemma init_inv : inv init.
Proof. constructor; cbn; try easy. Qed.

Lemma woken_holding f u : holding (wake_all f u) = holding (f u).
Proof. unfold wake_all. now destruct (f u). Qed.
Lemma woken_owns f u : owns (wake_all f u) = owns (f u).
Proof. unfold wake_all. now destruct (f u). Qed.
Lemma woken_asleep f u : wake_all f u <> Asleep.
Proof. unfold wake_all. now destruct (f u). Qed.
Lemma woken_bcast f u : wake_all f u = DtorBcast <-> f u = DtorBcast.
Proof. unfold wake_all. destruct (f u); split; congruence. Qed.

Lemma fupd_case A (f : nat -> A) t a u : (u = t /\ fupd f t a u = a) \/ (u <> t /\ fupd f t a u = f u).
Proof.
  destruct (Nat.eq_dec u t) as [->|N]; [left|right]; split; auto; [apply fupd_same|now apply fupd_other].
Qed.

(** generic preservation: thread t moves from p to p' *)
Lemma move s f t p' g' h' :
  inv s -> (forall u, holding (f u) = holding (pcs s u) /\ owns (f u) = owns (pcs s u)) ->
  (forall u, holding (fupd f t p' u) = true <-> g' = Some u) ->
  (owns p' = true -> h' = true /\ (has s = false \/ owns (pcs s t) = true)) ->
  (h' = false -> owns p' = false /\ (has s = false \/ owns (pcs s t) = true)) ->
  (h' = true -> owns p' = true \/ (has s = true /\ owns (pcs s t) = false)) ->
  (forall u, fupd f t p' u = Asleep -> h' = true \/ exists v, fupd f t p' v = DtorBcast) ->
  (forall u, ending (fupd f t p' u) = true -> h' = false) ->
  inv (mk_st (fupd f t p') g' h').
Proof.
  intros [G O1 O2 H SL ND] HF HG HO HN HH HS HD.
  assert (F2 : forall u, owns (f u) = owns (pcs s u)) by (intros; apply HF).
  constructor; cbn; auto.
  - intros u Hu. destruct (fupd_case f t p' u) as [[-> E]|[N E]]; rewrite E in Hu.
    + now apply HO.
    + rewrite F2 in Hu. destruct h'; auto. destruct (HN eq_refl) as [_ [X|X]].
      * apply O1 in Hu. congruence.
      * exfalso. apply N. now apply O2.
  - intros u v Hu Hv.
    destruct (fupd_case f t p' u) as [[-> E]|[N E]]; rewrite E in Hu;
      destruct (fupd_case f t p' v) as [[-> E']|[N' E']]; rewrite E' in Hv; auto.
    + rewrite F2 in Hv. destruct (HO Hu) as [_ [X|X]]; [apply O1 in Hv; congruence|now apply O2].
    + rewrite F2 in Hu. destruct (HO Hv) as [_ [X|X]]; [apply O1 in Hu; congruence|now apply O2].
    + rewrite F2 in Hu, Hv. now apply O2.
  - intros X. destruct (HH X) as [Y|[Y Z]].
    + exists t. now rewrite fupd_same.
    + destruct (H Y) as [u Hu]. exists u. rewrite fupd_other, F2; auto. intros ->. congruence.
Qed.

Lemma holding_free s : inv s -> guard s = None -> forall u, holding (pcs s u) = false.
Proof.
  intros I E u. destruct (holding (pcs s u)) eqn:X; auto. apply (i_guard I) in X. congruence.
Qed.
Lemma holding_other s t : inv s -> holding (pcs s t) = true -> forall u, u <> t -> holding (pcs s u) = false.
Proof.
  intros I E u N. destruct (holding (pcs s u)) eqn:X; auto. apply (i_guard I) in X. apply (i_guard I) in E. congruence.
Qed.

Lemma step_inv s l s' : inv s -> step s l = Some s' -> inv s'.
Proof.
  intros I. destruct l as [t c]. unfold step. cbn [fst snd].
  pose proof I as [G O1 O2 H SL ND].
  (* the three ways Guard evolves *)
  assert (GS : forall p', holding p' = holding (pcs s t) -> forall u, holding (fupd (pcs s) t p' u) = true <-> guard s = Some u).
  { intros p' E u. destruct (fupd_case (pcs s) t p' u) as [[-> X]|[N X]]; rewrite X; [rewrite E|]; apply G. }
  assert (GA : forall p', holding p' = true -> guard s = None -> forall u, holding (fupd (pcs s) t p' u) = true <-> Some t = Some u).
  { intros p' E Gn u. destruct (fupd_case (pcs s) t p' u) as [[-> X]|[N X]]; rewrite X; [tauto|].
    rewrite (holding_free I Gn). split; [discriminate|congruence]. }
  assert (GR : forall p', holding p' = false -> holding (pcs s t) = true -> forall u, holding (fupd (pcs s) t p' u) = true <-> None = Some u).
  { intros p' E Gn u. destruct (fupd_case (pcs s) t p' u) as [[-> X]|[N X]]; rewrite X; [rewrite E|rewrite (holding_other I Gn) by auto]; split; discriminate. }
  (* sleepers when t stays on the same side of DtorBcast and does not fall asleep *)
  assert (SS : forall p' h', h' = has s -> p' <> Asleep -> pcs s t <> DtorBcast ->
     forall u, fupd (pcs s) t p' u = Asleep -> h' = true \/ exists v, fupd (pcs s) t p' v = DtorBcast).
  { intros p' h' -> Na Nb u Hu. destruct (fupd_case (pcs s) t p' u) as [[-> X]|[N X]]; [congruence|].
    rewrite X in Hu. destruct (SL u Hu) as [Y|[v Hv]]; auto. right. exists v. rewrite fupd_other; auto. congruence. }
  assert (EE : forall p' h', (h' = has s \/ h' = false) -> (ending p' = true -> h' = false) ->
     forall u, ending (fupd (pcs s) t p' u) = true -> h' = false).
  { intros p' h' X Y u Hu. destruct (fupd_case (pcs s) t p' u) as [[-> Z]|[N Z]]; rewrite Z in Hu; auto.
    destruct X as [->| ->]; eauto. }
  assert (ID : forall u, holding (pcs s u) = holding (pcs s u) /\ owns (pcs s u) = owns (pcs s u)) by auto.
  assert (HF : owns (pcs s t) = false -> has s = true -> has s = true /\ owns (pcs s t) = false) by auto.
  assert (HO : owns (pcs s t) = true -> has s = true) by apply O1.
  Local Ltac fin := intros; auto; try discriminate; try congruence.
  destruct (pcs s t) as [| | | |r|r| | | | | | | | |] eqn:Ep; destruct c; try destruct r; try discriminate;
    cbn in HF, HO; unfold acquire, release, go;
    try (destruct (guard s) as [g|] eqn:Eg; [discriminate|]);
    try (destruct (has s) eqn:Eh);
    intros [= <-]; apply move with (s := s); auto; rewrite ?Ep, ?Eh; cbn [owns]; fin;
    try (apply GS; rewrite ?Ep; reflexivity);
    try (apply GA; auto; reflexivity);
    try (apply GR; auto; reflexivity);
    try (eapply SS; [| | |eassumption]; congruence);
    try (right; split; auto; fail);
    try (eapply EE; [| |eassumption]; cbn; auto; discriminate).
  all: try (split; auto).
  all: try (left; reflexivity).
  all: try (now right; exists t; rewrite fupd_same).
  all: try (match goal with H : fupd _ _ _ ?u = Asleep |- _ => destruct (fupd_case (pcs s) t CtorUnlock u) as [[-> X]|[N X]]; rewrite X in *; [discriminate|]; destruct (SL u) as [Y|[v Hv]]; auto end).
  all: try (rewrite ?woken_holding, ?woken_owns; reflexivity).
  all: try (discriminate (HO eq_refl)).
  all: match goal with
       | |- true = false =>
           first [ now rewrite (ND t) by (rewrite Ep; reflexivity)
                 | match goal with H : ending (fupd _ _ CtorUnlock ?u) = true |- _ =>
                     destruct (fupd_case (pcs s) t CtorUnlock u) as [[-> X]|[N X]]; rewrite X in H; [discriminate|];
                     assert (Y : holding (pcs s u) = true) by (destruct (pcs s u); auto; discriminate);
                     rewrite (@holding_other s t I) in Y; [discriminate|rewrite Ep; reflexivity|auto] end ]
       | H : fupd (wake_all _) _ _ ?u = Asleep |- _ =>
           destruct (fupd_case (wake_all (pcs s)) t DtorUnlock u) as [[-> X]|[N X]]; rewrite X in H;
           [discriminate|now apply woken_asleep in H]
       | |- context [fupd (wake_all _) _ _ ?u] =>
           destruct (fupd_case (wake_all (pcs s)) t DtorUnlock u) as [[-> X]|[N X]]; rewrite X, ?woken_holding;
           [cbn; specialize (G t); rewrite Ep in G; cbn in G; tauto|apply G]
       end.
Qed.

Lemma reach_inv s : reachable s -> inv s.
Proof. intros [ls H]. apply (@steps_inv _ _ step inv step_inv _ _ _ init_inv H). Qed.

(** ** Safety *)
Lemma at_most_one s t u : reachable s -> has_transaction s t -> has_transaction s u -> t = u.
Proof.
  intros R. apply reach_inv in R. destruct R as [G O1 O2 H SL ND]. unfold has_transaction. intros Ht Hu.
  assert (K : forall v, match pcs s v with CtorUnlock | Live | DtorLock | DtorSet | DtorBcast | DtorUnlock => True | _ => False end ->
    owns (pcs s v) = true \/ (holding (pcs s v) = true /\ (pcs s v = DtorBcast \/ pcs s v = DtorUnlock))).
  { intros v. destruct (pcs s v); cbn; intuition. }
  apply K in Ht. apply K in Hu. destruct Ht as [Ht|[Ht Et]], Hu as [Hu|[Hu Eu]]; auto.
  - assert (has s = false) by (apply (ND u); destruct Eu as [-> | ->]; reflexivity). apply O1 in Ht. congruence.
  - assert (has s = false) by (apply (ND t); destruct Et as [-> | ->]; reflexivity). apply O1 in Hu. congruence.
  - apply G in Ht. apply G in Hu. congruence.
Qed.

(** ** No lost wake-up, progress *)
Lemma nobody_asleep s : reachable s -> (forall u, ~ has_transaction s u) -> forall t, pcs s t <> Asleep.
Proof.
  intros R N t E. apply reach_inv in R. destruct (i_sleep R t E) as [H|[u H]].
  - destruct (i_has R H) as [u Hu]. apply (N u). unfold has_transaction. destruct (pcs s u); auto; discriminate.
  - apply (N u). unfold has_transaction. now rewrite H.
Qed.

Definition golab (l : nat * choice) : Prop := snd l = Go.
Definition can (s : st) (Q : st -> Prop) : Prop :=
  exists ls s', steps step s ls s' /\ Forall golab ls /\ Q s'.

Lemma can_here s (Q : st -> Prop) : Q s -> can s Q.
Proof. intros H. exists [], s. repeat constructor; auto. Qed.
Lemma can_go s t s1 Q : step s (t, Go) = Some s1 -> can s1 Q -> can s Q.
Proof.
  intros E (ls & s' & H1 & H2 & H3). exists ((t, Go) :: ls), s'. repeat split; auto; econstructor; eauto. reflexivity.
Qed.
Lemma can_trans s (P Q : st -> Prop) : can s P -> (forall s', P s' -> can s' Q) -> can s Q.
Proof.
  intros (l1 & s1 & H1 & H2 & H3) K. destruct (K s1 H3) as (l2 & s2 & H4 & H5 & H6).
  exists (l1 ++ l2), s2. split; [eapply steps_app; eauto|]. split; auto. now apply Forall_app.
Qed.

Definition wanting (t : nat) (s : st) : Prop := starting s t \/ pcs s t = CtorUnlock \/ pcs s t = Live.

Lemma wanting_upd t s p u g h : wanting t s -> u <> t -> wanting t (mk_st (fupd (pcs s) u p) g h).
Proof. intros W N. unfold wanting, starting in *. cbn. rewrite fupd_other by auto. exact W. Qed.
Lemma wanting_wake t s p u g h : wanting t s -> u <> t -> wanting t (mk_st (fupd (wake_all (pcs s)) u p) g h).
Proof.
  intros W N. unfold wanting, starting in *. cbn. rewrite fupd_other by auto. unfold wake_all.
  destruct (pcs s t); auto; try tauto.
Qed.
Lemma wanting_self t s p g h : (match p with CtorLock | Check | Asleep | Woken Broadcasted | Result Broadcasted | CtorUnlock | Live => True | _ => False end) ->
  wanting t (mk_st (fupd (pcs s) t p) g h).
Proof. intros H. unfold wanting, starting. cbn. rewrite fupd_same. destruct p as [| | | |[]|[]| | | | | | | | |]; auto; contradiction. Qed.

(** driving the thread that holds Guard until it lets go *)
Definition unlocked t s := inv s /\ guard s = None /\ wanting t s.

Lemma drive_checked t u s p : inv s -> wanting t s -> pcs s u = p -> holding p = true ->
  (match p with Check | CtorUnlock | DtorUnlock | Throwing | Busy => True | _ => False end) -> can s (unlocked t).
Proof.
  intros I W E Hh Hp.
  assert (DONE : forall s, inv s -> wanting t s -> guard s = None -> can s (unlocked t)).
  { intros. apply can_here. unfold unlocked; auto. }
  assert (U : forall s, inv s -> wanting t s -> pcs s u = CtorUnlock -> can s (unlocked t)).
  { intros s0 I0 W0 E0. assert (X : step s0 (u, Go) = Some (release s0 u Live)) by (unfold step; cbn; now rewrite E0).
    eapply can_go; [exact X|]. apply DONE; auto; [eapply step_inv; eauto|].
    unfold release. destruct (Nat.eq_dec u t) as [->|N]; [now apply wanting_self|now apply wanting_upd]. }
  destruct p; try contradiction; try discriminate.
  - destruct (has s) eqn:Eh.
    + assert (X : step s (u, Go) = Some (release s u Asleep)) by (unfold step; cbn; now rewrite E, Eh).
      eapply can_go; [exact X|]. apply DONE; auto; [eapply step_inv; eauto|].
      unfold release. destruct (Nat.eq_dec u t) as [->|N]; [now apply wanting_self|now apply wanting_upd].
    + assert (X : step s (u, Go) = Some (mk_st (fupd (pcs s) u CtorUnlock) (guard s) true)) by (unfold step; cbn; now rewrite E, Eh).
      eapply can_go; [exact X|]. apply U; [eapply step_inv; eauto| |cbn; apply fupd_same].
      destruct (Nat.eq_dec u t) as [->|N]; [now apply wanting_self|now apply wanting_upd].
  - now apply U.
  - assert (X : step s (u, Go) = Some (release s u Idle)) by (unfold step; cbn; now rewrite E).
    eapply can_go; [exact X|]. apply DONE; auto; [eapply step_inv; eauto|]. unfold release. apply wanting_upd; auto.
    intros ->. unfold wanting, starting in W. rewrite E in W. intuition discriminate.
  - assert (X : step s (u, Go) = Some (release s u Failed)) by (unfold step; cbn; now rewrite E).
    eapply can_go; [exact X|]. apply DONE; auto; [eapply step_inv; eauto|]. unfold release. apply wanting_upd; auto.
    intros ->. unfold wanting, starting in W. rewrite E in W. intuition discriminate.
  - assert (X : step s (u, Go) = Some (release s u Idle)) by (unfold step; cbn; now rewrite E).
    eapply can_go; [exact X|]. apply DONE; auto; [eapply step_inv; eauto|]. unfold release. apply wanting_upd; auto.
    intros ->. unfold wanting, starting in W. rewrite E in W. intuition discriminate.
Qed.

Lemma free_guard t s : inv s -> wanting t s -> can s (unlocked t).
Proof.
  intros I W. destruct (guard s) as [u|] eqn:Eg; [|apply can_here; unfold unlocked; auto].
  assert (Hh : holding (pcs s u) = true) by now apply (i_guard I).
  assert (BC : forall s, inv s -> wanting t s -> pcs s u = DtorBcast -> can s (unlocked t)).
  { intros s0 I0 W0 E0.
    assert (X : step s0 (u, Go) = Some (mk_st (fupd (wake_all (pcs s0)) u DtorUnlock) (guard s0) (has s0))) by (unfold step; cbn; now rewrite E0).
    eapply can_go; [exact X|]. eapply drive_checked with (u := u) (p := DtorUnlock); auto;
      [eapply step_inv; eauto| |cbn; apply fupd_same].
    apply wanting_wake; auto. intros ->. unfold wanting, starting in W0. rewrite E0 in W0. intuition discriminate. }
  destruct (pcs s u) as [| | | |r|r| | | | | | | | |] eqn:E; try discriminate;
    try (apply (@drive_checked t u s _ I W E); [reflexivity|exact Logic.I]; fail).
  - (* Result *)
    destruct r.
    + assert (X : step s (u, Go) = Some (go s u Check)) by (unfold step; cbn; now rewrite E).
      eapply can_go; [exact X|]. eapply drive_checked with (u := u) (p := Check); auto;
      [eapply step_inv; eauto| |cbn; apply fupd_same].
      unfold go. destruct (Nat.eq_dec u t) as [->|N]; [now apply wanting_self|now apply wanting_upd].
    + assert (X : step s (u, Go) = Some (go s u Throwing)) by (unfold step; cbn; now rewrite E).
      eapply can_go; [exact X|]. eapply drive_checked with (u := u) (p := Throwing); auto;
      [eapply step_inv; eauto| |cbn; apply fupd_same].
      apply wanting_upd; auto. intros ->. unfold wanting, starting in W. rewrite E in W. intuition discriminate.
    + assert (X : step s (u, Go) = Some (go s u Throwing)) by (unfold step; cbn; now rewrite E).
      eapply can_go; [exact X|]. eapply drive_checked with (u := u) (p := Throwing); auto;
      [eapply step_inv; eauto| |cbn; apply fupd_same].
      apply wanting_upd; auto. intros ->. unfold wanting, starting in W. rewrite E in W. intuition discriminate.
  - (* DtorSet *)
    assert (X : step s (u, Go) = Some (mk_st (fupd (pcs s) u DtorBcast) (guard s) false)) by (unfold step; cbn; now rewrite E).
    eapply can_go; [exact X|]. apply BC; [eapply step_inv; eauto| |cbn; apply fupd_same].
    apply wanting_upd; auto. intros ->. unfold wanting, starting in W. rewrite E in W. intuition discriminate.
  - now apply BC.
Qed.

Lemma destroy_owner t s : unlocked t s -> can s (fun s => unlocked t s /\ (pcs s t = Live \/ has s = false)).
Proof.
  intros (I & G & W). destruct (has s) eqn:Eh; [|apply can_here; unfold unlocked; auto].
  destruct (i_has I Eh) as [u Hu].
  destruct (Nat.eq_dec u t) as [->|N].
  - apply can_here. split; [unfold unlocked; auto|]. left.
    destruct (pcs s t) eqn:E; try discriminate; auto;
      try (assert (X : guard s = Some t) by (apply (i_guard I); rewrite E; reflexivity); congruence).
    unfold wanting, starting in W. rewrite E in W. intuition discriminate.
  - assert (K : forall s, inv s -> guard s = None -> wanting t s -> pcs s u = DtorLock ->
       can s (fun s => unlocked t s /\ (pcs s t = Live \/ has s = false))).
    { intros s0 I0 G0 W0 E0.
      assert (X1 : step s0 (u, Go) = Some (mk_st (fupd (pcs s0) u DtorSet) (Some u) (has s0))) by (unfold step, acquire; cbn; now rewrite E0, G0).
      eapply can_go; [exact X1|]. pose proof (step_inv _ I0 X1) as I1.
      pose proof (@wanting_upd t s0 DtorSet u (Some u) (has s0) W0 N) as W1.
      set (s1 := mk_st (fupd (pcs s0) u DtorSet) (Some u) (has s0)) in *.
      assert (E1 : pcs s1 u = DtorSet) by apply fupd_same.
      assert (X2 : step s1 (u, Go) = Some (mk_st (fupd (pcs s1) u DtorBcast) (guard s1) false)) by (unfold step; cbn [fst snd]; now rewrite E1).
      eapply can_go; [exact X2|]. pose proof (step_inv _ I1 X2) as I2.
      pose proof (@wanting_upd t s1 DtorBcast u (guard s1) false W1 N) as W2.
      set (s2 := mk_st (fupd (pcs s1) u DtorBcast) (guard s1) false) in *.
      assert (E2 : pcs s2 u = DtorBcast) by apply fupd_same.
      assert (X3 : step s2 (u, Go) = Some (mk_st (fupd (wake_all (pcs s2)) u DtorUnlock) (guard s2) (has s2))) by (unfold step; cbn [fst snd]; now rewrite E2).
      eapply can_go; [exact X3|]. pose proof (step_inv _ I2 X3) as I3.
      pose proof (@wanting_wake t s2 DtorUnlock u (guard s2) (has s2) W2 N) as W3.
      set (s3 := mk_st (fupd (wake_all (pcs s2)) u DtorUnlock) (guard s2) (has s2)) in *.
      assert (E3 : pcs s3 u = DtorUnlock) by apply fupd_same.
      assert (X4 : step s3 (u, Go) = Some (release s3 u Idle)) by (unfold step; cbn [fst snd]; now rewrite E3).
      eapply can_go; [exact X4|]. pose proof (step_inv _ I3 X4) as I4.
      apply can_here. split; [refine (conj I4 (conj eq_refl _)); now apply wanting_upd|right; reflexivity]. }
    destruct (pcs s u) eqn:E; try discriminate;
      try (assert (X : guard s = Some u) by (apply (i_guard I); rewrite E; reflexivity); congruence).
    + assert (X : step s (u, Go) = Some (go s u DtorLock)) by (unfold step; cbn; now rewrite E).
      eapply can_go; [exact X|]. apply K; auto; [eapply step_inv; eauto|now apply wanting_upd|cbn; apply fupd_same].
    + now apply K.
Qed.

Lemma waiter_can_proceed s t : reachable s -> starting s t ->
  exists ls s', steps step s ls s' /\ Forall (fun l => snd l = Go) ls /\ pcs s' t = Live.
Proof.
  intros R S. apply reach_inv in R.
  change (can s (fun s' => pcs s' t = Live)).
  eapply can_trans; [apply (@free_guard t); auto; now left|]. intros s1 U1.
  eapply can_trans; [apply destroy_owner; eauto|]. clear. intros s ((I & G & W) & [H|H]); [now apply can_here|].
  assert (K : forall s, pcs s t = Check -> has s = false -> can s (fun s' => pcs s' t = Live)).
  { intros s0 E0 H0.
    assert (X : step s0 (t, Go) = Some (mk_st (fupd (pcs s0) t CtorUnlock) (guard s0) true)) by (unfold step; cbn; now rewrite E0, H0).
    eapply can_go; [exact X|]. set (s1 := mk_st _ _ _). assert (E1 : pcs s1 t = CtorUnlock) by apply fupd_same.
    assert (X1 : step s1 (t, Go) = Some (release s1 t Live)) by (unfold step; cbn [fst snd]; now rewrite E1).
    eapply can_go; [exact X1|]. apply can_here. apply fupd_same. }
  unfold wanting, starting in W. destruct (pcs s t) as [| | | |r|r| | | | | | | | |] eqn:E; try (exfalso; tauto || intuition discriminate).
  - assert (X : step s (t, Go) = Some (mk_st (fupd (pcs s) t Check) (Some t) (has s))) by (unfold step, acquire; cbn; now rewrite E, G).
    eapply can_go; [exact X|]. apply K; auto. cbn. apply fupd_same.
  - now apply K.
  - exfalso. destruct (i_sleep I t E) as [X|[u X]]; [congruence|].
    assert (Y : guard s = Some u) by (apply (i_guard I); rewrite X; reflexivity). congruence.
  - destruct r; try (exfalso; tauto || intuition discriminate).
    assert (X : step s (t, Go) = Some (mk_st (fupd (pcs s) t (Result Broadcasted)) (Some t) (has s))) by (unfold step, acquire; cbn; now rewrite E, G).
    eapply can_go; [exact X|]. set (s1 := mk_st _ _ _). assert (E1 : pcs s1 t = Result Broadcasted) by apply fupd_same.
    assert (X1 : step s1 (t, Go) = Some (go s1 t Check)) by (unfold step; cbn [fst snd]; now rewrite E1).
    eapply can_go; [exact X1|]. apply K; auto. cbn. apply fupd_same.
  - assert (Y : guard s = Some t) by (apply (i_guard I); rewrite E; reflexivity). congruence.
  - assert (Y : guard s = Some t) by (apply (i_guard I); rewrite E; reflexivity). congruence.
  - now apply can_here.
Qed.
