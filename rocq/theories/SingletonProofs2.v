(** * SafeSingleton: consequences of the invariant; PhoenixSingleton *)
From Coq Require Import List Arith Bool ZArith Lia.
From Verif Require Import Conc SingletonModel SingletonSpec SingletonProofs.
Import ListNotations.

(** the number of owners is bounded by the pointers and the threads that exist *)
Lemma own_bound s own n : Inv s own -> (forall t, n <= t -> pcs s t = Idle) -> length own <= 1 + length (hands s) + n.
Proof.
  intros I B. transitivity (length (Static :: map (fun x => Hand (fst x)) (hands s) ++ map Thr (seq 0 n))).
  - apply NoDup_incl_length; [apply I|]. intros x X. destruct x as [|h|t]; [now left| |]; right; apply in_or_app.
    + left. apply (I_hand _ _ I) in X. destruct X as [o X]. apply in_map_iff. now exists (h, o).
    + right. apply in_map. apply in_seq. apply (I_thr _ _ I) in X. destruct (le_lt_dec n t) as [L|L]; [|lia].
      rewrite (B t L) in X. destruct X.
  - cbn. rewrite app_length, !map_length, seq_length. lia.
Qed.

Lemma idle_step s u a s' t : safe_step s (u, a) = Some s' -> t <> u -> pcs s' t = pcs s t.
Proof.
  intros H N. unfold safe_step, go, looked in H. cbn [fst snd] in H.
  destruct a; repeat (match type of H with context [match ?x with _ => _ end] => destruct x eqn:?; try discriminate end);
    injection H as <-; cbn; now rewrite ?fupd_other.
Qed.
Lemma idle_above n s ls s' : steps safe_step s ls s' -> Forall (fun l => fst l < n) ls ->
  (forall t, n <= t -> pcs s t = Idle) -> forall t, n <= t -> pcs s' t = Idle.
Proof.
  induction 1 as [s|s [u a] s1 ls s2 E R IH]; intros F B; [assumption|]. inversion F; subst. cbn in *.
  apply IH; auto. intros t L. rewrite (idle_step _ _ _ _ t E) by lia. auto.
Qed.

(** when Instance() answers null, at that very step: the constructor failed, or the static is destroyed, or 2^32
    references exist *)
Lemma null_step s own l s' t : Inv s own -> safe_step s l = Some s' -> log s' = log s ++ [Null t] ->
  In Failed (log s) \/ In Exited (log s) \/ Z.of_nat (length own) = (2 ^ 32)%Z.
Proof.
  intros I. destruct l as [u a]. unfold safe_step. cbn [fst snd].
  assert (No : forall e, log s ++ [e] = log s ++ [Null t] -> e = Null t).
  { intros e H. apply app_inv_head in H. congruence. }
  assert (Nn : log s <> log s ++ [Null t]).
  { intros H. apply (f_equal (@length _)) in H. rewrite app_length in H. cbn in H. lia. }
  assert (L : once s = Over -> log (looked s u (refc s)) = log s ++ [Null t] ->
              In Failed (log s) \/ In Exited (log s) \/ Z.of_nat (length own) = (2 ^ 32)%Z).
  { intros O. unfold looked. destruct (Z.eqb_spec (refc s) 0) as [Z0|Z0]; [|cbn; intros H; now apply Nn in H]. intros _.
    destruct (ref_zero _ _ I Z0) as [->|X]; [|tauto]. pose proof (I_once _ _ I) as Q. rewrite O in Q.
    destruct Q as [[Q|Q] _]; [tauto|]. right. left. apply (I_exit _ _ I).
    destruct (holder s) as [[|]|] eqn:Hh; [|reflexivity|congruence]. apply (I_static' _ _ I) in Hh. destruct Hh. }
  destruct a as [|r|h|].
  - destruct (pcs s u); try discriminate. intros H. injection H as <-. cbn. intros X. now apply Nn in X.
  - unfold go. pcs_of I u. destruct (pcs s u) eqn:E; try discriminate; intros H.
    + destruct (once s) eqn:O; [|discriminate|]; injection H as <-; cbn; intros X; now apply Nn in X.
    + destruct r; injection H as <-; cbn; intros X; apply No in X; discriminate.
    + injection H as <-; cbn; intros X; now apply Nn in X.
    + injection H as <-; cbn; intros X; now apply Nn in X.
    + injection H as <-; cbn; intros X; now apply Nn in X.
    + injection H as <-; cbn; intros X; now apply Nn in X.
    + injection H as <-. auto.
    + destruct P as [O _]. destruct (refc s =? r0)%Z; injection H as <-; [cbn; intros X; now apply Nn in X|auto].
    + destruct P as [O Hh]. apply (I_hold _ _ I) in Hh. destruct Hh as [Hi _]. rewrite Hi in H. injection H as <-. cbn. intros X; apply No in X; discriminate.
    + destruct P as [-> _]. injection H as <-. destruct (_ =? _)%Z; cbn; intros X; now apply Nn in X.
    + destruct P as [-> _]. injection H as <-. cbn. intros X; now apply Nn in X.
    + destruct P as (-> & -> & _). injection H as <-. cbn. intros X; apply No in X; discriminate.
  - destruct (pcs s u); try discriminate. destruct (existsb _ _); [|discriminate]. intros H. injection H as <-. cbn. intros X; apply No in X; discriminate.
  - destruct (pcs s u); try discriminate. destruct (holder s) as [[|]|]; try discriminate. intros H. injection H as <-. cbn. intros X; apply No in X; discriminate.
Qed.

(** a thread inside a call can always go on, or waits for the one that runs the constructor, which can *)
Lemma safe_live s own t : Inv s own -> pcs s t <> Idle ->
  exists u, pcs s u <> Idle /\ forall r, exists s', safe_step s (u, Go r) = Some s'.
Proof.
  intros I N. assert (G : forall u, (once s = Busy t -> False) -> pcs s u <> Idle -> (pcs s u = AtOnce -> match once s with Busy _ => False | _ => True end) ->
    forall r, exists s', safe_step s (u, Go r) = Some s').
  { intros u _ Nu Hu r. cbn. unfold go. destruct (pcs s u); try congruence; try (eexists; reflexivity).
    - specialize (Hu eq_refl). destruct (once s); try contradiction; eexists; reflexivity.
    - destruct r; eexists; reflexivity.
    - destruct (refc s =? r0)%Z; eexists; reflexivity.
    - destruct (inst s); eexists; reflexivity. }
  assert (D : forall u, pcs s u <> Idle -> pcs s u <> AtOnce -> forall r, exists s', safe_step s (u, Go r) = Some s').
  { intros u Nu Nu' r. cbn. unfold go. destruct (pcs s u); try congruence; try (eexists; reflexivity).
    - destruct r; eexists; reflexivity.
    - destruct (refc s =? r0)%Z; eexists; reflexivity.
    - destruct (inst s); eexists; reflexivity. }
  clear G. destruct (pcs s t) eqn:E; try congruence; try (exists t; split; [congruence|]; apply D; congruence).
  destruct (once s) as [|w|] eqn:O.
  - exists t. split; [congruence|]. intros r. cbn. unfold go. rewrite E, O. eexists; reflexivity.
  - exists w. pose proof (I_once _ _ I) as Q. rewrite O in Q. destruct Q as [Q _].
    assert (X : pcs s w <> Idle /\ pcs s w <> AtOnce) by (destruct (pcs s w); cbn in Q; try contradiction; split; discriminate).
    split; [tauto|]. apply D; tauto.
  - exists t. split; [congruence|]. intros r. cbn. unfold go. rewrite E, O. eexists; reflexivity.
Qed.

(** ** PhoenixSingleton *)
Definition crit (p : ppc) : Prop :=
  match p with PLoad2 | PNew | PPub _ | PReg _ | PUnlock _ | XLoad | XStore _ | XDelete _ | XUnlock => True | _ => False end.
(** about to take the object away *)
Definition taker (p : ppc) : Prop := match p with XSpin | XLoad | XStore _ => True | _ => False end.

Lemma phistory_snoc l e : phistory_ok l -> pev_ok l e -> phistory_ok (l ++ [e]).
Proof.
  intros H E l1 e1 l2 Q. destruct l2 as [|z l2] using rev_ind.
  - apply app_inj_tail in Q. destruct Q as [<- <-]. exact E.
  - clear IHl2. rewrite app_comm_cons, app_assoc in Q. apply app_inj_tail in Q. destruct Q as [Q _]. eapply H; eauto.
Qed.

(** the object that is alive, if any *)
Definition live_now (s : phx) (o : nat) : Prop :=
  pinst s = Some o \/ exists t, ppcs s t = PPub o \/ ppcs s t = XDelete o.

Definition ppc_ok (s : phx) (t : nat) : Prop :=
  match ppcs s t with
  | PNew => pinst s = None
  | PPub o => pinst s = None
  | PReg o => pinst s = Some o
  | PUnlock (Some o) => pinst s = Some o
  | PHave o => In (PCtor o) (plog s)
  | XStore o => pinst s = Some o /\ In PExit (plog s)
  | XDelete o => pinst s = None /\ In PExit (plog s)
  | XUnlock => pinst s = None
  | XSpin => In PExit (plog s)
  | XLoad => In PExit (plog s)
  | _ => True
  end.

Record PInv (s : phx) : Prop := {
  Q_lock : forall t, crit (ppcs s t) -> plock s = true;
  Q_held : plock s = true -> exists t, crit (ppcs s t);
  Q_one : forall t u, crit (ppcs s t) -> crit (ppcs s u) -> t = u;
  (** one registration or one taker for the registered object, none when there is no such object *)
  Q_reg : pinst s <> None -> (forall t o, ppcs s t <> PReg o) ->
          (pending s = 1 /\ forall t, ~ taker (ppcs s t)) \/
          (pending s = 0 /\ (exists t, taker (ppcs s t)) /\ forall t u, taker (ppcs s t) -> taker (ppcs s u) -> t = u);
  Q_noreg : pinst s = None \/ (exists t o, ppcs s t = PReg o) -> pending s = 0 /\ forall t, ~ taker (ppcs s t);
  Q_live : forall o, palive (plog s) o <-> live_now s o;
  Q_next : forall o, In (PCtor o) (plog s) -> o < pnext s;
  Q_dtor : forall o, In (PDtor o) (plog s) -> In PExit (plog s);
  Q_pc : forall t, ppc_ok s t;
  Q_log : phistory_ok (plog s) }.

Lemma pinv0 : PInv phx0.
Proof.
  constructor; cbn; try (intros; contradiction); try tauto; try discriminate; try (intros; discriminate).
  - intros o. unfold palive, live_now. cbn. split; [tauto|]. intros [H|[t [H|H]]]; discriminate.
  - intros l1 e l2 H. destruct l1; discriminate.
Qed.

Lemma pinst_ctor s o : PInv s -> pinst s = Some o -> In (PCtor o) (plog s).
Proof. intros I H. assert (X : palive (plog s) o) by (apply (Q_live _ I); now left). apply X. Qed.

Lemma taker_inst s t : PInv s -> taker (ppcs s t) -> pinst s <> None.
Proof. intros I H E. destruct (Q_noreg _ I (or_introl E)) as [_ X]. now apply X in H. Qed.

Ltac inp := repeat match goal with H : In _ (_ ++ [_]) |- _ => apply in_snoc in H; destruct H as [H|H]; try discriminate end.

(** events other than the birth and the death of an object *)
Definition pneutral (e : pev) : Prop := match e with PCtor _ | PDtor _ | PExit => False | _ => True end.
Lemma in_pneutral x e l : pneutral e -> ~ pneutral x -> In x (l ++ [e]) <-> In x l.
Proof. intros H K. rewrite in_snoc. split; [|now left]. intros [A| ->]; [exact A|contradiction]. Qed.
Lemma pinv_say s e : PInv s -> pneutral e -> pev_ok (plog s) e -> PInv (psay s e).
Proof.
  intros I N K. destruct I. constructor; cbn; auto.
  - intros o. unfold palive, live_now. cbn. rewrite !in_pneutral by (cbn; tauto). apply Q_live0.
  - intros o. rewrite in_pneutral by (cbn; tauto). apply Q_next0.
  - intros o. rewrite !in_pneutral by (cbn; tauto). apply Q_dtor0.
  - intros t. specialize (Q_pc0 t). unfold ppc_ok in *. cbn. destruct (ppcs s t); rewrite ?in_pneutral by (cbn; tauto); assumption.
  - now apply phistory_snoc.
Qed.

(** a thread outside the lock moves to another place outside it *)
Definition out (p : ppc) : Prop := match p with PIdle | PLoad | PSpin | PHave _ => True | _ => False end.
Lemma out_not p : out p -> ~ crit p /\ ~ taker p /\ (forall o, p <> PReg o /\ p <> PPub o /\ p <> XDelete o).
Proof. destruct p; cbn; intuition discriminate. Qed.

Lemma live_move s t p : (forall o, ppcs s t <> PPub o /\ ppcs s t <> XDelete o) -> (forall o, p <> PPub o /\ p <> XDelete o) ->
  forall o, live_now (pat s t p) o <-> live_now s o.
Proof.
  intros A B o. unfold live_now. cbn. split; intros [H|[u H]]; try (now left); right; exists u; th u t; auto.
  - destruct (B o). destruct H; contradiction.
  - destruct (A o). destruct H; contradiction.
Qed.

Lemma pinv_out s t p : PInv s -> out (ppcs s t) -> out p -> ppc_ok (pat s t p) t -> PInv (pat s t p).
Proof.
  intros I A B C. destruct (out_not _ A) as (A1 & A2 & A3). destruct (out_not _ B) as (B1 & B2 & B3).
  destruct I. constructor; cbn; auto.
  - intros u. th u t; [tauto|]. apply Q_lock0.
  - intros H. destruct (Q_held0 H) as [u X]. exists u. th u t; [tauto|assumption].
  - intros u v. th u t; [tauto|]. th v t; [tauto|]. apply Q_one0.
  - intros H K. destruct Q_reg0 as [[X Y]|(X & [v Y] & Z)]; auto.
    + intros u o E. apply (K u o). th u t; [|assumption]. destruct (A3 o). congruence.
    + left. split; [assumption|]. intros u. th u t; auto.
    + right. split; [assumption|]. split; [exists v; th v t; [tauto|assumption]|]. intros u w. th u t; [tauto|]. th w t; [tauto|]. apply Z.
  - intros H. destruct Q_noreg0 as [X Y].
    + destruct H as [H|(u & o & H)]; [now left|]. right. exists u, o. th u t; [|assumption]. destruct (B3 o). contradiction.
    + split; [assumption|]. intros u. th u t; auto.
  - intros o. rewrite Q_live0. symmetry. apply live_move; intros q; [destruct (A3 q)|destruct (B3 q)]; tauto.
  - intros u. destruct (Nat.eq_dec u t) as [->|Nu]; [assumption|]. specialize (Q_pc0 u). unfold ppc_ok in *. cbn. rewrite fupd_other by assumption. exact Q_pc0.
Qed.

(** a step inside the lock *)
Lemma pinv_in s t p : PInv s -> crit (ppcs s t) -> crit p -> (taker (ppcs s t) <-> taker p) ->
  (forall o, ppcs s t <> PReg o /\ ppcs s t <> PPub o /\ ppcs s t <> XDelete o) -> (forall o, p <> PReg o /\ p <> PPub o /\ p <> XDelete o) ->
  ppc_ok (pat s t p) t -> PInv (pat s t p).
Proof.
  intros I A B T A3 B3 C. destruct I. constructor; cbn; auto.
  - intros u. th u t; [|apply Q_lock0]. intros _. now apply (Q_lock0 t).
  - intros H. exists t. now rewrite fupd_same.
  - intros u v. th u t.
    + th v t; [reflexivity|]. intros _ X. now apply Q_one0.
    + th v t; [|apply Q_one0]. intros X _. now apply Q_one0.
  - intros H K. destruct Q_reg0 as [[X Y]|(X & [v Y] & Z)]; auto.
    + intros u o E. apply (K u o). th u t; [|assumption]. destruct (A3 o). congruence.
    + left. split; [assumption|]. intros u. th u t; [|apply Y]. rewrite <- T. apply Y.
    + right. split; [assumption|]. split; [exists v; th v t; [now apply T|assumption]|].
      intros u w. th u t; [th w t; [reflexivity|]|th w t]; rewrite <- ?T; apply Z.
  - intros H. destruct Q_noreg0 as [X Y].
    + destruct H as [H|(u & o & H)]; [now left|]. right. exists u, o. th u t; [|assumption]. destruct (B3 o). contradiction.
    + split; [assumption|]. intros u. th u t; [|apply Y]. rewrite <- T. apply Y.
  - intros o. rewrite Q_live0. symmetry. apply live_move; intros q; [destruct (A3 q)|destruct (B3 q)]; tauto.
  - intros u. destruct (Nat.eq_dec u t) as [->|Nu]; [assumption|]. specialize (Q_pc0 u). unfold ppc_ok in *. cbn. rewrite fupd_other by assumption. exact Q_pc0.
Qed.

(** taking the lock *)
Lemma pinv_take s t p : PInv s -> plock s = false -> ~ crit (ppcs s t) -> crit p -> (taker (ppcs s t) <-> taker p) ->
  (forall o, ppcs s t <> PReg o /\ ppcs s t <> PPub o /\ ppcs s t <> XDelete o) -> (forall o, p <> PReg o /\ p <> PPub o /\ p <> XDelete o) ->
  ppc_ok (pat s t p) t -> PInv (pat (plk s true) t p).
Proof.
  intros I L A B T A3 B3 C. assert (N : forall u, ~ crit (ppcs s u)) by (intros u X; apply (Q_lock _ I) in X; congruence).
  destruct I. constructor; cbn; auto.
  - exists t. now rewrite fupd_same.
  - intros u v. th u t; [|intros X; now apply N in X]. th v t; [reflexivity|]. intros _ X. now apply N in X.
  - intros H K. destruct Q_reg0 as [[X Y]|(X & [v Y] & Z)]; auto.
    + intros u o E. apply (K u o). th u t; [|assumption]. destruct (A3 o). congruence.
    + left. split; [assumption|]. intros u. th u t; [|apply Y]. rewrite <- T. apply Y.
    + right. split; [assumption|]. split; [exists v; th v t; [now apply T|assumption]|].
      intros u w. th u t; [th w t; [reflexivity|]|th w t]; rewrite <- ?T; apply Z.
  - intros H. destruct Q_noreg0 as [X Y].
    + destruct H as [H|(u & o & H)]; [now left|]. right. exists u, o. th u t; [|assumption]. destruct (B3 o). contradiction.
    + split; [assumption|]. intros u. th u t; [|apply Y]. rewrite <- T. apply Y.
  - intros o. rewrite Q_live0. symmetry. apply (live_move s); intros q; [destruct (A3 q)|destruct (B3 q)]; tauto.
  - intros u. destruct (Nat.eq_dec u t) as [->|Nu].
    + unfold ppc_ok in *. cbn in *. rewrite fupd_same in *. exact C.
    + specialize (Q_pc0 u). unfold ppc_ok in *. cbn. rewrite fupd_other by assumption. exact Q_pc0.
Qed.

(** giving it back *)
Lemma pinv_give s t p : PInv s -> crit (ppcs s t) -> ~ taker (ppcs s t) -> out p ->
  (forall o, ppcs s t <> PReg o /\ ppcs s t <> PPub o /\ ppcs s t <> XDelete o) ->
  ppc_ok (pat s t p) t -> PInv (pat (plk s false) t p).
Proof.
  intros I A At B A3 C. destruct (out_not _ B) as (B1 & B2 & B3).
  assert (N : forall u, u <> t -> ~ crit (ppcs s u)) by (intros u X Y; apply X; now apply (Q_one _ I)).
  destruct I. constructor; cbn; auto.
  - intros u. th u t; [tauto|]. intros X. now apply N in X.
  - discriminate.
  - intros u v. th u t; [tauto|]. intros X. now apply N in X.
  - intros H K. destruct Q_reg0 as [[X Y]|(X & [v Y] & Z)]; auto.
    + intros u o E. apply (K u o). th u t; [|assumption]. destruct (A3 o). congruence.
    + left. split; [assumption|]. intros u. th u t; [tauto|apply Y].
    + right. split; [assumption|]. split; [exists v; th v t; [tauto|assumption]|].
      intros u w. th u t; [tauto|]. th w t; [tauto|]. apply Z.
  - intros H. destruct Q_noreg0 as [X Y].
    + destruct H as [H|(u & o & H)]; [now left|]. right. exists u, o. th u t; [|assumption]. destruct (B3 o). contradiction.
    + split; [assumption|]. intros u. th u t; [tauto|apply Y].
  - intros o. rewrite Q_live0. symmetry. apply (live_move s); intros q; [destruct (A3 q)|destruct (B3 q)]; tauto.
  - intros u. destruct (Nat.eq_dec u t) as [->|Nu].
    + unfold ppc_ok in *. cbn in *. rewrite fupd_same in *. exact C.
    + specialize (Q_pc0 u). unfold ppc_ok in *. cbn. rewrite fupd_other by assumption. exact Q_pc0.
Qed.

(** who else is where, while [t] is inside *)
Lemma outside s t u : PInv s -> crit (ppcs s t) -> u <> t -> ~ crit (ppcs s u).
Proof. intros I A N X. apply N. now apply (Q_one _ I). Qed.

Lemma pinv_ctor s t : PInv s -> ppcs s t = PNew ->
  PInv (psay (pat (pnew s) t (PPub (pnext s))) (PCtor (pnext s))).
Proof.
  intros I E. assert (Cr : crit (ppcs s t)) by now rewrite E.
  pose proof (outside s t) as Os. specialize (fun u => Os u I Cr). pose proof (Q_pc _ I t) as P. unfold ppc_ok in P. rewrite E in P.
  assert (Nl : forall o, ~ palive (plog s) o).
  { intros o X. apply (Q_live _ I) in X. destruct X as [X|[u [X|X]]]; [congruence| |];
      (destruct (Nat.eq_dec u t) as [->|Nu]; [congruence|]; apply (Os u Nu); rewrite X; exact Logic.I). }
  assert (Nc : ~ In (PCtor (pnext s)) (plog s)) by (intros X; apply (Q_next _ I) in X; lia).
  destruct I. constructor; cbn; auto.
  - intros u _. now apply (Q_lock0 t).
  - intros _. exists t. rewrite fupd_same. exact Logic.I.
  - intros u v. th u t; [th v t; [reflexivity|intros _ X; exfalso; eapply Os; eauto]|intros X; exfalso; eapply Os; eauto].
  - congruence.
  - intros _. destruct (Q_noreg0 (or_introl P)) as [X Y]. split; [assumption|]. intros u. th u t; [tauto|apply Y].
  - intros o. unfold palive. rewrite !in_snoc. split.
    + intros [[X|X] Y]; [exfalso; apply (Nl o); split; tauto|]. injection X as ->. right. exists t. left. apply fupd_same.
    + intros [X|[u X]]; [cbn in X; congruence|]. cbn in X. th u t.
      * destruct X as [X|X]; [|discriminate]. injection X as X. subst o. split; [now right|]. intros [Y|Y]; [|discriminate].
        assert (Z : In (PCtor (pnext s)) (plog s)); [|contradiction].
        destruct (in_dec (fun a b : pev => ltac:(decide equality; apply Nat.eq_dec)) (PCtor (pnext s)) (plog s)); [assumption|exfalso].
        clear - Y Q_log0 n. apply in_split in Y. destruct Y as (l1 & l2 & Y). pose proof (Q_log0 _ _ _ Y) as K. cbn in K.
        destruct K as [[K _] _]. apply n. rewrite Y. apply in_or_app. now left.
      * exfalso. apply (Os u n). destruct X as [X|X]; rewrite X; exact Logic.I.
  - intros o X. apply in_snoc in X. destruct X as [X|X]; [apply Q_next0 in X; lia|]. injection X as ->. lia.
  - intros o X. apply in_snoc in X. destruct X as [X|X]; [|discriminate]. apply in_snoc. left. eauto.
  - intros u. unfold ppc_ok. cbn. th u t; [assumption|]. specialize (Q_pc0 u). unfold ppc_ok in Q_pc0.
    destruct (ppcs s u); rewrite ?in_snoc; tauto.
  - apply phistory_snoc; [assumption|]. cbn. auto.
Qed.

Lemma pinv_pub s t o : PInv s -> ppcs s t = PPub o -> PInv (pat (pset s (Some o)) t (PReg o)).
Proof.
  intros I E. assert (Cr : crit (ppcs s t)) by now rewrite E.
  pose proof (outside s t) as Os. specialize (fun u => Os u I Cr). pose proof (Q_pc _ I t) as P. unfold ppc_ok in P. rewrite E in P.
  destruct I. destruct (Q_noreg0 (or_introl P)) as [Np Nt]. constructor; cbn; auto.
  - intros u _. now apply (Q_lock0 t).
  - intros _. exists t. rewrite fupd_same. exact Logic.I.
  - intros u v. th u t; [th v t; [reflexivity|intros _ X; exfalso; eapply Os; eauto]|intros X; exfalso; eapply Os; eauto].
  - intros _ K. exfalso. apply (K t o). apply fupd_same.
  - intros _. split; [assumption|]. intros u. th u t; [tauto|apply Nt].
  - intros q. rewrite Q_live0. unfold live_now. cbn. split.
    + intros [X|[u X]]; [congruence|]. destruct (Nat.eq_dec u t) as [->|Nu].
      * rewrite E in X. destruct X as [X|X]; [|discriminate]. injection X as ->. now left.
      * exfalso. apply (Os u Nu). destruct X as [X|X]; rewrite X; exact Logic.I.
    + intros [X|[u X]]; [injection X as ->; right; exists t; now left|]. th u t; [destruct X; discriminate|].
      exfalso. apply (Os u n). destruct X as [X|X]; rewrite X; exact Logic.I.
  - intros u. unfold ppc_ok. cbn. th u t; [reflexivity|]. specialize (Q_pc0 u). specialize (Os u n). unfold ppc_ok in Q_pc0.
    destruct (ppcs s u); cbn in Os; tauto.
Qed.

Lemma pinv_reg s t o : PInv s -> ppcs s t = PReg o -> PInv (pat (ppend s (S (pending s))) t (PUnlock (Some o))).
Proof.
  intros I E. assert (Cr : crit (ppcs s t)) by now rewrite E.
  pose proof (outside s t) as Os. specialize (fun u => Os u I Cr). pose proof (Q_pc _ I t) as P. unfold ppc_ok in P. rewrite E in P.
  destruct I. assert (X0 : pinst s = None \/ (exists u q, ppcs s u = PReg q)) by (right; eauto).
  destruct (Q_noreg0 X0) as [Np Nt]. constructor; cbn; auto.
  - intros u _. now apply (Q_lock0 t).
  - intros _. exists t. rewrite fupd_same. exact Logic.I.
  - intros u v. th u t; [th v t; [reflexivity|intros _ X; exfalso; eapply Os; eauto]|intros X; exfalso; eapply Os; eauto].
  - intros _ _. left. split; [now rewrite Np|]. intros u. th u t; [tauto|apply Nt].
  - intros [X|(u & q & X)]; [congruence|]. th u t; [discriminate|]. exfalso. apply (Os u n). rewrite X. exact Logic.I.
  - intros q. rewrite Q_live0. symmetry. apply (live_move s); intros z; [rewrite E|]; split; discriminate.
  - intros u. unfold ppc_ok. cbn. th u t; [assumption|]. apply Q_pc0.
Qed.

Lemma pinv_xstore s t o : PInv s -> ppcs s t = XStore o -> PInv (pat (pset s None) t (XDelete o)).
Proof.
  intros I E. assert (Cr : crit (ppcs s t)) by now rewrite E.
  pose proof (outside s t) as Os. specialize (fun u => Os u I Cr). pose proof (Q_pc _ I t) as P. unfold ppc_ok in P. rewrite E in P. destruct P as [P Pe].
  assert (Tk : taker (ppcs s t)) by now rewrite E.
  assert (Ne : pinst s <> None) by congruence.
  assert (Nr : forall u q, ppcs s u <> PReg q).
  { intros u q X. assert (Z : pinst s = None \/ (exists u q, ppcs s u = PReg q)) by (right; eauto). apply (Q_noreg _ I) in Z. destruct Z as [_ Z]. now apply Z in Tk. }
  destruct I. destruct (Q_reg0 Ne Nr) as [[_ X]|(Np & _ & Un)]; [now apply X in Tk|].
  constructor; cbn; auto.
  - intros u _. now apply (Q_lock0 t).
  - intros _. exists t. rewrite fupd_same. exact Logic.I.
  - intros u v. th u t; [th v t; [reflexivity|intros _ X; exfalso; eapply Os; eauto]|intros X; exfalso; eapply Os; eauto].
  - congruence.
  - intros _. split; [assumption|]. intros u. th u t; [tauto|]. intros X. apply n. now apply Un.
  - intros q. rewrite Q_live0. unfold live_now. cbn. split.
    + intros [X|[u X]]; [right; exists t; rewrite fupd_same; right; congruence|]. destruct (Nat.eq_dec u t) as [->|Nu].
      * rewrite E in X. destruct X as [X|X]; discriminate.
      * exfalso. apply (Os u Nu). destruct X as [X|X]; rewrite X; exact Logic.I.
    + intros [X|[u X]]; [discriminate|]. th u t; [destruct X as [X|X]; [discriminate|]; left; congruence|].
      exfalso. apply (Os u n). destruct X as [X|X]; rewrite X; exact Logic.I.
  - intros u. unfold ppc_ok. cbn. th u t; [tauto|]. specialize (Q_pc0 u). specialize (Os u n). unfold ppc_ok in Q_pc0.
    destruct (ppcs s u); cbn in Os; tauto.
Qed.

Lemma pinv_xdelete s t o : PInv s -> ppcs s t = XDelete o -> PInv (psay (pat s t XUnlock) (PDtor o)).
Proof.
  intros I E. assert (Cr : crit (ppcs s t)) by now rewrite E.
  pose proof (outside s t) as Os. specialize (fun u => Os u I Cr). pose proof (Q_pc _ I t) as P. unfold ppc_ok in P. rewrite E in P. destruct P as [P Pe].
  destruct I. destruct (Q_noreg0 (or_introl P)) as [Np Nt].
  assert (Al : palive (plog s) o) by (apply Q_live0; right; exists t; now right).
  constructor; cbn; auto.
  - intros u _. now apply (Q_lock0 t).
  - intros _. exists t. rewrite fupd_same. exact Logic.I.
  - intros u v. th u t; [th v t; [reflexivity|intros _ X; exfalso; eapply Os; eauto]|intros X; exfalso; eapply Os; eauto].
  - congruence.
  - intros _. split; [assumption|]. intros u. th u t; [tauto|apply Nt].
  - intros q. unfold palive. rewrite !in_snoc. split.
    + intros [[X|X] Y]; [|discriminate]. exfalso. assert (Z : palive (plog s) q) by (split; tauto). apply Q_live0 in Z.
      destruct Z as [Z|[u Z]]; [congruence|]. destruct (Nat.eq_dec u t) as [->|Nu].
      * rewrite E in Z. destruct Z as [Z|Z]; [discriminate|]. injection Z as ->. tauto.
      * apply (Os u Nu). destruct Z as [Z|Z]; rewrite Z; exact Logic.I.
    + intros [X|[u X]]; [cbn in X; congruence|]. cbn in X. th u t; [destruct X; discriminate|].
      exfalso. apply (Os u n). destruct X as [X|X]; rewrite X; exact Logic.I.
  - intros q X. apply in_snoc in X. destruct X as [X|X]; [eauto|discriminate].
  - intros q X. apply in_snoc. now left.
  - intros u. unfold ppc_ok. cbn. th u t; [assumption|]. specialize (Q_pc0 u). unfold ppc_ok in Q_pc0. destruct (ppcs s u); rewrite ?in_snoc; tauto.
  - apply phistory_snoc; [assumption|]. cbn. auto.
Qed.

Lemma pinv_exit s t n : PInv s -> ppcs s t = PIdle -> pending s = S n -> PInv (psay (pat (ppend s n) t XSpin) PExit).
Proof.
  intros I E Pn. destruct I.
  assert (Ne : pinst s <> None) by (intros X; destruct (Q_noreg0 (or_introl X)); lia).
  assert (Nr : forall u q, ppcs s u <> PReg q).
  { intros u q X. assert (Z : pinst s = None \/ (exists u q, ppcs s u = PReg q)) by (right; eauto). apply Q_noreg0 in Z. lia. }
  destruct (Q_reg0 Ne Nr) as [[P1 Nt]|(Np & _)]; [|lia]. assert (n = 0) by lia. subst n.
  constructor; cbn; auto.
  - intros u. th u t; [intros []|apply Q_lock0].
  - intros H. destruct (Q_held0 H) as [u X]. exists u. th u t; [rewrite E in X; destruct X|assumption].
  - intros u v. th u t; [intros []|]. th v t; [intros _ []|]. apply Q_one0.
  - intros _ _. right. split; [reflexivity|]. split; [exists t; rewrite fupd_same; exact Logic.I|].
    intros u v. th u t; [th v t; [reflexivity|intros _ X; exfalso; eapply Nt; eauto]|intros X; exfalso; eapply Nt; eauto].
  - intros [X|(u & q & X)]; [congruence|]. th u t; [discriminate|]. exfalso. eapply Nr; eauto.
  - intros q. unfold palive. rewrite !in_snoc.
    assert (Lm : live_now (psay (pat (ppend s 0) t XSpin) PExit) q <-> live_now s q) by (apply (live_move s t XSpin); intros z; rewrite ?E; split; discriminate).
    rewrite Lm, <- Q_live0. unfold palive. intuition discriminate.
  - intros q X. apply in_snoc in X. destruct X as [X|X]; [eauto|discriminate].
  - intros q X. apply in_snoc. now right.
  - intros u. unfold ppc_ok. cbn. th u t; [apply in_snoc; now right|]. specialize (Q_pc0 u). unfold ppc_ok in Q_pc0. destruct (ppcs s u); rewrite ?in_snoc; tauto.
  - apply phistory_snoc; [assumption|]. exact Logic.I.
Qed.

Theorem pinv_step s l s' : PInv s -> phx_step s l = Some s' -> PInv s'.
Proof.
  intros I. destruct l as [t a]. unfold phx_step. cbn. pose proof (Q_pc _ I t) as P. unfold ppc_ok in P.
  assert (Ex : forall A (x : A), ~ (exists _ : A, False)) by (intros A x [_ []]).
  destruct a as [|ok|].
  - destruct (ppcs s t) eqn:E; try discriminate. intros H. injection H as <-.
    apply pinv_out; [assumption|now rewrite E|exact Logic.I|]. unfold ppc_ok. cbn. now rewrite fupd_same.
  - unfold pgo. destruct (ppcs s t) as [| | | | |o|o|[o|]|o| | |o|o|] eqn:E; try discriminate; intros H.
    + destruct (pinst s) as [o|] eqn:Hi; injection H as <-; apply pinv_out; try assumption; try (now rewrite E); try exact Logic.I.
      * unfold ppc_ok. cbn. rewrite fupd_same. now apply pinst_ctor.
      * unfold ppc_ok. cbn. now rewrite fupd_same.
    + destruct (plock s) eqn:L; [discriminate|]. injection H as <-.
      apply pinv_take; try assumption; rewrite ?E; cbn; try tauto; try (intros o; repeat split; discriminate).
      unfold ppc_ok. cbn. now rewrite fupd_same.
    + destruct (pinst s) as [o|] eqn:Hi; injection H as <-; (apply pinv_in; [assumption|now rewrite E|exact Logic.I|rewrite E; cbn; tauto|
        rewrite E; intros q; repeat split; discriminate|intros q; repeat split; discriminate|unfold ppc_ok; cbn; now rewrite fupd_same]).
    + destruct ok; injection H as <-; [now apply pinv_ctor|].
      apply pinv_in; [assumption|now rewrite E|exact Logic.I|rewrite E; cbn; tauto|
        rewrite E; intros q; repeat split; discriminate|intros q; repeat split; discriminate|unfold ppc_ok; cbn; now rewrite fupd_same].
    + injection H as <-. now apply pinv_pub.
    + injection H as <-. now apply pinv_reg.
    + injection H as <-. apply pinv_give; [assumption|now rewrite E|rewrite E; cbn; tauto|exact Logic.I|rewrite E; intros q; repeat split; discriminate|].
      unfold ppc_ok. cbn. rewrite fupd_same. now apply pinst_ctor.
    + injection H as <-. apply pinv_say; [|exact Logic.I|exact Logic.I].
      apply pinv_give; [assumption|now rewrite E|rewrite E; cbn; tauto|exact Logic.I|rewrite E; intros q; repeat split; discriminate|].
      unfold ppc_ok. cbn. now rewrite fupd_same.
    + injection H as <-. apply pinv_say; [|exact Logic.I|].
      * apply pinv_out; [assumption|now rewrite E|exact Logic.I|]. unfold ppc_ok. cbn. now rewrite fupd_same.
      * cbn. split; [assumption|]. intros X. split; [assumption|]. intros Y. apply (Q_dtor _ I) in Y. contradiction.
    + destruct (plock s) eqn:L; [discriminate|]. injection H as <-.
      apply pinv_take; try assumption; rewrite ?E; cbn; try tauto; try (intros o; repeat split; discriminate).
      unfold ppc_ok. cbn. now rewrite fupd_same.
    + destruct (pinst s) as [o|] eqn:Hi; injection H as <-.
      * apply pinv_in; [assumption|now rewrite E|exact Logic.I|rewrite E; cbn; tauto|
          rewrite E; intros q; repeat split; discriminate|intros q; repeat split; discriminate|unfold ppc_ok; cbn; rewrite fupd_same; tauto].
      * exfalso. apply (taker_inst s t I); [now rewrite E|assumption].
    + injection H as <-. now apply pinv_xstore.
    + injection H as <-. now apply pinv_xdelete.
    + injection H as <-. apply pinv_give; [assumption|now rewrite E|rewrite E; cbn; tauto|exact Logic.I|rewrite E; intros q; repeat split; discriminate|].
      unfold ppc_ok. cbn. now rewrite fupd_same.
  - destruct (ppcs s t) eqn:E; try discriminate. destruct (pending s) as [|n] eqn:Pn; [discriminate|]. intros H. injection H as <-.
    now apply pinv_exit.
Qed.

Theorem pinv_reach ls s : steps phx_step phx0 ls s -> PInv s.
Proof.
  intros H. assert (X : PInv phx0) by exact pinv0.
  induction H as [s|s l s1 ls s2 E R IH]; [exact X|]. apply IH. eapply pinv_step; eauto.
Qed.

Lemma phx_live s t : PInv s -> ppcs s t <> PIdle ->
  exists u, ppcs s u <> PIdle /\ forall ok, exists s', phx_step s (u, PGo ok) = Some s'.
Proof.
  intros I N.
  assert (D : forall u, ppcs s u <> PIdle -> (plock s = true -> crit (ppcs s u)) -> forall ok, exists s', phx_step s (u, PGo ok) = Some s').
  { intros u Nu C ok. cbn. unfold pgo. destruct (plock s) eqn:L.
    - specialize (C eq_refl). destruct (ppcs s u) as [| | | | |o|o|[o|]|o| | |o|o|]; cbn in C; try contradiction; try congruence; try (eexists; reflexivity).
      + destruct (pinst s); eexists; reflexivity.
      + destruct ok; eexists; reflexivity.
      + destruct (pinst s); eexists; reflexivity.
    - destruct (ppcs s u) as [| | | | |o|o|[o|]|o| | |o|o|]; try congruence; try (eexists; reflexivity).
      + destruct (pinst s); eexists; reflexivity.
      + destruct (pinst s); eexists; reflexivity.
      + destruct ok; eexists; reflexivity.
      + destruct (pinst s); eexists; reflexivity. }
  destruct (plock s) eqn:L.
  - destruct (Q_held _ I L) as [u C]. exists u. assert (Nu : ppcs s u <> PIdle) by (intros X; rewrite X in C; destruct C). split; [assumption|]. apply D; auto.
  - exists t. split; [assumption|]. apply D; auto. discriminate.
Qed.
