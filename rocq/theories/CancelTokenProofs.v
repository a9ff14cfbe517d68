From Coq Require Import List Arith Bool Lia.
From Verif Require Import Base Conc CancelTokenModel CancelTokenSpec.
Import ListNotations.
Set Implicit Arguments.

Definition owner (p : pc) : option nat :=
  match p with Registered r | Unreg r | UnregWait r | UnregWoken r => Some r | _ => None end.
Definition leaving (p : pc) : bool :=
  match p with Unreg _ | UnregWait _ | UnregWoken _ => true | _ => false end.
Definition reg (p : pc) : option nat := match p with Registered r => Some r | _ => None end.
Definition canc (p : pc) : bool := match p with Cancelling _ | InHandler _ | CancelTail => true | _ => false end.
Definition pending (p : pc) : option nat := match p with Cancelling (Some r) => Some r | _ => None end.
Definition running (p : pc) : option nat := match p with InHandler r => Some r | _ => None end.
Definition waiting (p : pc) : bool := match p with UnregWait _ | SleepWait _ => true | _ => false end.
Definition nowake (p : pc) : bool := match p with SleepWoken _ false => false | _ => true end.

(** what a history must look like before each event *)
Definition good (e : event) (l : list event) : Prop :=
  match e with
  | ERegistered r => ~ In (ERegistered r) l
  | EHandlerStart r => In (ERegistered r) l /\ ~ In (EHandlerStart r) l /\ forall b, ~ In (EUnregistered r b) l
  | EHandlerEnd r => In (EHandlerStart r) l /\ ~ In (EHandlerEnd r) l /\ forall b, ~ In (EUnregistered r b) l
  | EUnregistered r true => ~ In (EHandlerStart r) l /\ In (ERegistered r) l /\ forall b, ~ In (EUnregistered r b) l
  | EUnregistered r false => In (EHandlerEnd r) l /\ In ECancelDone l /\ forall b, ~ In (EUnregistered r b) l
  | ECancelled => ~ In ECancelled l
  | ECancelDone => In ECancelled l /\ ~ In ECancelDone l
  | ESlept _ => True
  end.
Inductive ok : list event -> Prop :=
| ok_nil : ok []
| ok_cons e l : good e l -> ok l -> ok (e :: l).

Record inv (s : st) : Prop := {
  i_ok : ok (log s);
  i_own : forall t r, owner (pcs s t) = Some r -> In (ERegistered r) (log s) /\ forall b, ~ In (EUnregistered r b) (log s);
  i_uniq : forall t u r q, owner (pcs s t) = Some r -> owner (pcs s u) = Some q -> t = u;
  i_next : forall r, In (ERegistered r) (log s) -> r < next s;
  i_reg1 : forall t r, reg (pcs s t) = Some r -> handler s = Some r;
  i_reg2 : forall r, handler s = Some r -> exists t, reg (pcs s t) = Some r;
  i_log1 : In ECancelled (log s) <-> cancelled s = true;
  i_log2 : In ECancelDone (log s) <-> done s = true;
  i_dc : done s = true -> cancelled s = true;
  i_nc : cancelled s = false -> forall t, canc (pcs s t) = false /\ leaving (pcs s t) = false;
  i_nl : cancelled s = false -> forall r, ~ In (EHandlerStart r) (log s);
  i_cu : forall t u, canc (pcs s t) = true -> canc (pcs s u) = true -> t = u;
  i_cd : forall t, canc (pcs s t) = true -> done s = false;
  i_ce : cancelled s = true -> done s = false -> exists t, canc (pcs s t) = true;
  i_run : cancelled s = true -> forall t r, owner (pcs s t) = Some r ->
          (exists u, pending (pcs s u) = Some r \/ running (pcs s u) = Some r) \/ In (EHandlerEnd r) (log s);
  i_pend : forall u r, pending (pcs s u) = Some r ->
          (exists t, owner (pcs s t) = Some r) /\ ~ In (EHandlerStart r) (log s) /\ ~ In (EHandlerEnd r) (log s);
  i_inh : forall u r, running (pcs s u) = Some r ->
          (exists t, owner (pcs s t) = Some r) /\ In (EHandlerStart r) (log s) /\ ~ In (EHandlerEnd r) (log s);
  i_wait : forall t, waiting (pcs s t) = true -> done s = false }.

Lemma init_inv : inv init.
Proof. constructor; cbn; try easy; try (intros; discriminate); try constructor; easy. Qed.

Lemma wake_cls f u : owner (wake_all f u) = owner (f u) /\ leaving (wake_all f u) = leaving (f u) /\
  reg (wake_all f u) = reg (f u) /\ canc (wake_all f u) = canc (f u) /\ pending (wake_all f u) = pending (f u) /\
  running (wake_all f u) = running (f u) /\ waiting (wake_all f u) = false.
Proof. unfold wake_all. destruct (f u); repeat split. Qed.

Lemma fupd_dec A (f : nat -> A) t a u : {u = t /\ fupd f t a u = a} + {u <> t /\ fupd f t a u = f u}.
Proof.
  destruct (Nat.eq_dec u t) as [->|N]; [left|right]; split; auto; [apply fupd_same|now apply fupd_other].
Qed.

Ltac fc1 f t p u :=
  let E := fresh "E" in let N := fresh "N" in
  destruct (fupd_dec f t p u) as [[? E]|[N E]];
  [subst u; rewrite ?E in *|rewrite ?E in *]; clear E.
Ltac fc := repeat match goal with
  | H : context [fupd ?f ?t ?p ?u] |- _ => fc1 f t p u
  | |- context [fupd ?f ?t ?p ?u] => is_var u; fc1 f t p u
  end; cbn [owner leaving reg canc pending running waiting] in *.

(** a witness other than t survives *)
Lemma ex_keep A (c : pc -> A) f t p v : (exists u, c (f u) = v) -> c (f t) <> v -> exists u, c (fupd f t p u) = v.
Proof. intros [u H] N. exists u. rewrite fupd_other; auto. congruence. Qed.
Lemma ex_same A (c : pc -> A) f t p v : c p = c (f t) -> (exists u, c (f u) = v) -> exists u, c (fupd f t p u) = v.
Proof. intros E [u H]. exists u. destruct (fupd_dec f t p u) as [[-> X]|[N X]]; rewrite X; congruence. Qed.

Lemma step_inv s l s' : inv s -> not_reset l -> step s l = Some s' -> inv s'.
Proof.
  intros I NR. destruct l as [t c]. unfold not_reset in NR. cbn in NR. unfold step. cbn [fst snd].
  pose proof I as [OK OWN UNIQ NX R1 R2 L1 L2 DC NC NL CU CD CE RUN PE INH W].
  assert (SAME : forall p, owner p = owner (pcs s t) -> leaving p = leaving (pcs s t) -> reg p = reg (pcs s t) ->
     canc p = canc (pcs s t) -> pending p = pending (pcs s t) -> running p = running (pcs s t) ->
     (waiting p = true -> done s = false) -> inv (to s t p)).
  { intros p E1 E2 E3 E4 E5 E6 E7.
    assert (K : forall u, owner (fupd (pcs s) t p u) = owner (pcs s u) /\ leaving (fupd (pcs s) t p u) = leaving (pcs s u)
      /\ reg (fupd (pcs s) t p u) = reg (pcs s u) /\ canc (fupd (pcs s) t p u) = canc (pcs s u)
      /\ pending (fupd (pcs s) t p u) = pending (pcs s u) /\ running (fupd (pcs s) t p u) = running (pcs s u)).
    { intros u. destruct (fupd_dec (pcs s) t p u) as [[-> X]|[N X]]; rewrite X; repeat split; auto. }
    assert (K1 := fun u => proj1 (K u)). assert (K2 := fun u => proj1 (proj2 (K u))).
    assert (K3 := fun u => proj1 (proj2 (proj2 (K u)))). assert (K4 := fun u => proj1 (proj2 (proj2 (proj2 (K u))))).
    assert (K5 := fun u => proj1 (proj2 (proj2 (proj2 (proj2 (K u)))))). assert (K6 := fun u => proj2 (proj2 (proj2 (proj2 (proj2 (K u)))))).
    clear K. constructor; cbn [to pcs cancelled done handler next log]; auto.
    - intros u r. rewrite K1. apply OWN.
    - intros u v r q. rewrite !K1. apply UNIQ.
    - intros u r. rewrite K3. apply R1.
    - intros r H. destruct (R2 r H) as [u Hu]. exists u. now rewrite K3.
    - intros H u. rewrite K2, K4. now apply NC.
    - intros u v. rewrite !K4. apply CU.
    - intros u. rewrite K4. apply CD.
    - intros H1 H2. destruct (CE H1 H2) as [u Hu]. exists u. now rewrite K4.
    - intros H u r. rewrite K1. intros Hu. destruct (RUN H u r Hu) as [[v Hv]|X]; auto. left. exists v. now rewrite K5, K6.
    - intros u r. rewrite K5. intros Hu. destruct (PE u r Hu) as [[v Hv] X]. split; auto. exists v. now rewrite K1.
    - intros u r. rewrite K6. intros Hu. destruct (INH u r Hu) as [[v Hv] X]. split; auto. exists v. now rewrite K1.
    - intros u Hu. destruct (fupd_dec (pcs s) t p u) as [[-> X]|[N X]]; rewrite X in Hu; eauto. }
  assert (SLEPT : forall b s0, inv s0 -> inv (logged s0 (ESlept b))).
  { clear. intros b s [OK OWN UNIQ NX R1 R2 L1 L2 DC NC NL CU CD CE RUN PE INH W].
    assert (J : forall e, e <> ESlept b -> (In e (ESlept b :: log s) <-> In e (log s))) by (cbn; intuition congruence).
    constructor; cbn [logged pcs cancelled done handler next log]; auto; intros.
    - now constructor.
    - apply OWN in H. rewrite J by discriminate. split; [tauto|]. intros b0. rewrite J by discriminate. now apply H.
    - apply NX. now rewrite J in H by discriminate.
    - now rewrite J by discriminate.
    - now rewrite J by discriminate.
    - rewrite J by discriminate. auto.
    - rewrite J by discriminate. eauto.
    - rewrite !J by discriminate. eauto.
    - rewrite !J by discriminate. eauto. }
  (* leaving with true, uncancelled *)
  assert (LT : forall r, owner (pcs s t) = Some r -> canc (pcs s t) = false -> cancelled s = false -> inv (logged (unset_handler (to s t Idle)) (EUnregistered r true))).
  { intros r Ho Hcn Hc.
    assert (Hr : reg (pcs s t) = Some r) by (destruct (NC Hc t) as [_ X]; destruct (pcs s t); cbn in *; congruence).
    assert (Hh := R1 t r Hr).
    assert (D : done s = false) by (destruct (done s); auto; rewrite DC in Hc; auto; discriminate).
    assert (J : forall e, e <> EUnregistered r true -> (In e (EUnregistered r true :: log s) <-> In e (log s))) by (cbn; intuition congruence).
    constructor; cbn [logged unset_handler to pcs cancelled done handler next log].
    - constructor; auto. cbn. split; [auto|]. now apply (OWN t).
    - intros u q. fc; [discriminate|]. intros Hu. rewrite J by discriminate. split; [now apply (OWN u)|]. intros b.
      rewrite J; [now apply (OWN u)|]. intros [= -> ->]. apply N. now apply (UNIQ u t r r).
    - intros u v q q'. fc; try discriminate. apply UNIQ.
    - intros q. rewrite J by discriminate. apply NX.
    - intros u q. fc; [discriminate|]. intros Hu. exfalso. apply N. apply (UNIQ u t r r); auto.
      pose proof (R1 _ _ Hu) as X. destruct (pcs s u); cbn in *; congruence.
    - discriminate.
    - rewrite J by discriminate; auto.
    - rewrite J by discriminate; auto.
    - auto.
    - intros _ u. fc; auto.
    - intros X q. rewrite J by discriminate. auto.
    - intros u v. fc; try discriminate. apply CU.
    - intros u. fc; try discriminate. apply CD.
    - intros; congruence.
    - intros; congruence.
    - intros u q. fc; try discriminate. intros Hu. destruct (NC Hc u) as [X _]. destruct (pcs s u); discriminate.
    - intros u q. fc; try discriminate. intros Hu. destruct (NC Hc u) as [X _]. destruct (pcs s u); discriminate.
    - auto. }
  (* waiting or returning false in the loop *)
  assert (AW : forall r s0, inv s0 -> owner (pcs s0 t) = Some r -> reg (pcs s0 t) = None -> canc (pcs s0 t) = false -> cancelled s0 = true -> done s0 = true ->
             inv (logged (to s0 t Idle) (EUnregistered r false))).
  { clear. intros r s I Ho Hr Hcn Hc D. pose proof I as [OK OWN UNIQ NX R1 R2 L1 L2 DC NC NL CU CD CE RUN PE INH W].
    assert (J : forall e, e <> EUnregistered r false -> (In e (EUnregistered r false :: log s) <-> In e (log s))) by (cbn; intuition congruence).
    assert (E : In (EHandlerEnd r) (log s)).
    { destruct (RUN Hc t r Ho) as [[u Hu]|X]; auto. assert (canc (pcs s u) = true) by (destruct (pcs s u) as [|[]| | | | | | | |]; cbn in *; destruct Hu; congruence).
      rewrite (CD u) in D; congruence. }
    constructor; cbn [logged to pcs cancelled done handler next log].
    - constructor; auto. cbn. split; auto. split; [now apply L2|now apply (OWN t)].
    - intros u q. fc; [discriminate|]. intros Hu. rewrite J by discriminate. split; [now apply (OWN u)|]. intros b.
      rewrite J; [now apply (OWN u)|]. intros [= -> ->]. apply N. now apply (UNIQ u t r r).
    - intros u v q q'. fc; try discriminate. apply UNIQ.
    - intros q. rewrite J by discriminate. apply NX.
    - intros u q. fc; [discriminate|]. apply R1.
    - intros q Hq. apply ex_keep; auto. congruence.
    - rewrite J by discriminate; auto.
    - rewrite J by discriminate; auto.
    - auto.
    - congruence.
    - congruence.
    - intros u v. fc; try discriminate. apply CU.
    - intros u. fc; try discriminate. apply CD.
    - congruence.
    - intros _ u q. fc; try discriminate. intros Hu. rewrite J by discriminate.
      destruct (RUN Hc u q Hu) as [[v Hv]|X]; auto. left. exists v. rewrite fupd_other; auto. intros ->. destruct (pcs s t); cbn in *; destruct Hv; congruence.
    - intros u q. fc; try discriminate. intros Hu. assert (canc (pcs s u) = true) by (destruct (pcs s u) as [|[]| | | | | | | |]; cbn in *; congruence).
      rewrite (CD u) in D; congruence.
    - intros u q. fc; try discriminate. intros Hu. assert (canc (pcs s u) = true) by (destruct (pcs s u); cbn in *; congruence).
      rewrite (CD u) in D; congruence.
    - intros u. fc; try discriminate. apply W. }
  (* giving the handler up after cancellation *)
  assert (UH : forall r, pcs s t = Registered r -> cancelled s = true -> inv (unset_handler (to s t (Unreg r)))).
  { intros r Ep Hc. assert (Hh : handler s = Some r) by (apply (R1 t); now rewrite Ep).
    constructor; cbn [unset_handler to pcs cancelled done handler next log]; auto.
    - intros u q. fc; [|apply OWN]. intros [= <-]. apply (OWN t). now rewrite Ep.
    - intros u v q q'. fc; auto; intros Hu Hv; eapply UNIQ; rewrite ?Ep; cbn; eauto.
    - intros u q. fc; [discriminate|]. intros Hu. exfalso. apply N. apply (UNIQ u t r r); [|now rewrite Ep].
      pose proof (R1 _ _ Hu) as X. destruct (pcs s u); cbn in *; congruence.
    - discriminate.
    - congruence.
    - intros u v. fc; try discriminate. apply CU.
    - intros u. fc; try discriminate. apply CD.
    - intros H1 H2. apply ex_keep; auto. rewrite Ep. discriminate.
    - intros _ u q Hu. assert (Hu' : owner (pcs s u) = Some q).
      { revert Hu. fc; auto. rewrite Ep. auto. }
      destruct (RUN Hc u q Hu') as [[v Hv]|X]; auto. left. exists v. rewrite fupd_other; auto. intros ->. rewrite Ep in Hv. destruct Hv; discriminate.
    - intros u q. fc; try discriminate. intros Hu. destruct (PE u q Hu) as [X Y]. split; auto. apply ex_same; auto. now rewrite Ep.
    - intros u q. fc; try discriminate. intros Hu. destruct (INH u q Hu) as [X Y]. split; auto. apply ex_same; auto. now rewrite Ep.
    - intros u. fc; try discriminate. apply W. }
  destruct (pcs s t) as [|h|r| |r|r|r|r|timed|timed tout] eqn:Ep; destruct c; try congruence; try discriminate; try (destruct h; discriminate); try (destruct timed; discriminate).
  - (* Cancel *)
    destruct (cancelled s) eqn:Hc; intros [= <-]; auto.
    assert (D : done s = false) by (destruct (done s); auto; discriminate DC; auto).
    assert (J : forall e, e <> ECancelled -> (In e (ECancelled :: log s) <-> In e (log s))) by (cbn; intuition congruence).
    assert (PX : pending (Cancelling (handler s)) = handler s) by (cbn; now destruct (handler s)).
    constructor; cbn [pcs cancelled done handler next log].
    + constructor; auto. cbn. rewrite L1. discriminate.
    + intros u q. fc; [discriminate|]. intros Hu. apply OWN in Hu. rewrite J by discriminate. split; [tauto|]. intros b. rewrite J by discriminate. apply Hu.
    + intros u v q q'. fc; try discriminate. apply UNIQ.
    + intros q. rewrite J by discriminate. apply NX.
    + intros u q. fc; [discriminate|]. apply R1.
    + intros q Hq. apply ex_keep; auto. rewrite Ep. discriminate.
    + cbn. tauto.
    + rewrite J by discriminate; auto.
    + auto.
    + congruence.
    + congruence.
    + intros u v. fc; auto; intros Hu Hv.
      * destruct (NC eq_refl v); congruence.
      * destruct (NC eq_refl u); congruence.
    + auto.
    + intros _ _. exists t. now rewrite fupd_same.
    + intros _ u q. fc; try discriminate. intros Hu. left. exists t. rewrite fupd_same. left.
      rewrite (R1 u q); [reflexivity|]. destruct (NC eq_refl u) as [_ X]. destruct (pcs s u); cbn in *; congruence.
    + intros u q. rewrite !J by discriminate. destruct (fupd_dec (pcs s) t (Cancelling (handler s)) u) as [[-> X]|[N X]]; rewrite X.
      * rewrite PX. intros Hh. split.
        -- apply ex_keep; [|rewrite Ep; discriminate]. destruct (R2 q Hh) as [v Hv]. exists v. destruct (pcs s v); cbn in *; congruence.
        -- split; [apply NL; auto|]. intros Y. assert (Z : exists a b, log s = a ++ EHandlerEnd q :: b) by now apply in_split in Y.
           destruct Z as (a & b & Z). rewrite Z in OK. clear -OK NL Z. revert Z. generalize (log s) NL. 
           assert (G : good (EHandlerEnd q) b). { clear NL. induction a; inversion OK; subst; auto. }
           cbn in G. intros lg NL' ->. apply (NL' eq_refl q). apply in_or_app. right. now right.
      * intros Hu. destruct (NC eq_refl u) as [Y _]. destruct (pcs s u); discriminate.
    + intros u q. fc; try discriminate. intros Hu. destruct (NC eq_refl u) as [Y _]. destruct (pcs s u); discriminate.
    + intros u. fc; try discriminate. apply W.
  - (* Register *)
    destruct (cancelled s) eqn:Hc; [intros [= <-]; auto|]. destruct (handler s) as [h|] eqn:Hh; [intros [= <-]; auto|]. intros [= <-].
    set (n := next s) in *.
    assert (D : done s = false) by (destruct (done s); auto; discriminate DC; auto).
    assert (J : forall e, e <> ERegistered n -> (In e (ERegistered n :: log s) <-> In e (log s))) by (cbn; intuition congruence).
    assert (FR : ~ In (ERegistered n) (log s)) by (intros X; apply NX in X; lia).
    assert (FU : forall b, ~ In (EUnregistered n b) (log s)).
    { intros b X. apply in_split in X. destruct X as (a & c & X). apply FR. rewrite X. apply in_or_app. right. right.
      assert (G : good (EUnregistered n b) c) by (clear -OK X; rewrite X in OK; clear X; induction a; inversion OK; subst; auto).
      assert (OKc : ok c) by (clear -OK X; rewrite X in OK; clear X; induction a; inversion OK; subst; auto).
      assert (SR : forall l, ok l -> In (EHandlerStart n) l -> In (ERegistered n) l).
      { clear. induction 1; cbn; auto. intros [->|?]; auto. cbn in H. tauto. }
      assert (ES : forall l, ok l -> In (EHandlerEnd n) l -> In (EHandlerStart n) l).
      { clear. induction 1; cbn; auto. intros [->|?]; auto. cbn in H. tauto. }
      destruct b; cbn in G; [tauto|]. apply SR; auto. apply ES; tauto. }
    constructor; cbn [pcs cancelled done handler next log].
    + constructor; auto.
    + intros u q. fc; [intros [= <-]|]; [split; [now left|intros b; rewrite J by discriminate; apply FU]|].
      intros Hu. apply OWN in Hu. split; [right; tauto|]. intros b. rewrite J by discriminate. apply Hu.
    + assert (NO : forall u q, owner (pcs s u) <> Some q).
      { intros u q Hu. destruct (NC eq_refl u) as [_ X]. specialize (R1 u q). destruct (pcs s u); cbn in *; try congruence. discriminate (R1 Hu). }
      intros u v q q'. fc; auto; intros Hu Hv; exfalso; eapply NO; eauto.
    + intros q [[= <-]|H]; [auto|]. apply NX in H. lia.
    + intros u q. fc; auto. intros Hu. apply R1 in Hu. congruence.
    + intros q [= <-]. exists t. now rewrite fupd_same.
    + rewrite J by discriminate; auto.
    + rewrite J by discriminate; auto.
    + auto.
    + intros _ u. fc; auto.
    + intros X q. rewrite J by discriminate. auto.
    + intros u v. fc; try discriminate. apply CU.
    + intros u. fc; try discriminate. apply CD.
    + congruence.
    + congruence.
    + intros u q. fc; try discriminate. intros Hu. destruct (NC eq_refl u) as [Y _]. destruct (pcs s u); discriminate.
    + intros u q. fc; try discriminate. intros Hu. destruct (NC eq_refl u) as [Y _]. destruct (pcs s u); discriminate.
    + auto.
  - (* Sleep *)
    destruct (cancelled s) eqn:Hc; intros [= <-]; auto. apply SAME; rewrite ?Ep; auto.
    intros _. destruct (done s); auto. discriminate DC; auto.
  - (* Cancelling *)
    destruct h as [r|]; intros [= <-].
    + assert (HP : pending (pcs s t) = Some r) by now rewrite Ep.
      destruct (PE t r HP) as [[o Ho] [NS NE]]. destruct (OWN o r Ho) as [HR HU].
      assert (Hc : cancelled s = true) by (destruct (cancelled s) eqn:E; auto; destruct (NC eq_refl t) as [X _]; rewrite Ep in X; discriminate).
      assert (Hot : o <> t) by (intros ->; rewrite Ep in Ho; discriminate).
      assert (J : forall e, e <> EHandlerStart r -> (In e (EHandlerStart r :: log s) <-> In e (log s))) by (cbn; intuition congruence).
      constructor; cbn [logged to pcs cancelled done handler next log].
      * constructor; auto. cbn. auto.
      * intros u q. fc; [discriminate|]. intros Hu. apply OWN in Hu. rewrite J by discriminate. split; [tauto|]. intros b. rewrite J by discriminate. apply Hu.
      * intros u v q q'. fc; try discriminate. apply UNIQ.
      * intros q. rewrite J by discriminate. apply NX.
      * intros u q. fc; [discriminate|]. apply R1.
      * intros q Hq. apply ex_keep; auto. rewrite Ep. discriminate.
      * rewrite J by discriminate; auto.
      * rewrite J by discriminate; auto.
      * auto.
      * congruence.
      * congruence.
      * intros u v. fc; auto; intros Hu Hv; try (apply CU; rewrite ?Ep; auto).
      * intros u. fc; intros X; [apply (CD t); now rewrite Ep|exact (CD u X)].
      * intros _ _. exists t. now rewrite fupd_same.
      * intros _ u q. fc; try discriminate. intros Hu. rewrite J by discriminate.
        destruct (RUN Hc u q Hu) as [[v Hv]|X]; auto. left.
        destruct (Nat.eq_dec v t) as [->|Nv].
        -- exists t. rewrite fupd_same. right. rewrite Ep in Hv. cbn in Hv |- *. destruct Hv; [congruence|discriminate].
        -- exists v. now rewrite fupd_other.
      * intros u q. fc; try discriminate. intros Hu. exfalso. apply N. apply CU; [|now rewrite Ep]. destruct (pcs s u); cbn in *; congruence.
      * intros u q. fc.
        -- intros [= <-]. split; [exists o; now rewrite fupd_other|]. split; [now left|]. now rewrite J by discriminate.
        -- intros Hu. exfalso. apply N. apply CU; [|now rewrite Ep]. destruct (pcs s u); cbn in *; congruence.
      * intros u. fc; try discriminate. apply W.
    + apply SAME; rewrite ?Ep; auto. discriminate.
  - (* InHandler *)
    intros [= <-].
    assert (HP : running (pcs s t) = Some r) by now rewrite Ep.
    destruct (INH t r HP) as [[o Ho] [HS NE]]. destruct (OWN o r Ho) as [HR HU].
    assert (Hc : cancelled s = true) by (destruct (cancelled s) eqn:E; auto; destruct (NC eq_refl t) as [X _]; rewrite Ep in X; discriminate).
    assert (J : forall e, e <> EHandlerEnd r -> (In e (EHandlerEnd r :: log s) <-> In e (log s))) by (cbn; intuition congruence).
    constructor; cbn [logged to pcs cancelled done handler next log].
    + constructor; auto. cbn. auto.
    + intros u q. fc; [discriminate|]. intros Hu. apply OWN in Hu. rewrite J by discriminate. split; [tauto|]. intros b. rewrite J by discriminate. apply Hu.
    + intros u v q q'. fc; try discriminate. apply UNIQ.
    + intros q. rewrite J by discriminate. apply NX.
    + intros u q. fc; [discriminate|]. apply R1.
    + intros q Hq. apply ex_keep; auto. rewrite Ep. discriminate.
    + rewrite J by discriminate; auto.
    + rewrite J by discriminate; auto.
    + auto.
    + congruence.
    + congruence.
    + intros u v. fc; auto; intros Hu Hv; try (apply CU; rewrite ?Ep; auto).
    + intros u. fc; intros X; [apply (CD t); now rewrite Ep|exact (CD u X)].
    + intros _ _. exists t. now rewrite fupd_same.
    + intros _ u q. fc; try discriminate. intros Hu.
      destruct (RUN Hc u q Hu) as [[v Hv]|X]; [|right; now right].
      destruct (Nat.eq_dec v t) as [->|Nv].
      * rewrite Ep in Hv. cbn in Hv. right. left. destruct Hv; [discriminate|congruence].
      * left. exists v. now rewrite fupd_other.
    + intros u q. fc; try discriminate. intros Hu. exfalso. apply N. apply CU; [|now rewrite Ep]. destruct (pcs s u); cbn in *; congruence.
    + intros u q. fc; try discriminate. intros Hu. exfalso. apply N. apply CU; [|now rewrite Ep]. destruct (pcs s u); cbn in *; congruence.
    + intros u. fc; try discriminate. apply W.
  - (* CancelTail *)
    intros [= <-].
    assert (Hc : cancelled s = true) by (destruct (cancelled s) eqn:E; auto; destruct (NC eq_refl t) as [X _]; rewrite Ep in X; discriminate).
    assert (D : done s = false) by (apply (CD t); now rewrite Ep).
    assert (J : forall e, e <> ECancelDone -> (In e (ECancelDone :: log s) <-> In e (log s))) by (cbn; intuition congruence).
    assert (WK : forall u, owner (fupd (wake_all (pcs s)) t Idle u) = owner (fupd (pcs s) t Idle u) /\
       leaving (fupd (wake_all (pcs s)) t Idle u) = leaving (fupd (pcs s) t Idle u) /\
       reg (fupd (wake_all (pcs s)) t Idle u) = reg (fupd (pcs s) t Idle u) /\
       canc (fupd (wake_all (pcs s)) t Idle u) = canc (fupd (pcs s) t Idle u) /\
       pending (fupd (wake_all (pcs s)) t Idle u) = pending (fupd (pcs s) t Idle u) /\
       running (fupd (wake_all (pcs s)) t Idle u) = running (fupd (pcs s) t Idle u) /\
       waiting (fupd (wake_all (pcs s)) t Idle u) = false).
    { intros u. unfold fupd. destruct (u =? t); [repeat split|apply wake_cls]. }
    assert (K1 := fun u => proj1 (WK u)). assert (K2 := fun u => proj1 (proj2 (WK u))).
    assert (K3 := fun u => proj1 (proj2 (proj2 (WK u)))). assert (K4 := fun u => proj1 (proj2 (proj2 (proj2 (WK u))))).
    assert (K5 := fun u => proj1 (proj2 (proj2 (proj2 (proj2 (WK u)))))). assert (K6 := fun u => proj1 (proj2 (proj2 (proj2 (proj2 (proj2 (WK u))))))).
    assert (K7 := fun u => proj2 (proj2 (proj2 (proj2 (proj2 (proj2 (WK u))))))). clear WK.
    assert (NOC : forall u, u <> t -> canc (pcs s u) = false).
    { intros u N. destruct (canc (pcs s u)) eqn:X; auto. exfalso. apply N. apply CU; auto. now rewrite Ep. }
    constructor; cbn [pcs cancelled done handler next log].
    + constructor; auto. cbn. rewrite L1, L2. split; congruence.
    + intros u q. rewrite K1. fc; [discriminate|]. intros Hu. apply OWN in Hu. rewrite J by discriminate. split; [tauto|]. intros b. rewrite J by discriminate. apply Hu.
    + intros u v q q'. rewrite !K1. fc; try discriminate. apply UNIQ.
    + intros q. rewrite J by discriminate. apply NX.
    + intros u q. rewrite K3. fc; [discriminate|]. apply R1.
    + intros q Hq. assert (X : exists u, reg (fupd (pcs s) t Idle u) = Some q) by (apply ex_keep; auto; rewrite Ep; discriminate).
      destruct X as [u X]. exists u. now rewrite K3.
    + rewrite J by discriminate; auto.
    + split; auto. intros _. now left.
    + auto.
    + congruence.
    + congruence.
    + intros u v. rewrite !K4. fc; try discriminate. apply CU.
    + intros u. rewrite K4. fc; try discriminate. intros X. rewrite NOC in X; auto; discriminate.
    + congruence.
    + intros _ u q. rewrite K1. fc; try discriminate. intros Hu. rewrite J by discriminate.
      destruct (RUN Hc u q Hu) as [[v Hv]|X]; auto. exfalso.
      assert (Y : canc (pcs s v) = true) by (destruct (pcs s v) as [|[]| | | | | | | |]; cbn in *; destruct Hv; congruence).
      assert (v = t) by (apply CU; auto; now rewrite Ep). subst. rewrite Ep in Hv. destruct Hv; discriminate.
    + intros u q. rewrite K5. fc; try discriminate. intros Hu. specialize (NOC u N). destruct (pcs s u); cbn in *; congruence.
    + intros u q. rewrite K6. fc; try discriminate. intros Hu. specialize (NOC u N). destruct (pcs s u); cbn in *; congruence.
    + intros u. rewrite K7. discriminate.
  - (* TryUnregister *)
    destruct (cancelled s) eqn:Hc; intros [= <-]; auto.
  - (* Unregister from Registered *)
    destruct (cancelled s) eqn:Hc; intros [= <-]; [|auto].
    specialize (UH r eq_refl eq_refl). unfold await_done.
    assert (EQ : forall p, unset_handler (to s t p) = to (unset_handler (to s t (Unreg r))) t p \/ True) by auto. clear EQ.
    destruct (done s) eqn:D.
    + (* returns false at once *)
      clear SAME SLEPT LT AW.
      assert (EE : In (EHandlerEnd r) (log s)).
      { destruct (RUN eq_refl t r) as [[u Hu]|X]; auto; [now rewrite Ep|]. assert (canc (pcs s u) = true) by (destruct (pcs s u) as [|[]| | | | | | | |]; cbn in *; destruct Hu; congruence).
        discriminate (CD u); auto. }
      assert (J : forall e, e <> EUnregistered r false -> (In e (EUnregistered r false :: log s) <-> In e (log s))) by (cbn; intuition congruence).
      assert (NOC : forall u, canc (pcs s u) = false) by (intros u; destruct (canc (pcs s u)) eqn:X; auto; discriminate (CD u X)).
      assert (Ho : owner (pcs s t) = Some r) by now rewrite Ep.
      constructor; cbn [logged unset_handler to pcs cancelled done handler next log].
      * constructor; auto. cbn. split; auto. split; [now apply L2|now apply (OWN t)].
      * intros u q. fc; [discriminate|]. intros Hu. rewrite J by discriminate. split; [now apply (OWN u)|]. intros b.
        rewrite J; [now apply (OWN u)|]. intros [= -> ->]. apply N. now apply (UNIQ u t r r).
      * intros u v q q'. fc; try discriminate. apply UNIQ.
      * intros q. rewrite J by discriminate. apply NX.
      * intros u q Hu. destruct UH as [_ _ _ _ X _ _ _ _ _ _ _ _ _ _ _ _ _]. apply (X u q). cbn. revert Hu. unfold fupd. destruct (u =? t); auto; discriminate.
      * discriminate.
      * rewrite J by discriminate; auto. now rewrite Hc.
      * rewrite J by discriminate; auto. now rewrite D.
      * auto.
      * congruence.
      * congruence.
      * intros u v. fc; try discriminate. apply CU.
      * intros u. fc; try discriminate. now rewrite NOC.
      * congruence.
      * intros _ u q. fc; try discriminate. intros Hu. rewrite J by discriminate.
        destruct (RUN eq_refl u q Hu) as [[v Hv]|X]; auto. specialize (NOC v). exfalso. destruct (pcs s v) as [|[]| | | | | | | |]; cbn in *; destruct Hv; congruence.
      * intros u q. fc; try discriminate. intros Hu. specialize (NOC u). destruct (pcs s u); cbn in *; congruence.
      * intros u q. fc; try discriminate. intros Hu. specialize (NOC u). destruct (pcs s u); cbn in *; congruence.
      * intros u. fc; try discriminate. intros X. discriminate (W u X).
    + (* goes to sleep *)
      destruct UH as [a1 a2 a3 a4 a5 a6 a7 a8 a9 a10 a11 a12 a13 a14 a15 a16 a17 a18].
      cbn [unset_handler to pcs cancelled done handler next log] in *.
      assert (KO : forall u, owner (fupd (pcs s) t (UnregWait r) u) = owner (fupd (pcs s) t (Unreg r) u)) by (intros; unfold fupd; now destruct (u =? t)).
      assert (KR : forall u, reg (fupd (pcs s) t (UnregWait r) u) = reg (fupd (pcs s) t (Unreg r) u)) by (intros; unfold fupd; now destruct (u =? t)).
      assert (KC : forall u, canc (fupd (pcs s) t (UnregWait r) u) = canc (fupd (pcs s) t (Unreg r) u)) by (intros; unfold fupd; now destruct (u =? t)).
      assert (KP : forall u, pending (fupd (pcs s) t (UnregWait r) u) = pending (fupd (pcs s) t (Unreg r) u)) by (intros; unfold fupd; now destruct (u =? t)).
      assert (KH : forall u, running (fupd (pcs s) t (UnregWait r) u) = running (fupd (pcs s) t (Unreg r) u)) by (intros; unfold fupd; now destruct (u =? t)).
      constructor; cbn [unset_handler to pcs cancelled done handler next log]; auto; rewrite ?Hc, ?D in *; auto.
      * intros u q. rewrite KO. apply a2.
      * intros u v q q'. rewrite !KO. apply a3.
      * intros u q. rewrite KR. apply a5.
      * discriminate.
      * discriminate.
      * intros u v. rewrite !KC. apply a12.
      * intros X Y. destruct (a14 X Y) as [u Hu]. exists u. now rewrite KC.
      * intros X u q. rewrite KO. intros Hu. destruct (a15 X u q Hu) as [[v Hv]|Y]; auto. left. exists v. now rewrite KP, KH.
      * intros u q. rewrite KP. intros Hu. destruct (a16 u q Hu) as [[v Hv] Y]. split; auto. exists v. now rewrite KO.
      * intros u q. rewrite KH. intros Hu. destruct (a17 u q Hu) as [[v Hv] Y]. split; auto. exists v. now rewrite KO.
  - (* Unregister after TryUnregister *)
    assert (Hc : cancelled s = true) by (destruct (cancelled s) eqn:E; auto; destruct (NC eq_refl t) as [_ X]; rewrite Ep in X; discriminate).
    rewrite Hc. intros [= <-].
    assert (HI : inv (await_done s t r)).
    { unfold await_done. destruct (done s) eqn:D; [apply AW; rewrite ?Ep; auto|apply SAME; rewrite ?Ep; auto]. }
    assert (Eh : handler s = None).
    { destruct (handler s) as [q|] eqn:Eh; auto. exfalso. destruct (R2 q eq_refl) as [u Hu].
      assert (u = t). { apply (UNIQ u t q r); [destruct (pcs s u); cbn in *; congruence|now rewrite Ep]. }
      subst. rewrite Ep in Hu. discriminate. }
    replace (unset_handler (await_done s t r)) with (await_done s t r); auto.
    unfold await_done, unset_handler, logged, to. destruct (done s); cbn; now rewrite Eh.
  - intros [= <-]. apply SAME; rewrite ?Ep; auto. discriminate.
  - intros [= <-]. unfold await_done.
    assert (Hc : cancelled s = true) by (destruct (cancelled s) eqn:E; auto; destruct (NC eq_refl t) as [_ X]; rewrite Ep in X; discriminate).
    destruct (done s) eqn:D; [apply AW; rewrite ?Ep; auto|apply SAME; rewrite ?Ep; auto].
  - destruct timed; intros [= <-]; apply SAME; rewrite ?Ep; auto; discriminate.
  - destruct timed; [|discriminate]. intros [= <-]. apply SAME; rewrite ?Ep; auto. discriminate.
  - intros [= <-]. apply SLEPT. apply SAME; rewrite ?Ep; auto. discriminate.
Qed.

Lemma reach_inv s : reachable s -> inv s.
Proof.
  intros (ls & H & F). assert (G : forall s0, inv s0 -> steps step s0 ls s -> inv s); [|exact (G _ init_inv H)].
  clear H. induction F; intros s0 I H0; inversion H0; subst; auto. eapply IHF; [|eassumption]. eapply step_inv; eauto.
Qed.

Lemma ok_split l : ok l -> forall e b, happened l e b -> good e b /\ ok b.
Proof.
  intros H e b [a ->]. induction a; inversion H; subst; auto.
Qed.
Lemma in_happened l e : In e l -> exists b, happened l e b.
Proof. intros H. apply in_split in H. destruct H as (a & b & ->). exists b, a. reflexivity. Qed.
Lemma happened_in l e b : happened l e b -> In e l /\ (forall x, In x b -> In x l).
Proof. intros [a ->]. split; [apply in_or_app; right; now left|]. intros. apply in_or_app. right. now right. Qed.

Lemma ok_end_start l r : ok l -> In (EHandlerEnd r) l -> In (EHandlerStart r) l.
Proof. induction 1; cbn; auto. intros [->|?]; auto. cbn in H. tauto. Qed.
Lemma ok_true l r : ok l -> In (EUnregistered r true) l -> ~ In (EHandlerStart r) l.
Proof.
  induction 1; cbn; auto. intros [->|Hin] [E|Hs]; try discriminate.
  - cbn in H. tauto.
  - subst. cbn in H. destruct H as (_ & _ & H). now apply (H true).
  - tauto.
Qed.

Lemma once s r before : reachable s -> happened (log s) (EHandlerStart r) before ->
  In (ERegistered r) before /\ ~ In (EHandlerStart r) before /\ forall b, ~ In (EUnregistered r b) before.
Proof. intros R H. exact (proj1 (ok_split (i_ok (reach_inv R)) H)). Qed.
Lemma end_before s r before : reachable s -> happened (log s) (EHandlerEnd r) before ->
  In (EHandlerStart r) before /\ ~ In (EHandlerEnd r) before /\ forall b, ~ In (EUnregistered r b) before.
Proof. intros R H. exact (proj1 (ok_split (i_ok (reach_inv R)) H)). Qed.
Lemma quiet s r b : reachable s -> In (EUnregistered r b) (log s) -> ~ handler_running s r.
Proof.
  intros R H [t Ht]. apply reach_inv in R. destruct (i_inh R t (r := r)) as [[o Ho] _]; [now rewrite Ht|].
  now apply (i_own R o Ho) in H.
Qed.
Lemma never_called s r : reachable s -> In (EUnregistered r true) (log s) -> ~ In (EHandlerStart r) (log s).
Proof. intros R. apply ok_true. now apply i_ok, reach_inv. Qed.
Lemma completed s r before : reachable s -> happened (log s) (EUnregistered r false) before ->
  In (EHandlerStart r) before /\ In (EHandlerEnd r) before /\ In ECancelDone before.
Proof.
  intros R H. destruct (ok_split (i_ok (reach_inv R)) H) as [G O]. cbn in G. destruct G as (G1 & G2 & _).
  split; auto. now apply ok_end_start.
Qed.
Lemma one_cancel s before : reachable s -> happened (log s) ECancelled before -> ~ In ECancelled before.
Proof. intros R H. exact (proj1 (ok_split (i_ok (reach_inv R)) H)). Qed.

Lemma not_asleep s : reachable s -> In ECancelDone (log s) ->
  (forall t r, pcs s t <> UnregWait r) /\ (forall t timed, pcs s t <> SleepWait timed).
Proof.
  intros R H. apply reach_inv in R. apply (i_log2 R) in H.
  split; intros t x E; assert (X := i_wait R t); rewrite E in X; specialize (X eq_refl); congruence.
Qed.

(** ** Progress of UnregisterCancellationHandler *)
Definition plain (l : nat * choice) : Prop := snd l = Go \/ snd l = DoUnregister.
Definition can (s : st) (Q : st -> Prop) : Prop :=
  exists ls s', steps step s ls s' /\ Forall plain ls /\ Q s'.
Lemma can_here s (Q : st -> Prop) : Q s -> can s Q.
Proof. intros H. exists [], s. repeat constructor; auto. Qed.
Lemma can_go s l s1 Q : plain l -> step s l = Some s1 -> can s1 Q -> can s Q.
Proof.
  intros P E (ls & s' & H1 & H2 & H3). exists (l :: ls), s'. repeat split; auto; econstructor; eauto.
Qed.
Lemma can_trans s (P Q : st -> Prop) : can s P -> (forall s', P s' -> can s' Q) -> can s Q.
Proof.
  intros (l1 & s1 & H1 & H2 & H3) K. destruct (K s1 H3) as (l2 & s2 & H4 & H5 & H6).
  exists (l1 ++ l2), s2. split; [eapply steps_app; eauto|]. split; auto. now apply Forall_app.
Qed.

Definition leaves (t r : nat) (s : st) : Prop := inv s /\ unregistering s t r.
Lemma leaves_canc t r s : leaves t r s -> cancelled s = true.
Proof.
  intros [I U]. destruct (cancelled s) eqn:E; auto. destruct (i_nc I E t) as [_ X]. unfold unregistering in U. destruct U as [H|[H|H]]; rewrite H in X; discriminate.
Qed.

Lemma finish_cancel t r s : leaves t r s -> can s (fun s => leaves t r s /\ done s = true).
Proof.
  intros L. destruct (done s) eqn:D; [apply can_here; auto|].
  destruct (i_ce (proj1 L) (leaves_canc L) D) as [u Hu].
  assert (NE : forall s, leaves t r s -> canc (pcs s u) = true -> u <> t).
  { intros s0 [_ U] H ->. unfold unregistering in U. destruct U as [U|[U|U]]; rewrite U in H; discriminate. }
  assert (K : forall p s0, leaves t r s0 -> u <> t -> forall s1, pcs s1 = fupd (pcs s0) u p -> unregistering s1 t r).
  { intros p s0 [_ U] N s1 E. unfold unregistering in *. rewrite E, fupd_other by auto. exact U. }
  assert (T : forall s, leaves t r s -> pcs s u = CancelTail -> can s (fun s => leaves t r s /\ done s = true)).
  { intros s0 L0 E0. assert (N : u <> t) by (apply (NE s0 L0); now rewrite E0).
    eapply can_go with (l := (u, Go)); [now left|unfold step; cbn [fst snd]; rewrite E0; reflexivity|].
    apply can_here. split; [split|reflexivity].
    - eapply step_inv with (l := (u, Go)); [exact (proj1 L0)|discriminate|unfold step; cbn [fst snd]; rewrite E0; reflexivity].
    - destruct L0 as [_ U]. unfold unregistering in *. cbn [pcs]. rewrite fupd_other by auto. unfold wake_all. destruct U as [->|[->| ->]]; auto. }
  assert (G : forall s, leaves t r s -> forall q, pcs s u = InHandler q -> can s (fun s => leaves t r s /\ done s = true)).
  { intros s0 L0 q E0. assert (N : u <> t) by (apply (NE s0 L0); now rewrite E0).
    eapply can_go with (l := (u, Go)); [now left|unfold step; cbn [fst snd]; rewrite E0; reflexivity|].
    apply T; [split|cbn; apply fupd_same].
    - eapply step_inv with (l := (u, Go)); [exact (proj1 L0)|discriminate|unfold step; cbn [fst snd]; rewrite E0; reflexivity].
    - eapply K; eauto. reflexivity. }
  destruct (pcs s u) as [|[q|]|q| | | | | | |] eqn:E; try discriminate.
  - assert (N : u <> t) by (apply (NE s L); now rewrite E).
    eapply can_go with (l := (u, Go)); [now left|unfold step; cbn [fst snd]; rewrite E; reflexivity|].
    apply G with q; [split|cbn; apply fupd_same].
    + eapply step_inv with (l := (u, Go)); [exact (proj1 L)|discriminate|unfold step; cbn [fst snd]; rewrite E; reflexivity].
    + eapply K; eauto. reflexivity.
  - assert (N : u <> t) by (apply (NE s L); now rewrite E).
    eapply can_go with (l := (u, Go)); [now left|unfold step; cbn [fst snd]; rewrite E; reflexivity|].
    apply T; [split|cbn; apply fupd_same].
    + eapply step_inv with (l := (u, Go)); [exact (proj1 L)|discriminate|unfold step; cbn [fst snd]; rewrite E; reflexivity].
    + eapply K; eauto. reflexivity.
  - now apply G with q.
  - now apply T.
Qed.

Lemma can_unregister s t r : reachable s -> unregistering s t r ->
  exists ls s', steps step s ls s' /\ Forall (fun l => snd l = Go \/ snd l = DoUnregister) ls /\
    pcs s' t = Idle /\ In (EUnregistered r false) (log s').
Proof.
  intros R U. apply reach_inv in R. change (can s (fun s' => pcs s' t = Idle /\ In (EUnregistered r false) (log s'))).
  eapply can_trans; [apply (@finish_cancel t r); split; auto|]. clear. intros s [L D].
  assert (C := leaves_canc L). destruct L as [I U]. destruct U as [E|[E|E]].
  - eapply can_go with (l := (t, DoUnregister)); [now right|unfold step; cbn [fst snd]; rewrite E, C; reflexivity|].
    apply can_here. unfold await_done. rewrite D. cbn. rewrite fupd_same. auto.
  - exfalso. assert (X := i_wait I t). rewrite E in X. specialize (X eq_refl). congruence.
  - eapply can_go with (l := (t, Go)); [now left|unfold step; cbn [fst snd]; rewrite E; reflexivity|].
    apply can_here. unfold await_done. rewrite D. cbn. rewrite fupd_same. auto.
Qed.

(** ** Sleep *)
Record sinv (s : st) : Prop := {
  s_c : cancelled s = true -> In ECancelled (log s);
  s_tail : forall t, canc (pcs s t) = true -> cancelled s = true;
  s_wok : forall t timed, pcs s t = SleepWoken timed false -> cancelled s = true;
  s_wot : forall t b, pcs s t = SleepWoken b true -> b = true;
  s_ev : forall before, happened (log s) (ESlept false) before -> In ECancelled before }.

Lemma happened_cons e l x b : happened (x :: l) e b -> (e = x /\ b = l) \/ happened l e b.
Proof. intros [[|y a] H]; cbn in H; injection H as H1 H2; [left; auto|right; exists a; auto]. Qed.

Lemma step_sinv s l s' : inv s -> sinv s -> snd l <> DoReset /\ snd l <> Spurious -> step s l = Some s' -> sinv s'.
Proof.
  intros I [C T W W2 E] [N1 N2]. destruct l as [t c]. cbn in N1, N2. unfold step. cbn [fst snd].
  assert (SAME : forall p, (canc p = true -> cancelled s = true) -> (forall b, p <> SleepWoken b false) -> (forall b, p = SleepWoken b true -> b = true) -> sinv (to s t p)).
  { intros p H1 H2 H3. constructor; cbn; auto.
    - intros u. fc; auto. apply T.
    - intros u b. destruct (fupd_dec (pcs s) t p u) as [[-> X]|[N X]]; rewrite X; [intros ->; now destruct (H2 b)|apply W].
    - intros u b. destruct (fupd_dec (pcs s) t p u) as [[-> X]|[N X]]; rewrite X; [intros ->; auto|apply W2]. }
  assert (UN : forall s0, sinv s0 -> sinv (unset_handler s0)) by (intros s0 []; constructor; auto).
  assert (LG : forall s0 e, sinv s0 -> (e = ESlept false -> cancelled s0 = true) -> sinv (logged s0 e)).
  { intros s0 e [c1 c2 c3 c4 c5] He. constructor; cbn; auto.
    intros b Hb. apply happened_cons in Hb. destruct Hb as [[<- ->]|Hb]; auto. }
  destruct (pcs s t) as [|h|r| |r|r|r|r|timed|timed tout] eqn:Ep; destruct c; try congruence; try discriminate; try (destruct h; discriminate); try (destruct timed; discriminate).
  - destruct (cancelled s) eqn:Hc; intros [= <-]; [constructor; rewrite ?Hc; auto|].
    constructor; cbn [pcs cancelled done handler next log]; auto.
    + intros _. now left.
    + intros u b. fc; [discriminate|]. apply W2.
    + intros b Hb. apply happened_cons in Hb. destruct Hb as [[? ?]|Hb]; [discriminate|auto].
  - destruct (cancelled s) eqn:Hc; [intros [= <-]; constructor; rewrite ?Hc; auto|].
    destruct (handler s); intros [= <-]; constructor; cbn [pcs cancelled done handler next log]; rewrite ?Hc; auto; try discriminate.
    + intros u. fc; try discriminate. apply T.
    + intros u b. fc; [discriminate|]. apply W.
    + intros u b. fc; [discriminate|]. apply W2.
    + intros b Hb. apply happened_cons in Hb. destruct Hb as [[? ?]|Hb]; [discriminate|auto].
  - destruct (cancelled s) eqn:Hc; intros [= <-].
    + apply LG; auto. constructor; rewrite ?Hc; auto.
    + apply SAME; intros; discriminate.
  - destruct h; intros [= <-]; [apply LG; [|discriminate]|]; apply SAME; try (intros; discriminate); intros _; apply (T t); now rewrite Ep.
  - intros [= <-]. apply LG; [|discriminate]; apply SAME; try (intros; discriminate); intros _; apply (T t); now rewrite Ep.
  - intros [= <-]. assert (Hc : cancelled s = true) by (apply (T t); now rewrite Ep).
    constructor; cbn [pcs cancelled done handler next log]; auto.
    + intros _. right. auto.
    + intros u b. fc; [discriminate|]. unfold wake_all. specialize (W2 u b). destruct (pcs s u); auto; discriminate.
    + intros b Hb. apply happened_cons in Hb. destruct Hb as [[? ?]|Hb]; [discriminate|auto].
  - destruct (cancelled s) eqn:Hc; intros [= <-]; [|apply LG; [|discriminate]]; apply UN, SAME; intros; discriminate.
  - unfold await_done. destruct (cancelled s) eqn:Hc; [destruct (done s)|]; intros [= <-]; try (apply UN); try (apply LG; [|discriminate]); try apply UN; apply SAME; intros; discriminate.
  - unfold await_done. destruct (cancelled s) eqn:Hc; [destruct (done s)|]; intros [= <-]; try (apply UN); try (apply LG; [|discriminate]); try apply UN; apply SAME; intros; discriminate.
  - unfold await_done. destruct (done s); intros [= <-]; try (apply LG; [|discriminate]); apply SAME; intros; discriminate.
  - destruct timed; [|discriminate]. intros [= <-]. apply SAME; try (intros; discriminate). intros b [= <-]. reflexivity.
  - intros [= <-]. apply LG; [apply SAME; intros; discriminate|]. intros [= ->]. apply (W t timed). auto.
Qed.

Lemma slept_false s before : reachable_nospurious s -> happened (log s) (ESlept false) before -> In ECancelled before.
Proof.
  intros (ls & H & F).
  assert (G : forall s0, inv s0 -> sinv s0 -> steps step s0 ls s -> sinv s).
  { clear H. induction F; intros s0 I0 S0 H0; inversion H0; subst; auto.
    eapply IHF; [eapply step_inv; eauto; exact (proj1 H)|eapply step_sinv; eauto|eassumption]. }
  apply (G init init_inv); auto. constructor; cbn; try discriminate. intros b [a Ha]. destruct a; discriminate.
Qed.
