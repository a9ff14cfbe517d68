From Coq Require Import List Arith Bool Lia.
From Verif Require Import Base Conc BarrierModel BarrierSpec.
Import ListNotations.
Set Implicit Arguments.

Definition inround (p : pc) : bool := match p with WaitOpen _ | WokenOpen _ => true | _ => false end.

Definition hist (n : nat) (h : list event) : Prop :=
  (forall t r b before, happened h (EExit t r b) before ->
     length (entered before r) = n /\ length (exited before r) < n /\ (b = true <-> S (length (exited before r)) = n)) /\
  (forall t r before, happened h (EEnter t r) before ->
     length (entered before r) < n \/ n = 0) /\
  (forall t r before, happened h (EEnter t r) before -> exited before r = [] /\ forall q, q < r -> length (exited before q) = n).

Record inv (n : nat) (s : st) : Prop := {
  i_in : exists L, NoDup L /\ (forall t, In t L <-> inround (pcs s t) = true) /\ length L = count s;
  i_wo : forall t r, pcs s t = WaitOpen r -> r = round s /\ releasing s = false;
  i_ko : forall t r, pcs s t = WokenOpen r -> r = round s /\ releasing s = true;
  i_wc : forall t, pcs s t = WaitClosed -> releasing s = true;
  i_fill : releasing s = false -> length (entered (log s) (round s)) = count s /\ exited (log s) (round s) = [] /\ (n <> 0 -> count s < n);
  i_rel : releasing s = true -> length (entered (log s) (round s)) = n /\ length (exited (log s) (round s)) + count s = n /\ 0 < count s < n;
  i_tr : trues (log s) (round s) = 0;
  i_past : forall q, q < round s -> length (entered (log s) q) = n /\ length (exited (log s) q) = n /\ trues (log s) q = 1;
  i_fut : forall q, round s < q -> entered (log s) q = [] /\ exited (log s) q = [] /\ trues (log s) q = 0;
  i_hist : hist n (log s) }.

Lemma init_inv n : inv n init.
Proof.
  constructor; cbn; try easy.
  - exists []. split; [constructor|]. split; auto. intros t. split; [contradiction|discriminate].
  - intros _. repeat split; lia.
  - repeat split; intros; destruct H as [[|? ?] H]; discriminate.
Qed.

Lemma fupd_dec A (f : nat -> A) t a u : {u = t /\ fupd f t a u = a} + {u <> t /\ fupd f t a u = f u}.
Proof.
  destruct (Nat.eq_dec u t) as [->|N]; [left|right]; split; auto; [apply fupd_same|now apply fupd_other].
Qed.
Lemma happened_cons e l x b : happened (x :: l) e b -> (e = x /\ b = l) \/ happened l e b.
Proof. intros [[|y a] H]; cbn in H; injection H as H1 H2; [left; auto|right; exists a; auto]. Qed.
Lemma wake_in f u : inround (wake_all f u) = inround (f u).
Proof. unfold wake_all. now destruct (f u). Qed.

Lemma hist_exit n h t r b : hist n h -> length (entered h r) = n -> length (exited h r) < n ->
  (b = true <-> S (length (exited h r)) = n) -> hist n (EExit t r b :: h).
Proof.
  intros (H1 & H2 & H3) A B C. split; [|split].
  - intros u q c bf Hb. apply happened_cons in Hb. destruct Hb as [[X ->]|Hb]; [|eapply H1; eauto]. injection X as -> -> ->. auto.
  - intros u q bf Hb. apply happened_cons in Hb. destruct Hb as [[X _]|Hb]; [discriminate|eapply H2; eauto].
  - intros u q bf Hb. apply happened_cons in Hb. destruct Hb as [[X _]|Hb]; [discriminate|eapply H3; eauto].
Qed.
Lemma hist_enter n h t r : hist n h -> (length (entered h r) < n \/ n = 0) -> exited h r = [] -> (forall q, q < r -> length (exited h q) = n) ->
  hist n (EEnter t r :: h).
Proof.
  intros (H1 & H2 & H3) A B C. split; [|split].
  - intros u q c bf Hb. apply happened_cons in Hb. destruct Hb as [[X ->]|Hb]; [discriminate|eapply H1; eauto].
  - intros u q bf Hb. apply happened_cons in Hb. destruct Hb as [[X ->]|Hb]; [injection X as -> ->; auto|eapply H2; eauto].
  - intros u q bf Hb. apply happened_cons in Hb. destruct Hb as [[X ->]|Hb]; [injection X as -> ->; auto|eapply H3; eauto].
Qed.

Lemma entered_enter t r h q : entered (EEnter t r :: h) q = if r =? q then t :: entered h q else entered h q.
Proof. unfold entered. cbn. now destruct (r =? q). Qed.
Lemma entered_exit t r b h q : entered (EExit t r b :: h) q = entered h q.
Proof. reflexivity. Qed.
Lemma exited_enter t r h q : exited (EEnter t r :: h) q = exited h q.
Proof. reflexivity. Qed.
Lemma exited_exit t r b h q : exited (EExit t r b :: h) q = if r =? q then t :: exited h q else exited h q.
Proof. unfold exited. cbn. now destruct (r =? q). Qed.
Lemma trues_enter t r h q : trues (EEnter t r :: h) q = trues h q.
Proof. reflexivity. Qed.
Lemma trues_exit t r b h q : trues (EExit t r b :: h) q = if b && (r =? q) then S (trues h q) else trues h q.
Proof. unfold trues. cbn. destruct b; [|reflexivity]. cbn. now destruct (r =? q). Qed.

(** leaving: [s] is a releasing state in which all members of the round but t are
    awake or t is the last to have entered *)
Lemma leave_inv n s t :
  (exists L, NoDup (t :: L) /\ (forall u, In u L <-> (u <> t /\ inround (pcs s u) = true)) /\ S (length L) = count s) ->
  (forall u r, u <> t -> pcs s u <> WaitOpen r) ->
  (forall u r, u <> t -> pcs s u = WokenOpen r -> r = round s) ->
  releasing s = true ->
  length (entered (log s) (round s)) = n -> length (exited (log s) (round s)) + count s = n ->
  trues (log s) (round s) = 0 ->
  (forall q, q < round s -> length (entered (log s) q) = n /\ length (exited (log s) q) = n /\ trues (log s) q = 1) ->
  (forall q, round s < q -> entered (log s) q = [] /\ exited (log s) q = [] /\ trues (log s) q = 0) ->
  hist n (log s) -> inv n (leave s t (round s)).
Proof.
  intros (L & ND & HL & CL) NW KO RL EN EX TR PA FU HI. unfold leave.
  assert (Nt : ~ In t L) by now inversion ND. assert (NDL : NoDup L) by now inversion ND.
  rewrite <- CL in *. cbn [Nat.sub]. rewrite Nat.sub_0_r.
  destruct (length L =? 0) eqn:E0; [apply Nat.eqb_eq in E0|apply Nat.eqb_neq in E0].
  - assert (L = []) by (destruct L; auto; discriminate). subst L. cbn in *.
    assert (NI : forall u, u <> t -> inround (pcs s u) = false).
    { intros u Nu. destruct (inround (pcs s u)) eqn:X; auto. exfalso. apply (HL u). auto. }
    constructor; cbn [pcs count releasing round log].
    + exists []. split; [constructor|]. split; auto. intros u. destruct (fupd_dec (wake_all (pcs s)) t Idle u) as [[-> X]|[N X]]; rewrite X; [cbn; intuition discriminate|].
      rewrite wake_in, NI by auto. cbn; intuition discriminate.
    + intros u r. destruct (fupd_dec (wake_all (pcs s)) t Idle u) as [[-> X]|[N X]]; rewrite X; [discriminate|]. unfold wake_all. specialize (NI u N). destruct (pcs s u); discriminate.
    + intros u r. destruct (fupd_dec (wake_all (pcs s)) t Idle u) as [[-> X]|[N X]]; rewrite X; [discriminate|]. unfold wake_all. specialize (NI u N). destruct (pcs s u); discriminate.
    + intros u. destruct (fupd_dec (wake_all (pcs s)) t Idle u) as [[-> X]|[N X]]; rewrite X; [discriminate|]. unfold wake_all. destruct (pcs s u); discriminate.
    + intros _. destruct (FU (S (round s))) as (A & B & C); [lia|]. rewrite entered_exit, exited_exit.
      replace (round s =? S (round s)) with false by (symmetry; apply Nat.eqb_neq; lia). rewrite A, B. cbn. repeat split; lia.
    + discriminate.
    + rewrite trues_exit. replace (round s =? S (round s)) with false by (symmetry; apply Nat.eqb_neq; lia). cbn. apply FU; lia.
    + intros q Hq. rewrite entered_exit, exited_exit, trues_exit. destruct (round s =? q) eqn:Eq; [apply Nat.eqb_eq in Eq; subst q|apply Nat.eqb_neq in Eq]; cbn.
      * repeat split; lia.
      * apply PA. lia.
    + intros q Hq. rewrite entered_exit, exited_exit, trues_exit. replace (round s =? q) with false by (symmetry; apply Nat.eqb_neq; lia). cbn. apply FU. lia.
    + apply hist_exit; auto; [lia|]. split; auto. lia.
  - constructor; cbn [pcs count releasing round log]; rewrite ?RL.
    + exists L. split; auto. split; auto. intros u. rewrite HL. destruct (fupd_dec (pcs s) t Idle u) as [[-> X]|[N X]]; rewrite X; [cbn; intuition discriminate|]. tauto.
    + intros u r. destruct (fupd_dec (pcs s) t Idle u) as [[-> X]|[N X]]; rewrite X; [discriminate|]. intros Y. now apply NW in Y.
    + intros u r. destruct (fupd_dec (pcs s) t Idle u) as [[-> X]|[N X]]; rewrite X; [discriminate|]. intros Y. now apply KO in Y.
    + auto.
    + discriminate.
    + intros _. rewrite entered_exit, exited_exit, Nat.eqb_refl. cbn [length]. repeat split; lia.
    + now rewrite trues_exit.
    + intros q Hq. rewrite entered_exit, exited_exit, trues_exit. replace (round s =? q) with false by (symmetry; apply Nat.eqb_neq; lia). cbn. now apply PA.
    + intros q Hq. rewrite entered_exit, exited_exit, trues_exit. replace (round s =? q) with false by (symmetry; apply Nat.eqb_neq; lia). cbn. now apply FU.
    + apply hist_exit; auto; [lia|]. split; [discriminate|lia].
Qed.

Lemma enter_inv n s t : inv n s -> inround (pcs s t) = false -> inv n (enter n s t).
Proof.
  intros I NI. pose proof I as [(L & ND & HL & CL) WO KO WC FI RE TR PA FU HI]. unfold enter.
  assert (Nt : ~ In t L) by (rewrite HL; congruence).
  destruct (releasing s) eqn:R.
  - assert (K : forall p u, inround p = false -> inround (fupd (pcs s) t p u) = inround (pcs s u)).
    { intros p u Hp. destruct (fupd_dec (pcs s) t p u) as [[-> X]|[N X]]; rewrite X; congruence. }
    constructor; cbn [pcs count releasing round log]; auto; try discriminate.
    + exists L. split; auto. split; auto. intros u. now rewrite K.
    + intros u r. destruct (fupd_dec (pcs s) t WaitClosed u) as [[-> X]|[N X]]; rewrite X; [discriminate|apply WO].
    + intros u r. destruct (fupd_dec (pcs s) t WaitClosed u) as [[-> X]|[N X]]; rewrite X; [discriminate|apply KO].
  - destruct (FI eq_refl) as (A & B & C). cbn [pcs count releasing round log].
    assert (HE : hist n (EEnter t (round s) :: log s)).
    { apply hist_enter; auto; [|intros q Hq; now apply PA]. rewrite A. destruct n; [now right|left]. apply C. discriminate. }
    destruct (S (count s) =? n) eqn:En; [apply Nat.eqb_eq in En|apply Nat.eqb_neq in En].
    + change (round s) with (round (mk_st (wake_all (pcs s)) (S (count s)) true (round s) (EEnter t (round s) :: log s))) at 3.
      apply leave_inv; cbn [pcs count releasing round log]; auto; rewrite ?entered_enter, ?exited_enter, ?trues_enter, ?Nat.eqb_refl; auto.
      * exists L. split; [now constructor|]. split; [|congruence]. intros u. rewrite wake_in, HL. split; [|tauto].
        intros Hu. split; auto. intros ->. congruence.
      * intros u r _. unfold wake_all. destruct (pcs s u); discriminate.
      * intros u r _. unfold wake_all. destruct (pcs s u) eqn:Eu; try discriminate; intros [= <-].
        -- now apply (WO u).
        -- now apply (KO u).
      * cbn. lia.
      * rewrite B. cbn. lia.
      * intros q Hq. rewrite entered_enter, exited_enter, trues_enter. replace (round s =? q) with false by (symmetry; apply Nat.eqb_neq; lia). auto.
      * intros q Hq. rewrite entered_enter, exited_enter, trues_enter. replace (round s =? q) with false by (symmetry; apply Nat.eqb_neq; lia). auto.
    + constructor; cbn [pcs count releasing round log]; auto; rewrite ?entered_enter, ?exited_enter, ?trues_enter, ?Nat.eqb_refl; auto; try congruence.
      * exists (t :: L). split; [now constructor|]. split; [|cbn; congruence]. intros u. cbn. rewrite HL.
        destruct (fupd_dec (pcs s) t (WaitOpen (round s)) u) as [[-> X]|[N X]]; rewrite X; cbn; [tauto|]. split; [intros [E|E]; congruence|auto].
      * intros u r. destruct (fupd_dec (pcs s) t (WaitOpen (round s)) u) as [[-> X]|[N X]]; rewrite X; [intros [= <-]; auto|apply WO].
      * intros u r. destruct (fupd_dec (pcs s) t (WaitOpen (round s)) u) as [[-> X]|[N X]]; rewrite X; [discriminate|apply KO].
      * intros u. destruct (fupd_dec (pcs s) t (WaitOpen (round s)) u) as [[-> X]|[N X]]; rewrite X; [discriminate|apply WC].
      * intros _. cbn. split; [lia|]. split; auto. intros X. specialize (C X). lia.
      * intros q Hq. rewrite entered_enter, exited_enter, trues_enter. replace (round s =? q) with false by (symmetry; apply Nat.eqb_neq; lia). auto.
      * intros q Hq. rewrite entered_enter, exited_enter, trues_enter. replace (round s =? q) with false by (symmetry; apply Nat.eqb_neq; lia). auto.
Qed.

Lemma remove_len (l : list nat) t : NoDup l -> In t l -> S (length (remove Nat.eq_dec t l)) = length l.
Proof.
  induction 1 as [|x l Nx ND IH]; [contradiction|]. intros [->|H]; cbn.
  - destruct (Nat.eq_dec t t); [|congruence]. now rewrite notin_remove.
  - destruct (Nat.eq_dec t x) as [->|N]; [contradiction|]. cbn. now rewrite IH.
Qed.
Lemma remove_nodup (l : list nat) t : NoDup l -> NoDup (remove Nat.eq_dec t l).
Proof.
  induction 1 as [|x l Nx ND IH]; cbn; [constructor|]. destruct (Nat.eq_dec t x); auto.
  constructor; auto. intros X. apply in_remove in X. tauto.
Qed.

Lemma step_inv n s l s' : inv n s -> snd l <> Spurious -> step n s l = Some s' -> inv n s'.
Proof.
  intros I NS. destruct l as [t c]. cbn in NS. unfold step. cbn [fst snd].
  destruct (pcs s t) as [| | |r|r] eqn:E; destruct c; try congruence; try discriminate; intros [= <-].
  - apply enter_inv; auto. now rewrite E.
  - apply enter_inv; auto. now rewrite E.
  - pose proof I as [(L & ND & HL & CL) WO KO WC FI RE TR PA FU HI].
    destruct (KO t r E) as [-> R]. destruct (RE R) as (A & B & C).
    apply leave_inv; auto.
    + exists (remove Nat.eq_dec t L). assert (Ht : In t L) by (apply HL; now rewrite E).
      split; [constructor; [apply remove_In|now apply remove_nodup]|]. split; [|rewrite remove_len; auto].
      intros u. split.
      * intros X. apply in_remove in X. split; [tauto|]. now apply HL.
      * intros [X Y]. apply in_in_remove; auto. now apply HL.
    + intros u q _ Y. apply WO in Y. destruct Y; congruence.
    + intros u q _ Y. now apply KO in Y.
Qed.

Lemma reach_inv n s : reachable n s -> inv n s.
Proof.
  intros (ls & H & F). assert (G : forall s0, inv n s0 -> steps (step n) s0 ls s -> inv n s); [|exact (G _ (init_inv n) H)].
  clear H. induction F; intros s0 I H0; inversion H0; subst; auto. eapply IHF; [|eassumption]. eapply step_inv; eauto.
Qed.

Lemma exit_after_all n s t r b before : reachable n s -> happened (log s) (EExit t r b) before ->
  length (entered before r) = n /\ length (exited before r) < n /\ (b = true <-> S (length (exited before r)) = n).
Proof. intros R. exact (proj1 (i_hist (reach_inv R)) t r b before). Qed.
Lemma enter_after_previous n s t r before : reachable n s -> happened (log s) (EEnter t r) before ->
  exited before r = [] /\ forall q, q < r -> length (exited before q) = n.
Proof. intros R. exact (proj2 (proj2 (i_hist (reach_inv R))) t r before). Qed.
Lemma one_true n s r : 0 < n -> reachable n s -> trues (log s) r <= 1 /\ (trues (log s) r = 1 <-> length (exited (log s) r) = n).
Proof.
  intros Pn R. apply reach_inv in R. destruct R as [(L & ND & HL & CL) WO KO WC FI RE TR PA FU HI].
  destruct (lt_eq_lt_dec r (round s)) as [[H|H]|H].
  - destruct (PA r H) as (A & B & C). rewrite C. split; auto. tauto.
  - subst r. rewrite TR. split; auto. split; [discriminate|]. intros H1. exfalso.
    destruct (releasing s) eqn:E.
    + destruct (RE eq_refl) as (A & B & C). lia.
    + destruct (FI eq_refl) as (A & B & C). rewrite B in H1. cbn in H1. lia.
  - destruct (FU r H) as (A & B & C). rewrite C. split; auto. split; [discriminate|]. rewrite B. cbn. lia.
Qed.
Lemma no_lost n s : reachable n s ->
  (forall t r, pcs s t = WaitOpen r -> length (entered (log s) r) <> n \/ n = 0) /\
  (forall t, pcs s t = WaitClosed -> exists u r, pcs s u = WokenOpen r).
Proof.
  intros R. apply reach_inv in R. destruct R as [(L & ND & HL & CL) WO KO WC FI RE TR PA FU HI]. split.
  - intros t r H. destruct (WO t r H) as [-> E]. destruct (FI E) as (A & B & C). rewrite A. destruct n; [now right|left]. specialize (C (Nat.neq_succ_0 _)). lia.
  - intros t H. specialize (WC t H). destruct (RE WC) as (_ & _ & A). destruct L as [|u L]; [cbn in CL; lia|].
    assert (X : inround (pcs s u) = true) by (apply HL; now left). destruct (pcs s u) eqn:E; try discriminate.
    + destruct (WO u r E). congruence.
    + eauto.
Qed.
Lemma full_can_return n s t r : 0 < n -> reachable n s -> (pcs s t = WaitOpen r \/ pcs s t = WokenOpen r) ->
  length (entered (log s) r) = n -> exists s' b, step n s (t, Go) = Some s' /\ log s' = EExit t r b :: log s.
Proof.
  intros Pn R [H|H] E.
  - destruct (no_lost R) as [X _]. destruct (X t r H); [congruence|lia].
  - unfold step. cbn [fst snd]. rewrite H. unfold leave. destruct (count s - 1 =? 0); eexists; eexists; split; reflexivity.
Qed.
