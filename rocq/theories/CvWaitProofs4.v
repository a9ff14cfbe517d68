(** * A cancelled (or awake) wait can return *)

From Coq Require Import List Arith Bool Lia.
From Verif Require Import Conc CvWaitModel CvWaitProofs CvWaitProofs2 CvWaitProofs3.
Import ListNotations.

(** steps that start no new operation: a thread continues the function it is in, or releases the mutex *)
Definition cont (l : nat * choice) : Prop := snd l = Go \/ snd l = Unlock.
Definition run (s s' : st) : Prop := exists ls, Forall cont ls /\ steps step s ls s'.

Lemma run_refl s : run s s.
Proof. exists []. split; constructor. Qed.
Lemma run_one s w c s' : cont (w, c) -> step s (w, c) = Some s' -> run s s'.
Proof. intros C H. exists [(w, c)]. split; [constructor; [exact C|constructor]|econstructor; [exact H|constructor]]. Qed.
Lemma run_trans s1 s2 s3 : run s1 s2 -> run s2 s3 -> run s1 s3.
Proof.
  intros (l1 & A & B) (l2 & C & D). exists (l1 ++ l2). split; [now apply Forall_app|]. eapply steps_app; eauto.
Qed.
Lemma run_inv s s' : Inv s -> run s s' -> Inv s'.
Proof. intros I (l & _ & H). eapply (steps_inv Inv); [|exact I|exact H]. intros a b c J. now apply step_inv. Qed.

Definition woke (p p' : pc) : Prop := p' = p \/ exists ls tm got, p = PSleep ls tm got /\ p' = PWoken ls got false.
Lemma woke_refl p : woke p p.
Proof. now left. Qed.
Lemma woke_trans p q r : woke p q -> woke q r -> woke p r.
Proof. intros [->|(ls & tm & got & -> & ->)] [->|(ls' & tm' & got' & A & ->)]; try discriminate; unfold woke; eauto 7. Qed.

Definition frame (u : nat) (s s' : st) : Prop :=
  (forall v, v <> u -> woke (pcs s v) (pcs s' v)) /\
  (forall t, cancelled (toks s' t) = cancelled (toks s t)) /\
  calls s' = calls s.
Lemma frame_refl u s : frame u s s.
Proof. repeat split; auto using woke_refl. Qed.
Lemma frame_trans u a b c : frame u a b -> frame u b c -> frame u a c.
Proof.
  intros (A & B & C) (D & E & F). repeat split; try congruence.
  intros v N. eapply woke_trans; eauto.
Qed.

Definition m (p : pc) : nat :=
  match p with
  | PReg _ _ todo got => 10 + 6 * length todo + 5 * length got
  | PSleep _ _ got => 9 + 5 * length got
  | PWoken _ got _ => 8 + 5 * length got
  | PRel _ todo l => 7 + 4 * length todo + 3 * length l
  | PDtor _ _ todo l => 5 + 3 * length todo + 2 * length l
  | PUnreg _ _ todo => 2 + length todo
  | PRelock _ _ => 1
  | _ => 0
  end.
Definition hm (p : pc) : nat :=
  match p with
  | Hold => 1 | KTail _ _ => 2 | KUnl _ _ _ => 3 | KHave _ _ _ => 4 | KCall _ _ _ => 5
  | p => 2 + m p
  end.

Lemma frame_same u s p o : frame u s (set_owner (set_pc s u p) o).
Proof. repeat split. intros v N. cbn. rewrite fupd_other by assumption. apply woke_refl. Qed.
Lemma frame_tok u s p t h : frame u s (set_tok (set_pc s u p) t (with_handler (toks s t) h)).
Proof.
  repeat split; cbn.
  - intros v N. rewrite fupd_other by assumption. apply woke_refl.
  - intros x. unfold fupd. destruct (Nat.eqb_spec x t); subst; reflexivity.
Qed.
Lemma frame_ret u s o ls r : frame u s (ret (set_owner s o) u ls r).
Proof.
  repeat split; cbn.
  - intros v N. rewrite fupd_other by assumption. apply woke_refl.
  - intros x. now destruct (mem x ls).
Qed.

(** a leaf about to be registered has no handler *)
Lemma reg_free s w ls tm t todo got : Inv s -> pcs s w = PReg ls tm (t :: todo) got -> handler (toks s t) = None.
Proof.
  intros I P. destruct (handler (toks s t)) as [[v n]|] eqn:H; [exfalso|reflexivity].
  destruct (iH _ I _ _ _ H) as [A _]. pose proof (iW _ I w) as W. rewrite P in W. destruct W as (_ & _ & W1 & W2 & _).
  assert (v = w).
  { apply (iU _ I t); [|rewrite P; apply W2; now left]. destruct (iW _ I v) as (_ & Q & _). now apply Q. }
  subst v. rewrite P in A. cbn in A. eapply NoDup_remove_2; [exact W1|]. apply in_or_app. now left.
Qed.

(** the result of one step of a thread that holds the mutex *)
Definition returned (s : st) (w n : nat) : Prop := exists ls tm r, In (ERet w n ls tm r) (log s).

Lemma owner_step s u : Inv s -> owner s = Some u ->
  exists c s', cont (u, c) /\ step s (u, c) = Some s' /\ frame u s s' /\
    ((owner s' = None /\ holding (pcs s' u) = false) \/ (owner s' = Some u /\ hm (pcs s' u) < hm (pcs s u))) /\
    (in_wait (pcs s u) = true ->
       (in_wait (pcs s' u) = true /\ m (pcs s' u) < m (pcs s u)) \/ (pcs s' u = Hold /\ returned s' u (calls s u))).
Proof.
  intros I O. pose proof (iO2 _ I _ O) as H.
  assert (Rt : forall ls r, pcs s u = pcs s u -> step s (u, Go) = Some (ret s u ls r) -> 1 < hm (pcs s u) ->
    exists c s', cont (u, c) /\ step s (u, c) = Some s' /\ frame u s s' /\
    ((owner s' = None /\ holding (pcs s' u) = false) \/ (owner s' = Some u /\ hm (pcs s' u) < hm (pcs s u))) /\
    (in_wait (pcs s u) = true ->
       (in_wait (pcs s' u) = true /\ m (pcs s' u) < m (pcs s u)) \/ (pcs s' u = Hold /\ returned s' u (calls s u)))).
  { intros ls r _ E L. exists Go, (ret s u ls r). split; [now left|]. split; [exact E|].
    split; [rewrite <- (set_owner_id s) at 2; apply frame_ret|]. cbn. rewrite fupd_same. split; [right; auto|].
    intros _. right. split; [reflexivity|]. do 3 eexists. now left. }
  destruct (pcs s u) as [| |ls tm todo got|ls tm got|ls got tout|ls todo l|ls r todo l|ls r todo|ls r|b t h|b t h|b t h|b t] eqn:P; try discriminate H.
  - (* Hold *) exists Unlock. unfold step. cbn [fst snd]. rewrite P. eexists. split; [now right|]. split; [reflexivity|].
    split; [apply frame_same|]. cbn. rewrite fupd_same. split; [left; auto|discriminate].
  - (* PReg *)
    destruct todo as [|t todo].
    + destruct got as [|g got].
      * apply (Rt ls Cancelled eq_refl); [unfold step; cbn [fst snd]; rewrite P; destruct tm; reflexivity|cbn; lia].
      * exists Go. unfold step. cbn [fst snd]. rewrite P. eexists. split; [now left|]. split; [destruct tm; reflexivity|].
        split; [apply frame_same|]. cbn. rewrite fupd_same. split; [left; auto|]. intros _. left. cbn. split; [reflexivity|lia].
    + exists Go. unfold step. cbn [fst snd]. rewrite P, (reg_free _ _ _ _ _ _ _ I P).
      destruct (cancelled (toks s t)) eqn:C.
      * eexists. split; [now left|]. split; [destruct tm, got; reflexivity|].
        split; [apply (frame_same u s _ (owner s))|]. cbn. rewrite fupd_same. cbn. split; [right; split; [exact O|lia]|].
        intros _. left. split; [reflexivity|lia].
      * eexists. split; [now left|]. split; [destruct tm, got; reflexivity|].
        split; [apply frame_tok|]. cbn. rewrite fupd_same. cbn. rewrite app_length. cbn. split; [right; split; [exact O|lia]|].
        intros _. left. split; [reflexivity|lia].
  - (* PRel *)
    destruct todo as [|t todo].
    + destruct l as [|x l].
      * apply (Rt ls Broadcasted eq_refl); [unfold step; cbn [fst snd]; rewrite P; reflexivity|cbn; lia].
      * exists Go. unfold step. cbn [fst snd]. rewrite P. eexists. split; [now left|]. split; [reflexivity|].
        split; [apply (frame_same u s _ (owner s))|]. cbn. rewrite fupd_same. cbn. split; [right; split; [exact O|lia]|]. intros _. left. split; [reflexivity|lia].
    + exists Go. unfold step. cbn [fst snd]. rewrite P. eexists. split; [now left|]. split; [reflexivity|].
      split; [apply frame_tok|]. cbn. rewrite fupd_same.
      destruct (cancelled (toks s t)); cbn; rewrite ?app_length; cbn; (split; [right; split; [exact O|lia]|]); intros _; left; (split; [reflexivity|lia]).
  - (* PDtor *)
    destruct todo as [|t todo].
    + destruct l as [|x l].
      * apply (Rt ls r eq_refl); [unfold step; cbn [fst snd]; rewrite P; reflexivity|cbn; lia].
      * exists Go. unfold step. cbn [fst snd]. rewrite P. eexists. split; [now left|]. split; [reflexivity|].
        split; [apply frame_same|]. cbn. rewrite fupd_same. cbn. split; [left; auto|]. intros _. left. split; [reflexivity|lia].
    + exists Go. unfold step. cbn [fst snd]. rewrite P. eexists. split; [now left|]. split; [reflexivity|].
      split; [apply frame_tok|]. cbn. rewrite fupd_same.
      destruct (cancelled (toks s t)); cbn; rewrite ?app_length; cbn; (split; [right; split; [exact O|lia]|]); intros _; left; (split; [reflexivity|lia]).
  - (* KCall *)
    destruct b; [|discriminate H]. exists Go. unfold step. cbn [fst snd]. rewrite P.
    destruct h; (eexists; split; [now left|]; split; [reflexivity|]; split; [apply (frame_same u s _ (owner s))|]; cbn; rewrite fupd_same; cbn; split; [right; split; [exact O|lia]|discriminate]).
  - (* KHave *)
    exists Go. unfold step. cbn [fst snd]. rewrite P. eexists. split; [now left|]. split; [destruct b; reflexivity|].
    cbn. rewrite fupd_same. split; [|split; [right; split; [exact O|cbn; lia]|discriminate]].
    repeat split. intros v N. cbn. rewrite fupd_other by assumption. unfold wake_all, woke. destruct (pcs s v); eauto 7.
  - (* KUnl *)
    exists Go. unfold step. cbn [fst snd]. rewrite P.
    destruct b; (eexists; split; [now left|]; split; [reflexivity|]).
    + split; [apply (frame_same u s _ (owner s))|]. cbn. rewrite fupd_same. cbn. split; [right; split; [exact O|lia]|discriminate].
    + split; [apply frame_same|]. cbn. rewrite fupd_same. split; [left; auto|discriminate].
  - (* KTail *)
    destruct b; [|discriminate H]. exists Go. unfold step. cbn [fst snd]. rewrite P. eexists. split; [now left|]. split; [reflexivity|].
    split; [|cbn; rewrite fupd_same; cbn; split; [right; split; [exact O|lia]|discriminate]].
    repeat split; cbn.
    + intros v N. rewrite fupd_other by assumption. apply woke_refl.
    + intros x. unfold fupd. destruct (Nat.eqb_spec x t); subst; reflexivity.
Qed.

(** the owner of the mutex can always release it *)
Lemma release s : Inv s -> exists s', run s s' /\ owner s' = None /\
  (forall u, owner s = Some u -> frame u s s') /\ (owner s = None -> s' = s).
Proof.
  intros I. destruct (owner s) as [u|] eqn:O; [|exists s; split; [apply run_refl|split; [exact O|split; [discriminate|auto]]]].
  - assert (Q : exists s', run s s' /\ owner s' = None /\ frame u s s').
    { remember (hm (pcs s u)) as k eqn:E. revert s I O E. induction k as [k IH] using lt_wf_ind. intros s I O ->.
      destruct (owner_step s u I O) as (c & s1 & C & St & F & [[N _]|[O1 L]] & _).
      - exists s1. split; [eapply run_one; eauto|]. auto.
      - destruct (IH _ L s1) as (s2 & R & O2 & F2); [eapply step_inv; eauto|exact O1|reflexivity|].
        exists s2. split; [eapply run_trans; [eapply run_one; eauto|exact R]|]. split; [exact O2|]. eapply frame_trans; eauto. }
    destruct Q as (s' & A & B & C). exists s'. split; [exact A|]. split; [exact B|]. split; [|discriminate].
    intros v E. injection E as <-. exact C.
Qed.

(** [w] is asleep, or still registering, only on leaves that will wake it *)
Definition wakeable (s : st) (p : pc) : Prop :=
  match p with
  | PReg _ _ todo got => (forall t, In t todo -> cancelled (toks s t) = true) /\
                         (got = [] \/ exists t, In t got /\ cancelled (toks s t) = true)
  | PSleep _ _ got => exists t, In t got /\ cancelled (toks s t) = true
  | _ => True
  end.

Lemma release_other s w : Inv s -> holding (pcs s w) = false ->
  exists s', run s s' /\ owner s' = None /\ woke (pcs s w) (pcs s' w) /\ calls s' = calls s /\
    (forall t, cancelled (toks s' t) = cancelled (toks s t)).
Proof.
  intros I H. destruct (release s I) as (s' & R & O & F & Id). exists s'. split; [exact R|]. split; [exact O|].
  destruct (owner s) as [u|] eqn:Ow.
  - destruct (F u eq_refl) as (A & B & C). split; [apply A|auto]. intros ->. pose proof (iO2 _ I _ Ow). congruence.
  - rewrite Id by reflexivity. auto using woke_refl.
Qed.

Lemma cancel_step s w c s' : cont (w, c) -> step s (w, c) = Some s' ->
  (forall t, cancelled (toks s' t) = cancelled (toks s t)) /\ calls s' = calls s.
Proof.
  intros C. unfold step. cbn [fst snd].
  destruct (pcs s w) as [| |ls tm [|t todo] got|ls tm got|ls got tout|ls [|t todo] l|ls r [|t todo] l|ls r [|t todo]|ls r|b t h|b t h|b t h|b t];
  destruct C as [C|C]; cbn in C; subst c; try discriminate;
  repeat match goal with
  | |- context [match ?x with _ => _ end] => destruct x eqn:?; try discriminate
  end; intros [= <-]; cbn; (split; [|reflexivity]); intros u; unfold fupd;
  repeat match goal with |- context [if ?x then _ else _] => destruct x eqn:? end; cbn; auto;
  try (match goal with E : Nat.eqb _ _ = true |- _ => apply Nat.eqb_eq in E; subst; auto end).
Qed.

(** the thread that cancels [t] can be brought to the end *)
Lemma kfinish s w t : Inv s -> (exists ls r todo, pcs s w = PUnreg ls r (t :: todo)) -> cancelled (toks s t) = true -> done (toks s t) = false ->
  exists s', run s s' /\ pcs s' w = pcs s w /\ calls s' = calls s /\ done (toks s' t) = true.
Proof.
  intros I (ls & r & todo & P) C D. destruct (iKx _ I _ C D) as [k K].
  assert (Nk : k <> w) by (intros ->; rewrite P in K; discriminate).
  (* from KTail *)
  assert (T1 : forall s0 b, pcs s0 w = pcs s w -> calls s0 = calls s -> pcs s0 k = KTail b t ->
    exists s', run s0 s' /\ pcs s' w = pcs s w /\ calls s' = calls s /\ done (toks s' t) = true).
  { intros s0 b Pw Cc Pk. eexists. split; [eapply (run_one s0 k Go); [now left|unfold step; cbn [fst snd]; rewrite Pk; reflexivity]|].
    cbn. rewrite fupd_other by congruence. rewrite fupd_same. auto. }
  assert (T2 : forall s0 b h, pcs s0 w = pcs s w -> calls s0 = calls s -> pcs s0 k = KUnl b t h ->
    exists s', run s0 s' /\ pcs s' w = pcs s w /\ calls s' = calls s /\ done (toks s' t) = true).
  { intros s0 b h Pw Cc Pk.
    assert (E : exists o, step s0 (k, Go) = Some (set_owner (set_pc s0 k (KTail b t)) o)).
    { unfold step. cbn [fst snd]. rewrite Pk. destruct b; [exists (owner s0)|exists None]; reflexivity. }
    destruct E as [o E].
    destruct (T1 (set_owner (set_pc s0 k (KTail b t)) o) b) as (s' & R & Q); cbn; rewrite ?fupd_same, ?fupd_other by congruence; auto.
    exists s'. split; [|exact Q]. eapply run_trans; [eapply run_one; [now left|exact E]|exact R]. }
  assert (T3 : forall s0 b h, pcs s0 w = pcs s w -> calls s0 = calls s -> pcs s0 k = KHave b t h ->
    exists s', run s0 s' /\ pcs s' w = pcs s w /\ calls s' = calls s /\ done (toks s' t) = true).
  { intros s0 b h Pw Cc Pk.
    assert (E : step s0 (k, Go) = Some (logged (set_pc (broadcast s0) k (KUnl b t h)) (EHandled (fst h) (snd h) t))).
    { unfold step. cbn [fst snd]. rewrite Pk. destruct b; reflexivity. }
    destruct (T2 (logged (set_pc (broadcast s0) k (KUnl b t h)) (EHandled (fst h) (snd h) t)) b h) as (s' & R & Q);
      cbn; rewrite ?fupd_same, ?fupd_other by congruence; auto.
    - unfold wake_all. rewrite Pw, P. reflexivity.
    - exists s'. split; [|exact Q]. eapply run_trans; [eapply run_one; [now left|exact E]|exact R]. }
  destruct (pcs s k) as [| | | | | | | | |b t' h|b t' h|b t' h|b t'] eqn:Pk; try discriminate K; injection K as ->.
  - destruct h as [h|].
    + destruct b.
      * destruct (T3 (set_pc s k (KHave true t h)) true h) as (s' & R & Q); cbn; rewrite ?fupd_same, ?fupd_other by congruence; auto.
        exists s'. split; [|exact Q]. eapply run_trans; [eapply (run_one s k Go); [now left|unfold step; cbn [fst snd]; rewrite Pk; reflexivity]|exact R].
      * destruct (release s I) as (s1 & R1 & O1 & F & Id).
        assert (Q1 : pcs s1 w = pcs s w /\ pcs s1 k = pcs s k /\ calls s1 = calls s).
        { destruct (owner s) as [u|] eqn:Ow; [|rewrite Id by reflexivity; auto].
          destruct (F u eq_refl) as (A & _ & B). pose proof (iO2 _ I _ Ow) as Hu.
          assert (w <> u) by (intros ->; rewrite P in Hu; discriminate).
          assert (k <> u) by (intros ->; rewrite Pk in Hu; discriminate).
          destruct (A w) as [->|(a & a' & a'' & E & _)]; auto; [|rewrite P in E; discriminate].
          destruct (A k) as [->|(a & a' & a'' & E & _)]; auto. rewrite Pk in E. discriminate. }
        destruct Q1 as (Q1 & Q2 & Q3).
        destruct (T3 (set_owner (set_pc s1 k (KHave false t h)) (Some k)) false h) as (s' & R & Q); cbn; rewrite ?fupd_same, ?fupd_other by congruence; auto.
        exists s'. split; [|exact Q]. eapply run_trans; [exact R1|].
        eapply run_trans; [eapply (run_one s1 k Go); [now left|unfold step; cbn [fst snd]; rewrite Q2, Pk, O1; reflexivity]|exact R].
    + destruct (T1 (set_pc s k (KTail b t)) b) as (s' & R & Q); cbn; rewrite ?fupd_same, ?fupd_other by congruence; auto.
      exists s'. split; [|exact Q]. eapply run_trans; [eapply (run_one s k Go); [now left|unfold step; cbn [fst snd]; rewrite Pk; destruct b; reflexivity]|exact R].
  - apply (T3 s b h); auto.
  - apply (T2 s b h); auto.
  - apply (T1 s b); auto.
Qed.

(** a thread asleep on a cancelled leaf can be woken *)
Lemma kwake s w ls tm got t : Inv s -> pcs s w = PSleep ls tm got -> In t got -> cancelled (toks s t) = true ->
  exists s', run s s' /\ pcs s' w = PWoken ls got false /\ calls s' = calls s.
Proof.
  intros I P Ht C. destruct (iE _ I t w) as [k K]; [now rewrite P|exact C|].
  assert (Nk : k <> w) by (intros ->; rewrite P in K; discriminate).
  assert (T3 : forall s0 b h, woke (pcs s w) (pcs s0 w) -> calls s0 = calls s -> pcs s0 k = KHave b t h ->
    exists s', run s0 s' /\ pcs s' w = PWoken ls got false /\ calls s' = calls s).
  { intros s0 b h Pw Cc Pk. eexists.
    split; [eapply (run_one s0 k Go); [now left|unfold step; cbn [fst snd]; rewrite Pk; destruct b; reflexivity]|].
    cbn. rewrite fupd_other by congruence. split; [|exact Cc]. unfold wake_all.
    destruct Pw as [->|(a & a' & a'' & E & ->)]; rewrite P in *; [reflexivity|]. now injection E as -> -> ->. }
  destruct (pcs s k) as [| | | | | | | | |b t' h|b t' h|b t' h|b t'] eqn:Pk; try discriminate K.
  - destruct h as [h|]; [|discriminate K]. injection K as -> ->.
    destruct b.
    + destruct (T3 (set_pc s k (KHave true t (w, calls s w))) true (w, calls s w)) as (s' & R & Q);
        cbn; rewrite ?fupd_same, ?fupd_other by congruence; auto using woke_refl.
      exists s'. split; [|exact Q]. eapply run_trans; [eapply (run_one s k Go); [now left|unfold step; cbn [fst snd]; rewrite Pk; reflexivity]|exact R].
    + destruct (release s I) as (s1 & R1 & O1 & F & Id).
      assert (Q1 : woke (pcs s w) (pcs s1 w) /\ pcs s1 k = pcs s k /\ calls s1 = calls s).
      { destruct (owner s) as [u|] eqn:Ow; [|rewrite Id by reflexivity; auto using woke_refl].
        destruct (F u eq_refl) as (A & _ & B). pose proof (iO2 _ I _ Ow) as Hu.
        assert (w <> u) by (intros ->; rewrite P in Hu; discriminate).
        assert (k <> u) by (intros ->; rewrite Pk in Hu; discriminate).
        split; [now apply A|]. split; [|exact B].
        destruct (A k) as [->|(a & a' & a'' & E & _)]; auto. rewrite Pk in E. discriminate. }
      destruct Q1 as (Q1 & Q2 & Q3).
      destruct (T3 (set_owner (set_pc s1 k (KHave false t (w, calls s w))) (Some k)) false (w, calls s w)) as (s' & R & Q);
        cbn; rewrite ?fupd_same, ?fupd_other by congruence; auto.
      exists s'. split; [|exact Q]. eapply run_trans; [exact R1|].
      eapply run_trans; [eapply (run_one s1 k Go); [now left|unfold step; cbn [fst snd]; rewrite Q2, Pk, O1; reflexivity]|exact R].
  - injection K as -> ->. apply (T3 s b (w, calls s w)); auto using woke_refl.
Qed.

Theorem can_return s w : Inv s -> in_wait (pcs s w) = true -> wakeable s (pcs s w) ->
  exists s', run s s' /\ pcs s' w = Hold /\ returned s' w (calls s w).
Proof.
  remember (m (pcs s w)) as k eqn:E. revert s E. induction k as [k IH] using lt_wf_ind. intros s -> I W K.
  assert (Next : forall s1, run s s1 -> in_wait (pcs s1 w) = true -> m (pcs s1 w) < m (pcs s w) -> wakeable s1 (pcs s1 w) -> calls s1 = calls s ->
    exists s', run s s' /\ pcs s' w = Hold /\ returned s' w (calls s w)).
  { intros s1 R W1 L K1 C1. destruct (IH _ L s1 eq_refl (run_inv _ _ I R) W1 K1) as (s' & R' & P' & Q').
    exists s'. split; [eapply run_trans; eauto|]. rewrite C1 in Q'. auto. }
  destruct (holding (pcs s w)) eqn:H.
  - (* it holds the mutex: its own next step *)
    pose proof (iO1 _ I _ H) as O. destruct (owner_step s w I O) as (c & s1 & C & St & F & _ & D).
    destruct (D W) as [[W1 L]|[P1 Rt]]; [|exists s1; split; [eapply run_one; eauto|auto]].
    destruct F as (_ & Fc & FC). apply (Next s1); auto; [eapply run_one; eauto|].
    revert St K. unfold step. cbn [fst snd]. destruct C as [C|C]; cbn in C; subst c;
      (destruct (pcs s w) as [| |ls tm [|t todo] got|ls tm got|ls got tout|ls [|t todo] l|ls r [|t todo] l|ls r [|t todo]|ls r|b t h|b t h|b t h|b t] eqn:P; try discriminate H; try discriminate W; try discriminate; try (destruct tm, got; discriminate));
      try (intros [= <-]; cbn in *; rewrite ?fupd_same in *; exact (fun _ => Logic.I)).
    + (* PReg, all registered *)
      destruct tm, got as [|g got]; intros [= <-]; cbn in W1; rewrite fupd_same in W1; try discriminate W1;
        cbn; rewrite fupd_same; intros [_ [A|A]]; try discriminate; exact A.
    + (* PReg, the next leaf: cancelled, so it is skipped *)
      intros St K.
      assert (Ct : cancelled (toks s t) = true) by (apply (proj1 K); now left).
      rewrite Ct in St. assert (St' : Some (set_pc s w (PReg ls tm todo got)) = Some s1) by (destruct tm, got; exact St).
      injection St' as <-. cbn. rewrite fupd_same. destruct K as [A B]. split; [intros u Hu; apply A; now right|exact B].
    + destruct l; intros [= <-]; cbn in *; rewrite ?fupd_same in *; try discriminate W1; exact (fun _ => Logic.I).
    + destruct l; intros [= <-]; cbn in *; rewrite ?fupd_same in *; try discriminate W1; exact (fun _ => Logic.I).
  - destruct (pcs s w) as [| |ls tm todo got|ls tm got|ls got tout|ls todo l|ls r todo l|ls r todo|ls r|b t h|b t h|b t h|b t] eqn:P; try discriminate H; try discriminate W.
    + (* PSleep *)
      destruct K as (t & Ht & Ct). destruct (kwake s w ls tm got t I P Ht Ct) as (s1 & R & P1 & C1).
      apply (Next s1); auto; rewrite P1; cbn; auto; lia.
    + (* PWoken *)
      destruct (release_other s w I) as (s1 & R & O1 & Wk & C1 & _); [now rewrite P|].
      destruct Wk as [P1|(a & a' & a'' & E & _)]; [|rewrite P in E; discriminate]. rewrite P in P1.
      apply (Next (set_owner (set_pc s1 w (if tout then PDtor ls TimedOut got [] else PRel ls got [])) (Some w))).
      * eapply run_trans; [exact R|]. eapply (run_one s1 w Go); [now left|]. unfold step. cbn [fst snd]. rewrite P1, O1. reflexivity.
      * cbn. rewrite fupd_same. now destruct tout.
      * cbn. rewrite fupd_same. destruct tout; cbn; lia.
      * cbn. rewrite fupd_same. now destruct tout.
      * exact C1.
    + (* PUnreg *)
      destruct todo as [|t todo].
      * apply (Next (set_pc s w (PRelock ls r))); cbn; rewrite ?fupd_same; cbn; auto.
        eapply (run_one s w Go); [now left|]. unfold step. cbn [fst snd]. now rewrite P.
      * assert (Ct : cancelled (toks s t) = true) by (apply (iC _ I t w); rewrite P; now left).
        assert (Q : exists s1, run s s1 /\ pcs s1 w = pcs s w /\ calls s1 = calls s /\ done (toks s1 t) = true).
        { destruct (done (toks s t)) eqn:D; [exists s; auto using run_refl|]. apply kfinish; eauto. }
        destruct Q as (s1 & R & P1 & C1 & D1). rewrite P in P1.
        apply (Next (set_tok (set_pc s1 w (PUnreg ls r todo)) t (with_handler (toks s1 t) None))).
        -- eapply run_trans; [exact R|]. eapply (run_one s1 w Go); [now left|]. unfold step. cbn [fst snd]. rewrite P1, D1.
           rewrite orb_true_r. reflexivity.
        -- cbn. now rewrite fupd_same.
        -- cbn. rewrite fupd_same. cbn. lia.
        -- cbn. now rewrite fupd_same.
        -- exact C1.
    + (* PRelock *)
      destruct (release_other s w I) as (s1 & R & O1 & Wk & C1 & _); [now rewrite P|].
      destruct Wk as [P1|(a & a' & a'' & E & _)]; [|rewrite P in E; discriminate]. rewrite P in P1.
      exists (ret (set_owner s1 (Some w)) w ls r). split; [|split].
      * eapply run_trans; [exact R|]. eapply (run_one s1 w Go); [now left|]. unfold step. cbn [fst snd]. now rewrite P1, O1.
      * cbn. now rewrite fupd_same.
      * cbn. rewrite <- C1. do 3 eexists. left. reflexivity.
Qed.
