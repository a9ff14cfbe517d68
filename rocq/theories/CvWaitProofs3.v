(** * Results of Wait, and that a cancelled wait can return *)

From Coq Require Import List Arith Bool Lia.
From Verif Require Import Conc CvWaitModel CvWaitProofs CvWaitProofs2.
Import ListNotations.

(** ** results *)

(** a result is justified *)
Definition rok (s : st) (w : nat) (ls : list nat) (tm : bool) (r : wresult) : Prop :=
  match r with
  | Broadcasted => True
  | Cancelled => tm = true \/ exists t, In t ls /\ cancelled (toks s t) = true
  | TimedOut => tm = true
  end.

Definition pok (s : st) (w : nat) (p : pc) : Prop :=
  match p with
  | PReg ls tm todo got => tm = tmd s w /\ forall t, In t ls -> In t todo \/ In t got \/ cancelled (toks s t) = true
  | PSleep ls tm got => tm = tmd s w
  | PWoken ls got tout => tout = true -> tmd s w = true
  | PDtor ls r _ _ | PUnreg ls r _ | PRelock ls r => rok s w ls (tmd s w) r /\ r <> Broadcasted
  | _ => True
  end.

(** the handler has run for the current call because of [t]: the call will not return Broadcasted *)
Definition hok (p : pc) (t : nat) : Prop :=
  match p with
  | PUnreg _ _ _ | PRelock _ _ => True
  | Idle | Hold | KCall _ _ _ | KHave _ _ _ | KUnl _ _ _ | KTail _ _ => True
  | p => In t (regset p)
  end.
Definition in_wait (p : pc) : bool :=
  match p with PReg _ _ _ _ | PSleep _ _ _ | PWoken _ _ _ | PRel _ _ _ | PDtor _ _ _ _ | PUnreg _ _ _ | PRelock _ _ => true | _ => false end.

Record LInv (s : st) : Prop := {
  lP : forall w, pok s w (pcs s w);
  lR : forall w n ls tm r, In (ERet w n ls tm r) (log s) ->
         n <= calls s w /\ (n = calls s w -> in_wait (pcs s w) = false) /\ rok s w ls tm r;
  lU : forall w n ls tm r ls' tm' r', In (ERet w n ls tm r) (log s) -> In (ERet w n ls' tm' r') (log s) -> r = r';
  lH : forall w n t, In (EHandled w n t) (log s) ->
         n <= calls s w /\ (n = calls s w -> hok (pcs s w) t) /\ cancelled (toks s t) = true /\
         (n < calls s w \/ in_wait (pcs s w) = true \/ exists ls tm r, In (ERet w n ls tm r) (log s));
  lB : forall w n t ls tm, In (EHandled w n t) (log s) -> ~ In (ERet w n ls tm Broadcasted) (log s) }.

Lemma rok_mono s s' w ls tm r : (forall t, cancelled (toks s t) = true -> cancelled (toks s' t) = true) ->
  rok s w ls tm r -> rok s' w ls tm r.
Proof. intros M. destruct r; cbn; auto. intros [A|(t & A & B)]; [now left|right; eauto]. Qed.
Lemma pok_mono s s' w p : (forall t, cancelled (toks s t) = true -> cancelled (toks s' t) = true) -> tmd s' w = tmd s w ->
  pok s w p -> pok s' w p.
Proof.
  intros M T. destruct p; cbn; rewrite ?T; auto.
  - intros [A B]. split; [exact A|]. intros t Ht. destruct (B t Ht) as [|[|]]; auto.
  - intros [A B]. split; [eapply rok_mono; eauto|exact B].
  - intros [A B]. split; [eapply rok_mono; eauto|exact B].
  - intros [A B]. split; [eapply rok_mono; eauto|exact B].
Qed.

(** a step of thread [w] to [p'] that logs nothing and starts no call *)
Lemma lmove s s' w : LInv s -> log s' = log s -> calls s' = calls s -> tmd s' = tmd s ->
  (forall v, v <> w -> pcs s' v = pcs s v \/ exists ls tm got, pcs s v = PSleep ls tm got /\ pcs s' v = PWoken ls got false) ->
  (forall t, cancelled (toks s t) = true -> cancelled (toks s' t) = true) ->
  pok s' w (pcs s' w) -> in_wait (pcs s' w) = in_wait (pcs s w) ->
  (forall t, cancelled (toks s t) = true -> hok (pcs s w) t -> hok (pcs s' w) t) ->
  LInv s'.
Proof.
  intros I EL EC ET Pv M Pw Iw H.
  assert (Iv : forall v, in_wait (pcs s' v) = in_wait (pcs s v)).
  { intros v. destruct (Nat.eq_dec v w) as [->|N]; [exact Iw|].
    destruct (Pv v N) as [->|(ls & tm & got & -> & ->)]; reflexivity. }
  assert (Hv : forall v t, cancelled (toks s t) = true -> hok (pcs s v) t -> hok (pcs s' v) t).
  { intros v t C. destruct (Nat.eq_dec v w) as [->|N]; [now apply H|].
    destruct (Pv v N) as [->|(ls & tm & got & -> & ->)]; auto. }
  split; rewrite ?EL, ?EC.
  - intros v. destruct (Nat.eq_dec v w) as [->|N]; [exact Pw|].
    pose proof (lP _ I v) as Q. destruct (Pv v N) as [->|(ls & tm & got & E1 & ->)].
    + eapply pok_mono; eauto. now rewrite ET.
    + cbn. discriminate.
  - intros v n ls tm r A. destruct (lR _ I v n ls tm r A) as (B & C & D). split; [exact B|]. split; [now rewrite Iv|eapply rok_mono; eauto].
  - apply (lU _ I).
  - intros v n t A. destruct (lH _ I v n t A) as (B & C & D & E). split; [exact B|]. split; [auto|]. split; [auto|].
    now rewrite Iv.
  - apply (lB _ I).
Qed.

Lemma lret s o w ls r : LInv s -> Inv s -> in_wait (pcs s w) = true ->
  rok s w ls (tmd s w) r ->
  (r = Broadcasted -> forall t, ~ hok (pcs s w) t) ->
  LInv (ret (set_owner s o) w ls r).
Proof.
  intros I V Iw R B.
  set (tk' := fun t => if mem t ls then mk_tk (cancelled (toks s t)) (done (toks s t)) (handler (toks s t)) false else toks s t).
  assert (Tc : forall t, cancelled (tk' t) = cancelled (toks s t)) by (intros; unfold tk'; now destruct (mem t ls)).
  assert (RK : forall v l m x, rok s v l m x -> rok (ret (set_owner s o) w ls r) v l m x).
  { intros v l m x. apply rok_mono. cbn. intros t. now destruct (mem t ls). }
  assert (New : forall l m x, ~ In (ERet w (calls s w) l m x) (log s)).
  { intros l m x A. destruct (lR _ I _ _ _ _ _ A) as (_ & C & _). rewrite C in Iw by reflexivity. discriminate. }
  split; cbn.
  - intros v. destruct (Nat.eq_dec v w) as [->|N]; [now rewrite fupd_same|rewrite fupd_other by assumption].
    eapply pok_mono; [..|apply (lP _ I v)]; cbn; [|reflexivity]. intros t. now destruct (mem t ls).
  - intros v n l m x [A|A].
    + injection A as <- <- <- <- <-. split; [lia|]. split; [intros _; now rewrite fupd_same|apply RK; exact R].
    + destruct (lR _ I _ _ _ _ _ A) as (C & D & E). split; [exact C|]. split; [|now apply RK].
      destruct (Nat.eq_dec v w) as [->|N]; [now rewrite fupd_same|now rewrite fupd_other by assumption].
  - intros v n l m x l' m' x' [A|A] [A'|A'].
    + congruence.
    + injection A as <- <- <- <- <-. destruct (New _ _ _ A').
    + injection A' as <- <- <- <- <-. destruct (New _ _ _ A).
    + eapply (lU _ I); eauto.
  - intros v n t [A|A]; [discriminate|]. destruct (lH _ I v n t A) as (C & D & E & F). split; [exact C|].
    split; [|split; [now destruct (mem t ls)|]].
    + destruct (Nat.eq_dec v w) as [->|N]; [now rewrite fupd_same|now rewrite fupd_other by assumption].
    + destruct (Nat.eq_dec v w) as [->|N].
      * destruct F as [F|[F|(l & m & x & F)]]; [now left| |right; right; eauto].
        destruct (Nat.eq_dec n (calls s w)) as [->|N']; [right; right; do 3 eexists; left; reflexivity|left; lia].
      * rewrite fupd_other by assumption. destruct F as [F|[F|(l & m & x & F)]]; [now left|right; now left|].
        right; right. do 3 eexists. right. eassumption.
  - intros v n t l m [A|A] [A'|A']; try discriminate.
    + injection A' as <- <- <- <- ->. destruct (lH _ I _ _ _ A) as (_ & D & _). apply (B eq_refl t). now apply D.
    + eapply (lB _ I); eauto.
Qed.

Lemma linv_init : LInv init.
Proof. split; cbn; auto; contradiction. Qed.

Ltac lm I P w := eapply (lmove _ _ w I); cbn; rewrite ?fupd_same, ?P; cbn; auto;
  try (intros v Nv; left; now rewrite fupd_other by assumption);
  try (let u := fresh "u" in intros u; unfold fupd; match goal with |- context [Nat.eqb ?a ?b] => destruct (Nat.eqb_spec a b) end; subst; cbn; auto; fail).

Theorem step_linv s l s' : Inv s -> LInv s -> step s l = Some s' -> LInv s'.
Proof.
  intros V I. destruct l as [w c]. unfold step. cbn [fst snd].
  pose proof (lP _ I w) as K. pose proof (iW _ V w) as W.
  destruct (pcs s w) as [| |ls tm todo got|ls tm got|ls got tout|ls todo l|ls r todo l|ls r todo|ls r|b t h|b t h|b t h|b t] eqn:P.
  - (* Idle *)
    destruct c as [| | | |ls tm|t| | |]; try discriminate.
    + destruct (owner s) eqn:O; [discriminate|]. intros [= <-]. lm I P w.
    + intros [= <-]. eapply (lmove s (broadcast s) w I); cbn; auto; unfold wake_all; rewrite ?P; cbn; auto.
      intros v _. destruct (pcs s v); eauto 7.
    + destruct (cancelled (toks s t)) eqn:C; intros [= <-]; [exact I|]. lm I P w.
  - (* Hold *)
    destruct c as [| | | |ls tm|t| | |]; try discriminate.
    + intros [= <-]. lm I P w.
    + intros [= <-]. eapply (lmove s (broadcast s) w I); cbn; auto; unfold wake_all; rewrite ?P; cbn; auto.
      intros v _. destruct (pcs s v); eauto 7.
    + destruct (nodup ls && negb (existsb (fun t => inuse (toks s t)) ls) && negb match ls with [] => true | _ => false end); [|discriminate].
      intros [= <-].
      set (tk' := fun t => if mem t ls then mk_tk (cancelled (toks s t)) (done (toks s t)) (handler (toks s t)) true else toks s t).
      assert (Tc : forall t, cancelled (tk' t) = cancelled (toks s t)) by (intros; unfold tk'; now destruct (mem t ls)).
      split; cbn.
      * intros v. destruct (Nat.eq_dec v w) as [->|N]; [rewrite fupd_same; cbn; rewrite fupd_same; auto|rewrite (fupd_other _ _ N)].
        eapply pok_mono; [..|apply (lP _ I v)]; cbn; [intros t; now rewrite Tc|now apply fupd_other].
      * intros v n l m x A. destruct (lR _ I _ _ _ _ _ A) as (B & C & D).
        assert (D' : rok (mk_st (fupd (pcs s) w (PReg ls tm ls [])) (owner s) tk' (fupd (calls s) w (S (calls s w))) (fupd (tmd s) w tm) (log s)) v l m x).
        { eapply rok_mono; [|exact D]. cbn. intros t. now rewrite Tc. }
        destruct (Nat.eq_dec v w) as [->|N]; [rewrite fupd_same|rewrite !fupd_other by assumption; auto].
        split; [lia|]. split; [lia|exact D'].
      * apply (lU _ I).
      * intros v n t A. destruct (lH _ I v n t A) as (B & C & D & E).
        destruct (Nat.eq_dec v w) as [->|N]; [rewrite !fupd_same|rewrite !fupd_other by assumption].
        -- split; [lia|]. split; [lia|]. split; [now rewrite Tc|]. left. lia.
        -- split; [exact B|]. split; [exact C|]. split; [now rewrite Tc|exact E].
      * apply (lB _ I).
    + destruct (cancelled (toks s t)) eqn:C; intros [= <-]; [exact I|]. lm I P w.
  - (* PReg *)
    destruct K as [K1 K2]. destruct W as (W1 & W2 & W3 & W4 & W5). cbn in W1, W2.
    assert (Ret : forall todo0, pcs s w = PReg ls tm todo0 [] -> (tm = true \/ todo0 = []) -> LInv (ret s w ls Cancelled)).
    { intros todo0 P0 D. rewrite <- (set_owner_id s). apply lret; auto; [now rewrite P0| |discriminate].
      cbn. destruct D as [->|D]; [left; congruence|]. rewrite P in P0. injection P0 as -> ->. subst todo0.
      right. destruct ls as [|t ls]; [congruence|]. exists t. split; [now left|].
      destruct (K2 t (or_introl eq_refl)) as [[]|[[]|Q]]. exact Q. }
    destruct todo as [|t todo].
    + destruct c; try (destruct tm, got; discriminate).
      * destruct got as [|g got]; [destruct tm; intros [= <-]; eapply Ret; eauto|].
        destruct tm; intros [= <-]; lm I P w.
      * destruct tm, got; try discriminate. destruct (Nat.eqb (length (@nil nat)) (length ls)); [|discriminate].
        intros [= <-]. eapply Ret; eauto.
    + destruct c; try (destruct tm, got; discriminate).
      * assert (Q : (if cancelled (toks s t) then Some (set_pc s w (PReg ls tm todo got))
                     else match handler (toks s t) with
                          | Some _ => None
                          | None => Some (set_tok (set_pc s w (PReg ls tm todo (got ++ [t]))) t
                                     (with_handler (toks s t) (Some (w, calls s w)))) end) = Some s' -> LInv s').
        { destruct (cancelled (toks s t)) eqn:C.
          - intros [= <-]. lm I P w. split; [exact K1|]. intros u Hu. destruct (K2 u Hu) as [[<-|A]|[A|A]]; auto.
          - destruct (handler (toks s t)) eqn:H; [discriminate|]. intros [= <-]. lm I P w.
            + split; [exact K1|]. intros u Hu. rewrite in_app_iff.
              destruct (K2 u Hu) as [[<-|A]|[A|A]]; cbn; auto.
              right. right. unfold fupd. destruct (Nat.eqb_spec u t); subst; auto.
            + intros u _ A. apply in_or_app. now left. }
        destruct tm, got; exact Q.
      * destruct tm, got; try discriminate. destruct (Nat.eqb (length (t :: todo)) (length ls)); [|discriminate].
        intros [= <-]. eapply Ret; eauto.
  - (* PSleep *)
    cbn in K.
    assert (Q : forall b, (b = true -> tmd s w = true) -> LInv (set_pc s w (PWoken ls got b))).
    { intros b Hb. lm I P w. }
    destruct c; try (destruct tm; discriminate); destruct tm; try discriminate; intros [= <-]; apply Q; auto; discriminate.
  - (* PWoken *)
    cbn in K. destruct c; try discriminate. destruct (owner s) eqn:O; [discriminate|]. intros [= <-].
    destruct tout; lm I P w.
    + split; [auto|discriminate].
    + intros u _ A. rewrite app_nil_r. exact A.
    + intros u _ A. rewrite app_nil_r. exact A.
  - (* PRel *)
    destruct W as (W1 & W2 & W3). cbn in W1, W2.
    destruct todo as [|t todo]; destruct c; try discriminate.
    + destruct l as [|x l]; intros [= <-].
      * rewrite <- (set_owner_id s). apply lret; auto; rewrite ?P; cbn; auto.
      * lm I P w.
        -- split; [|discriminate]. right. exists x. split; [apply W2; now left|].
           apply (iC _ V x w). rewrite P. now left.
        -- intros u _ A. rewrite app_nil_r. exact A.
    + intros [= <-]. lm I P w. intros u Cu [<-|A].
      * rewrite Cu, !in_app_iff. cbn. auto.
      * destruct (cancelled (toks s t)); [|exact A]. apply in_app_or in A. rewrite !in_app_iff. cbn. tauto.
  - (* PDtor *)
    destruct W as (W1 & W2 & W3). cbn in W1, W2, K. destruct K as [K1 K2].
    destruct todo as [|t todo]; destruct c; try discriminate.
    + destruct l as [|x l]; intros [= <-].
      * rewrite <- (set_owner_id s). apply lret; auto; rewrite ?P; cbn; auto.
      * lm I P w.
    + intros [= <-]. lm I P w.
      * split; [|exact K2]. eapply rok_mono; [|exact K1]. cbn. intros u. unfold fupd. destruct (Nat.eqb_spec u t); subst; auto.
      * intros u Cu [<-|A].
        -- rewrite Cu, !in_app_iff. cbn. auto.
        -- destruct (cancelled (toks s t)); [|exact A]. apply in_app_or in A. rewrite !in_app_iff. cbn. tauto.
  - (* PUnreg *)
    cbn in K. destruct K as [K1 K2].
    destruct todo as [|t todo]; destruct c; try discriminate.
    + intros [= <-]. lm I P w.
    + destruct (negb (cancelled (toks s t)) || done (toks s t)) eqn:E; [|discriminate]. intros [= <-]. lm I P w.
      split; [|exact K2]. eapply rok_mono; [|exact K1]. cbn. intros u. unfold fupd. destruct (Nat.eqb_spec u t); subst; auto.
  - (* PRelock *)
    cbn in K. destruct K as [K1 K2].
    destruct c; try discriminate. destruct (owner s) eqn:O; [discriminate|]. intros [= <-].
    apply lret; auto; rewrite ?P; cbn; auto.
  - (* KCall *)
    destruct b, h as [h|]; destruct c; try discriminate; try (destruct (owner s) eqn:O; [discriminate|]); intros [= <-]; lm I P w.
  - (* KHave: the handler's broadcast *)
    assert (Q : LInv (logged (set_pc (broadcast s) w (KUnl b t h)) (EHandled (fst h) (snd h) t))).
    { assert (B : LInv (set_pc (broadcast s) w (KUnl b t h))).
      { eapply (lmove s _ w I); cbn; auto; rewrite ?fupd_same, ?P; cbn; auto.
        intros v Nv. rewrite fupd_other by assumption. unfold wake_all. destruct (pcs s v); eauto 7. }
      destruct h as [v n]. cbn [fst snd].
      assert (Hh : khandler (pcs s w) = Some (t, (v, n))) by now rewrite P.
      destruct (iKh _ V _ _ _ _ Hh) as [A D]. pose proof (khandler_target _ _ _ Hh) as KT. destruct (iK _ V _ _ KT) as [C _].
      assert (Nw : v <> w) by (intros ->; rewrite P in A; destruct A).
      assert (Iw : in_wait (pcs s v) = true) by (destruct (pcs s v); try reflexivity; destruct A).
      split.
      - intros u. pose proof (lP _ B u) as Pu. cbn in Pu |- *.
        unfold pok in *. destruct (fupd (wake_all (pcs s)) w (KUnl b t (v, n)) u); exact Pu.
      - intros u m l tm x [E|E]; [discriminate|]. exact (lR _ B u m l tm x E).
      - intros u m l tm x l' tm' x' [E|E] [E'|E']; try discriminate. exact (lU _ B _ _ _ _ _ _ _ _ E E').
      - intros u m t' [E|E].
        + injection E as <- <- <-. cbn. rewrite fupd_other by assumption.
          split; [lia|]. split; [|split; [exact C|]].
          * intros _. unfold hok, wake_all. destruct (pcs s v); cbn in *; auto.
          * right. left. unfold wake_all. destruct (pcs s v); cbn in *; auto.
        + destruct (lH _ B u m t' E) as (B1 & B2 & B3 & B4). split; [exact B1|]. split; [exact B2|]. split; [exact B3|].
          destruct B4 as [B4|[B4|(l & tm & x & B4)]]; [now left|right; now left|right; right].
          do 3 eexists. right. exact B4.
      - intros u m t' l tm [E|E] [E'|E']; try discriminate.
        + injection E as <- <- <-. cbn in E'. destruct (lR _ I _ _ _ _ _ E') as (_ & Z & _).
          rewrite Z in Iw by congruence. discriminate.
        + exact (lB _ B _ _ _ _ _ E E'). }
    destruct b; destruct c; try discriminate; intros [= <-]; exact Q.
  - (* KUnl *)
    destruct b; destruct c; try discriminate; intros [= <-]; lm I P w.
  - (* KTail *)
    destruct b; destruct c; try discriminate; intros [= <-]; lm I P w.
Qed.

Theorem reach_linv s : reach s -> LInv s.
Proof.
  intros [ls H].
  assert (J : Inv s /\ LInv s); [|tauto].
  eapply (steps_inv (fun s => Inv s /\ LInv s)); [|split; [exact inv_init|exact linv_init]|exact H].
  intros s0 l s1 [A B] E. split; [eapply step_inv; eauto|eapply step_linv; eauto].
Qed.
