From Coq Require Import List Arith Lia Bool.
From Verif Require Import Conc SignalSpec SignalModel.
Import ListNotations.
Set Implicit Arguments.

Lemma NoDup_app_intro (X : Type) (l1 l2 : list X) : NoDup l1 -> NoDup l2 -> (forall x, In x l1 -> ~ In x l2) -> NoDup (l1 ++ l2).
Proof.
  induction l1 as [|x l1 IH]; cbn; auto. intros N1 N2 D. inversion N1; subst. constructor.
  - intros X1. apply in_app_or in X1. destruct X1; auto. apply (D x); auto.
  - apply IH; auto.
Qed.

Section P.
Variable A : Type.
Notation st := (st A). Notation obs := (obs A). Notation frame := (frame A).

Definition cnt (p : frame -> bool) (l : list frame) : nat := length (filter p l).
Lemma cnt_cons p f l : cnt p (f :: l) = (if p f then 1 else 0) + cnt p l.
Proof. unfold cnt. cbn. destruct (p f); reflexivity. Qed.
Lemma cnt_in p l : 0 < cnt p l -> exists f, In f l /\ p f = true.
Proof.
  unfold cnt. intros H. destruct (filter p l) as [|f r] eqn:E; [cbn in H; lia|].
  exists f. apply filter_In. rewrite E. now left.
Qed.
Lemma in_cnt p l f : In f l -> p f = true -> 0 < cnt p l.
Proof. intros H1 H2. unfold cnt. assert (In f (filter p l)) by (apply filter_In; auto). destruct (filter p l); cbn; [contradiction|lia]. Qed.

Definition isH (f : frame) := match f with FLock | FConn _ _ => true | _ => false end.
Definition isL (f : frame) := match f with FLock => true | _ => false end.
Definition isT (c : nat) (f : frame) := match f with FSlot c' => c' =? c | _ => false end.
Definition isS (c : nat) (f : frame) := match f with FSlot c' | FPSlot c' => c' =? c | _ => false end.
Definition isE (f : frame) := match f with FEmit _ _ _ => true | _ => false end.

(** recursive mutexes *)
Definition mok (m : mutex) (n : nat -> nat) : Prop :=
  match m with
  | None => forall t, n t = 0
  | Some (u, k) => k = n u /\ 0 < k /\ forall t, t <> u -> n t = 0
  end.
Lemma mok_ext m n n' : mok m n -> (forall t, n' t = n t) -> mok m n'.
Proof. unfold mok. destruct m as [[u k]|]; intros H E. - destruct H as (H1&H2&H3). rewrite E. repeat split; auto. intros. rewrite E; auto. - intros. rewrite E; auto. Qed.
Lemma mok_lock m t m' n n' : mok m n -> lock m t = Some m' -> n' t = S (n t) -> (forall u, u <> t -> n' u = n u) -> mok m' n'.
Proof.
  unfold mok, lock. destruct m as [[u k]|]; intros H L E1 E2.
  - destruct (u =? t) eqn:E; [|discriminate]. apply Nat.eqb_eq in E. subst u. injection L as <-.
    destruct H as (->&H2&H3). repeat split; try lia. intros. rewrite E2 by auto. auto.
  - injection L as <-. rewrite E1, (H t). repeat split; try lia. intros. rewrite E2 by auto. auto.
Qed.
Lemma mok_unlock m t n n' : mok m n -> n t = S (n' t) -> (forall u, u <> t -> n' u = n u) -> mok (unlock m) n'.
Proof.
  unfold mok, unlock. destruct m as [[u k]|]; intros H E1 E2; [|specialize (H t); lia].
  destruct H as (->&H2&H3). destruct (Nat.eq_dec u t) as [->|Hne].
  - rewrite E1. destruct (n' t) as [|k] eqn:E.
    + intros v. destruct (Nat.eq_dec v t) as [->|]; auto. rewrite E2 by auto. auto.
    + rewrite E. repeat split; try lia. intros. rewrite E2 by auto. auto.
  - specialize (H3 t ltac:(auto)). lia.
Qed.
Lemma mok_others m t m' n u : mok m n -> lock m t = Some m' -> u <> t -> n u = 0.
Proof.
  unfold mok, lock. destruct m as [[v k]|]; intros H L E; auto.
  destruct (v =? t) eqn:E1; [|discriminate]. apply Nat.eqb_eq in E1. subst. now apply H.
Qed.
Lemma mok_unique m n t u : mok m n -> 0 < n t -> 0 < n u -> t = u.
Proof.
  unfold mok. destruct m as [[v k]|]; intros H H1 H2; [|specialize (H t); lia].
  destruct H as (_&_&H). destruct (Nat.eq_dec t v), (Nat.eq_dec u v); try congruence; [rewrite H in H2 by auto|rewrite H in H1 by auto|rewrite H in H1 by auto]; lia.
Qed.

(** shape of the stacks *)
Fixpoint wfs (l : list frame) : Prop :=
  match l with
  | [] => True
  | f :: r => wfs r /\ match f with
                       | FSlot _ => exists e a rem r', r = FEmit e a rem :: r'
                       | FPSlot c => exists rem r', r = FConn c rem :: r'
                       | _ => user r = true
                       end
  end.
Lemma wfs_flat l : wfs l -> user l = true -> in_slot l = false -> forall f, In f l -> f = FLock.
Proof.
  induction l as [|f r IH]; cbn; intros W U N g Hg; [contradiction|].
  destruct W as (W&Wf). destruct f; cbn in U; try discriminate; cbn in N; try discriminate.
  destruct Hg as [<-|Hg]; auto.
Qed.
Lemma wfs_ps l c : wfs l -> In (FPSlot c) l -> exists rem, In (FConn c rem) l.
Proof.
  induction l as [|f r IH]; cbn; intros W H; [contradiction|]. destruct W as (W&Wf).
  destruct H as [->|H].
  - destruct Wf as (rem&r'&->). exists rem. right. now left.
  - destruct (IH W H) as (rem&Hr). eauto.
Qed.

Definition was (c : nat) (tr : list obs) : Prop := exists t, In (OConnected t c) tr.
Lemma was_app c tr o : was c (tr ++ [o]) <-> was c tr \/ exists t, o = OConnected t c.
Proof.
  unfold was. split.
  - intros (t&H). apply in_app_or in H. destruct H as [H|[H|[]]]; eauto.
  - intros [(t&H)|(t&->)]; exists t; apply in_or_app; [auto|right; now left].
Qed.
Lemma disc_app c tr (o : obs) : disconnected c (tr ++ [o]) <-> disconnected c tr \/ exists t, o = ODisconnected t c.
Proof.
  unfold disconnected. split.
  - intros (t&H). apply in_app_or in H. destruct H as [H|[H|[]]]; eauto.
  - intros [(t&H)|(t&->)]; exists t; apply in_or_app; [auto|right; now left].
Qed.
Lemma connected_snoc tr (o : obs) : connected (tr ++ [o]) = conn1 (connected tr) o.
Proof. unfold connected. now rewrite fold_left_app. Qed.
Lemma handled_snoc e tr (o : obs) : handled e (tr ++ [o]) = handled e tr ++ handled1 e o.
Proof. unfold handled. rewrite flat_map_app. cbn. now rewrite app_nil_r. Qed.
Lemma received_snoc c tr (o : obs) : received c (tr ++ [o]) = received c tr ++ received1 c o.
Proof. unfold received. rewrite flat_map_app. cbn. now rewrite app_nil_r. Qed.
Lemma added_snoc tr (o : obs) : added (tr ++ [o]) = added tr ++ match o with OAdd _ _ a _ => [a] | _ => [] end.
Proof. unfold added. rewrite flat_map_app. cbn. now rewrite app_nil_r. Qed.
Lemma entered_snoc t c tr (o : obs) : entered t c (tr ++ [o]) = entered t c tr
  + match o with OCall t' _ c' _ | OPop t' c' _ => if (t' =? t) && (c' =? c) then 1 else 0 | _ => 0 end.
Proof. unfold entered. rewrite filter_app, app_length. f_equal. destruct o; cbn; auto; destruct (_ && _); auto. Qed.
Lemma left_snoc t c tr (o : obs) : left t c (tr ++ [o]) = left t c tr
  + match o with OReturn t' c' => if (t' =? t) && (c' =? c) then 1 else 0 | _ => 0 end.
Proof. unfold left. rewrite filter_app, app_length. f_equal. destruct o; cbn; auto; destruct (_ && _); auto. Qed.
Lemma locked_snoc t tr (o : obs) : locked_n t (tr ++ [o]) = locked_n t tr + match o with OLocked t' => if t' =? t then 1 else 0 | _ => 0 end.
Proof. unfold locked_n. rewrite filter_app, app_length. f_equal. destruct o; cbn; auto; destruct (_ =? _); auto. Qed.
Lemma unlocked_snoc t tr (o : obs) : unlocked_n t (tr ++ [o]) = unlocked_n t tr + match o with OUnlocked t' => if t' =? t then 1 else 0 | _ => 0 end.
Proof. unfold unlocked_n. rewrite filter_app, app_length. f_equal. destruct o; cbn; auto; destruct (_ =? _); auto. Qed.

Definition conns (l : list frame) : list nat := flat_map (fun f => match f with FConn c _ => [c] | _ => [] end) l.
Lemma conns_in c rem l : In (FConn c rem) l -> In c (conns l).
Proof. intros H. apply in_flat_map. eexists. split; [exact H|]. now left. Qed.
Lemma in_conns c l : In c (conns l) -> exists rem, In (FConn c rem) l.
Proof. intros H. apply in_flat_map in H. destruct H as (f&H1&H2). destruct f; cbn in H2; try contradiction. destruct H2 as [->|[]]. eauto. Qed.

Record inv (s : st) (tr : list obs) : Prop := {
  i_wf : forall t, wfs (stk s t);
  i_mu : mok (mu s) (fun t => cnt isH (stk s t));
  i_tmu : forall c, mok (tmu s c) (fun t => cnt (isT c) (stk s t));
  i_h : handlers s = connected tr;
  i_nd : NoDup (handlers s);
  i_hwas : forall c, In c (handlers s) -> was c tr;
  i_fwas : forall t f, In f (stk s t) -> match f with
             | FEmit _ _ rem => forall c, In c rem -> was c tr
             | FSlot c | FDisc c => was c tr
             | FConn c _ => c < next s /\ ~ was c tr
             | _ => True end;
  i_lt : forall c, was c tr -> c < next s;
  i_conns : forall t, NoDup (conns (stk s t));
  i_in : forall t c, entered t c tr = left t c tr + cnt (isS c) (stk s t);
  i_lk : forall t, locked_n t tr = unlocked_n t tr + cnt isL (stk s t);
  i_alive : forall c, alive s c = false <-> disconnected c tr;
  i_dis : forall c, disconnected c tr -> was c tr /\ ~ In c (handlers s);
  i_fdisc : forall t c, In (FDisc c) (stk s t) -> ~ In c (handlers s);
  i_hist : hist s = added tr;
  i_recv : forall c, next s <= c -> received c tr = [] }.


Inductive stepR (s : st) : st -> obs -> Prop :=
| S_lock t (m : mutex) : user (stk s t) = true -> lock (mu s) t = Some m ->
    stepR s (mkS (handlers s) m (alive s) (tmu s) (fupd (stk s) t (FLock :: stk s t)) (next s) (ems s) (hist s)) (OLocked t)
| S_unlock t r : stk s t = FLock :: r ->
    stepR s (mkS (handlers s) (unlock (mu s)) (alive s) (tmu s) (fupd (stk s) t r) (next s) (ems s) (hist s)) (OUnlocked t)
| S_emit t a m : user (stk s t) = true -> lock (mu s) t = Some m ->
    stepR s (mkS (handlers s) (mu s) (alive s) (tmu s) (fupd (stk s) t (FEmit (ems s) a (handlers s) :: stk s t)) (next s) (S (ems s)) (hist s)) (OEmit t (ems s) a)
| S_add t a r : stk s t = FLock :: r ->
    stepR s (mkS (handlers s) (mu s) (alive s) (tmu s) (fupd (stk s) t (FEmit (ems s) a (handlers s) :: stk s t)) (next s) (S (ems s)) (hist s ++ [a]))
      (OAdd t (ems s) a (in_slot r))
| S_conn t (p : bool) m : user (stk s t) = true -> lock (mu s) t = Some m ->
    stepR s (mkS (handlers s) m (alive s) (tmu s) (fupd (stk s) t (FConn (next s) (if p then hist s else []) :: stk s t)) (S (next s)) (ems s) (hist s)) (OConnecting t (next s) p)
| S_disc t c m : user (stk s t) = true -> In c (handlers s) -> lock (mu s) t = Some m ->
    stepR s (mkS (remove Nat.eq_dec c (handlers s)) (mu s) (alive s) (tmu s) (fupd (stk s) t (FDisc c :: stk s t)) (next s) (ems s) (hist s)) (ODisc t c)
| S_call t e a c rem r m : stk s t = FEmit e a (c :: rem) :: r -> lock (tmu s c) t = Some m -> alive s c = true ->
    stepR s (mkS (handlers s) (mu s) (alive s) (fupd (tmu s) c m) (fupd (stk s) t (FSlot c :: FEmit e a rem :: r)) (next s) (ems s) (hist s)) (OCall t e c a)
| S_skip t e a c rem r m : stk s t = FEmit e a (c :: rem) :: r -> lock (tmu s c) t = Some m -> alive s c = false ->
    stepR s (mkS (handlers s) (mu s) (alive s) (tmu s) (fupd (stk s) t (FEmit e a rem :: r)) (next s) (ems s) (hist s)) (OSkip t e c)
| S_done t e a r : stk s t = FEmit e a [] :: r ->
    stepR s (mkS (handlers s) (mu s) (alive s) (tmu s) (fupd (stk s) t r) (next s) (ems s) (hist s)) (OEmitted t e)
| S_pop t c a rem r : stk s t = FConn c (a :: rem) :: r ->
    stepR s (mkS (handlers s) (mu s) (alive s) (tmu s) (fupd (stk s) t (FPSlot c :: FConn c rem :: r)) (next s) (ems s) (hist s)) (OPop t c a)
| S_conn2 t c r : stk s t = FConn c [] :: r ->
    stepR s (mkS (handlers s ++ [c]) (unlock (mu s)) (alive s) (tmu s) (fupd (stk s) t r) (next s) (ems s) (hist s)) (OConnected t c)
| S_release t c r m : stk s t = FDisc c :: r -> lock (tmu s c) t = Some m ->
    stepR s (mkS (handlers s) (mu s) (fupd (alive s) c false) (tmu s) (fupd (stk s) t r) (next s) (ems s) (hist s)) (ODisconnected t c)
| S_ret t c r : stk s t = FSlot c :: r ->
    stepR s (mkS (handlers s) (mu s) (alive s) (fupd (tmu s) c (unlock (tmu s c))) (fupd (stk s) t r) (next s) (ems s) (hist s)) (OReturn t c)
| S_pret t c r : stk s t = FPSlot c :: r ->
    stepR s (mkS (handlers s) (mu s) (alive s) (tmu s) (fupd (stk s) t r) (next s) (ems s) (hist s)) (OReturn t c).

Lemma step_stepR s l s' o : step s l = Some (s', o) -> stepR s s' o.
Proof.
  unfold step, push, repl. intros H. destruct l.
  - destruct (user _) eqn:U; [|discriminate]. destruct (lock _ _) eqn:L; [|discriminate]. injection H as <- <-. econstructor; eauto.
  - destruct (stk s t) as [|[| | | | |] r] eqn:E; try discriminate. injection H as <- <-. cbn. econstructor; eauto.
  - destruct (user _) eqn:U; [|discriminate]. destruct (lock _ _) eqn:L; [|discriminate]. injection H as <- <-. econstructor; eauto.
  - destruct (stk s t) as [|[| | | | |] r] eqn:E; try discriminate. injection H as <- <-. rewrite <- E. econstructor; eauto.
  - destruct (user _) eqn:U; [|discriminate]. destruct (lock _ _) eqn:L; [|discriminate]. injection H as <- <-. econstructor; eauto.
  - destruct (user _) eqn:U; [|discriminate]. destruct (existsb _ _) eqn:X; [|discriminate]. cbn in H.
    destruct (lock _ _) eqn:L; [|discriminate]. injection H as <- <-. econstructor; eauto.
    apply existsb_exists in X. destruct X as (x&X1&X2). apply Nat.eqb_eq in X2. now subst.
  - destruct (stk s t) as [|[|e a [|c rem]|c|c [|a rem]|c|c] r] eqn:E; try discriminate.
    + injection H as <- <-. cbn. econstructor; eauto.
    + destruct (lock _ _) eqn:L; [|discriminate]. destruct (alive s c) eqn:Al; injection H as <- <-; cbn; econstructor; eauto.
    + injection H as <- <-. cbn. econstructor; eauto.
    + injection H as <- <-. cbn. econstructor; eauto.
    + destruct (lock _ _) eqn:L; [|discriminate]. injection H as <- <-; cbn; econstructor; eauto.
  - destruct (stk s t) as [|[| | | | |] r] eqn:E; try discriminate; injection H as <- <-; cbn; [eapply S_ret|eapply S_pret]; eauto.
Qed.

Lemma inv_init : inv (init A) [].
Proof.
  constructor; cbn.
  - auto. - auto. - auto. - reflexivity. - constructor. - contradiction. - contradiction.
  - intros c (t&[]).
  - intros; constructor. - reflexivity. - reflexivity.
  - intros c. split; [discriminate|intros (t&[])].
  - intros c (t&[]).
  - auto. - reflexivity. - reflexivity.
Qed.

Ltac fu t u := destruct (Nat.eq_dec u t) as [->|?]; [rewrite ?fupd_same in *|rewrite ?fupd_other in * by assumption].

Lemma step_wf s s' o : stepR s s' o -> (forall t, wfs (stk s t)) -> forall t, wfs (stk s' t).
Proof.
  intros H W u. inversion H; subst; cbn; fu t u; try apply W; specialize (W t);
  try match goal with E : stk _ _ = _ |- _ => rewrite E in * end; cbn in *; intuition eauto.
  all: destruct r; cbn in *; auto.
Qed.

Lemma step_mu s s' o : stepR s s' o -> mok (mu s) (fun t => cnt isH (stk s t)) -> mok (mu s') (fun t => cnt isH (stk s' t)).
Proof.
  intros H I. inversion H; subst; cbn.
  all: try (eapply mok_lock; [exact I|eassumption|cbv beta; now rewrite fupd_same|intros; cbv beta; now rewrite fupd_other]).
  all: try (eapply (@mok_unlock _ t); [exact I|cbv beta; rewrite fupd_same; match goal with E : stk _ _ = _ |- _ => rewrite E end; reflexivity|intros; cbv beta; now rewrite fupd_other]).
  all: eapply mok_ext; [exact I|]; intros u; fu t u; try match goal with E : stk _ _ = _ |- _ => rewrite E end; reflexivity.
Qed.

Lemma step_tmu s s' o : stepR s s' o -> (forall c, mok (tmu s c) (fun t => cnt (isT c) (stk s t))) -> forall c, mok (tmu s' c) (fun t => cnt (isT c) (stk s' t)).
Proof.
  intros H I c0. specialize (I c0). inversion H; subst; cbn.
  all: try (eapply mok_ext; [exact I|]; intros u; fu t u; try match goal with E : stk _ _ = _ |- _ => rewrite E end; rewrite ?cnt_cons; cbn; reflexivity).
  - destruct (Nat.eq_dec c0 c) as [->|Hne].
    + rewrite fupd_same. eapply mok_lock; [exact I|exact H1|cbv beta; rewrite fupd_same, H0, !cnt_cons; cbn; now rewrite Nat.eqb_refl|intros; cbv beta; now rewrite fupd_other].
    + rewrite fupd_other by auto. eapply mok_ext; [exact I|]; intros u; fu t u; auto. rewrite H0, !cnt_cons. cbn. apply not_eq_sym, Nat.eqb_neq in Hne. now rewrite Hne.
  - destruct (Nat.eq_dec c0 c) as [->|Hne].
    + rewrite fupd_same. eapply (@mok_unlock _ t); [exact I|cbv beta; rewrite fupd_same, H0, !cnt_cons; cbn; now rewrite Nat.eqb_refl|intros; cbv beta; now rewrite fupd_other].
    + rewrite fupd_other by auto. eapply mok_ext; [exact I|]; intros u; fu t u; auto. rewrite H0, !cnt_cons. cbn. apply not_eq_sym, Nat.eqb_neq in Hne. now rewrite Hne.
Qed.

Lemma lock_owner m t (n : nat -> nat) : mok m n -> 0 < n t -> exists m', lock m t = Some m'.
Proof.
  unfold mok, lock. destruct m as [[u k]|]; [|eauto]. intros (->&H1&H2) H.
  destruct (u =? t) eqn:E; [eauto|]. apply Nat.eqb_neq in E. rewrite H2 in H by auto. lia.
Qed.

Lemma step_inv s tr s' o : inv s tr -> stepR s s' o -> inv s' (tr ++ [o]).
Proof.
  intros I H.
  assert (Hw : forall c, was c (tr ++ [o]) <-> was c tr \/ exists t, o = OConnected t c) by (intros; apply was_app).
  assert (Hd : forall c, disconnected c (tr ++ [o]) <-> disconnected c tr \/ exists t, o = ODisconnected t c) by (intros; apply disc_app).
  constructor.
  - eapply step_wf; eauto using i_wf.
  - eapply step_mu; eauto using i_mu.
  - eapply step_tmu; eauto using i_tmu.
  - rewrite connected_snoc, <- (i_h I). inversion H; subst; reflexivity.
  - pose proof (i_nd I) as N. inversion H; subst; cbn; auto.
    + clear - N. induction (handlers s) as [|x l IH]; cbn; [constructor|]. inversion N; subst. destruct (Nat.eq_dec c x); auto. constructor; auto.
      intros Hx. apply in_remove in Hx. tauto.
    + assert (~ In c (handlers s)). { intros X. apply (i_hwas I) in X. pose proof (i_fwas I t (FConn c [])) as F. rewrite H0 in F. destruct (F (or_introl eq_refl)). tauto. }
      apply NoDup_app_intro; auto. constructor; [intros []|constructor]. intros x X [<-|[]]. auto.
  - intros c Hc. apply Hw. pose proof (i_hwas I c) as W. inversion H; subst; cbn in Hc; auto.
    + apply in_remove in Hc. tauto.
    + apply in_app_or in Hc. destruct Hc as [Hc|[<-|[]]]; eauto.
  - assert (K : forall t f, In f (stk s t) -> (forall c rem t', f = FConn c rem -> o <> OConnected t' c) -> match f with
             | FEmit _ _ rem => forall c, In c rem -> was c (tr ++ [o])
             | FSlot c | FDisc c => was c (tr ++ [o])
             | FConn c _ => c < next s' /\ ~ was c (tr ++ [o])
             | _ => True end).
    { intros t f Hf Hn. pose proof (i_fwas I t f Hf) as F. destruct f; auto; try (intros; apply Hw; auto).
      destruct F as (F1&F2). split; [inversion H; subst; cbn; lia|]. intros X. apply Hw in X. destruct X as [X|(t'&X)]; auto. eapply Hn; eauto. }
    assert (K0 : (forall t c, o <> OConnected t c) -> forall t f, In f (stk s t) -> match f with
             | FEmit _ _ rem => forall c, In c rem -> was c (tr ++ [o])
             | FSlot c | FDisc c => was c (tr ++ [o])
             | FConn c _ => c < next s' /\ ~ was c (tr ++ [o])
             | _ => True end).
    { intros Hn t f Hf. apply (K t); auto. }
    intros u f Hf. inversion H; subst; cbn in Hf; fu t u; try (apply (K0 ltac:(congruence) u f Hf)).
    + destruct Hf as [<-|Hf]; auto. apply (K0 ltac:(congruence) t f Hf).
    + apply (K0 ltac:(congruence) t f). rewrite H0. now right.
    + destruct Hf as [<-|Hf]; [|apply (K0 ltac:(congruence) t f Hf)]. intros c Hc. apply Hw. left. now apply (i_hwas I).
    + destruct Hf as [<-|Hf]; [|apply (K0 ltac:(congruence) t f Hf)]. intros c Hc. apply Hw. left. now apply (i_hwas I).
    + destruct Hf as [<-|Hf]; [|apply (K0 ltac:(congruence) t f Hf)]. cbn. split; [lia|].
      intros X. apply Hw in X. destruct X as [X|(t'&X)]; [|discriminate]. apply (i_lt I) in X. lia.
    + destruct Hf as [<-|Hf]; [|apply (K0 ltac:(congruence) t f Hf)]. apply Hw. left. now apply (i_hwas I).
    + pose proof (i_fwas I t (FEmit e a (c :: rem))) as F. rewrite H0 in F. specialize (F (or_introl eq_refl)). cbn in F.
      destruct Hf as [<-|[<-|Hf]]; [apply Hw; auto|intros x Hx; apply Hw; auto|]. apply (K0 ltac:(congruence) t f). rewrite H0. now right.
    + pose proof (i_fwas I t (FEmit e a (c :: rem))) as F. rewrite H0 in F. specialize (F (or_introl eq_refl)). cbn in F.
      destruct Hf as [<-|Hf]; [intros x Hx; apply Hw; auto|]. apply (K0 ltac:(congruence) t f). rewrite H0. now right.
    + apply (K0 ltac:(congruence) t f). rewrite H0. now right.
    + pose proof (K0 ltac:(congruence) t (FConn c (a :: rem))) as F. rewrite H0 in F. specialize (F (or_introl eq_refl)). cbn in F.
      destruct Hf as [<-|[<-|Hf]]; [exact Logic.I|exact F|]. apply (K0 ltac:(congruence) t f). rewrite H0. now right.
    + apply (K t f). { rewrite H0. now right. } intros c' rem t' -> E. injection E as <- <-.
      pose proof (i_conns I t) as N. rewrite H0 in N. cbn in N. inversion N; subst. apply conns_in in Hf. contradiction.
    + apply (K u f Hf). intros c' rem t' -> E. injection E as <- <-.
      pose proof (i_mu I) as M. apply n. apply (mok_unique _ _ _ _ M); eapply in_cnt; try exact Hf; try reflexivity; [rewrite H0; now left|reflexivity].
    + apply (K0 ltac:(congruence) t f). rewrite H0. now right.
    + apply (K0 ltac:(congruence) t f). rewrite H0. now right.
    + apply (K0 ltac:(congruence) t f). rewrite H0. now right.
  - intros c X. apply Hw in X. destruct X as [X|(t&->)].
    + apply (i_lt I) in X. inversion H; subst; cbn; lia.
    + inversion H; subst; cbn. pose proof (i_fwas I t (FConn c [])) as F. match goal with E : stk _ _ = _ |- _ => rewrite E in F end. now destruct (F (or_introl eq_refl)).
  - intros u. pose proof (i_conns I u) as N. inversion H; subst; cbn; fu t u; auto; try (rewrite H0 in N; cbn in N; now auto).
    + constructor; auto. intros X. apply in_conns in X. destruct X as (rem&X). apply (i_fwas I) in X. lia.
    + rewrite H0 in N. cbn in N. now inversion N.
  - intros u c0. pose proof (i_in I u c0) as N. rewrite entered_snoc, left_snoc.
    inversion H; subst; cbn [stk]; fu t u; rewrite ?cnt_cons; cbn [isS]; try (apply not_eq_sym, Nat.eqb_neq in n; rewrite n); try rewrite H0 in N; try rewrite H0; rewrite ?cnt_cons; cbn [isS]; rewrite ?cnt_cons in N; cbn [isS] in N; rewrite ?Nat.eqb_refl; cbn; try lia; match goal with |- context [?x =? c0] => destruct (x =? c0) end; lia.
  - intros u. pose proof (i_lk I u) as N. rewrite locked_snoc, unlocked_snoc.
    inversion H; subst; cbn [stk]; fu t u; rewrite ?cnt_cons; cbn [isL]; try (apply not_eq_sym, Nat.eqb_neq in n; rewrite n); try rewrite H0 in N; try rewrite H0; rewrite ?cnt_cons; cbn [isL]; rewrite ?cnt_cons in N; cbn [isL] in N; rewrite ?Nat.eqb_refl; cbn; lia.
  - intros c0. rewrite Hd, <- (i_alive I c0). inversion H; subst; cbn; try (split; [auto|intros [?|(?&?)]; [auto|discriminate]]).
    unfold fupd. destruct (c0 =? c) eqn:E.
    + apply Nat.eqb_eq in E. subst. split; eauto.
    + apply Nat.eqb_neq in E. split; auto. intros [?|(?&X)]; auto. congruence.
  - intros c0 X. apply Hd in X. rewrite Hw. destruct X as [X|(t0&->)].
    + destruct (i_dis I X) as (X1&X2). split; auto. inversion H; subst; cbn; auto.
      * intros Y. apply in_remove in Y. tauto.
      * intros Y. apply in_app_or in Y. destruct Y as [Y|[<-|[]]]; auto.
        pose proof (i_fwas I t (FConn c [])) as F. rewrite H0 in F. destruct (F (or_introl eq_refl)). tauto.
    + inversion H; subst; cbn. pose proof (i_fwas I t0 (FDisc c0)) as F. pose proof (i_fdisc I t0 c0) as G. match goal with E : stk _ _ = _ |- _ => rewrite E in F, G end. cbn in *. auto.
  - intros u c0 X. pose proof (i_fdisc I u c0) as G.
    inversion H; subst; cbn in X |- *; fu t u; auto; try (rewrite H0 in G; apply G; cbn in X |- *; intuition congruence).
    + apply G. destruct X; [discriminate|auto].
    + apply G. destruct X; [discriminate|auto].
    + apply G. destruct X; [discriminate|auto].
    + apply G. destruct X; [discriminate|auto].
    + destruct X as [E|X]. * injection E as ->. apply remove_In. * intros Y. apply in_remove in Y. tauto.
    + intros Y. apply in_remove in Y. tauto.
    + rewrite H0 in G. intros Y. apply in_app_or in Y. destruct Y as [Y|[->|[]]]; [apply G; cbn; auto|].
      pose proof (i_fwas I t (FConn c0 [])) as F. rewrite H0 in F. destruct (F (or_introl eq_refl)) as (_&F2).
      pose proof (i_fwas I t (FDisc c0)) as F3. rewrite H0 in F3. apply F2, F3. now right.
    + intros Y. apply in_app_or in Y. destruct Y as [Y|[->|[]]]; [apply G; auto|].
      pose proof (i_fwas I t (FConn c0 [])) as F. rewrite H0 in F. destruct (F (or_introl eq_refl)) as (_&F2).
      pose proof (i_fwas I u (FDisc c0) X). auto.
  - rewrite added_snoc. pose proof (i_hist I). inversion H; subst; cbn; rewrite ?app_nil_r; congruence.
  - intros c0 Hc. rewrite received_snoc. pose proof (i_recv I (c:=c0)) as R. inversion H; subst; cbn in *; rewrite ?app_nil_r; auto; try (apply R; lia).
    + destruct (c =? c0) eqn:E; [|rewrite app_nil_r; auto]. apply Nat.eqb_eq in E. subst.
      pose proof (i_fwas I t (FEmit e a (c0 :: rem))) as F. rewrite H0 in F. specialize (F (or_introl eq_refl) c0 (or_introl eq_refl)). apply (i_lt I) in F. lia.
    + destruct (c =? c0) eqn:E; [|rewrite app_nil_r; auto]. apply Nat.eqb_eq in E. subst.
      pose proof (i_fwas I t (FConn c0 (a :: rem))) as F. rewrite H0 in F. specialize (F (or_introl eq_refl)). cbn in F. lia.
Qed.

Lemma reach_inv s tr : reach s tr -> inv s tr.
Proof. induction 1; [apply inv_init|]. eapply step_inv; eauto using step_stepR. Qed.
End P.
