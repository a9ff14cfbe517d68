(** * Invariant of waiting with a cancellation token *)

From Coq Require Import List Arith Bool Lia.
From Verif Require Import Conc CvWaitModel.
Import ListNotations.

Definition leaves (p : pc) : list nat :=
  match p with
  | PReg ls _ _ _ | PSleep ls _ _ | PWoken ls _ _ | PRel ls _ _ | PDtor ls _ _ _ | PUnreg ls _ _ | PRelock ls _ => ls
  | _ => []
  end.
Definition regset (p : pc) : list nat :=
  match p with
  | PReg _ _ _ got | PSleep _ _ got | PWoken _ got _ => got
  | PRel _ todo l | PDtor _ _ todo l => todo ++ l
  | PUnreg _ _ todo => todo
  | _ => []
  end.
Definition holding (p : pc) : bool :=
  match p with
  | Hold | PReg _ _ _ _ | PRel _ _ _ | PDtor _ _ _ _ | KCall true _ _ | KHave _ _ _ | KUnl _ _ _ | KTail true _ => true
  | _ => false
  end.
Definition ktarget (p : pc) : option nat :=
  match p with KCall _ t _ | KHave _ t _ | KUnl _ t _ | KTail _ t => Some t | _ => None end.
Definition khandler (p : pc) : option (nat * handler_id) :=
  match p with KCall _ t (Some h) | KHave _ t h | KUnl _ t h => Some (t, h) | _ => None end.
Definition kpre (p : pc) : option (nat * handler_id) :=
  match p with KCall _ t (Some h) | KHave _ t h => Some (t, h) | _ => None end.
Definition early (p : pc) : list nat :=
  match p with PReg _ _ _ got | PSleep _ _ got => got | _ => [] end.
Definition cset (p : pc) : list nat :=
  match p with PRel _ _ l | PDtor _ _ _ l => l | PUnreg _ _ todo => todo | _ => [] end.

Definition wf_pc (p : pc) : Prop :=
  NoDup (leaves p) /\ (forall t, In t (regset p) -> In t (leaves p)) /\
  match p with
  | PReg ls _ todo got => NoDup (got ++ todo) /\ (forall t, In t todo -> In t ls) /\ ls <> []
  | PSleep _ _ got => NoDup got /\ got <> []
  | PWoken _ got _ => NoDup got
  | PRel _ todo l => NoDup (todo ++ l)
  | PDtor _ _ todo l => NoDup (todo ++ l)
  | PUnreg _ _ todo => NoDup todo
  | _ => True
  end.

Record Inv (s : st) : Prop := {
  iO1 : forall w, holding (pcs s w) = true -> owner s = Some w;
  iO2 : forall w, owner s = Some w -> holding (pcs s w) = true;
  iH : forall t w n, handler (toks s t) = Some (w, n) -> In t (regset (pcs s w)) /\ calls s w = n;
  iR : forall t w, In t (regset (pcs s w)) -> cancelled (toks s t) = false -> handler (toks s t) = Some (w, calls s w);
  iL : forall t w, In t (leaves (pcs s w)) -> inuse (toks s t) = true;
  iU : forall t w w', In t (leaves (pcs s w)) -> In t (leaves (pcs s w')) -> w = w';
  iW : forall w, wf_pc (pcs s w);
  iC : forall t w, In t (cset (pcs s w)) -> cancelled (toks s t) = true;
  iK : forall k t, ktarget (pcs s k) = Some t -> cancelled (toks s t) = true /\ done (toks s t) = false;
  iKu : forall k k' t, ktarget (pcs s k) = Some t -> ktarget (pcs s k') = Some t -> k = k';
  iKh : forall k t w n, khandler (pcs s k) = Some (t, (w, n)) -> In t (regset (pcs s w)) /\ calls s w = n;
  iKx : forall t, cancelled (toks s t) = true -> done (toks s t) = false -> exists k, ktarget (pcs s k) = Some t;
  iE : forall t w, In t (early (pcs s w)) -> cancelled (toks s t) = true ->
         exists k, kpre (pcs s k) = Some (t, (w, calls s w));
  iD : forall t, done (toks s t) = true -> cancelled (toks s t) = true }.

Lemma inv_init : Inv init.
Proof. split; cbn; try discriminate; try contradiction; auto. intros w. repeat split; cbn; try constructor; auto. Qed.

(** facts about projections *)
Lemma khandler_target p t h : khandler p = Some (t, h) -> ktarget p = Some t.
Proof. destruct p; cbn; try discriminate; try congruence. destruct h0; congruence. Qed.
Lemma kpre_handler p x : kpre p = Some x -> khandler p = Some x.
Proof. destruct p; cbn; try discriminate; auto. Qed.

(** ** steps that only move a thread (and perhaps the mutex) *)
Lemma move_inv s w p' o' : Inv s ->
  leaves p' = leaves (pcs s w) -> (forall t, In t (regset p') <-> In t (regset (pcs s w))) ->
  ktarget p' = ktarget (pcs s w) ->
  (forall x, khandler p' = Some x -> khandler (pcs s w) = Some x) ->
  (forall x, kpre (pcs s w) = Some x -> kpre p' = Some x) ->
  (forall t, In t (early p') -> In t (early (pcs s w))) ->
  (forall t, In t (cset p') -> cancelled (toks s t) = true) ->
  wf_pc p' ->
  (if holding p' then o' = Some w /\ (owner s = None \/ owner s = Some w)
   else (o' = None /\ owner s = Some w) \/ (o' = owner s /\ owner s <> Some w)) ->
  Inv (set_owner (set_pc s w p') o').
Proof.
  intros I L R KT KH KP E C W O.
  split; cbn.
  - intros v. destruct (Nat.eq_dec v w) as [->|N]; [rewrite fupd_same|rewrite fupd_other by assumption]; intros Hv.
    + rewrite Hv in O. tauto.
    + pose proof (iO1 _ I v Hv). destruct (holding p').
      * destruct O as [_ [O|O]]; congruence.
      * destruct O as [[_ O]|[O _]]; congruence.
  - intros v Ho. destruct (Nat.eq_dec v w) as [->|N]; [rewrite fupd_same|rewrite fupd_other by assumption].
    + destruct (holding p'); [reflexivity|]. destruct O as [[O _]|[O O']]; congruence.
    + apply (iO2 _ I). destruct (holding p'); [destruct O as [O _]; congruence|].
      destruct O as [[O _]|[O O']]; congruence.
  - intros t v n H. destruct (iH _ I t v n H) as [A B]. split; [|exact B].
    destruct (Nat.eq_dec v w) as [->|N]; [rewrite fupd_same|rewrite fupd_other by assumption]; [now apply R|exact A].
  - intros t v. destruct (Nat.eq_dec v w) as [->|N]; [rewrite fupd_same|rewrite fupd_other by assumption];
      intros A; apply (iR _ I); [now apply R|exact A].
  - intros t v. destruct (Nat.eq_dec v w) as [->|N]; [rewrite fupd_same, L|rewrite fupd_other by assumption]; apply (iL _ I).
  - intros t v v'. pose proof (iU _ I t v v').
    destruct (Nat.eq_dec v w) as [->|N]; [rewrite fupd_same, L|rewrite fupd_other by assumption];
    (destruct (Nat.eq_dec v' w) as [->|N']; [rewrite fupd_same, L|rewrite fupd_other by assumption]); auto.
  - intros v. destruct (Nat.eq_dec v w) as [->|N]; [now rewrite fupd_same|rewrite fupd_other by assumption; apply (iW _ I)].
  - intros t v. destruct (Nat.eq_dec v w) as [->|N]; [rewrite fupd_same; apply C|rewrite fupd_other by assumption; apply (iC _ I)].
  - intros k t. destruct (Nat.eq_dec k w) as [->|N]; [rewrite fupd_same, KT|rewrite fupd_other by assumption]; apply (iK _ I).
  - intros k k' t. pose proof (iKu _ I k k' t).
    destruct (Nat.eq_dec k w) as [->|N]; [rewrite fupd_same, KT|rewrite fupd_other by assumption];
    (destruct (Nat.eq_dec k' w) as [->|N']; [rewrite fupd_same, KT|rewrite fupd_other by assumption]); auto.
  - intros k t v n H. assert (H' : khandler (pcs s k) = Some (t, (v, n))).
    { revert H. destruct (Nat.eq_dec k w) as [->|N]; [rewrite fupd_same; apply KH|now rewrite fupd_other by assumption]. }
    destruct (iKh _ I k t v n H') as [A B]. split; [|exact B].
    destruct (Nat.eq_dec v w) as [->|N]; [rewrite fupd_same; now apply R|now rewrite fupd_other by assumption].
  - intros t A B. destruct (iKx _ I t A B) as [k Hk]. exists k.
    destruct (Nat.eq_dec k w) as [->|N]; [now rewrite fupd_same, KT|now rewrite fupd_other by assumption].
  - intros t v A B.
    assert (A' : In t (early (pcs s v))).
    { revert A. destruct (Nat.eq_dec v w) as [->|N]; [rewrite fupd_same; apply E|now rewrite fupd_other by assumption]. }
    destruct (iE _ I t v A' B) as [k Hk]. exists k.
    destruct (Nat.eq_dec k w) as [->|N]; [rewrite fupd_same; now apply KP|now rewrite fupd_other by assumption].
  - apply (iD _ I).
Qed.

Lemma set_owner_same s w p : set_owner (set_pc s w p) (owner s) = set_pc s w p.
Proof. reflexivity. Qed.

(** ** broadcast *)
Lemma wake_leaves f v : leaves (wake_all f v) = leaves (f v).
Proof. unfold wake_all. now destruct (f v). Qed.
Lemma wake_regset f v : regset (wake_all f v) = regset (f v).
Proof. unfold wake_all. now destruct (f v). Qed.
Lemma wake_holding f v : holding (wake_all f v) = holding (f v).
Proof. unfold wake_all. now destruct (f v). Qed.
Lemma wake_ktarget f v : ktarget (wake_all f v) = ktarget (f v).
Proof. unfold wake_all. now destruct (f v). Qed.
Lemma wake_khandler f v : khandler (wake_all f v) = khandler (f v).
Proof. unfold wake_all. now destruct (f v). Qed.
Lemma wake_kpre f v : kpre (wake_all f v) = kpre (f v).
Proof. unfold wake_all. now destruct (f v). Qed.
Lemma wake_cset f v : cset (wake_all f v) = cset (f v).
Proof. unfold wake_all. now destruct (f v). Qed.
Lemma wake_early f v t : In t (early (wake_all f v)) -> In t (early (f v)) /\ holding (f v) = true.
Proof. unfold wake_all. destruct (f v); cbn; tauto. Qed.
Lemma wake_wf f v : wf_pc (f v) -> wf_pc (wake_all f v).
Proof. unfold wake_all, wf_pc. destruct (f v); cbn; tauto. Qed.
Lemma wake_not_sleep f v ls tm got : wake_all f v <> PSleep ls tm got.
Proof. unfold wake_all. destruct (f v); discriminate. Qed.

Lemma broadcast_inv s : Inv s -> Inv (broadcast s).
Proof.
  intros I. split; cbn; intros *; rewrite ?wake_leaves, ?wake_regset, ?wake_holding, ?wake_ktarget, ?wake_khandler, ?wake_cset.
  - apply (iO1 _ I). - apply (iO2 _ I). - apply (iH _ I). - apply (iR _ I). - apply (iL _ I). - apply (iU _ I).
  - apply wake_wf, (iW _ I). - apply (iC _ I). - apply (iK _ I). - apply (iKu _ I). - apply (iKh _ I).
  - intros A B. destruct (iKx _ I t A B) as [k Hk]. exists k. now rewrite wake_ktarget.
  - intros A B. apply wake_early in A. destruct A as [A _]. destruct (iE _ I t w A B) as [k Hk]. exists k. now rewrite wake_kpre.
  - apply (iD _ I).
Qed.

(** the handler's broadcast *)
Lemma khave_inv s k b t h : Inv s -> pcs s k = KHave b t h ->
  Inv (logged (set_pc (broadcast s) k (KUnl b t h)) (EHandled (fst h) (snd h) t)).
Proof.
  intros I P. pose proof (broadcast_inv s I) as B.
  assert (P' : pcs (broadcast s) k = KHave b t h) by (cbn; unfold wake_all; now rewrite P).
  split; cbn -[broadcast].
  - intros v. destruct (Nat.eq_dec v k) as [->|N]; [rewrite fupd_same|rewrite fupd_other by assumption]; [|apply (iO1 _ B)].
    intros _. apply (iO1 _ B). now rewrite P'.
  - intros v. destruct (Nat.eq_dec v k) as [->|N]; [rewrite fupd_same|rewrite fupd_other by assumption]; [reflexivity|apply (iO2 _ B)].
  - intros t' v n H. destruct (iH _ B t' v n H) as [A D]. split; [|exact D].
    destruct (Nat.eq_dec v k) as [->|N]; [rewrite P' in A; destruct A|now rewrite fupd_other by assumption].
  - intros t' v. destruct (Nat.eq_dec v k) as [->|N]; [rewrite fupd_same; intros []|rewrite fupd_other by assumption; apply (iR _ B)].
  - intros t' v. destruct (Nat.eq_dec v k) as [->|N]; [rewrite fupd_same; intros []|rewrite fupd_other by assumption; apply (iL _ B)].
  - intros t' v v'. destruct (Nat.eq_dec v k) as [->|N]; [rewrite fupd_same; intros []|rewrite fupd_other by assumption].
    destruct (Nat.eq_dec v' k) as [->|N']; [rewrite fupd_same; intros _ []|rewrite fupd_other by assumption; apply (iU _ B)].
  - intros v. destruct (Nat.eq_dec v k) as [->|N]; [rewrite fupd_same|rewrite fupd_other by assumption; apply (iW _ B)].
    repeat split; cbn; try constructor; tauto.
  - intros t' v. destruct (Nat.eq_dec v k) as [->|N]; [rewrite fupd_same; intros []|rewrite fupd_other by assumption; apply (iC _ B)].
  - intros v t'. destruct (Nat.eq_dec v k) as [->|N]; [rewrite fupd_same|rewrite fupd_other by assumption; apply (iK _ B)].
    intros E. apply (iK _ B k). now rewrite P'.
  - intros v v' t'.
    assert (Q : forall u, ktarget (fupd (pcs (broadcast s)) k (KUnl b t h) u) = Some t' -> ktarget (pcs (broadcast s) u) = Some t').
    { intros u. destruct (Nat.eq_dec u k) as [->|N]; [rewrite fupd_same, P'; auto|now rewrite fupd_other by assumption]. }
    intros A D. apply (iKu _ B v v' t'); now apply Q.
  - intros v t' w n E.
    assert (Q : khandler (pcs (broadcast s) v) = Some (t', (w, n))).
    { revert E. destruct (Nat.eq_dec v k) as [->|N]; [rewrite fupd_same, P'; auto|now rewrite fupd_other by assumption]. }
    destruct (iKh _ B _ _ _ _ Q) as [A D]. split; [|exact D].
    destruct (Nat.eq_dec w k) as [->|N]; [rewrite P' in A; destruct A|now rewrite fupd_other by assumption].
  - intros t' A D. destruct (iKx _ B t' A D) as [v Hv]. exists v.
    destruct (Nat.eq_dec v k) as [->|N]; [rewrite fupd_same; rewrite P' in Hv; exact Hv|now rewrite fupd_other by assumption].
  - (* nobody is early now: sleepers are woken, and k holds the mutex *)
    intros t' v A D. destruct (Nat.eq_dec v k) as [->|N]; [rewrite fupd_same in A; destruct A|].
    rewrite fupd_other in A by assumption. cbn in A. apply wake_early in A. destruct A as [_ A].
    pose proof (iO1 _ I v A) as O1. assert (O2 : owner s = Some k) by (apply (iO1 _ I); now rewrite P).
    congruence.
  - apply (iD _ B).
Qed.

(** ** return *)
Lemma mem_In t ls : mem t ls = true <-> In t ls.
Proof.
  unfold mem. rewrite existsb_exists. split; [intros (x & A & B); apply Nat.eqb_eq in B; now subst|].
  intros A. exists t. split; [exact A|apply Nat.eqb_refl].
Qed.
Lemma nodup_NoDup ls : nodup ls = true <-> NoDup ls.
Proof.
  induction ls as [|t ls IH]; cbn; [split; [constructor|reflexivity]|].
  rewrite andb_true_iff, negb_true_iff, IH. split.
  - intros [A B]. constructor; [|exact B]. intros C. apply mem_In in C. congruence.
  - intros A. inversion A; subst. split; [|assumption]. destruct (mem t ls) eqn:E; [|reflexivity]. apply mem_In in E. contradiction.
Qed.

Lemma ret_inv s w ls r o' : Inv s -> leaves (pcs s w) = ls -> regset (pcs s w) = [] -> ktarget (pcs s w) = None ->
  (owner s = Some w \/ (owner s = None /\ holding (pcs s w) = false)) -> o' = Some w ->
  Inv (ret (set_owner s o') w ls r).
Proof.
  intros I L R KT O ->. assert (KH : khandler (pcs s w) = None).
  { destruct (khandler (pcs s w)) as [[t h]|] eqn:E; [|reflexivity]. apply khandler_target in E. congruence. }
  assert (KP : kpre (pcs s w) = None).
  { destruct (kpre (pcs s w)) as [x|] eqn:E; [|reflexivity]. apply kpre_handler in E. congruence. }
  set (tk' := fun t => if mem t ls then mk_tk (cancelled (toks s t)) (done (toks s t)) (handler (toks s t)) false else toks s t).
  assert (Tc : forall t, cancelled (tk' t) = cancelled (toks s t)) by (intros; unfold tk'; now destruct (mem t ls)).
  assert (Td : forall t, done (tk' t) = done (toks s t)) by (intros; unfold tk'; now destruct (mem t ls)).
  assert (Th : forall t, handler (tk' t) = handler (toks s t)) by (intros; unfold tk'; now destruct (mem t ls)).
  unfold ret, set_owner. cbn. fold tk'.
  split; cbn; setoid_rewrite Tc || setoid_rewrite Th || setoid_rewrite Td || idtac; try setoid_rewrite Tc; try setoid_rewrite Th; try setoid_rewrite Td.
  - intros v. destruct (Nat.eq_dec v w) as [->|N]; [reflexivity|rewrite fupd_other by assumption]. intros H.
    pose proof (iO1 _ I v H). destruct O as [O|[O _]]; congruence.
  - intros v [= ->]. now rewrite fupd_same.
  - intros t v n H. destruct (iH _ I t v n H) as [A D]. split; [|exact D].
    destruct (Nat.eq_dec v w) as [->|N]; [rewrite R in A; destruct A|now rewrite fupd_other by assumption].
  - intros t v. destruct (Nat.eq_dec v w) as [->|N]; [rewrite fupd_same; intros []|rewrite fupd_other by assumption; apply (iR _ I)].
  - intros t v. destruct (Nat.eq_dec v w) as [->|N]; [rewrite fupd_same; intros []|rewrite fupd_other by assumption].
    intros A. unfold tk'. destruct (mem t ls) eqn:M; [|apply (iL _ I t v A)].
    apply mem_In in M. subst ls. destruct N. eapply (iU _ I t); eassumption.
  - intros t v v'. destruct (Nat.eq_dec v w) as [->|N]; [rewrite fupd_same; intros []|rewrite fupd_other by assumption].
    destruct (Nat.eq_dec v' w) as [->|N']; [rewrite fupd_same; intros _ []|rewrite fupd_other by assumption; apply (iU _ I)].
  - intros v. destruct (Nat.eq_dec v w) as [->|N]; [rewrite fupd_same|rewrite fupd_other by assumption; apply (iW _ I)].
    repeat split; cbn; try constructor; tauto.
  - intros t v. destruct (Nat.eq_dec v w) as [->|N]; [rewrite fupd_same; intros []|rewrite fupd_other by assumption; apply (iC _ I)].
  - intros k t. destruct (Nat.eq_dec k w) as [->|N]; [rewrite fupd_same; discriminate|rewrite fupd_other by assumption; apply (iK _ I)].
  - intros k k' t. destruct (Nat.eq_dec k w) as [->|N]; [rewrite fupd_same; discriminate|rewrite fupd_other by assumption].
    destruct (Nat.eq_dec k' w) as [->|N']; [rewrite fupd_same; discriminate|rewrite fupd_other by assumption; apply (iKu _ I)].
  - intros k t v n. destruct (Nat.eq_dec k w) as [->|N]; [rewrite fupd_same; discriminate|rewrite fupd_other by assumption].
    intros E. destruct (iKh _ I _ _ _ _ E) as [A D]. split; [|exact D].
    destruct (Nat.eq_dec v w) as [->|N']; [rewrite R in A; destruct A|now rewrite fupd_other by assumption].
  - intros t A D. destruct (iKx _ I t A D) as [k Hk]. exists k.
    destruct (Nat.eq_dec k w) as [->|N]; [congruence|now rewrite fupd_other by assumption].
  - intros t v. destruct (Nat.eq_dec v w) as [->|N]; [rewrite fupd_same; intros []|rewrite fupd_other by assumption].
    intros A D. destruct (iE _ I t v A D) as [k Hk]. exists k.
    destruct (Nat.eq_dec k w) as [->|N']; [congruence|now rewrite fupd_other by assumption].
  - apply (iD _ I).
Qed.

Lemma set_owner_id s : set_owner s (owner s) = s.
Proof. now destruct s. Qed.

(** ** CallWait *)
Lemma call_inv s w ls tm : Inv s -> pcs s w = Hold -> NoDup ls -> ls <> [] ->
  (forall t, In t ls -> inuse (toks s t) = false) ->
  Inv (mk_st (fupd (pcs s) w (PReg ls tm ls [])) (owner s)
         (fun t => if mem t ls then mk_tk (cancelled (toks s t)) (done (toks s t)) (handler (toks s t)) true else toks s t)
         (fupd (calls s) w (S (calls s w))) (fupd (tmd s) w tm) (log s)).
Proof.
  intros I P ND NE U.
  set (tk' := fun t => if mem t ls then mk_tk (cancelled (toks s t)) (done (toks s t)) (handler (toks s t)) true else toks s t).
  assert (Tc : forall t, cancelled (tk' t) = cancelled (toks s t)) by (intros; unfold tk'; now destruct (mem t ls)).
  assert (Td : forall t, done (tk' t) = done (toks s t)) by (intros; unfold tk'; now destruct (mem t ls)).
  assert (Th : forall t, handler (tk' t) = handler (toks s t)) by (intros; unfold tk'; now destruct (mem t ls)).
  split; cbn; try setoid_rewrite Tc; try setoid_rewrite Th; try setoid_rewrite Td.
  - intros v. destruct (Nat.eq_dec v w) as [->|N]; [intros _|rewrite fupd_other by assumption; apply (iO1 _ I)].
    apply (iO1 _ I). now rewrite P.
  - intros v. destruct (Nat.eq_dec v w) as [->|N]; [now rewrite fupd_same|rewrite fupd_other by assumption; apply (iO2 _ I)].
  - intros t v n H. destruct (iH _ I t v n H) as [A D].
    destruct (Nat.eq_dec v w) as [->|N]; [rewrite P in A; destruct A|]. rewrite !fupd_other by assumption. auto.
  - intros t v. destruct (Nat.eq_dec v w) as [->|N]; [rewrite fupd_same; intros []|rewrite !fupd_other by assumption; apply (iR _ I)].
  - intros t v. unfold tk'. destruct (mem t ls) eqn:M; [reflexivity|].
    destruct (Nat.eq_dec v w) as [->|N]; [rewrite fupd_same; cbn; intros A; apply mem_In in A; congruence|].
    rewrite fupd_other by assumption. apply (iL _ I).
  - assert (Q : forall t v, v <> w -> In t ls -> In t (leaves (pcs s v)) -> False).
    { intros t v N A B. apply (iL _ I) in B. rewrite (U t A) in B. discriminate. }
    intros t v v'. destruct (Nat.eq_dec v w) as [->|N]; [rewrite fupd_same|rewrite fupd_other by assumption];
    (destruct (Nat.eq_dec v' w) as [->|N']; [rewrite fupd_same|rewrite fupd_other by assumption]); cbn; auto.
    + intros A B. destruct (Q t v' N' A B).
    + intros A B. destruct (Q t v N B A).
    + apply (iU _ I).
  - intros v. destruct (Nat.eq_dec v w) as [->|N]; [rewrite fupd_same|rewrite fupd_other by assumption; apply (iW _ I)].
    repeat split; cbn; auto; contradiction.
  - intros t v. destruct (Nat.eq_dec v w) as [->|N]; [rewrite fupd_same; intros []|rewrite fupd_other by assumption; apply (iC _ I)].
  - intros k t. destruct (Nat.eq_dec k w) as [->|N]; [rewrite fupd_same; discriminate|rewrite fupd_other by assumption; apply (iK _ I)].
  - intros k k' t. destruct (Nat.eq_dec k w) as [->|N]; [rewrite fupd_same; discriminate|rewrite fupd_other by assumption].
    destruct (Nat.eq_dec k' w) as [->|N']; [rewrite fupd_same; discriminate|rewrite fupd_other by assumption; apply (iKu _ I)].
  - intros k t v n. destruct (Nat.eq_dec k w) as [->|N]; [rewrite fupd_same; discriminate|rewrite fupd_other by assumption].
    intros E. destruct (iKh _ I _ _ _ _ E) as [A D].
    destruct (Nat.eq_dec v w) as [->|N']; [rewrite P in A; destruct A|now rewrite !fupd_other by assumption].
  - intros t A D. destruct (iKx _ I t A D) as [k Hk]. exists k.
    destruct (Nat.eq_dec k w) as [->|N]; [rewrite P in Hk; discriminate|now rewrite fupd_other by assumption].
  - intros t v. destruct (Nat.eq_dec v w) as [->|N]; [rewrite fupd_same; intros []|rewrite !fupd_other by assumption].
    intros A D. destruct (iE _ I t v A D) as [k Hk]. exists k.
    destruct (Nat.eq_dec k w) as [->|N']; [rewrite P in Hk; discriminate|now rewrite fupd_other by assumption].
  - apply (iD _ I).
Qed.

(** ** Cancel: its first critical section *)
Lemma cancel_inv s w t (b : bool) : Inv s -> (pcs s w = if b then Hold else Idle) -> cancelled (toks s t) = false ->
  Inv (set_tok (set_pc s w (KCall b t (handler (toks s t)))) t
         (mk_tk true (done (toks s t)) (handler (toks s t)) (inuse (toks s t)))).
Proof.
  intros I P Cn.
  assert (Dn : done (toks s t) = false).
  { destruct (done (toks s t)) eqn:E; [|reflexivity]. apply (iD _ I) in E. congruence. }
  assert (PL : leaves (pcs s w) = [] /\ regset (pcs s w) = [] /\ ktarget (pcs s w) = None /\ khandler (pcs s w) = None /\
               kpre (pcs s w) = None /\ early (pcs s w) = [] /\ holding (pcs s w) = b) by (rewrite P; destruct b; repeat split).
  destruct PL as (PL & PR & PT & PH & PP & PE & PO).
  set (K := KCall b t (handler (toks s t))).
  set (tk' := fupd (toks s) t (mk_tk true (done (toks s t)) (handler (toks s t)) (inuse (toks s t)))).
  assert (Th : forall u, handler (tk' u) = handler (toks s u)).
  { intros u. unfold tk'. destruct (Nat.eq_dec u t) as [->|N]; [now rewrite fupd_same|now rewrite fupd_other]. }
  assert (Ti : forall u, inuse (tk' u) = inuse (toks s u)).
  { intros u. unfold tk'. destruct (Nat.eq_dec u t) as [->|N]; [now rewrite fupd_same|now rewrite fupd_other]. }
  assert (Td : forall u, done (tk' u) = done (toks s u)).
  { intros u. unfold tk'. destruct (Nat.eq_dec u t) as [->|N]; [now rewrite fupd_same|now rewrite fupd_other]. }
  assert (Tc : forall u, u <> t -> cancelled (tk' u) = cancelled (toks s u)).
  { intros u N. unfold tk'. now rewrite fupd_other. }
  assert (Tt : cancelled (tk' t) = true) by (unfold tk'; now rewrite fupd_same).
  assert (Tm : forall u, cancelled (toks s u) = true -> cancelled (tk' u) = true).
  { intros u E. destruct (Nat.eq_dec u t) as [->|N]; [exact Tt|now rewrite Tc]. }
  assert (KR : regset K = []) by reflexivity. assert (KL : leaves K = []) by reflexivity.
  split; cbn; fold K; fold tk'; try setoid_rewrite Th; try setoid_rewrite Td; try setoid_rewrite Ti.
  - intros v. destruct (Nat.eq_dec v w) as [->|N]; [rewrite fupd_same|rewrite fupd_other by assumption; apply (iO1 _ I)].
    unfold K. cbn. intros Hb. apply (iO1 _ I). rewrite PO. now destruct b.
  - intros v. destruct (Nat.eq_dec v w) as [->|N]; [rewrite fupd_same|rewrite fupd_other by assumption; apply (iO2 _ I)].
    intros O. apply (iO2 _ I) in O. unfold K. cbn. rewrite PO in O. now rewrite O.
  - intros u v n H. destruct (iH _ I u v n H) as [A D]. split; [|exact D].
    destruct (Nat.eq_dec v w) as [->|N]; [rewrite PR in A; destruct A|now rewrite fupd_other by assumption].
  - intros u v. destruct (Nat.eq_dec v w) as [->|N]; [rewrite fupd_same; intros []|rewrite fupd_other by assumption].
    intros A B. apply (iR _ I); [exact A|]. destruct (cancelled (toks s u)) eqn:E; [|reflexivity].
    apply Tm in E. congruence.
  - intros u v. destruct (Nat.eq_dec v w) as [->|N]; [rewrite fupd_same; intros []|rewrite fupd_other by assumption; apply (iL _ I)].
  - intros u v v'. destruct (Nat.eq_dec v w) as [->|N]; [rewrite fupd_same; intros []|rewrite fupd_other by assumption].
    destruct (Nat.eq_dec v' w) as [->|N']; [rewrite fupd_same; intros _ []|rewrite fupd_other by assumption; apply (iU _ I)].
  - intros v. destruct (Nat.eq_dec v w) as [->|N]; [rewrite fupd_same|rewrite fupd_other by assumption; apply (iW _ I)].
    repeat split; cbn; try constructor; tauto.
  - intros u v. destruct (Nat.eq_dec v w) as [->|N]; [rewrite fupd_same; intros []|rewrite fupd_other by assumption].
    intros A. apply Tm. now apply (iC _ I u v).
  - intros k u. destruct (Nat.eq_dec k w) as [->|N]; [rewrite fupd_same|rewrite fupd_other by assumption].
    + unfold K. cbn. intros [= <-]. auto.
    + intros E. destruct (iK _ I k u E). split; [now apply Tm|assumption].
  - assert (Q : forall k, ktarget (pcs s k) = Some t -> False).
    { intros k E. apply (iK _ I) in E. destruct E. congruence. }
    intros k k' u. destruct (Nat.eq_dec k w) as [->|N]; [rewrite fupd_same|rewrite fupd_other by assumption];
    (destruct (Nat.eq_dec k' w) as [->|N']; [rewrite fupd_same|rewrite fupd_other by assumption]); auto.
    + unfold K at 1. cbn. intros [= <-] E. destruct (Q _ E).
    + unfold K. cbn. intros E [= <-]. destruct (Q _ E).
    + apply (iKu _ I).
  - intros k u v n. destruct (Nat.eq_dec k w) as [->|N]; [rewrite fupd_same|rewrite fupd_other by assumption].
    + unfold K. cbn. intros E. destruct (handler (toks s t)) as [h|] eqn:Eh; [|discriminate].
      injection E as <- ->. destruct (iH _ I _ _ _ Eh) as [A D]. split; [|exact D].
      destruct (Nat.eq_dec v w) as [->|N']; [rewrite PR in A; destruct A|now rewrite fupd_other by assumption].
    + intros E. destruct (iKh _ I _ _ _ _ E) as [A D]. split; [|exact D].
      destruct (Nat.eq_dec v w) as [->|N']; [rewrite PR in A; destruct A|now rewrite fupd_other by assumption].
  - intros u A D. destruct (Nat.eq_dec u t) as [->|N].
    + exists w. now rewrite fupd_same.
    + rewrite Tc in A by assumption. destruct (iKx _ I u A D) as [k Hk]. exists k.
      destruct (Nat.eq_dec k w) as [->|N']; [congruence|now rewrite fupd_other by assumption].
  - intros u v. destruct (Nat.eq_dec v w) as [->|N]; [rewrite fupd_same; intros []|rewrite fupd_other by assumption].
    intros A B. destruct (Nat.eq_dec u t) as [->|N'].
    + exists w. rewrite fupd_same. unfold K. cbn.
      assert (Rg : In t (regset (pcs s v))) by (destruct (pcs s v); cbn in *; tauto).
      now rewrite (iR _ I t v Rg Cn).
    + rewrite Tc in B by assumption. destruct (iE _ I u v A B) as [k Hk]. exists k.
      destruct (Nat.eq_dec k w) as [->|N'']; [congruence|now rewrite fupd_other by assumption].
  - intros u E. apply Tm. now apply (iD _ I).
Qed.

(** ** Cancel: its last critical section *)
Lemma tail_inv s k (b : bool) t : Inv s -> pcs s k = KTail b t ->
  Inv (set_tok (set_pc s k (if b then Hold else Idle)) t
         (mk_tk (cancelled (toks s t)) true (handler (toks s t)) (inuse (toks s t)))).
Proof.
  intros I P. assert (KT : ktarget (pcs s k) = Some t) by now rewrite P.
  destruct (iK _ I k t KT) as [Cn Dn].
  set (p' := if b then Hold else Idle).
  assert (p'_facts : leaves p' = [] /\ regset p' = [] /\ ktarget p' = None /\ khandler p' = None /\ kpre p' = None /\
                     early p' = [] /\ cset p' = [] /\ holding p' = b) by (unfold p'; destruct b; repeat split).
  destruct p'_facts as (FL & FR & FT & FH & FP & FE & FC & FO).
  set (tk' := fupd (toks s) t (mk_tk (cancelled (toks s t)) true (handler (toks s t)) (inuse (toks s t)))).
  assert (Th : forall u, handler (tk' u) = handler (toks s u)).
  { intros u. unfold tk'. destruct (Nat.eq_dec u t) as [->|N]; [now rewrite fupd_same|now rewrite fupd_other]. }
  assert (Ti : forall u, inuse (tk' u) = inuse (toks s u)).
  { intros u. unfold tk'. destruct (Nat.eq_dec u t) as [->|N]; [now rewrite fupd_same|now rewrite fupd_other]. }
  assert (Tc : forall u, cancelled (tk' u) = cancelled (toks s u)).
  { intros u. unfold tk'. destruct (Nat.eq_dec u t) as [->|N]; [now rewrite fupd_same|now rewrite fupd_other]. }
  assert (Td : forall u, u <> t -> done (tk' u) = done (toks s u)).
  { intros u N. unfold tk'. now rewrite fupd_other. }
  split; cbn; fold p'; fold tk'; try setoid_rewrite Th; try setoid_rewrite Tc; try setoid_rewrite Ti.
  - intros v. destruct (Nat.eq_dec v k) as [->|N]; [rewrite fupd_same, FO|rewrite fupd_other by assumption; apply (iO1 _ I)].
    intros ->. apply (iO1 _ I). now rewrite P.
  - intros v. destruct (Nat.eq_dec v k) as [->|N]; [rewrite fupd_same, FO|rewrite fupd_other by assumption; apply (iO2 _ I)].
    intros O. apply (iO2 _ I) in O. rewrite P in O. cbn in O. now destruct b.
  - intros u v n H. destruct (iH _ I u v n H) as [A D]. split; [|exact D].
    destruct (Nat.eq_dec v k) as [->|N]; [rewrite P in A; destruct A|now rewrite fupd_other by assumption].
  - intros u v. destruct (Nat.eq_dec v k) as [->|N]; [rewrite fupd_same, FR; intros []|rewrite fupd_other by assumption; apply (iR _ I)].
  - intros u v. destruct (Nat.eq_dec v k) as [->|N]; [rewrite fupd_same, FL; intros []|rewrite fupd_other by assumption; apply (iL _ I)].
  - intros u v v'. destruct (Nat.eq_dec v k) as [->|N]; [rewrite fupd_same, FL; intros []|rewrite fupd_other by assumption].
    destruct (Nat.eq_dec v' k) as [->|N']; [rewrite fupd_same, FL; intros _ []|rewrite fupd_other by assumption; apply (iU _ I)].
  - intros v. destruct (Nat.eq_dec v k) as [->|N]; [rewrite fupd_same|rewrite fupd_other by assumption; apply (iW _ I)].
    unfold p'. destruct b; repeat split; cbn; try constructor; tauto.
  - intros u v. destruct (Nat.eq_dec v k) as [->|N]; [rewrite fupd_same, FC; intros []|rewrite fupd_other by assumption; apply (iC _ I)].
  - intros v u. destruct (Nat.eq_dec v k) as [->|N]; [rewrite fupd_same, FT; discriminate|rewrite fupd_other by assumption].
    intros E. destruct (iK _ I v u E). split; [assumption|].
    rewrite Td; [assumption|]. intros ->. apply N. eapply (iKu _ I); eassumption.
  - intros v v' u. destruct (Nat.eq_dec v k) as [->|N]; [rewrite fupd_same, FT; discriminate|rewrite fupd_other by assumption].
    destruct (Nat.eq_dec v' k) as [->|N']; [rewrite fupd_same, FT; discriminate|rewrite fupd_other by assumption; apply (iKu _ I)].
  - intros v u w n. destruct (Nat.eq_dec v k) as [->|N]; [rewrite fupd_same, FH; discriminate|rewrite fupd_other by assumption].
    intros E. destruct (iKh _ I _ _ _ _ E) as [A D]. split; [|exact D].
    destruct (Nat.eq_dec w k) as [->|N']; [rewrite P in A; destruct A|now rewrite fupd_other by assumption].
  - intros u A D. assert (N : u <> t) by (intros ->; unfold tk' in D; rewrite fupd_same in D; discriminate).
    rewrite Td in D by assumption. destruct (iKx _ I u A D) as [v Hv]. exists v.
    destruct (Nat.eq_dec v k) as [->|N']; [congruence|now rewrite fupd_other by assumption].
  - intros u v. destruct (Nat.eq_dec v k) as [->|N]; [rewrite fupd_same, FE; intros []|rewrite fupd_other by assumption].
    intros A B. destruct (iE _ I u v A B) as [k' Hk]. exists k'.
    destruct (Nat.eq_dec k' k) as [->|N']; [rewrite P in Hk; discriminate|now rewrite fupd_other by assumption].
  - intros u. destruct (Nat.eq_dec u t) as [->|N]; [auto|rewrite Td by assumption; apply (iD _ I)].
Qed.

(** ** registering a leaf *)
Lemma reg_inv s w ls tm t todo got : Inv s -> pcs s w = PReg ls tm (t :: todo) got ->
  cancelled (toks s t) = false -> handler (toks s t) = None ->
  Inv (set_tok (set_pc s w (PReg ls tm todo (got ++ [t]))) t (with_handler (toks s t) (Some (w, calls s w)))).
Proof.
  intros I P Cn Hn. pose proof (iW _ I w) as W. rewrite P in W. destruct W as (W1 & W2 & W3 & W4 & W5). cbn in W1, W2.
  set (p' := PReg ls tm todo (got ++ [t])).
  set (tk' := fupd (toks s) t (with_handler (toks s t) (Some (w, calls s w)))).
  assert (Tc : forall u, cancelled (tk' u) = cancelled (toks s u)).
  { intros u. unfold tk'. destruct (Nat.eq_dec u t) as [->|N]; [now rewrite fupd_same|now rewrite fupd_other]. }
  assert (Td : forall u, done (tk' u) = done (toks s u)).
  { intros u. unfold tk'. destruct (Nat.eq_dec u t) as [->|N]; [now rewrite fupd_same|now rewrite fupd_other]. }
  assert (Ti : forall u, inuse (tk' u) = inuse (toks s u)).
  { intros u. unfold tk'. destruct (Nat.eq_dec u t) as [->|N]; [now rewrite fupd_same|now rewrite fupd_other]. }
  assert (Tt : handler (tk' t) = Some (w, calls s w)) by (unfold tk'; now rewrite fupd_same).
  assert (Th : forall u, u <> t -> handler (tk' u) = handler (toks s u)) by (intros u N; unfold tk'; now rewrite fupd_other).
  assert (PT : ktarget (pcs s w) = None) by now rewrite P.
  assert (tls : In t ls) by (apply W4; now left).
  (* t is registered with nobody else *)
  assert (NR : forall v, v <> w -> ~ In t (regset (pcs s v))).
  { intros v N A. destruct (iW _ I v) as (_ & B & _). apply B in A. apply N. apply (iU _ I t v w A). now rewrite P. }
  split; cbn; fold p'; fold tk'; try setoid_rewrite Tc; try setoid_rewrite Td; try setoid_rewrite Ti.
  - intros v. destruct (Nat.eq_dec v w) as [->|N]; [intros _; apply (iO1 _ I); now rewrite P|rewrite fupd_other by assumption; apply (iO1 _ I)].
  - intros v. destruct (Nat.eq_dec v w) as [->|N]; [now rewrite fupd_same|rewrite fupd_other by assumption; apply (iO2 _ I)].
  - intros u v n. destruct (Nat.eq_dec u t) as [->|N].
    + rewrite Tt. intros [= <- <-]. rewrite fupd_same. cbn. split; [apply in_or_app; right; now left|reflexivity].
    + rewrite Th by assumption. intros H. destruct (iH _ I u v n H) as [A D]. split; [|exact D].
      destruct (Nat.eq_dec v w) as [->|N']; [rewrite fupd_same|now rewrite fupd_other by assumption].
      rewrite P in A. cbn in *. apply in_or_app. now left.
  - intros u v. destruct (Nat.eq_dec u t) as [->|N].
    + destruct (Nat.eq_dec v w) as [->|N']; [intros _ _; exact Tt|]. rewrite fupd_other by assumption.
      intros A. destruct (NR v N' A).
    + rewrite Th by assumption. destruct (Nat.eq_dec v w) as [->|N']; [rewrite fupd_same|rewrite fupd_other by assumption; apply (iR _ I)].
      cbn. intros A. apply (iR _ I). rewrite P. cbn. apply in_app_or in A. destruct A as [A|[A|[]]]; [exact A|congruence].
  - intros u v. destruct (Nat.eq_dec v w) as [->|N]; [rewrite fupd_same|rewrite fupd_other by assumption; apply (iL _ I)].
    cbn. intros A. apply (iL _ I u w). now rewrite P.
  - intros u v v'. pose proof (iU _ I u v v') as Q.
    destruct (Nat.eq_dec v w) as [->|N]; [rewrite fupd_same; rewrite P in Q; cbn in Q|rewrite fupd_other by assumption];
    (destruct (Nat.eq_dec v' w) as [->|N']; [rewrite fupd_same; try rewrite P in Q; cbn in Q|rewrite fupd_other by assumption]); auto.
  - intros v. destruct (Nat.eq_dec v w) as [->|N]; [rewrite fupd_same|rewrite fupd_other by assumption; apply (iW _ I)].
    repeat split; cbn; auto.
    + intros u A. apply in_app_or in A. destruct A as [A|[A|[]]]; [apply W2; exact A|congruence].
    + rewrite <- app_assoc. exact W3.
    + intros u A. apply W4. now right.
  - intros u v. destruct (Nat.eq_dec v w) as [->|N]; [rewrite fupd_same; intros []|rewrite fupd_other by assumption; apply (iC _ I)].
  - intros k u. destruct (Nat.eq_dec k w) as [->|N]; [rewrite fupd_same; discriminate|rewrite fupd_other by assumption; apply (iK _ I)].
  - intros k k' u. destruct (Nat.eq_dec k w) as [->|N]; [rewrite fupd_same; discriminate|rewrite fupd_other by assumption].
    destruct (Nat.eq_dec k' w) as [->|N']; [rewrite fupd_same; discriminate|rewrite fupd_other by assumption; apply (iKu _ I)].
  - intros k u v n. destruct (Nat.eq_dec k w) as [->|N]; [rewrite fupd_same; discriminate|rewrite fupd_other by assumption].
    intros E. destruct (iKh _ I _ _ _ _ E) as [A D]. split; [|exact D].
    destruct (Nat.eq_dec v w) as [->|N']; [rewrite fupd_same|now rewrite fupd_other by assumption].
    rewrite P in A. cbn in *. apply in_or_app. now left.
  - intros u A D. destruct (iKx _ I u A D) as [k Hk]. exists k.
    destruct (Nat.eq_dec k w) as [->|N]; [congruence|now rewrite fupd_other by assumption].
  - intros u v A B. assert (u <> t) by congruence.
    assert (A' : In u (early (pcs s v))).
    { revert A. destruct (Nat.eq_dec v w) as [->|N]; [rewrite fupd_same|now rewrite fupd_other by assumption].
      rewrite P. cbn. intros A. apply in_app_or in A. destruct A as [A|[A|[]]]; [exact A|congruence]. }
    destruct (iE _ I u v A' B) as [k Hk]. exists k.
    destruct (Nat.eq_dec k w) as [->|N']; [rewrite P in Hk; discriminate|now rewrite fupd_other by assumption].
  - apply (iD _ I).
Qed.

(** ** unregistering a leaf (TryUnregister of Release and of the destructor, and Unregister) *)
Lemma unreg_inv s w p' t : Inv s ->
  leaves p' = leaves (pcs s w) -> ktarget (pcs s w) = None -> ktarget p' = None -> early p' = [] -> wf_pc p' ->
  holding p' = holding (pcs s w) -> In t (regset (pcs s w)) ->
  (forall u, u <> t -> (In u (regset p') <-> In u (regset (pcs s w)))) ->
  (forall u, In u (cset p') -> In u (cset (pcs s w)) \/ cancelled (toks s u) = true) ->
  ((In t (regset p') /\ cancelled (toks s t) = true) \/
   (~ In t (regset p') /\ (cancelled (toks s t) = false \/ done (toks s t) = true))) ->
  Inv (set_tok (set_pc s w p') t (with_handler (toks s t) None)).
Proof.
  intros I L PT PT' E W O Rt R C T.
  assert (KH : khandler (pcs s w) = None).
  { destruct (khandler (pcs s w)) as [[u h]|] eqn:E'; [|reflexivity]. apply khandler_target in E'. congruence. }
  assert (KH' : khandler p' = None).
  { destruct (khandler p') as [[u h]|] eqn:E'; [|reflexivity]. apply khandler_target in E'. congruence. }
  assert (KP : kpre (pcs s w) = None).
  { destruct (kpre (pcs s w)) as [x|] eqn:E'; [|reflexivity]. apply kpre_handler in E'. congruence. }
  set (tk' := fupd (toks s) t (with_handler (toks s t) None)).
  assert (Tc : forall u, cancelled (tk' u) = cancelled (toks s u)).
  { intros u. unfold tk'. destruct (Nat.eq_dec u t) as [->|N]; [now rewrite fupd_same|now rewrite fupd_other]. }
  assert (Td : forall u, done (tk' u) = done (toks s u)).
  { intros u. unfold tk'. destruct (Nat.eq_dec u t) as [->|N]; [now rewrite fupd_same|now rewrite fupd_other]. }
  assert (Ti : forall u, inuse (tk' u) = inuse (toks s u)).
  { intros u. unfold tk'. destruct (Nat.eq_dec u t) as [->|N]; [now rewrite fupd_same|now rewrite fupd_other]. }
  assert (Tt : handler (tk' t) = None) by (unfold tk'; now rewrite fupd_same).
  assert (Th : forall u, u <> t -> handler (tk' u) = handler (toks s u)) by (intros u N; unfold tk'; now rewrite fupd_other).
  assert (NR : forall v, v <> w -> ~ In t (regset (pcs s v))).
  { intros v N A. destruct (iW _ I v) as (_ & B & _). apply B in A. apply N. apply (iU _ I t v w A).
    destruct (iW _ I w) as (_ & B' & _). now apply B'. }
  split; cbn; fold tk'; try setoid_rewrite Tc; try setoid_rewrite Td; try setoid_rewrite Ti.
  - intros v. destruct (Nat.eq_dec v w) as [->|N]; [rewrite fupd_same, O|rewrite fupd_other by assumption]; apply (iO1 _ I).
  - intros v. destruct (Nat.eq_dec v w) as [->|N]; [rewrite fupd_same, O|rewrite fupd_other by assumption]; apply (iO2 _ I).
  - intros u v n. destruct (Nat.eq_dec u t) as [->|N]; [rewrite Tt; discriminate|].
    rewrite Th by assumption. intros H. destruct (iH _ I u v n H) as [A D]. split; [|exact D].
    destruct (Nat.eq_dec v w) as [->|N']; [rewrite fupd_same; now apply R|now rewrite fupd_other by assumption].
  - intros u v. destruct (Nat.eq_dec u t) as [->|N].
    + destruct (Nat.eq_dec v w) as [->|N']; [rewrite fupd_same|rewrite fupd_other by assumption; intros A; destruct (NR v N' A)].
      intros A B. destruct T as [[_ T]|[T _]]; [congruence|contradiction].
    + rewrite Th by assumption. destruct (Nat.eq_dec v w) as [->|N']; [rewrite fupd_same|rewrite fupd_other by assumption; apply (iR _ I)].
      intros A. apply (iR _ I). now apply R.
  - intros u v. destruct (Nat.eq_dec v w) as [->|N]; [rewrite fupd_same, L|rewrite fupd_other by assumption]; apply (iL _ I).
  - intros u v v'. pose proof (iU _ I u v v').
    destruct (Nat.eq_dec v w) as [->|N]; [rewrite fupd_same, L|rewrite fupd_other by assumption];
    (destruct (Nat.eq_dec v' w) as [->|N']; [rewrite fupd_same, L|rewrite fupd_other by assumption]); auto.
  - intros v. destruct (Nat.eq_dec v w) as [->|N]; [now rewrite fupd_same|rewrite fupd_other by assumption; apply (iW _ I)].
  - intros u v. destruct (Nat.eq_dec v w) as [->|N]; [rewrite fupd_same|rewrite fupd_other by assumption; apply (iC _ I)].
    intros A. destruct (C u A) as [A'|A']; [now apply (iC _ I u w)|exact A'].
  - intros k u. destruct (Nat.eq_dec k w) as [->|N]; [rewrite fupd_same; congruence|rewrite fupd_other by assumption; apply (iK _ I)].
  - intros k k' u. destruct (Nat.eq_dec k w) as [->|N]; [rewrite fupd_same; congruence|rewrite fupd_other by assumption].
    destruct (Nat.eq_dec k' w) as [->|N']; [rewrite fupd_same; congruence|rewrite fupd_other by assumption; apply (iKu _ I)].
  - intros k u v n. destruct (Nat.eq_dec k w) as [->|N]; [rewrite fupd_same; congruence|rewrite fupd_other by assumption].
    intros Ek. destruct (iKh _ I _ _ _ _ Ek) as [A D]. split; [|exact D].
    destruct (Nat.eq_dec v w) as [->|N']; [rewrite fupd_same|now rewrite fupd_other by assumption].
    destruct (Nat.eq_dec u t) as [->|N'']; [|now apply R].
    destruct T as [[T _]|[_ T]]; [exact T|]. apply khandler_target in Ek. destruct (iK _ I _ _ Ek). destruct T; congruence.
  - intros u A D. destruct (iKx _ I u A D) as [k Hk]. exists k.
    destruct (Nat.eq_dec k w) as [->|N]; [congruence|now rewrite fupd_other by assumption].
  - intros u v. destruct (Nat.eq_dec v w) as [->|N]; [rewrite fupd_same, E; intros []|rewrite fupd_other by assumption].
    intros A B. destruct (iE _ I u v A B) as [k Hk]. exists k.
    destruct (Nat.eq_dec k w) as [->|N']; [congruence|now rewrite fupd_other by assumption].
  - apply (iD _ I).
Qed.
