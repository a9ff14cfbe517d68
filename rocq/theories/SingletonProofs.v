(** * SafeSingleton: the invariant *)
From Coq Require Import List Arith Bool ZArith Lia.
From Verif Require Import Conc SingletonModel SingletonSpec.
Import ListNotations.

(** who holds a reference *)
Inductive owner := Static | Hand (h : nat) | Thr (t : nat).
Definition owner_eq_dec : forall a b : owner, {a = b} + {a <> b}.
Proof. decide equality; apply Nat.eq_dec. Defined.
Definition drop (x : owner) (l : list owner) := remove owner_eq_dec x l.

Lemma drop_length x l : NoDup l -> In x l -> S (length (drop x l)) = length l.
Proof.
  unfold drop. induction l as [|y l IH]; intros N I; [destruct I|]. cbn. inversion N; subst.
  destruct (owner_eq_dec x y) as [->|D].
  - rewrite notin_remove by assumption. reflexivity.
  - cbn. destruct I as [->|I]; [congruence|]. now rewrite IH.
Qed.
Lemma drop_in x y l : In y (drop x l) <-> In y l /\ y <> x.
Proof. unfold drop. split; [apply in_remove|intros [A B]; now apply in_in_remove]. Qed.
Lemma drop_nodup x l : NoDup l -> NoDup (drop x l).
Proof.
  unfold drop. induction l as [|y l IH]; intros N; [constructor|]. cbn. inversion N; subst.
  destruct (owner_eq_dec x y); [auto|]. constructor; auto. intros H. apply in_remove in H. tauto.
Qed.
Lemma drop_notin x l : ~ In x (drop x l).
Proof. rewrite drop_in. tauto. Qed.

(** events *)
Lemma history_snoc l e : history_ok l -> ev_ok l e -> history_ok (l ++ [e]).
Proof.
  intros H E l1 e1 l2 Q. destruct l2 as [|z l2] using rev_ind.
  - apply app_inj_tail in Q. destruct Q as [<- <-]. exact E.
  - clear IHl2. rewrite app_comm_cons, app_assoc in Q. apply app_inj_tail in Q. destruct Q as [Q _]. eapply H; eauto.
Qed.
Lemma in_snoc {A} (x e : A) l : In x (l ++ [e]) <-> In x l \/ x = e.
Proof. rewrite in_app_iff. cbn. intuition congruence. Qed.

Definition deleting (p : pc) : Prop := match p with AtDelLoad _ | AtDelete _ _ => True | _ => False end.
Definition inits (p : pc) : Prop := match p with AtNew | AtPubInst _ | AtPubRef | AtHolderDone | AtOnceEnd => True | _ => False end.
Definition owes (p : pc) : Prop := match p with AtGet | AtDec _ => True | _ => False end.

Definition pc_ok (s : safe) (own : list owner) (t : nat) : Prop :=
  match pcs s t with
  | Idle | AtOnce => True
  | AtNew => nexto s = 0 /\ ~ In Failed (log s)
  | AtPubInst o => o = 0 /\ nexto s = 1 /\ inst s = None /\ holder s = None
  | AtPubRef => nexto s = 1 /\ inst s = Some 0 /\ holder s = None /\ own = []
  | AtHolderDone => nexto s = 1 /\ inst s = Some 0 /\ holder s = None /\ In Static own
  | AtOnceEnd => (In Failed (log s) /\ nexto s = 0) \/ holder s <> None
  | AtLoad => once s = Over
  | AtCas r => once s = Over /\ r <> 0%Z
  | AtGet => once s = Over /\ holder s <> None
  | AtDec i => i = false /\ holder s <> None
  | AtDelLoad i => i = false /\ own = [] /\ holder s = Some false /\ ~ In (Dtor 0) (log s)
  | AtDelete p i => p = Some 0 /\ i = false /\ own = [] /\ holder s = Some false /\ ~ In (Dtor 0) (log s)
  end.

Record Inv (s : safe) (own : list owner) : Prop := {
  I_nodup : NoDup own;
  I_len : (Z.of_nat (length own) <= 2 ^ 32)%Z;
  I_ref : refc s = u32 (Z.of_nat (length own));
  I_static : In Static own -> holder s = Some true \/ exists t, pcs s t = AtHolderDone;
  I_static' : holder s = Some true -> In Static own;
  I_hand : forall h, In (Hand h) own <-> exists o, In (h, o) (hands s);
  I_thr : forall t, In (Thr t) own <-> owes (pcs s t);
  I_hands : NoDup (map fst (hands s));
  I_fresh : forall t h o, In (Got t h o) (log s) -> h < nexth s;
  I_drop : forall h, In (Dropped h) (log s) -> h < nexth s;
  I_hlog : forall h o, In (h, o) (hands s) <-> holds (log s) h o;
  I_hobj : forall h o, In (h, o) (hands s) -> o = 0;
  I_hhold : forall h o, In (h, o) (hands s) -> holder s <> None;
  I_nexto : nexto s <= 1;
  I_ctor : forall o, In (Ctor o) (log s) <-> o = 0 /\ nexto s = 1;
  I_hold : holder s <> None -> inst s = Some 0 /\ nexto s = 1;
  I_ninst : nexto s = 0 -> inst s = None;
  I_fail : In Failed (log s) -> nexto s = 0;
  I_exit : In Exited (log s) <-> holder s = Some false;
  I_dtor : forall o, In (Dtor o) (log s) -> o = 0 /\ own = [] /\ holder s = Some false;
  I_gone : own = [] -> holder s = Some false -> In (Dtor 0) (log s) \/ exists t, deleting (pcs s t);
  I_del1 : forall t u, deleting (pcs s t) -> deleting (pcs s u) -> t = u;
  I_once : match once s with
           | Fresh => nexto s = 0 /\ ~ In Failed (log s) /\ forall t, ~ inits (pcs s t)
           | Busy t => inits (pcs s t) /\ forall u, inits (pcs s u) -> u = t
           | Over => (In Failed (log s) \/ holder s <> None) /\ forall t, ~ inits (pcs s t)
           end;
  I_busy : forall t, nexto s = 1 -> holder s = None -> once s = Busy t ->
           match pcs s t with AtPubInst _ | AtPubRef | AtHolderDone => True | _ => False end;
  I_pc : forall t, pc_ok s own t;
  I_log : history_ok (log s) }.

Lemma inv0 : Inv safe0 [].
Proof.
  constructor; cbn; try tauto; try (intros; lia); try (intros; contradiction); try discriminate; try reflexivity; try constructor.
  all: try (intros; discriminate); try tauto.
  - intros [o []].
  - intros [[t []] _].
  - intros l1 e l2 H. destruct l1; discriminate.
Qed.

Lemma u32_lt (x : Z) : (0 <= x < 2 ^ 32)%Z -> u32 x = x.
Proof. intros. unfold u32. apply Z.mod_small. lia. Qed.

(** a reference count of zero: no owner, or 2^32 of them *)
Lemma ref_zero s own : Inv s own -> refc s = 0%Z -> own = [] \/ Z.of_nat (length own) = (2 ^ 32)%Z.
Proof.
  intros I H. rewrite (I_ref _ _ I) in H. pose proof (I_len _ _ I). destruct (Z.eq_dec (Z.of_nat (length own)) (2 ^ 32)) as [E|E]; [now right|].
  left. rewrite u32_lt in H by lia. destruct own; [reflexivity|cbn [length] in H; lia].
Qed.

Ltac fu := repeat match goal with
  | |- context [fupd _ ?t _ ?t] => rewrite fupd_same
  | H : context [fupd _ ?t _ ?t] |- _ => rewrite fupd_same in H
  end.

Lemma inits_owns s own t : Inv s own -> inits (pcs s t) -> once s = Busy t.
Proof.
  intros I H. pose proof (I_once _ _ I) as O. destruct (once s) as [|u|].
  - destruct O as (_ & _ & O). now apply O in H.
  - destruct O as [_ O]. now rewrite (O _ H).
  - destruct O as [_ O]. now apply O in H.
Qed.

Ltac th u t := destruct (Nat.eq_dec u t) as [->|?]; [rewrite ?fupd_same in *|rewrite ?fupd_other in * by assumption].
Ltac pcs_of I u := let H := fresh "P" in pose proof (I_pc _ _ I u) as H; unfold pc_ok in H; cbn in H.

(** moving thread [t] between two program counters that neither own, delete nor initialise *)
Definition plain (p : pc) : Prop := match p with Idle | AtOnce | AtLoad | AtCas _ => True | _ => False end.
Lemma plain_not p : plain p -> ~ deleting p /\ ~ inits p /\ ~ owes p /\ p <> AtHolderDone.
Proof. destruct p; cbn; intuition discriminate. Qed.

Lemma inv_move s own t p : Inv s own -> plain (pcs s t) -> plain p -> pc_ok (at_pc s t p) own t -> Inv (at_pc s t p) own.
Proof.
  intros I A B C. destruct (plain_not _ A) as (A1 & A2 & A3 & A4). destruct (plain_not _ B) as (B1 & B2 & B3 & B4).
  pose proof I as J. destruct I. constructor; cbn; auto.
  - intros H. destruct (I_static0 H) as [|[u E]]; [now left|]. right. exists u. th u t; congruence.
  - intros u. th u t; [|apply I_thr0]. rewrite I_thr0. tauto.
  - intros X Y. destruct (I_gone0 X Y) as [|[u E]]; [now left|]. right. exists u. th u t; tauto.
  - intros u v. th u t; [tauto|]. th v t; [tauto|]. apply I_del2.
  - destruct (once s) as [|u|].
    + destruct I_once0 as (O1 & O2 & O3). repeat split; auto. intros v. th v t; auto.
    + destruct I_once0 as (O1 & O2). split; [th u t; tauto|]. intros v. th v t; [tauto|]. apply O2.
    + destruct I_once0 as (O1 & O3). repeat split; auto. intros v. th v t; auto.
  - intros u X Y Z. specialize (I_busy0 u X Y Z). th u t; [|assumption]. destruct (pcs s t); tauto.
  - intros u. destruct (Nat.eq_dec u t) as [->|Nu]; [assumption|]. specialize (I_pc0 u).
    unfold pc_ok in *. cbn. rewrite fupd_other by assumption. exact I_pc0.
Qed.

Lemma own_nil s own : Inv s own -> holder s = None -> (forall t, pcs s t <> AtHolderDone) -> own = [].
Proof.
  intros I H N. destruct own as [|x own]; [reflexivity|exfalso].
  assert (X : In x (x :: own)) by now left. destruct x as [|h|t].
  - destruct (I_static _ _ I X) as [E|[t E]]; [congruence|]. now apply (N t).
  - apply (I_hand _ _ I) in X. destruct X as [o X]. now apply (I_hhold _ _ I) in X.
  - apply (I_thr _ _ I) in X. pcs_of I t. destruct (pcs s t); cbn in X; try contradiction; tauto.
Qed.

Definition neutral (e : ev) : Prop := match e with Null _ | Thrown _ => True | _ => False end.
Lemma in_neutral x e l : neutral e -> ~ neutral x -> In x (l ++ [e]) <-> In x l.
Proof. intros H K. rewrite in_snoc. split; [|now left]. intros [A| ->]; [exact A|contradiction]. Qed.
Lemma holds_neutral l e h o : neutral e -> holds (l ++ [e]) h o <-> holds l h o.
Proof.
  intros H. unfold holds. rewrite in_neutral by (cbn; tauto).
  assert (X : (exists t, In (Got t h o) (l ++ [e])) <-> exists t, In (Got t h o) l); [|tauto].
  split; intros [t Q]; exists t; [apply in_neutral in Q; cbn; tauto|]. apply in_snoc. now left.
Qed.

Lemma pc_ok_say s own e t : neutral e -> pc_ok s own t -> pc_ok (say s e) own t.
Proof.
  intros N. unfold pc_ok. cbn. destruct (pcs s t); auto; rewrite ?(in_neutral _ e) by (cbn; tauto); tauto.
Qed.

Lemma inv_say s own e : Inv s own -> neutral e -> ev_ok (log s) e -> Inv (say s e) own.
Proof.
  intros I N K. destruct I. constructor; cbn; auto.
  - intros t h o. rewrite in_neutral by (cbn; tauto). apply I_fresh0.
  - intros h. rewrite in_neutral by (cbn; tauto). apply I_drop0.
  - intros h o. now rewrite holds_neutral.
  - intros o. now rewrite in_neutral by (cbn; tauto).
  - now rewrite in_neutral by (cbn; tauto).
  - now rewrite in_neutral by (cbn; tauto).
  - intros o. rewrite in_neutral by (cbn; tauto). apply I_dtor0.
  - now rewrite in_neutral by (cbn; tauto).
  - destruct (once s); rewrite ?in_neutral by (cbn; tauto); exact I_once0.
  - intros t. now apply pc_ok_say.
  - now apply history_snoc.
Qed.

(** the other threads when [t] initialises: none of them is anywhere near the object *)
Lemma others_idle s own t u : Inv s own -> once s = Busy t -> holder s = None -> u <> t ->
  match pcs s u with Idle | AtOnce => True | _ => False end.
Proof.
  intros I B H N. pcs_of I u. pose proof (inits_owns _ _ u I) as O.
  destruct (pcs s u); cbn in O; auto; try (assert (Q : Busy u = Busy t) by (rewrite <- B; symmetry; apply O; exact Logic.I); congruence);
    try (destruct P as [P _]; congruence); try congruence; try tauto; intuition congruence.
Qed.
Lemma hold_none s own : Inv s own -> nexto s = 0 -> holder s = None.
Proof. intros I N. destruct (holder s) eqn:E; [|reflexivity]. assert (X : holder s <> None) by congruence. apply (I_hold _ _ I) in X. lia. Qed.

Lemma inv_begin s own t : Inv s own -> pcs s t = AtOnce -> once s = Fresh ->
  Inv (at_pc (set_once s (Busy t)) t AtNew) own.
Proof.
  intros I E O. pose proof (I_once _ _ I) as Q. rewrite O in Q. destruct Q as (Q1 & Q2 & Q3).
  pose proof (hold_none _ _ I Q1) as Hn. pose proof I as J. destruct I. constructor; cbn; auto.
  - intros H. destruct (I_static0 H) as [|[u X]]; [now left|]. right. exists u. th u t; congruence.
  - intros u. th u t; [|apply I_thr0]. rewrite I_thr0, E. cbn. tauto.
  - intros X Y. congruence.
  - intros u v. th u t; [intros []|]. th v t; [intros _ []|]. apply I_del2.
  - rewrite fupd_same. split; [exact Logic.I|]. intros u. th u t; auto. intros X. now apply Q3 in X.
  - intros u X. lia.
  - intros u. unfold pc_ok. cbn. th u t; [tauto|]. pcs_of J u. destruct (pcs s u); try tauto; try congruence; destruct P; congruence.
Qed.

Lemma inv_built s own t : Inv s own -> pcs s t = AtNew ->
  Inv (say (at_pc (new_obj s) t (AtPubInst (nexto s))) (Ctor (nexto s))) own.
Proof.
  intros I E. pcs_of I t. rewrite E in P. destruct P as (P1 & P2).
  assert (O : once s = Busy t) by (apply (inits_owns _ _ t I); rewrite E; exact Logic.I).
  pose proof (hold_none _ _ I P1) as Hn. rewrite P1.
  assert (Hc : forall o, ~ In (Ctor o) (log s)) by (intros o; rewrite (I_ctor _ _ I); lia).
  pose proof (fun u => others_idle _ _ t u I O Hn) as Ot.
  pose proof (I_ninst _ _ I P1) as Hi.
  pose proof I as J. destruct I. constructor; cbn; rewrite ?P1; auto; try (intros; discriminate).
  - intros H. destruct (I_static0 H) as [|[u X]]; [now left|]. right. exists u. th u t; congruence.
  - intros u. th u t; [|apply I_thr0]. rewrite I_thr0, E. cbn. tauto.
  - intros u h o H. apply in_snoc in H. destruct H as [H|H]; [eauto|discriminate].
  - intros h H. apply in_snoc in H. destruct H as [H|H]; [eauto|discriminate].
  - intros h o. rewrite I_hlog0. unfold holds. rewrite in_snoc.
    split; intros [[u A] B]; (split; [exists u|intuition discriminate]); rewrite in_snoc in *; intuition discriminate.
  - intros o. rewrite in_snoc. split; [intros [H|H]; [now apply Hc in H|]; split; [congruence|reflexivity]|].
    intros [-> _]. now right.
  - congruence.
  - intros H. apply in_snoc in H. destruct H as [H|H]; [contradiction|discriminate].
  - rewrite in_snoc, I_exit0. intuition discriminate.
  - intros o H. apply in_snoc in H. destruct H as [H|H]; [eauto|discriminate].
  - congruence.
  - intros u v. th u t; [intros []|]. th v t; [intros _ []|]. apply I_del2.
  - rewrite O in *. destruct I_once0 as [O1 O2]. split; [now rewrite fupd_same|]. intros u. th u t; auto.
  - intros u _ _ H. rewrite O in H. injection H as <-. now rewrite fupd_same.
  - intros u. unfold pc_ok. cbn. th u t; [now rewrite P1|]. specialize (Ot u n). destruct (pcs s u); tauto.
  - apply history_snoc; cbn; auto.
Qed.

Lemma inv_failed s own t : Inv s own -> pcs s t = AtNew -> Inv (say (at_pc s t AtOnceEnd) Failed) own.
Proof.
  intros I E. pcs_of I t. rewrite E in P. destruct P as (P1 & P2).
  assert (O : once s = Busy t) by (apply (inits_owns _ _ t I); rewrite E; exact Logic.I).
  pose proof (hold_none _ _ I P1) as Hn.
  assert (Hc : forall o, ~ In (Ctor o) (log s)) by (intros o; rewrite (I_ctor _ _ I); lia).
  pose proof (fun u => others_idle _ _ t u I O Hn) as Ot.
  pose proof I as J. destruct I. constructor; cbn; rewrite ?P1; auto; try (intros; discriminate).
  - intros H. destruct (I_static0 H) as [|[u X]]; [now left|]. right. exists u. th u t; congruence.
  - intros u. th u t; [|apply I_thr0]. rewrite I_thr0, E. cbn. tauto.
  - intros u h o H. apply in_snoc in H. destruct H as [H|H]; [eauto|discriminate].
  - intros h H. apply in_snoc in H. destruct H as [H|H]; [eauto|discriminate].
  - intros h o. rewrite I_hlog0. unfold holds. rewrite in_snoc.
    split; intros [[u A] B]; (split; [exists u|intuition discriminate]); rewrite in_snoc in *; intuition discriminate.
  - intros o. rewrite in_snoc. split; [intros [H|H]; [now apply Hc in H|discriminate]|]. intros [_ H]. discriminate.
  - congruence.
  - rewrite in_snoc, I_exit0. intuition discriminate.
  - intros o H. apply in_snoc in H. destruct H as [H|H]; [eauto|discriminate].
  - congruence.
  - intros u v. th u t; [intros []|]. th v t; [intros _ []|]. apply I_del2.
  - rewrite O in *. destruct I_once0 as [O1 O2]. split; [now rewrite fupd_same|]. intros u. th u t; auto.
  - intros u. unfold pc_ok. cbn. th u t; [left; rewrite in_snoc; tauto|]. specialize (Ot u n). destruct (pcs s u); tauto.
  - apply history_snoc; cbn; auto.
Qed.

Lemma inv_other s own t : Inv s own -> pcs s t = AtNew ->
  Inv (say (at_pc (set_once s Fresh) t Idle) (Thrown t)) own.
Proof.
  intros I E. pcs_of I t. rewrite E in P. destruct P as (P1 & P2).
  assert (O : once s = Busy t) by (apply (inits_owns _ _ t I); rewrite E; exact Logic.I).
  pose proof (hold_none _ _ I P1) as Hn.
  pose proof (fun u => others_idle _ _ t u I O Hn) as Ot.
  apply inv_say; [|exact Logic.I|cbn; intros o; rewrite (I_ctor _ _ I); lia].
  pose proof I as J. destruct I. constructor; cbn; rewrite ?P1; auto; try (intros; discriminate).
  - intros H. destruct (I_static0 H) as [|[u X]]; [now left|]. right. exists u. th u t; congruence.
  - intros u. th u t; [|apply I_thr0]. rewrite I_thr0, E. cbn. tauto.
  - intros o. rewrite I_ctor0. rewrite P1. tauto.
  - congruence.
  - congruence.
  - intros u v. th u t; [intros []|]. th v t; [intros _ []|]. apply I_del2.
  - split; [reflexivity|]. split; [assumption|]. intros u. th u t; [intros []|]. specialize (Ot u n). destruct (pcs s u); cbn; tauto.
  - intros u. unfold pc_ok. cbn. th u t; [tauto|]. specialize (Ot u n). destruct (pcs s u); tauto.
Qed.
Lemma init_facts s own t : Inv s own -> inits (pcs s t) -> once s = Busy t /\ forall u, inits (pcs s u) -> u = t.
Proof.
  intros I E. pose proof (inits_owns _ _ t I E) as O. split; [exact O|]. pose proof (I_once _ _ I) as Q. rewrite O in Q. apply Q.
Qed.

Lemma inv_pubinst s own t : Inv s own -> pcs s t = AtPubInst 0 -> Inv (at_pc (set_inst s (Some 0)) t AtPubRef) own.
Proof.
  intros I E. pcs_of I t. rewrite E in P. destruct P as (_ & P1 & P2 & Hn).
  destruct (init_facts _ _ t I) as [O Ou]; [now rewrite E|].
  pose proof (fun u => others_idle _ _ t u I O Hn) as Ot.
  assert (Own : own = []).
  { apply (own_nil _ _ I Hn). intros u Q. assert (u = t) by (apply Ou; now rewrite Q). subst u. congruence. }
  pose proof I as J. destruct I. constructor; cbn; auto.
  - intros H. rewrite Own in H. destruct H.
  - intros u. th u t; [|apply I_thr0]. rewrite I_thr0, E. cbn. tauto.
  - intros; lia.
  - congruence.
  - intros u v. th u t; [intros []|]. th v t; [intros _ []|]. apply I_del2.
  - rewrite O in *. split; [now rewrite fupd_same|]. intros u. th u t; auto.
  - intros u _ _ H. rewrite O in H. injection H as <-. now rewrite fupd_same.
  - intros u. unfold pc_ok. cbn. th u t; [tauto|]. specialize (Ot u n). destruct (pcs s u); tauto.
Qed.

Lemma inv_pubref s own t : Inv s own -> pcs s t = AtPubRef -> Inv (at_pc (set_ref s 1) t AtHolderDone) [Static].
Proof.
  intros I E. pcs_of I t. rewrite E in P. destruct P as (P1 & P2 & Hn & ->).
  destruct (init_facts _ _ t I) as [O Ou]; [now rewrite E|].
  pose proof (fun u => others_idle _ _ t u I O Hn) as Ot.
  pose proof I as J. destruct I. constructor; cbn; auto.
  - constructor; [tauto|constructor].
  - intros _. right. exists t. apply fupd_same.
  - intros h. rewrite <- I_hand0. cbn. split; [intros [H|[]]; discriminate|tauto].
  - intros u. th u t; [split; [intros [H|[]]; discriminate|intros []]|].
    rewrite <- I_thr0. split; [intros [H|[]]; discriminate|intros []].
  - intros o H. destruct (I_dtor0 o H) as (_ & _ & H'). congruence.
  - discriminate.
  - intros u v. th u t; [intros []|]. th v t; [intros _ []|]. apply I_del2.
  - rewrite O in *. split; [now rewrite fupd_same|]. intros u. th u t; auto.
  - intros u _ _ H. rewrite O in H. injection H as <-. now rewrite fupd_same.
  - intros u. unfold pc_ok. cbn. th u t; [repeat split; auto; now left|]. specialize (Ot u n). destruct (pcs s u); tauto.
Qed.

Lemma inv_holder s own t : Inv s own -> pcs s t = AtHolderDone -> Inv (at_pc (set_holder s (Some true)) t AtOnceEnd) own.
Proof.
  intros I E. pcs_of I t. rewrite E in P. destruct P as (P1 & P2 & Hn & St).
  destruct (init_facts _ _ t I) as [O Ou]; [now rewrite E|].
  pose proof (fun u => others_idle _ _ t u I O Hn) as Ot.
  pose proof I as J. destruct I. constructor; cbn; auto.
  - intros u. th u t; [|apply I_thr0]. rewrite I_thr0, E. cbn. tauto.
  - intros h o _. discriminate.
  - rewrite I_exit0. split; congruence.
  - intros o H. destruct (I_dtor0 o H) as (_ & _ & H'). congruence.
  - discriminate.
  - intros u v. th u t; [intros []|]. th v t; [intros _ []|]. apply I_del2.
  - rewrite O in *. split; [now rewrite fupd_same|]. intros u. th u t; auto.
  - discriminate.
  - intros u. unfold pc_ok. cbn. th u t; [right; discriminate|]. specialize (Ot u n). destruct (pcs s u); tauto.
Qed.

Lemma inv_onceend s own t : Inv s own -> pcs s t = AtOnceEnd -> Inv (at_pc (set_once s Over) t AtLoad) own.
Proof.
  intros I E. pcs_of I t. rewrite E in P.
  destruct (init_facts _ _ t I) as [O Ou]; [now rewrite E|].
  pose proof I as J. destruct I. constructor; cbn; auto.
  - intros H. destruct (I_static0 H) as [|[u X]]; [now left|]. right. exists u. th u t; congruence.
  - intros u. th u t; [|apply I_thr0]. rewrite I_thr0, E. cbn. tauto.
  - intros X Y. destruct (I_gone0 X Y) as [|[u Z]]; [now left|]. right. exists u. th u t; [|assumption]. rewrite E in Z. destruct Z.
  - intros u v. th u t; [intros []|]. th v t; [intros _ []|]. apply I_del2.
  - split; [tauto|]. intros u. th u t; [intros []|]. intros X. apply Ou in X. contradiction.
  - discriminate.
  - intros u. unfold pc_ok. cbn. th u t; [reflexivity|]. pcs_of J u. destruct (pcs s u); try tauto; destruct P0; congruence.
Qed.

(** a compare-and-exchange that succeeds *)
Lemma inv_cas s own t q : Inv s own -> pcs s t = AtCas q -> refc s = q ->
  Inv (at_pc (set_ref s (u32 (q + 1))) t AtGet) (Thr t :: own).
Proof.
  intros I E R. pcs_of I t. rewrite E in P. destruct P as [O Q].
  assert (Hh : holder s <> None).
  { intros Hn. assert (own = []); [|subst own; apply Q; rewrite <- R; apply (I_ref _ _ I)].
    apply (own_nil _ _ I Hn). intros u X. assert (Y : once s = Busy u) by (apply (inits_owns _ _ u I); now rewrite X). congruence. }
  assert (Nt : ~ In (Thr t) own) by (rewrite (I_thr _ _ I), E; cbn; tauto).
  assert (Ne : own <> []) by (intros ->; apply Q; rewrite <- R; apply (I_ref _ _ I)).
  assert (L : (Z.of_nat (length own) < 2 ^ 32)%Z).
  { pose proof (I_len _ _ I). destruct (Z.eq_dec (Z.of_nat (length own)) (2 ^ 32)) as [X|X]; [|lia].
    exfalso. apply Q. rewrite <- R, (I_ref _ _ I), X. reflexivity. }
  pose proof I as J. destruct I. constructor; auto.
  - constructor; assumption.
  - cbn [length]. lia.
  - cbn [refc at_pc set_ref]. rewrite <- R, I_ref0. rewrite (u32_lt (Z.of_nat _)) by lia. f_equal. cbn [length]. lia.
  - intros [H|H]; [discriminate|]. destruct (I_static0 H) as [|[u X]]; [now left|]. right. exists u. cbn. th u t; congruence.
  - intros H. right. now apply I_static'0.
  - intros h. cbn. rewrite <- I_hand0. cbn. intuition discriminate.
  - intros u. cbn. th u t; [cbn; tauto|]. rewrite <- I_thr0. split; [intros [H|H]; [congruence|assumption]|now right].
  - intros o H. destruct (I_dtor0 o H) as (_ & X & _). contradiction.
  - discriminate.
  - cbn. intros u v. th u t; [intros []|]. th v t; [intros _ []|]. apply I_del2.
  - cbn. rewrite O in *. destruct I_once0 as [O1 O2]. split; [assumption|]. intros u. th u t; [intros []|]. apply O2.
  - cbn. intros u X Y. congruence.
  - intros u. unfold pc_ok. cbn. th u t; [tauto|]. pcs_of J u. destruct (pcs s u); try tauto; try (exfalso; tauto); intuition (congruence || (exfalso; congruence)).
Qed.

Lemma holds_got l t h o h' o' : (forall t o, ~ In (Got t h o) l) -> ~ In (Dropped h) l ->
  holds (l ++ [Got t h o]) h' o' <-> holds l h' o' \/ (h' = h /\ o' = o).
Proof.
  intros N D. unfold holds. rewrite in_snoc. split.
  - intros [[u A] B]. apply in_snoc in A. destruct A as [A|A]; [left; split; [eauto|tauto]|]. inversion A; subst; now right.
  - intros [[[u A] B]|[-> ->]].
    + split; [exists u; rewrite in_snoc; now left|]. intros [X|X]; [contradiction|discriminate].
    + split; [exists t; rewrite in_snoc; now right|]. intros [X|X]; [contradiction|discriminate].
Qed.

Lemma inv_get s own t : Inv s own -> pcs s t = AtGet -> inst s = Some 0 ->
  Inv (say (at_pc (new_hand s 0) t Idle) (Got t (nexth s) 0)) (Hand (nexth s) :: drop (Thr t) own).
Proof.
  intros I E Hi. pcs_of I t. rewrite E in P. destruct P as [O Hh].
  assert (It : In (Thr t) own) by (apply (I_thr _ _ I); rewrite E; exact Logic.I).
  assert (Ng : forall u o, ~ In (Got u (nexth s) o) (log s)) by (intros u o X; apply (I_fresh _ _ I) in X; lia).
  assert (Nd : ~ In (Dropped (nexth s)) (log s)) by (intros X; apply (I_drop _ _ I) in X; lia).
  assert (Nh : ~ In (Hand (nexth s)) own).
  { rewrite (I_hand _ _ I). intros [o X]. apply (I_hlog _ _ I) in X. destruct X as [[u X] _]. now apply Ng in X. }
  assert (Ndt : forall o, ~ In (Dtor o) (log s)).
  { intros o X. apply (I_dtor _ _ I) in X. destruct X as (_ & X & _). subst own. destruct It. }
  pose proof (drop_length (Thr t) own (I_nodup _ _ I) It) as DL.
  pose proof I as J. destruct I. constructor.
  - constructor; [rewrite drop_in; tauto|now apply drop_nodup].
  - cbn [length]. rewrite DL. assumption.
  - cbn [refc say at_pc new_hand length]. rewrite DL. assumption.
  - intros [H|H]; [discriminate|]. apply drop_in in H. destruct (I_static0 (proj1 H)) as [|[u X]]; [now left|]. right. exists u. cbn. th u t; congruence.
  - intros H. right. apply drop_in. split; [now apply I_static'0|discriminate].
  - intros h. cbn. rewrite drop_in. split.
    + intros [H|[H _]]; [injection H as <-; exists 0; now left|]. apply I_hand0 in H. destruct H as [o H]. exists o. now right.
    + intros [o [H|H]]; [injection H as <- <-; now left|]. right. split; [|discriminate]. apply I_hand0. eauto.
  - intros u. cbn. rewrite drop_in. th u t; [cbn; intuition discriminate|]. rewrite <- I_thr0. intuition congruence.
  - cbn. constructor; [|assumption]. intros X. apply in_map_iff in X. destruct X as ([h o] & Eh & X). cbn in Eh. subst h. apply I_hlog0 in X. destruct X as [[u X] _]. now apply Ng in X.
  - cbn. intros u h o X. apply in_snoc in X. destruct X as [X|X]; [apply I_fresh0 in X; lia|]. injection X as _ -> _. lia.
  - cbn. intros h X. apply in_snoc in X. destruct X as [X|X]; [apply I_drop0 in X; lia|discriminate].
  - cbn. intros h o. rewrite holds_got by assumption. rewrite <- I_hlog0. intuition congruence.
  - cbn. intros h o [X|X]; [congruence|eauto].
  - cbn. intros h o [X|X]; [assumption|eauto].
  - cbn. assumption.
  - cbn. intros o. rewrite in_snoc, I_ctor0. intuition discriminate.
  - cbn. assumption.
  - cbn. assumption.
  - cbn. rewrite in_snoc. intuition discriminate.
  - cbn. rewrite in_snoc, I_exit0. intuition discriminate.
  - cbn. intros o X. apply in_snoc in X. destruct X as [X|X]; [now apply Ndt in X|discriminate].
  - discriminate.
  - cbn. intros u v. th u t; [intros []|]. th v t; [intros _ []|]. apply I_del2.
  - cbn. rewrite O in *. destruct I_once0 as [O1 O2]. split; [tauto|]. intros u. th u t; [intros []|]. apply O2.
  - cbn. intros u X Y. congruence.
  - intros u. unfold pc_ok. cbn. th u t; [exact Logic.I|]. pcs_of J u. rewrite ?in_snoc.
    assert (Ne : own <> []) by (intros ->; destruct It).
    destruct (pcs s u); try tauto; intuition (congruence || discriminate).
  - cbn. apply history_snoc; [assumption|]. cbn. split; [|exact Ng]. split; [|apply Ndt]. apply I_ctor0. split; [reflexivity|]. now apply I_hold0.
Qed.

(** the decrement: [t] gives its reference back *)
Lemma inv_dec s own t : Inv s own -> pcs s t = AtDec false ->
  let r := u32 (refc s - 1) in
  Inv (if (r =? 0)%Z then at_pc (set_ref s r) t (AtDelLoad false) else at_pc (set_ref s r) t Idle) (drop (Thr t) own).
Proof.
  intros I E r. pcs_of I t. rewrite E in P. destruct P as [_ Hh].
  assert (It : In (Thr t) own) by (apply (I_thr _ _ I); rewrite E; exact Logic.I).
  assert (Ne : own <> []) by (intros ->; destruct It).
  assert (Ndt : forall o, ~ In (Dtor o) (log s)).
  { intros o X. apply (I_dtor _ _ I) in X. tauto. }
  assert (Ndl : forall u, ~ deleting (pcs s u)).
  { intros u X. pcs_of I u. destruct (pcs s u); cbn in X; try contradiction; tauto. }
  pose proof (drop_length (Thr t) own (I_nodup _ _ I) It) as DL.
  assert (R : r = Z.of_nat (length (drop (Thr t) own))).
  { unfold r. rewrite (I_ref _ _ I). pose proof (I_len _ _ I) as L. rewrite <- DL in *. unfold u32.
    rewrite <- Zminus_mod_idemp_l at 1. rewrite Zmod_mod, Zminus_mod_idemp_l. rewrite Nat2Z.inj_succ in *.
    replace (Z.succ (Z.of_nat (length (drop (Thr t) own))) - 1)%Z with (Z.of_nat (length (drop (Thr t) own))) by lia.
    apply Z.mod_small. lia. }
  assert (Ru : r = u32 (Z.of_nat (length (drop (Thr t) own)))).
  { rewrite R at 1. symmetry. apply u32_lt. pose proof (I_len _ _ I) as L. rewrite <- DL in L. lia. }
  assert (Zr : r = 0%Z <-> drop (Thr t) own = []).
  { rewrite R. destruct (drop (Thr t) own); cbn [length]; split; intros; try reflexivity; try discriminate; lia. }
  (* common part *)
  assert (G : forall p, (r = 0%Z -> p = AtDelLoad false) -> (r <> 0%Z -> p = Idle) -> Inv (at_pc (set_ref s r) t p) (drop (Thr t) own)).
  { intros p Pz Pn.
    assert (Pp : ~ inits p /\ ~ owes p /\ p <> AtHolderDone).
    { destruct (Z.eq_dec r 0) as [Z0|Z0]; [rewrite (Pz Z0)|rewrite (Pn Z0)]; cbn; intuition discriminate. }
    destruct Pp as (Pi & Po & Ph).
    pose proof I as J. destruct I. constructor; cbn; auto.
    - now apply drop_nodup.
    - rewrite <- DL in I_len0. lia.
    - intros H. apply drop_in in H. destruct (I_static0 (proj1 H)) as [|[u X]]; [now left|]. right. exists u. th u t; congruence.
    - intros H. apply drop_in. split; [auto|discriminate].
    - intros h. rewrite drop_in, I_hand0. intuition discriminate.
    - intros u. rewrite drop_in. th u t; [tauto|]. rewrite I_thr0. intuition congruence.
    - intros o X. now apply Ndt in X.
    - intros X Y. right. exists t. rewrite fupd_same. rewrite Pz by now apply Zr. exact Logic.I.
    - intros u v. th u t; [th v t; [reflexivity|intros _ X; now apply Ndl in X]|intros X; now apply Ndl in X].
    - destruct (once s) as [|w|].
      + destruct I_once0 as (O1 & O2 & O3). repeat split; auto. intros u. th u t; auto.
      + destruct I_once0 as (O1 & O2). split; [th w t; [rewrite E in O1; destruct O1|assumption]|]. intros u. th u t; auto. tauto.
      + destruct I_once0 as (O1 & O2). split; auto. intros u. th u t; auto.
    - intros u X Y. congruence.
    - intros u. unfold pc_ok. cbn. th u t.
      + destruct (Z.eq_dec r 0) as [Z0|Z0]; [rewrite (Pz Z0)|rewrite (Pn Z0); exact Logic.I].
        apply Zr in Z0. split; [reflexivity|]. split; [assumption|]. split; [|apply Ndt].
        destruct (holder s) as [[|]|] eqn:X; [|reflexivity|congruence].
        exfalso. assert (Y : In Static (drop (Thr t) own)) by (apply drop_in; split; [auto|discriminate]). rewrite Z0 in Y. destruct Y.
      + pcs_of J u. pose proof (Ndl u) as Du. destruct (pcs s u); cbn in Du; try tauto; intuition congruence. }
  destruct (Z.eqb_spec r 0) as [Z0|Z0]; apply G; auto; contradiction.
Qed.

Lemma inv_delload s own t : Inv s own -> pcs s t = AtDelLoad false -> Inv (at_pc s t (AtDelete (inst s) false)) own.
Proof.
  intros I E. pcs_of I t. rewrite E in P. destruct P as (_ & -> & Hh & Nd).
  assert (Hi : inst s = Some 0) by (apply (I_hold _ _ I); congruence). rewrite Hi.
  pose proof I as J. destruct I. constructor; cbn; auto.
  - intros [].
  - intros u. th u t; [cbn; tauto|apply I_thr0].
  - intros _ _. right. exists t. rewrite fupd_same. exact Logic.I.
  - intros u v. th u t; [|th v t]; auto.
    + th v t; [reflexivity|]. intros _ X. apply I_del2; [now rewrite E|assumption].
    + intros X _. apply I_del2; [assumption|now rewrite E].
  - destruct (once s) as [|w|].
    + destruct I_once0 as (O1 & O2 & O3). repeat split; auto. intros u. th u t; [intros []|apply O3].
    + destruct I_once0 as (O1 & O2). split; [th w t; [rewrite E in O1; destruct O1|assumption]|]. intros u. th u t; [intros []|apply O2].
    + destruct I_once0 as (O1 & O2). split; auto. intros u. th u t; [intros []|apply O2].
  - intros u X Y. congruence.
  - intros u. unfold pc_ok. cbn. th u t; [tauto|]. apply J.
Qed.

Lemma inv_delete s own t : Inv s own -> pcs s t = AtDelete (Some 0) false -> Inv (at_pc (say s (Dtor 0)) t Idle) own.
Proof.
  intros I E. pcs_of I t. rewrite E in P. destruct P as (_ & _ & -> & Hh & Nd).
  assert (Hi : inst s = Some 0 /\ nexto s = 1) by (apply (I_hold _ _ I); congruence).
  pose proof I as J. destruct I. constructor; cbn; auto.
  - intros [].
  - intros u. th u t; [cbn; tauto|apply I_thr0].
  - intros u h o X. apply in_snoc in X. destruct X as [X|X]; [eauto|discriminate].
  - intros h X. apply in_snoc in X. destruct X as [X|X]; [eauto|discriminate].
  - intros h o. rewrite I_hlog0. unfold holds. rewrite in_snoc.
    split; intros [[u A] B]; (split; [exists u|intuition discriminate]); rewrite in_snoc in *; intuition discriminate.
  - intros o. rewrite in_snoc, I_ctor0. intuition discriminate.
  - rewrite in_snoc. intuition discriminate.
  - rewrite in_snoc, I_exit0. intuition discriminate.
  - intros o X. apply in_snoc in X. destruct X as [X|X]; [eauto|]. injection X as ->. auto.
  - intros _ _. left. apply in_snoc. now right.
  - intros u v. th u t; [intros []|]. th v t; [intros _ []|]. apply I_del2.
  - destruct (once s) as [|w|].
    + destruct I_once0 as (O1 & O2 & O3). lia.
    + destruct I_once0 as (O1 & O2). split; [th w t; [rewrite E in O1; destruct O1|assumption]|]. intros u. th u t; [intros []|apply O2].
    + destruct I_once0 as (O1 & O2). split; [rewrite in_snoc; tauto|]. intros u. th u t; [intros []|apply O2].
  - intros u X Y. congruence.
  - intros u. unfold pc_ok. cbn. th u t; [exact Logic.I|]. pcs_of J u. rewrite ?in_snoc.
    assert (Nu : ~ deleting (pcs s u)) by (intros X; apply n, I_del2; [assumption|now rewrite E]).
    destruct (pcs s u); cbn in Nu; rewrite ?in_snoc; try tauto; intuition (congruence || discriminate || lia).
  - apply history_snoc; [assumption|]. cbn. split; [split; [now apply I_ctor0|assumption]|]. split; [now apply I_exit0|].
    intros h o X. apply I_hlog0 in X. assert (Y : In (Hand h) []) by (apply I_hand0; eauto). destruct Y.
Qed.

Lemma hands_del s own h : Inv s own -> forall h' o, In (h', o) (hands (del_hand s h)) <-> In (h', o) (hands s) /\ h' <> h.
Proof.
  intros I h' o. cbn. rewrite filter_In. cbn. destruct (Nat.eqb_spec h' h); cbn; intuition congruence.
Qed.

Lemma holds_drop l h h' o : holds (l ++ [Dropped h]) h' o <-> holds l h' o /\ h' <> h.
Proof.
  unfold holds. rewrite in_snoc. split.
  - intros [[u A] B]. apply in_snoc in A. destruct A as [A|A]; [|discriminate]. split; [split; [eauto|tauto]|]. intros ->. tauto.
  - intros [[[u A] B] N]. split; [exists u; apply in_snoc; now left|]. intros [X|X]; [tauto|congruence].
Qed.

Lemma inv_drop s own t h : Inv s own -> pcs s t = Idle -> (exists o, In (h, o) (hands s)) ->
  Inv (say (at_pc (del_hand s h) t (AtDec false)) (Dropped h)) (Thr t :: drop (Hand h) own).
Proof.
  intros I E [o0 Hin].
  assert (Ih : In (Hand h) own) by (apply (I_hand _ _ I); eauto).
  assert (Nt : ~ In (Thr t) own) by (rewrite (I_thr _ _ I), E; cbn; tauto).
  pose proof (I_hhold _ _ I _ _ Hin) as Hh.
  assert (Ne : own <> []) by (intros ->; destruct Ih).
  pose proof (drop_length (Hand h) own (I_nodup _ _ I) Ih) as DL.
  pose proof (hands_del _ _ h I) as HD.
  pose proof I as J. destruct I. constructor; try (cbn; assumption).
  - constructor; [rewrite drop_in; tauto|now apply drop_nodup].
  - cbn [length]. rewrite DL. assumption.
  - cbn [refc say at_pc del_hand length]. rewrite DL. assumption.
  - intros [H|H]; [discriminate|]. apply drop_in in H. destruct (I_static0 (proj1 H)) as [|[u X]]; [now left|]. right. exists u. cbn. th u t; congruence.
  - intros H. right. apply drop_in. split; [now apply I_static'0|discriminate].
  - intros h'. cbn. rewrite drop_in, I_hand0. split.
    + intros [X|[[o X] Y]]; [discriminate|]. exists o. apply HD. split; [assumption|congruence].
    + intros [o X]. apply HD in X. right. split; [exists o; tauto|]. destruct X. congruence.
  - intros u. cbn. rewrite drop_in. th u t; [cbn; tauto|]. rewrite <- I_thr0. intuition congruence.
  - cbn. clear - I_hands0. induction (hands s) as [|[a b] l IH]; [constructor|]. cbn in *. inversion I_hands0; subst.
    destruct (Nat.eqb a h); cbn; [auto|]. constructor; [|auto]. intros X. apply H1. apply in_map_iff in X. destruct X as (x & <- & X).
    apply filter_In in X. apply in_map. tauto.
  - cbn. intros u h' o X. apply in_snoc in X. destruct X as [X|X]; [eauto|discriminate].
  - cbn. intros h' X. apply in_snoc in X. destruct X as [X|X]; [eauto|]. injection X as ->. apply I_hlog0 in Hin. destruct Hin as [[u Hin] _]. eauto.
  - intros h' o. cbn [log say]. rewrite holds_drop, <- I_hlog0. cbn [hands say at_pc]. apply HD.
  - intros h' o X. apply HD in X. destruct X. eauto.
  - intros h' o X. assumption.
  - cbn. intros o. rewrite in_snoc, I_ctor0. intuition discriminate.
  - cbn. rewrite in_snoc. intuition discriminate.
  - cbn. rewrite in_snoc, I_exit0. intuition discriminate.
  - cbn. intros o X. apply in_snoc in X. destruct X as [X|X]; [|discriminate]. apply I_dtor0 in X. tauto.
  - discriminate.
  - cbn. intros u v. th u t; [intros []|]. th v t; [intros _ []|]. apply I_del2.
  - cbn. destruct (once s) as [|w|].
    + exfalso. assert (X : nexto s = 1) by now apply I_hold0. lia.
    + destruct I_once0 as (O1 & O2). split; [th w t; [rewrite E in O1; destruct O1|assumption]|]. intros u. th u t; [intros []|apply O2].
    + destruct I_once0 as (O1 & O2). split; [rewrite in_snoc; tauto|]. intros u. th u t; [intros []|apply O2].
  - cbn. intros u X Y. congruence.
  - intros u. unfold pc_ok. cbn. th u t; [tauto|]. pcs_of J u. rewrite ?in_snoc.
    destruct (pcs s u); try tauto; intuition (congruence || discriminate).
  - cbn. apply history_snoc; [assumption|]. cbn. exists o0. now apply I_hlog0.
Qed.

Lemma inv_exit s own t : Inv s own -> pcs s t = Idle -> holder s = Some true ->
  Inv (say (at_pc (set_holder s (Some false)) t (AtDec false)) Exited) (Thr t :: drop Static own).
Proof.
  intros I E Hh.
  assert (Is : In Static own) by now apply (I_static' _ _ I).
  assert (Nt : ~ In (Thr t) own) by (rewrite (I_thr _ _ I), E; cbn; tauto).
  assert (Ne : own <> []) by (intros ->; destruct Is).
  assert (Hn : inst s = Some 0 /\ nexto s = 1) by (apply (I_hold _ _ I); congruence).
  pose proof (drop_length Static own (I_nodup _ _ I) Is) as DL.
  assert (Ndt : forall o, ~ In (Dtor o) (log s)).
  { intros o X. apply (I_dtor _ _ I) in X. tauto. }
  pose proof I as J. destruct I. constructor; try (cbn; assumption).
  - constructor; [rewrite drop_in; tauto|now apply drop_nodup].
  - cbn [length]. rewrite DL. assumption.
  - cbn [refc say at_pc set_holder length]. rewrite DL. assumption.
  - intros [H|H]; [discriminate|]. now apply drop_notin in H.
  - discriminate.
  - intros h'. cbn. rewrite drop_in, I_hand0. intuition discriminate.
  - intros u. cbn. rewrite drop_in. th u t; [cbn; tauto|]. rewrite <- I_thr0. intuition congruence.
  - cbn. intros u h' o X. apply in_snoc in X. destruct X as [X|X]; [eauto|discriminate].
  - cbn. intros h' X. apply in_snoc in X. destruct X as [X|X]; [eauto|discriminate].
  - intros h o. cbn. rewrite I_hlog0. unfold holds. rewrite in_snoc.
    split; intros [[u A] B]; (split; [exists u|intuition discriminate]); rewrite in_snoc in *; intuition discriminate.
  - discriminate.
  - cbn. intros o. rewrite in_snoc, I_ctor0. intuition discriminate.
  - cbn. intros _. exact Hn.
  - cbn. rewrite in_snoc. intuition discriminate.
  - cbn. rewrite in_snoc. tauto.
  - cbn. intros o X. apply in_snoc in X. destruct X as [X|X]; [|discriminate]. now apply Ndt in X.
  - discriminate.
  - cbn. intros u v. th u t; [intros []|]. th v t; [intros _ []|]. apply I_del2.
  - cbn. destruct (once s) as [|w|].
    + exfalso. lia.
    + destruct I_once0 as (O1 & O2). split; [th w t; [rewrite E in O1; destruct O1|assumption]|]. intros u. th u t; [intros []|apply O2].
    + destruct I_once0 as (O1 & O2). split; [right; discriminate|]. intros u. th u t; [intros []|apply O2].
  - discriminate.
  - intros u. unfold pc_ok. cbn. th u t; [split; [reflexivity|discriminate]|]. pcs_of J u. rewrite ?in_snoc.
    destruct (pcs s u); try tauto; intuition (congruence || discriminate).
  - cbn. apply history_snoc; [assumption|]. cbn. split; [rewrite I_exit0; congruence|]. exists 0. split; [now apply I_ctor0|apply Ndt].
Qed.

Lemma inv_looked s own t : Inv s own -> once s = Over -> plain (pcs s t) -> Inv (looked s t (refc s)) own.
Proof.
  intros I O P. unfold looked. destruct (Z.eqb_spec (refc s) 0) as [Z0|Z0].
  - apply inv_say; [|exact Logic.I|].
    + apply inv_move; auto; [exact Logic.I|]. unfold pc_ok. cbn. now rewrite fupd_same.
    + cbn. pose proof (I_once _ _ I) as Q. rewrite O in Q. destruct Q as [[Q|Q] _]; [now left|]. right. exists 0.
      apply (I_ctor _ _ I). split; [reflexivity|]. now apply (I_hold _ _ I).
  - apply inv_move; auto; [exact Logic.I|]. unfold pc_ok. cbn. rewrite fupd_same. tauto.
Qed.

Theorem inv_step s own l s' : Inv s own -> safe_step s l = Some s' -> exists own', Inv s' own'.
Proof.
  intros I. destruct l as [t a]. unfold safe_step. cbn. destruct a as [|r|h|].
  - destruct (pcs s t) eqn:E; try discriminate. intros H. injection H as <-. exists own.
    apply inv_move; [assumption|now rewrite E|exact Logic.I|]. unfold pc_ok. cbn. now rewrite fupd_same.
  - unfold go. pcs_of I t. destruct (pcs s t) eqn:E; try discriminate; intros H.
    + destruct (once s) eqn:O; [|discriminate|]; injection H as <-.
      * exists own. now apply inv_begin.
      * exists own. apply inv_move; [assumption|now rewrite E|exact Logic.I|]. unfold pc_ok. cbn. now rewrite fupd_same.
    + destruct r; injection H as <-; exists own; [now apply inv_built|now apply inv_failed|now apply inv_other].
    + injection H as <-. destruct P as [-> _]. exists own. now apply inv_pubinst.
    + injection H as <-. exists [Static]. now apply inv_pubref with (own := own).
    + injection H as <-. exists own. now apply inv_holder.
    + injection H as <-. exists own. now apply inv_onceend.
    + injection H as <-. exists own. apply inv_looked; auto. now rewrite E.
    + destruct P as [O Q]. destruct (Z.eqb_spec (refc s) r0) as [R|R]; injection H as <-.
      * eexists. now apply inv_cas with (own := own).
      * exists own. apply inv_looked; auto. now rewrite E.
    + destruct P as [O Hh]. pose proof (I_hold _ _ I Hh) as [Hi _]. rewrite Hi in H. injection H as <-. eexists. apply (inv_get s own); assumption.
    + destruct P as [-> Hh]. injection H as <-. eexists. apply (inv_dec s own t); assumption.
    + destruct P as (-> & _). injection H as <-. eexists. apply (inv_delload s own t); assumption.
    + destruct P as (-> & -> & _). injection H as <-. eexists. apply (inv_delete s own t); assumption.
  - destruct (pcs s t) eqn:E; try discriminate. destruct (existsb _ _) eqn:X; [|discriminate]. intros H. injection H as <-.
    apply existsb_exists in X. destruct X as ([h' o] & X & Y). apply Nat.eqb_eq in Y. cbn in Y. subst h'.
    eexists. apply inv_drop; eauto.
  - destruct (pcs s t) eqn:E; try discriminate. destruct (holder s) as [[|]|] eqn:Hh; try discriminate. intros H. injection H as <-.
    eexists. apply inv_exit; eauto.
Qed.

Theorem inv_reach ls s : steps safe_step safe0 ls s -> exists own, Inv s own.
Proof.
  intros H. assert (X : exists own, Inv safe0 own) by (exists []; exact inv0).
  induction H as [s|s l s1 ls s2 E R IH]; [exact X|]. apply IH. destruct X as [own I]. eapply inv_step; eauto.
Qed.
