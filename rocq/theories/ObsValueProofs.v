From Coq Require Import List Bool Arith Lia.
From Verif Require Import ObsValueModel ObsValueSpec.
Import ListNotations.

Section P.
Variable T : Type.
Variable eqb : T -> T -> bool.
Variable by_ref : bool.
Variable pol : policy T.
Variable D : discipline T.
Notation run := (run T eqb by_ref pol D).
Notation st := (st T).
Notation emit := (emit T). Notation store := (store T). Notation fresh := (fresh T).
Notation add := (add T). Notation del := (del T). Notation alive := (alive T). Notation init := (init T).

Lemma alive_in c (s : st) : alive c s = true <-> In c (conns s).
Proof.
  unfold alive. rewrite existsb_exists. split.
  - intros (x & H & E). apply Nat.eqb_eq in E. now subst.
  - intro H. exists c. split; [exact H | apply Nat.eqb_refl].
Qed.
Lemma alive_not c (s : st) : alive c s = false <-> ~ In c (conns s).
Proof. rewrite <- alive_in. destruct (alive c s); split; congruence. Qed.

Lemma del_remove c (l : list nat) : filter (fun x => negb (x =? c)) l = remove Nat.eq_dec c l.
Proof.
  induction l as [|x l IH]; [reflexivity|]. cbn [filter remove].
  destruct (Nat.eq_dec c x) as [E|N].
  - subst. rewrite Nat.eqb_refl. exact IH.
  - destruct (Nat.eqb_spec x c); [congruence|]. cbn [negb]. now rewrite IH.
Qed.

(* generic: a relation between the states before and after *)
Lemma run_mono s k s' : run s k s' -> next s <= next s' /\ (forall c, c < next s -> In c (conns s') -> In c (conns s)).
Proof.
  induction 1; cbn [emit store fresh add del ObsValueModel.emit ObsValueModel.store ObsValueModel.fresh ObsValueModel.add ObsValueModel.del next conns] in *.
  - auto.
  - exact IHrun.
  - auto.
  - split; [lia|]. intros c L I. apply in_app_iff in I as [I|[I|[]]]; [exact I | lia].
  - destruct IHrun as [A B]. split; [lia|]. intros c L I. apply in_app_iff in I as [I|[I|[]]]; [apply B; [lia | exact I] | lia].
  - split; [lia|]. intros d _ I. apply filter_In in I as [I _]. exact I.
  - auto.
  - destruct IHrun1 as [A B], IHrun2 as [A2 B2]. split; [lia|]. intros c L I. apply B; [lia|]. apply B2; [lia | exact I].
  - auto.
  - exact IHrun.
  - destruct IHrun1 as [A B], IHrun2 as [A2 B2]. split; [lia|]. intros c0 L I. apply B; [lia|]. apply B2; [lia | exact I].
Qed.

Definition wf (s : st) : Prop :=
  NoDup (conns s) /\ (forall c, In c (conns s) -> c < next s) /\ conns s = observers (log s) /\
  (forall e c, In e (log s) -> about c e -> c < next s).

Ltac sim := cbn [ObsValueModel.emit ObsValueModel.store ObsValueModel.fresh ObsValueModel.add ObsValueModel.del next conns log val observers] in *.

Lemma wf_emit_plain e s : wf s -> observers (e :: log s) = observers (log s) -> (forall c, about c e -> c < next s) -> wf (emit e s).
Proof.
  intros (A & B & C & E) O Ab. repeat split; sim; try assumption.
  - now rewrite C.
  - intros f c [I|I] H; [subst f; apply Ab, H | exact (E f c I H)].
Qed.
Lemma wf_store v s : wf s -> wf (store v s). Proof. intros W; exact W. Qed.
Lemma wf_fresh s : wf s -> wf (fresh s).
Proof. intros (A & B & C & E). repeat split; sim; try assumption; [intros c I; apply B in I; lia | intros e c I H; apply (E e c I) in H; lia]. Qed.

Lemma nodup_snoc (l : list nat) x : NoDup l -> ~ In x l -> NoDup (l ++ [x]).
Proof.
  intros ND NI. induction ND as [|y l NY ND IH]; cbn [app].
  - constructor; [intros []|constructor].
  - constructor.
    + rewrite in_app_iff. intros [I|[I|[]]]; [auto | subst; apply NI; now left].
    + apply IH. intro I. apply NI. now right.
Qed.

Lemma wf_conn c send v s : wf s -> c < next s -> ~ In c (conns s) -> wf (emit (EConn c send v) (add c s)).
Proof.
  intros (A & B & C & E) L N. repeat split; sim.
  - apply nodup_snoc; assumption.
  - intros d I. apply in_app_iff in I as [I|[I|[]]]; [now apply B | now subst].
  - now rewrite C.
  - intros e d [I|I] H; [subst e; cbn in H; now subst | exact (E e d I H)].
Qed.

Lemma wf_run s k s' : run s k s' -> wf s -> wf s'.
Proof.
  induction 1; intros W.
  - apply wf_emit_plain; [exact W | reflexivity | intros c []].
  - apply IHrun. apply wf_store, wf_emit_plain; [exact W | reflexivity | intros c []].
  - apply wf_emit_plain; [exact W | reflexivity | intros c []].
  - apply wf_conn; [apply wf_fresh, W | sim; lia | sim]. intro I. apply W in I. lia.
  - assert (W1 : wf s1).
    { apply IHrun. apply wf_emit_plain; [apply wf_fresh, W | reflexivity | cbn; intros; lia]. }
    pose proof (run_mono _ _ _ H1) as [M1 M2]. sim.
    apply wf_conn; [exact W1 | lia |]. intro I. apply M2 in I; [|lia]. apply W in I. lia.
  - destruct W as (A & B & C & E). apply alive_in in H. repeat split; sim.
    + apply NoDup_filter, A.
    + intros d I. apply filter_In in I as [I _]. now apply B.
    + rewrite del_remove, C. reflexivity.
    + intros e d [I|I] Q; [subst e; cbn in Q; subst; now apply B | exact (E e d I Q)].
  - exact W.
  - auto.
  - exact W.
  - auto.
  - apply IHrun2, IHrun1. apply wf_emit_plain; [exact W | reflexivity |].
    cbn. intros d Q. subst. apply alive_in in H. now apply W.
Qed.

Lemma wf_init v : wf (init v).
Proof. repeat split; cbn; [constructor | intros c [] | intros e c []]. Qed.

(* the register *)
Lemma reg_run v0 s k s' : run s k s' -> register eqb v0 (log s) = val s -> register eqb v0 (log s') = val s'.
Proof.
  induction 1; intros R; sim; cbn [register]; auto.
  - rewrite R, H. reflexivity.
  - apply IHrun. cbn [register]. rewrite R, H. reflexivity.
Qed.

(* a property of every event with the events before it *)
Fixpoint allsuf (Q : ev T -> list (ev T) -> Prop) (l : list (ev T)) : Prop :=
  match l with [] => True | e :: r => Q e r /\ allsuf Q r end.
Lemma allsuf_app Q l1 e l2 : allsuf Q (l1 ++ e :: l2) -> Q e l2.
Proof. induction l1 as [|x l1 IH]; cbn [app allsuf]; intros [A B]; [exact A | exact (IH B)]. Qed.

Definition q_get (v0 : T) (e : ev T) (l : list (ev T)) : Prop := match e with EGet v => v = register eqb v0 l | _ => True end.
Lemma gets_run v0 s k s' : run s k s' -> register eqb v0 (log s) = val s -> allsuf (q_get v0) (log s) -> allsuf (q_get v0) (log s').
Proof.
  intros H. induction H; intros R A; sim; cbn [allsuf q_get]; auto.
  - apply IHrun; [cbn [register]; now rewrite R, H | split; [exact I | exact A]].
  - split; [exact I|]. apply IHrun; [exact R|]. split; [exact I | exact A].
  - apply IHrun2; [exact (reg_run v0 _ _ _ H R) | apply IHrun1; assumption].
  - pose proof (reg_run v0 _ _ _ H1 R) as R1.
    apply IHrun2; [exact R1 | apply IHrun1; [exact R | split; [exact I | exact A]]].
Qed.

(* deliveries *)
Definition q_recv (e : ev T) (l : list (ev T)) : Prop :=
  match e with ERecv c v => In c (observers l) \/ (forall f, In f l -> ~ about c f) | _ => True end.
Lemma recv_run s k s' : run s k s' -> wf s -> allsuf q_recv (log s) -> allsuf q_recv (log s').
Proof.
  intros H. induction H; intros W A; sim; cbn [allsuf q_recv]; auto.
  - apply IHrun; [apply wf_store, wf_emit_plain; [exact W | reflexivity | intros c []] | split; [exact I | exact A]].
  - split; [exact I|]. apply IHrun.
    + apply wf_emit_plain; [apply wf_fresh, W | reflexivity | cbn; intros; lia].
    + split; [|exact A]. right. intros f F B. destruct W as (_ & _ & _ & E). apply (E f _ F) in B. lia.
  - apply IHrun2; [exact (wf_run _ _ _ H W) | apply IHrun1; assumption].
  - assert (W0 : wf (emit (ERecv c (if by_ref then val s else a)) s)).
    { apply wf_emit_plain; [exact W | reflexivity |]. cbn. intros d Q. subst. apply alive_in in H. now apply W. }
    apply IHrun2; [exact (wf_run _ _ _ H1 W0) | apply IHrun1; [exact W0|]].
    split; [|exact A]. left. apply alive_in in H. destruct W as (_ & _ & C & _). now rewrite <- C.
Qed.

(* a connection that is not connected is told nothing *)
Lemma told_frozen s k s' : run s k s' -> forall c, c < next s -> ~ In c (conns s) -> last_told c (log s') = last_told c (log s).
Proof.
  induction 1; intros c0 L N; sim; cbn [last_told]; auto.
  - rewrite IHrun by auto. reflexivity.
  - rewrite IHrun by (auto; lia). cbn [last_told]. destruct (Nat.eqb_spec c0 (next s)); [lia | reflexivity].
  - pose proof (run_mono _ _ _ H) as [M1 M2]. rewrite IHrun2, IHrun1; auto; lia.
  - pose proof (run_mono _ _ _ H1) as [M1 M2]. sim.
    rewrite IHrun2; [rewrite IHrun1; auto| lia | auto].
    cbn [last_told]. destruct (Nat.eqb_spec c0 c) as [Eq|Ne]; [|reflexivity]. subst. apply alive_in in H. contradiction.
Qed.

(* code without Set *)
Definition quiet (k : code T) : Prop :=
  match k with COp o => not_set o | COps l => Forall not_set l | CAll _ _ => False end.

Lemma quiet_val s k s' : (forall o, in_pop D o -> not_set o) -> run s k s' -> quiet k -> val s' = val s.
Proof.
  intros DP H. induction H; cbn [quiet not_set]; intros Q; sim; try contradiction; auto.
  - apply IHrun. clear - H0 DP. induction H0; constructor; auto.
  - inversion Q; subst. rewrite IHrun2, IHrun1; auto.
Qed.

Lemma quiet_told s k s' : (forall o, in_pop D o -> not_set o) -> run s k s' -> quiet k -> forall c, c < next s -> last_told c (log s') = last_told c (log s).
Proof.
  intros DP H. induction H; cbn [quiet not_set]; intros Q c0 L; sim; cbn [last_told]; try contradiction; auto.
  - rewrite IHrun; [|clear - H0 DP; induction H0; constructor; auto|lia].
    cbn [last_told]. destruct (Nat.eqb_spec c0 (next s)); [lia | reflexivity].
  - pose proof (run_mono _ _ _ H) as [M1 _].
    inversion Q; subst. rewrite IHrun2, IHrun1; auto; lia.
Qed.

Lemma no_told (l : list (ev T)) : forall c, (forall e, In e l -> ~ about c e) -> last_told c l = None /\ connect_info c l = None.
Proof.
  induction l as [|e l IH]; intros c H; [split; reflexivity|].
  destruct (IH c) as [A B]; [intros f F; apply H; now right|].
  pose proof (H e (or_introl eq_refl)) as N.
  destruct e; cbn [last_told connect_info about] in *; split; auto; destruct (Nat.eqb_spec c c0); congruence.
Qed.

(* an observer is up to date *)
Definition good (c : nat) (s : st) : Prop :=
  match last_told c (log s) with
  | Some v => v = val s
  | None => exists send, connect_info c (log s) = Some (send, val s) /\ send && need_populate T eqb pol (val s) = false
  end.

Hypothesis DP : forall o, in_pop D o -> not_set o.
Hypothesis DS : by_ref = true \/ (forall o, in_slot D o -> not_set o).

Lemma quiet_slot l : Forall (in_pop D) l -> quiet (COps l).
Proof. intros H. cbn. induction H; constructor; auto. Qed.

Definition claim (s : st) (k : code T) (s' : st) : Prop :=
  match k with
  | CAll hs a => (by_ref = true \/ a = val s) ->
      forall c, In c (conns s') -> (In c (conns s) -> In c hs \/ good c s) -> good c s'
  | _ => forall c, In c (conns s') -> (In c (conns s) -> good c s) -> good c s'
  end.

Lemma good_emit_other e s c : (forall v, e <> ERecv c v) -> (forall b v, e <> EConn c b v) -> good c s -> good c (emit e s).
Proof.
  intros A B G. unfold good in *. destruct e; sim; cbn [last_told connect_info]; try exact G.
  - destruct (Nat.eqb_spec c c0) as [Eq|]; [subst; exfalso; eapply A; reflexivity | exact G].
  - destruct (Nat.eqb_spec c c0) as [Eq|]; [subst; exfalso; eapply B; reflexivity | exact G].
Qed.

Lemma good_run s k s' : run s k s' -> wf s -> claim s k s'.
Proof.
  intros H. induction H; intros W; cbn [claim].
  - intros c I G. sim. apply good_emit_other; [intros; discriminate | intros; discriminate | exact (G I)].
  - intros c I G.
    assert (W0 : wf (store v (emit (ESet v) s))) by (apply wf_store, wf_emit_plain; [exact W | reflexivity | intros d []]).
    apply (IHrun W0); [now right | exact I | sim; auto].
  - intros c I G. sim. apply good_emit_other; [intros; discriminate | intros; discriminate | exact (G I)].
  - intros c I G. sim. apply in_app_iff in I as [I|[I|[]]].
    + pose proof (G I) as G1. destruct W as (_ & B & _ & _). apply B in I.
      assert (Ne : c <> next s) by lia. unfold good in *. sim. cbn [last_told connect_info].
      destruct (Nat.eqb_spec c (next s)); [contradiction | exact G1].
    + subst c. destruct W as (_ & B & _ & E).
      destruct (no_told (log s) (next s)) as [N1 N2]; [intros e F Ab; apply (E e _ F) in Ab; lia|].
      unfold good. sim. cbn [last_told connect_info]. rewrite N1, Nat.eqb_refl. exists send. split; [reflexivity | exact H].
  - assert (W0 : wf (emit (ERecv (next s) (val s)) (fresh s))).
    { apply wf_emit_plain; [apply wf_fresh, W | reflexivity | cbn; intros; lia]. }
    specialize (IHrun W0). cbn [claim] in IHrun.
    pose proof (run_mono _ _ _ H1) as [M1 M2]. sim.
    intros c I G. apply in_app_iff in I as [I|[I|[]]].
    + assert (G1 : good c s1).
      { apply IHrun; [exact I|]. intros I0. pose proof (G I0) as G0. destruct W as (_ & B & _ & _). apply B in I0.
        assert (Ne : c <> next s) by lia. unfold good in *. sim. cbn [last_told connect_info].
        destruct (Nat.eqb_spec c (next s)); [contradiction | exact G0]. }
      assert (Ne : c <> next s) by (intro; subst; apply M2 in I; [destruct W as (_ & B & _); apply B in I; lia | lia]).
      unfold good in *. sim. cbn [last_told connect_info].
      destruct (Nat.eqb_spec c (next s)); [contradiction | exact G1].
    + subst c.
      assert (N : ~ In (next s) (conns s)) by (intro I; destruct W as (_ & B & _); apply B in I; lia).
      pose proof (told_frozen _ _ _ H1 (next s)) as F. sim. specialize (F ltac:(lia) N). cbn [last_told] in F. rewrite Nat.eqb_refl in F.
      pose proof (quiet_val _ _ _ DP H1 (quiet_slot _ H0)) as V. sim.
      unfold good. sim. cbn [last_told connect_info]. rewrite F. now symmetry.
  - intros d I G. sim. apply filter_In in I as [I Q].
    assert (Ne : d <> c) by (intro; subst; now rewrite Nat.eqb_refl in Q).
    pose proof (G I) as G0. unfold good in *. sim. cbn [last_told connect_info]. exact G0.
  - intros c I G. exact (G I).
  - pose proof (wf_run _ _ _ H W) as W1. specialize (IHrun1 W). specialize (IHrun2 W1). cbn [claim] in *.
    intros c I G. apply IHrun2; [exact I|]. intros I1. apply IHrun1; [exact I1 | exact G].
  - intros _ c I G. destruct (G I) as [[]|G0]. exact G0.
  - specialize (IHrun W). cbn [claim] in *. intros A c0 I G. apply IHrun; [exact A | exact I|].
    intros I0. destruct (G I0) as [[Eq|J]|J]; [|now left | now right].
    subst. apply alive_not in H. contradiction.
  - assert (W0 : wf (emit (ERecv c (if by_ref then val s else a)) s)).
    { apply wf_emit_plain; [exact W | reflexivity |]. cbn. intros d Q. subst. apply alive_in in H. now apply W. }
    pose proof (wf_run _ _ _ H1 W0) as W1. specialize (IHrun1 W0). specialize (IHrun2 W1). cbn [claim] in *.
    intros A c0 I G. apply IHrun2; [|exact I|].
    + destruct DS as [B|NS]; [now left|]. destruct A as [A|A]; [now left|]. right.
      assert (QQ : quiet (COps ops)) by (cbn; clear - H0 NS; induction H0; constructor; auto).
      pose proof (quiet_val _ _ _ DP H1 QQ) as V. sim. congruence.
    + intros I1. destruct (in_dec Nat.eq_dec c0 hs) as [J|NJ]; [now left|]. right.
      apply IHrun1; [exact I1|]. intros I0. sim.
      destruct (G I0) as [[Eq|J]|J]; [|contradiction|].
      * subst c0. unfold good. sim. cbn [last_told]. rewrite Nat.eqb_refl.
        destruct by_ref; [reflexivity|]. destruct A as [A|A]; [discriminate | exact A].
      * destruct (Nat.eq_dec c0 c) as [Eq|Ne].
        -- subst c0. unfold good. sim. cbn [last_told]. rewrite Nat.eqb_refl.
           destruct by_ref; [reflexivity|]. destruct A as [A|A]; [discriminate | exact A].
        -- apply good_emit_other; [intros v Eq; injection Eq; congruence | intros; discriminate | exact J].
Qed.

(* with slots that never call Set, nobody is told the same value twice in a row *)
Definition q_rep (e : ev T) (l : list (ev T)) : Prop :=
  match e with ERecv c w => forall u, last_told c l = Some u -> eqb u w = false | _ => True end.

Definition pre_rep (s : st) (k : code T) : Prop :=
  match k with
  | CAll hs a => a = val s /\ NoDup hs /\ forall c, In c hs -> c < next s /\ forall u, last_told c (log s) = Some u -> eqb u a = false
  | _ => quiet k \/ (forall c, In c (conns s) -> good c s)
  end.

Lemma rep_run s k s' : (forall o, in_slot D o -> not_set o) -> run s k s' -> wf s -> pre_rep s k -> allsuf q_rep (log s) -> allsuf q_rep (log s').
Proof.
  intros NS H. induction H; intros W Pr A; sim; cbn [allsuf q_rep]; auto.
  - destruct Pr as [Pr|Pr]; [contradiction|].
    apply IHrun; [apply wf_store, wf_emit_plain; [exact W | reflexivity | intros d []] | | split; [exact I | exact A]].
    cbn [pre_rep]. sim. split; [reflexivity|]. split; [apply W|]. intros c Ic. split; [now apply W|].
    intros u. cbn [last_told]. intro L. pose proof (Pr c Ic) as G. unfold good in G. rewrite L in G. now subst u.
  - assert (W0 : wf (emit (ERecv (next s) (val s)) (fresh s))).
    { apply wf_emit_plain; [apply wf_fresh, W | reflexivity | cbn; intros; lia]. }
    split; [exact I|]. apply IHrun; [exact W0 | left; apply quiet_slot, H0 | split; [|exact A]].
    intros u L. destruct W as (_ & _ & _ & E).
    destruct (no_told (log s) (next s)) as [N1 N2]; [intros e F Ab; apply (E e _ F) in Ab; lia|]. congruence.
  - pose proof (wf_run _ _ _ H W) as W1.
    apply IHrun2; [exact W1| | apply IHrun1; [exact W| |exact A]].
    + destruct Pr as [Q|G]; [left; inversion Q; assumption|]. right. intros c Ic.
      pose proof (good_run _ _ _ H W) as C. cbn [claim] in C. apply C; [exact Ic | apply G].
    + destruct Pr as [Q|G]; [left; inversion Q; assumption | right; exact G].
  - destruct Pr as (Pa & Pb & Pc). apply IHrun; [exact W | | exact A].
    inversion Pb; subst. split; [reflexivity|]. split; [assumption|]. intros c0 Ic. apply Pc. now right.
  - destruct Pr as (Pa & Pb & Pc). subst a. inversion Pb as [|? ? Nc Nd]; subst.
    assert (W0 : wf (emit (ERecv c (if by_ref then val s else val s)) s)).
    { apply wf_emit_plain; [exact W | reflexivity |]. cbn. intros d Q. subst. apply alive_in in H. now apply W. }
    assert (QQ : quiet (COps ops)) by (cbn; clear - H0 NS; induction H0; constructor; auto).
    pose proof (wf_run _ _ _ H1 W0) as W1.
    pose proof (quiet_val _ _ _ DP H1 QQ) as V.
    pose proof (run_mono _ _ _ H1) as [M1 _]. sim.
    apply IHrun2; [exact W1 | | apply IHrun1; [exact W0 | left; exact QQ | split; [|exact A]]].
    + split; [now symmetry|]. split; [exact Nd|]. intros c0 Ic. destruct (Pc c0 (or_intror Ic)) as [P1 P2]. split; [lia|].
      intros u L. rewrite (quiet_told _ _ _ DP H1 QQ) in L by exact P1. sim. cbn [last_told] in L.
      destruct (Nat.eqb_spec c0 c) as [Eq|]; [subst; contradiction|]. apply P2, L.
    + intros u L. destruct (Pc c (or_introl eq_refl)) as [_ P2]. destruct by_ref; apply P2, L.
Qed.

End P.

(* slots that call nothing: what exactly one Set does *)
Section Silent.
Variable T : Type.
Variable eqb : T -> T -> bool.
Variable by_ref : bool.
Variable pol : policy T.
Notation run := (run T eqb by_ref pol silent).

Lemma silent_ops (l : list (op T)) s s' : Forall (fun _ => False) l -> run s (COps l) s' -> s' = s.
Proof. intros F H. destruct l as [|o l]; [|inversion F; contradiction]. inversion H; subst. reflexivity. Qed.

Lemma silent_all hs : forall a s s', (forall c, In c hs -> In c (conns s)) -> val s = a -> run s (CAll hs a) s' ->
  s' = mk (val s) (conns s) (next s) (rev (map (fun c => ERecv c a) hs) ++ log s).
Proof.
  induction hs as [|c hs IH]; intros a s s' I V H.
  - inversion H; subst. now destruct s'.
  - inversion H as [| | | | | | | | | ? ? ? ? ? Al R | ? ? ? ? ops s1 ? Al F R1 R2]; subst.
    + apply alive_not in Al. exfalso. apply Al, I. now left.
    + apply silent_ops in R1; [|exact F]. subst s1.
      apply IH in R2; [|intros d Id; apply I; now right | reflexivity].
      rewrite R2. cbn [ObsValueModel.emit val conns next log map rev]. rewrite <- app_assoc. cbn [app].
      destruct by_ref; reflexivity.
Qed.
End Silent.
