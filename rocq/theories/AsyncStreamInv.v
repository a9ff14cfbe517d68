(** The invariant of AsyncByteStream's queue, buffers and worker. *)
From Verif Require Import Base Conc BithreadModel AsyncStreamModel AsyncStreamSpec AsyncStreamProofs.
Set Implicit Arguments.
Local Open Scope Z_scope.

(** ** Areas and the order of the buffers *)
Definition regs (id : nat) (P : list sop) : list (Z * Z) :=
  flat_map (fun o => match o with OWrite _ i off z _ => if Nat.eqb i id then [(off, z)] else [] | _ => [] end) P.
Lemma regs_app id P Q : regs id (P ++ Q) = regs id P ++ regs id Q.
Proof. apply flat_map_app. Qed.

(** the buffers left after the operations are done; None if one is not in the oldest buffer *)
Fixpoint resid (B : list nat) (P : list sop) : option (list nat) :=
  match P with
  | [] => Some B
  | OWrite _ id _ _ _ :: r => match B with b :: _ => if Nat.eqb id b then resid B r else None | [] => None end
  | OPop :: r => resid (tl B) r
  | _ :: r => resid B r
  end.
Lemma resid_app P : forall B Q, resid B (P ++ Q) = match resid B P with Some C => resid C Q | None => None end.
Proof.
  induction P as [|o P IH]; cbn; intros B Q; auto. destruct o; auto. destruct B as [|b B]; auto. destruct (Nat.eqb id b); auto.
Qed.
Lemma resid_suffix P : forall B C, resid B P = Some C -> exists D, B = D ++ C.
Proof.
  induction P as [|o P IH]; cbn; intros B C H.
  - injection H as <-. exists []; auto.
  - destruct o; try (now apply IH).
    + destruct B as [|b B]; [discriminate|]. destruct (Nat.eqb id b); [|discriminate]. now apply IH.
    + destruct (IH _ _ H) as (D & E). destruct B as [|b B]; cbn in E.
      * exists D; auto.
      * exists (b :: D). now rewrite E.
Qed.
Lemma resid_in P : forall B C a id off z u, resid B P = Some C -> In (OWrite a id off z u) P -> In id B.
Proof.
  induction P as [|o P IH]; cbn; intros B C a id off z u H Hi; [destruct Hi|].
  destruct Hi as [->|Hi].
  - destruct B as [|b B]; [discriminate|]. destruct (Nat.eqb_spec id b); [|discriminate]. subst. cbn; auto.
  - destruct o; try (eapply IH; eauto; fail).
    + destruct B as [|b B]; [discriminate|]. destruct (Nat.eqb id0 b); [|discriminate]. eapply IH; eauto.
    + specialize (IH _ _ _ _ _ _ _ H Hi). destruct B as [|b B]; cbn in *; auto.
Qed.
(** an older buffer added behind does not matter, a newer one is left over *)
Lemma resid_more P : forall B C D, resid B P = Some C -> C <> [] -> resid (B ++ D) P = Some (C ++ D).
Proof.
  induction P as [|o P IH]; cbn; intros B C D H Hn.
  - injection H as <-. auto.
  - destruct o; auto.
    + destruct B as [|b B]; [discriminate|]. cbn. destruct (Nat.eqb id b); [|discriminate]. now apply (IH (b :: B)).
    + destruct B as [|b B]; cbn in *; [|now apply IH].
      exfalso. destruct (resid_suffix _ _ H) as (K & E). destruct K; cbn in E; [|discriminate]. subst. auto.
Qed.

Definition wfop (o : sop) : Prop := match o with OWrite _ _ _ z u => 0 < u <= z | _ => True end.
Definition used (o : sop) : Z := match o with OWrite _ _ _ _ u => u | _ => 0 end.

Lemma in_regs id P o z : In (o, z) (regs id P) -> exists a u, In (OWrite a id o z u) P.
Proof.
  unfold regs. intros H. apply in_flat_map in H as (x & Hx & H). destruct x; cbn in H; try tauto.
  destruct (Nat.eqb_spec id0 id); cbn in H; [|tauto]. subst. destruct H as [E|[]]. injection E as -> ->. eauto.
Qed.
Lemma regs_in id P a o z u : In (OWrite a id o z u) P -> In (o, z) (regs id P).
Proof. intros H. unfold regs. apply in_flat_map. eexists; split; [exact H|]. cbn. rewrite Nat.eqb_refl. cbn; auto. Qed.

Section I.
Variable A : Type.
Implicit Types (s : as_ A) (m : nat -> bcb A) (f g : Z -> option A).

(** appending to a queued operation *)
Lemma push_spec m pre a id off z u post (d : list A) m' x' n :
  tile (m id) (regs id (pre ++ OWrite a id off z u :: post)) -> 0 <= u < z -> d <> [] ->
  push_data m (OWrite a id off z u) d = (m', x', n) ->
  0 < n <= zlen d /\ x' = OWrite a id off z (u + n) /\ u + n <= z /\
  (forall i R, tile (m i) R -> tile (m' i) R) /\
  (forall i, free_size (m' i) = free_size (m i)) /\
  odata m' x' = odata m (OWrite a id off z u) ++ firstn (Z.to_nat n) d /\
  zlen (odata m (OWrite a id off z u)) = u /\
  (forall o, In o (pre ++ post) -> wfop o -> odata m' o = odata m o).
Proof.
  intros HT Hu Hd. cbn [push_data wfree]. intros E. injection E as <- <- <-.
  assert (0 < zlen d) by (destruct d; [congruence|rewrite zlen_cons; pose proof (zlen_nonneg d); lia]).
  set (n := Z.min (z - u) (zlen d)) in *. assert (0 < n <= zlen d /\ u + n <= z) as (Hn & Hz) by (subst n; lia).
  rewrite regs_app in HT. cbn [regs flat_map] in HT. rewrite Nat.eqb_refl in HT. cbn [app] in HT. fold (regs id post) in HT.
  destruct (tile_disj _ _ _ _ HT) as (B1 & B2 & B3 & Hdis).
  assert (Hfl : zlen (firstn (Z.to_nat n) d) = n) by (unfold zlen in *; rewrite firstn_length; lia).
  assert (Hts : total_size (fill (m id) (off, z) u (firstn (Z.to_nat n) d)) = total_size (m id)).
  { unfold total_size, fill. cbn [st fst]. apply zlen_splice; unfold total_size in *; lia. }
  split; [exact Hn|]. split; [reflexivity|]. split; [exact Hz|]. split; [|split; [|split; [|split]]].
  - intros i R HR. destruct (Nat.eq_dec i id) as [->|Hne].
    + rewrite fupd_same. eapply tile_geom; [..|exact HR]; try reflexivity. exact Hts.
    + rewrite fupd_other by auto. exact HR.
  - intros i. destruct (Nat.eq_dec i id) as [->|Hne].
    + rewrite fupd_same. unfold free_size, data_size. rewrite Hts. reflexivity.
    + rewrite fupd_other by auto. reflexivity.
  - cbn [odata]. rewrite fupd_same. unfold fill. cbn [st fst].
    rewrite <- Hfl at 1. apply slice_extend; unfold total_size in *; lia.
  - cbn [odata]. apply slice_zlen; unfold total_size in *; lia.
  - intros o Ho Hw. destruct o as [a' id' o' z' u'| | |]; cbn [odata]; auto. cbn [wfop] in Hw.
    destruct (Nat.eq_dec id' id) as [->|Hne]; [|rewrite fupd_other by auto; reflexivity].
    rewrite fupd_same. unfold fill. cbn [st fst].
    assert (In (o', z') (regs id pre ++ regs id post)) as Hi by (rewrite <- regs_app; eapply regs_in; eauto).
    assert (0 <= o') as Ho'.
    { assert (exists X Y, regs id pre ++ (off, z) :: regs id post = X ++ (o', z') :: Y) as (X & Y & EXY).
      { apply in_split. apply in_app_or in Hi as [Hi|Hi]; apply in_or_app; cbn; auto. }
      rewrite EXY in HT. destruct (tile_disj _ _ _ _ HT) as (K & _). exact K. }
    apply Hdis in Hi. apply slice_splice_disj; unfold total_size in *; lia.
Qed.

Lemma odata_len m P o : wfop o -> In o P -> (forall a id off z u, o = OWrite a id off z u -> tile (m id) (regs id P)) ->
  zlen (odata m o) = used o.
Proof.
  intros Hw Hi HT. destruct o as [a id off z u| | |]; try reflexivity. cbn [wfop] in Hw. specialize (HT _ _ _ _ _ eq_refl).
  apply regs_in in Hi. apply in_split in Hi as (X & Y & E). rewrite E in HT. destruct (tile_disj _ _ _ _ HT) as (B1 & B2 & _).
  cbn. apply slice_zlen; unfold total_size in *; lia.
Qed.

Definition no_stop (q : list sop) : Prop := ~ In OStop q.

Record Inv (f0 : Z -> option A) (l0 : Z) s : Prop := mkInv {
  I_wf   : Forall wfop (pending s);
  I_tile : forall id, In id (bufs s) -> tile (mem s id) (regs id (pending s));
  I_ord  : exists k, resid (rev (bufs s)) (pending s) = Some [k];
  I_nd   : Forall (fun i => (i < nid s)%nat) (bufs s);
  I_data : feq (replay (mem s) (pending s) (fil s)) (direct (log s) f0);
  I_wp   : match wp s with
           | WWrote o n => is_write o = true /\ 0 <= n <= used o /\
                           feq (fwrite (wstart o) (firstn (Z.to_nat n) (odata (mem s) o)) (fil s)) (fil s)
           | WWrite o | WDead o => is_write o = true
           | _ => True
           end;
  I_exc  : wexc s = true -> exists o, wp s = WDead o;
  I_dead : forall o, wp s = WDead o -> wexc s = true;
  I_log  : ~ In EInternal (log s);
  I_len  : len s = direct_len (log s) l0;
  I_prea : 0 < prea s;
  I_syn  : sdone s < snext s /\ forall j, In (OSync j) (sq s) -> j < snext s;
  I_up   : match up s with
           | USync i => (sdone s < i /\ exists q, sq s = q ++ [OSync i] /\ forall j, In (OSync j) q -> j < i)
                        \/ (sq s = [] /\ wp s = WIdle)
           | _ => True
           end;
  I_stop : match up s with
           | UGone => (exists q, sq s = q ++ [OStop] /\ no_stop q /\ wp s <> WDone) \/ (wp s = WDone /\ sq s = [])
           | _ => no_stop (sq s) /\ wp s <> WDone
           end
}.

Lemma init_Inv f0 p l storage pre nb : 0 < zlen storage -> 0 < pre -> Inv f0 l (init f0 p l storage pre nb).
Proof.
  intros Hs Hp. split; cbn; auto; try congruence; try lia.
  - intros id _. now apply tile_init.
  - exists 0%nat. reflexivity.
  - split; [lia|tauto].
  - split; [intros H; exact H|congruence].
Qed.

Lemma bufs_split s k : resid (rev (bufs s)) (pending s) = Some [k] -> exists r, bufs s = k :: r.
Proof.
  intros H. apply resid_suffix in H as (D & E). rewrite <- (rev_involutive (bufs s)), E, rev_app_distr. cbn. eauto.
Qed.

(** the worker's operation and the queue *)
Definition infl s : list sop := match wp s with WWrite o | WWrote o _ | WDead o => [o] | _ => [] end.
Lemma pending_eq s : pending s = infl s ++ sq s.
Proof. unfold pending, infl. destruct (wp s); reflexivity. Qed.

(** ** Write *)
Lemma split_last_spec h l a x b : split_last h l = Some (a, x, b) -> l = a ++ x :: b /\ h x = true.
Proof.
  revert a x b. induction l as [|o l IH]; cbn; intros a x b H; [discriminate|].
  destruct (split_last h l) as [[[a' x'] b']|].
  - injection H as <- <- <-. destruct (IH _ _ _ eq_refl) as (-> & Hf). auto.
  - destruct (h o) eqn:E; [|discriminate]. injection H as <- <- <-. auto.
Qed.

Lemma direct_app l1 l2 f : direct (l1 ++ l2) f = direct l2 (direct l1 f).
Proof. unfold direct. apply fold_left_app. Qed.
Lemma direct_len_app (l1 l2 : list (ev A)) z : direct_len (l1 ++ l2) z = direct_len l2 (direct_len l1 z).
Proof. unfold direct_len. apply fold_left_app. Qed.

(** the end of Write, from a queue [pre ++ x :: post] with room in [x] *)
Lemma finish_data m pre a id off z u post (d : list A) m' x' n f :
  tile (m id) (regs id (pre ++ OWrite a id off z u :: post)) -> 0 <= u < z -> d <> [] ->
  Forall wfop pre -> Forall wfop post ->
  (forall o, In o post -> odata m o = [] \/ a + z <= wstart o \/ wstart o + zlen (odata m o) <= a) ->
  push_data m (OWrite a id off z u) d = (m', x', n) ->
  feq (replay m' (pre ++ x' :: post) f)
      (fwrite (a + u) (firstn (Z.to_nat n) d) (replay m (pre ++ OWrite a id off z u :: post) f)).
Proof.
  intros HT Hu Hd Hpre Hpost Hdis Hp. destruct (push_spec _ _ HT Hu Hd Hp) as (Hn & -> & Hz & _ & _ & Hx & Hxl & Ho).
  rewrite Forall_forall in Hpre, Hpost.
  rewrite !replay_app. rewrite (@replay_ext A m m' pre); [|intros; apply Ho; [apply in_or_app; auto|auto]].
  change (replay m' (OWrite a id off z (u + n) :: post)) with
    (fun g => replay m' post (fwrite a (odata m' (OWrite a id off z (u + n))) g)).
  change (replay m (OWrite a id off z u :: post)) with (fun g => replay m post (fwrite a (odata m (OWrite a id off z u)) g)).
  cbv beta. rewrite Hx.
  rewrite (@replay_ext A m m' post); [|intros; apply Ho; [apply in_or_app; auto|auto]].
  set (g := replay m pre f). set (ox := odata m (OWrite a id off z u)) in *.
  assert (Hfl : zlen (firstn (Z.to_nat n) d) = n) by (unfold zlen in *; rewrite firstn_length; lia).
  eapply feq_trans; [apply replay_feq; apply feq_sym; apply fwrite_app|]. rewrite Hxl.
  apply replay_comm. intros o Hi. destruct (Hdis _ Hi) as [E|[E|E]]; auto; right; rewrite Hfl; lia.
Qed.

(** two files one after another *)
Lemma regs_change id pre a i off z u u' post :
  regs id (pre ++ OWrite a i off z u' :: post) = regs id (pre ++ OWrite a i off z u :: post).
Proof. rewrite !regs_app. reflexivity. Qed.
Lemma resid_change pre a i off z u u' post : forall B,
  resid B (pre ++ OWrite a i off z u' :: post) = resid B (pre ++ OWrite a i off z u :: post).
Proof. intros B. rewrite !resid_app. destruct (resid B pre); reflexivity. Qed.

(** Write, given the operation it goes into: [s1] is [s] with memory [m] and queue [a ++ x :: b] *)
Definition wfin s m (qa : list sop) (x : sop) (qb : list sop) (d : list A) : as_ A :=
  let '(m', x', n) := push_data m x d in
  emit (set_pos (set_q s m' (qa ++ x' :: qb)) (pos s + n) (Z.max (pos s + n) (len s))) (EWrite (pos s) d n).

Lemma wfin_Inv f0 l0 s m qa a id off z u qb (d : list A) :
  Inv f0 l0 s -> up s = UIdle -> wexc s = false -> d <> [] ->
  a + u = pos s -> 0 <= u < z ->
  let P := infl s ++ qa ++ OWrite a id off z u :: qb in
  (forall i, In i (bufs s) -> tile (m i) (regs i P)) -> In id (bufs s) ->
  (exists k, resid (rev (bufs s)) P = Some [k]) ->
  Forall wfop (infl s ++ qa) -> Forall wfop qb ->
  (forall o, In o (infl s ++ qa ++ qb) -> odata m o = odata (mem s) o) ->
  feq (replay m P (fil s)) (direct (log s) f0) ->
  existsb (intersects (OWrite a id off z u)) qb = false ->
  (forall j, In (OSync j) (qa ++ qb) -> In (OSync j) (sq s)) -> (In OStop (qa ++ qb) -> In OStop (sq s)) ->
  Inv f0 l0 (wfin s m qa (OWrite a id off z u) qb d) /\
  exists n, log (wfin s m qa (OWrite a id off z u) qb d) = log s ++ [EWrite (pos s) d n] /\ 0 < n <= zlen d /\
            pos (wfin s m qa (OWrite a id off z u) qb d) = pos s + n.
Proof.
  intros HI Hup Hexc Hd Ha Hu P HT Hid Hres Hwa Hwb Hod Hdata Hint Hsy Hst.
  unfold wfin. destruct (push_data m (OWrite a id off z u) d) as [[m' x'] n] eqn:Hp.
  assert (EP : P = (infl s ++ qa) ++ OWrite a id off z u :: qb) by (unfold P; rewrite <- app_assoc; reflexivity).
  pose proof (HT _ Hid) as HTi. rewrite EP in HTi.
  destruct (push_spec _ _ HTi Hu Hd Hp) as (Hn & Ex & Hz & Htile & _ & Hx & Hxl & Ho).
  split; [|exists n; cbn; auto].
  assert (Hpend : forall p l e, pending (emit (set_pos (set_q s m' (qa ++ x' :: qb)) p l) e) = (infl s ++ qa) ++ x' :: qb).
  { intros. rewrite pending_eq. cbn [emit set_pos set_q sq]. rewrite app_assoc. reflexivity. }
  assert (Hwfall : forall o, In o ((infl s ++ qa) ++ qb) -> wfop o).
  { intros o Hi. apply in_app_or in Hi as [Hi|Hi]; [rewrite Forall_forall in Hwa|rewrite Forall_forall in Hwb]; auto. }
  split.
  - rewrite Hpend. apply Forall_app. split; [exact Hwa|]. constructor; [subst x'; cbn; lia|exact Hwb].
  - intros i Hi. rewrite Hpend, Ex, (@regs_change i _ a id off z u), <- EP. cbn [emit set_pos set_q mem]. apply Htile. apply HT, Hi.
  - rewrite Hpend, Ex. cbn [emit set_pos set_q bufs]. destruct Hres as (k & Hk). exists k.
    rewrite (@resid_change _ a id off z u), <- EP. exact Hk.
  - exact (I_nd HI).
  - rewrite Hpend. cbn [emit set_pos set_q mem fil log]. rewrite direct_app. cbn [direct fold_left].
    eapply feq_trans; [eapply finish_data; eauto|].
    + intros o Hi. destruct o as [a' i' o' z' u'| | |]; cbn [odata]; auto. right.
      assert (intersects (OWrite a id off z u) (OWrite a' i' o' z' u') = false) as Hni.
      { destruct (intersects _ _) eqn:E; auto. rewrite <- Hint. symmetry. apply existsb_exists. eauto. }
      unfold intersects in Hni. cbn in Hni. cbn [wstart].
      rewrite Forall_forall in Hwb. specialize (Hwb _ Hi). cbn in Hwb.
      assert (zlen (slice o' u' (st (m i'))) <= u').
      { unfold slice, zlen. rewrite firstn_length. lia. }
      lia.
    + rewrite Ha, <- EP. apply fwrite_feq. exact Hdata.
  - cbn [emit set_pos set_q wp mem fil]. pose proof (I_wp HI) as Hwp. destruct (wp s) eqn:Ew; auto.
    destruct Hwp as (W1 & W2 & W3). split; auto. split; auto.
    assert (Hi : In o (infl s ++ qa ++ qb)) by (unfold infl; rewrite Ew; cbn; auto).
    rewrite (Ho o); [|rewrite <- app_assoc; exact Hi|apply Hwfall; rewrite <- app_assoc; exact Hi]. now rewrite (Hod o Hi).
  - exact (I_exc HI).
  - exact (I_dead HI).
  - cbn [emit set_pos set_q log]. intros Hi. apply in_app_or in Hi as [Hi|[Hi|[]]]; [exact (I_log HI Hi)|discriminate].
  - cbn [emit set_pos set_q log len]. rewrite direct_len_app, <- (I_len HI). cbn. destruct (Z.eqb_spec n 0); lia.
  - exact (I_prea HI).
  - cbn [emit set_pos set_q sq sdone snext]. destruct (I_syn HI) as (S1 & S2). split; auto. intros j Hi. apply S2, Hsy.
    apply in_app_or in Hi as [Hi|[Hi|Hi]]; [apply in_or_app; auto| |apply in_or_app; auto].
    subst x'. discriminate.
  - cbn [emit set_pos set_q up]. rewrite Hup. exact I.
  - cbn [emit set_pos set_q up sq wp]. pose proof (I_stop HI) as K. rewrite Hup in *. destruct K as (K1 & K2). split; auto.
    intros Hi. apply K1, Hst. apply in_app_or in Hi as [Hi|[Hi|Hi]]; [apply in_or_app; auto| |apply in_or_app; auto].
    subst x'. discriminate.
Qed.
End I.
