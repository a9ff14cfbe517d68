(** Proofs for TransactionalSet: its own Add/Remove/Apply do what the
    dictionary's do on a map to unit, and the dictionary's guarantees read as
    guarantees about sets. *)
From Coq Require Import List Bool Arith Lia Sorting.Sorted.
From Verif Require Import Base SortedMap TxEnumModel CowModel CowProofs TxDictModel TxDictSpec TxDictProofs
  TxSetModel TxSetSpec.
Import ListNotations.
Set Implicit Arguments.

Section TxSet.
  Variable T : Type.
  Variable tlt : T -> T -> bool.
  Hypothesis tlt_irrefl : forall a, tlt a a = false.
  Hypothesis tlt_trans : forall a b c, tlt a b = true -> tlt b c = true -> tlt a c = true.
  Hypothesis tlt_total : forall a b, tlt a b = false -> tlt b a = false -> a = b.

  Notation ueq := (fun _ _ : unit => true).
  Notation st := (st T unit).
  Notation find := (mfind tlt).
  Notation has := (mhas tlt).
  Lemma ueq_spec : forall a b : unit, ueq a b = true <-> a = b.
  Proof. intros [] []. now split. Qed.

  Lemma unit_ai (s : st) x : good tlt s -> find x (items s) <> None -> find x (added s) = None.
  Proof.
    intros [_ Tr] Hi. destruct (find x (items s)) as [w|] eqn:Ei; [|easy].
    destruct (find x (added s)) as [v|] eqn:Ea; auto.
    destruct (t_ai Tr x Ea Ei) as [_ N]. destruct v, w. easy.
  Qed.

  Lemma set_add_eq (s : st) x : good tlt s -> set_add tlt s x = tx_add tlt ueq s x tt.
  Proof.
    intros G. pose proof G as [_ Tr]. unfold set_add, tx_add, mhas.
    destruct (find x (removed s)) as [[]|] eqn:Er.
    - pose proof (t_ri Tr x Er) as Ei. rewrite Ei. rewrite unit_ai by (auto; congruence). reflexivity.
    - destruct (find x (items s)) as [[]|] eqn:Ei; cbn [negb orb andb].
      + rewrite andb_false_r. reflexivity.
      + destruct (find x (added s)); reflexivity.
  Qed.

  Lemma set_add_eq_set (s : st) x : good tlt s -> fst (set_add tlt s x) = tx_set tlt ueq s x tt.
  Proof.
    intros G. pose proof G as [_ Tr]. unfold set_add, tx_set, mhas.
    destruct (find x (items s)) as [[]|] eqn:Ei.
    - rewrite unit_ai by (auto; congruence). cbn zeta.
      destruct (find x (removed s)) as [[]|] eqn:Er; cbn [negb andb]; reflexivity.
    - destruct (find x (removed s)) as [[]|] eqn:Er; [pose proof (t_ri Tr x Er); congruence|].
      destruct (find x (added s)) as [[]|]; reflexivity.
  Qed.

  Lemma set_remove_eq (s : st) x : set_remove tlt s x = tx_remove tlt s x.
  Proof.
    unfold set_remove, tx_remove, mhas. destruct (find x (added s)); auto.
    destruct (find x (removed s)); auto. cbn [negb andb]. destruct (find x (items s)) as [[]|]; auto.
  Qed.

  (** the dictionary call that does what [o] does; [SApply (OpUpdated, _)] only throws *)
  Definition plain_op (o : sop T) : bool :=
    match o with SApply (OpUpdated, _) => false | _ => true end.

  Lemma sstep_plain (s : st) o : good tlt s -> plain_op o = true ->
    sstep tlt s o = (fst (step tlt ueq s (shared o)), strip (snd (step tlt ueq s (shared o)))).
  Proof.
    intros G Hp. unfold sstep.
    destruct o; try (destruct (step tlt ueq s _); reflexivity).
    - cbn. destruct (act s); auto. rewrite set_add_eq by auto. destruct (tx_add tlt ueq s x tt); reflexivity.
    - cbn. destruct (act s); auto. rewrite set_remove_eq by auto. destruct (tx_remove tlt s x); reflexivity.
    - destruct e as [[] x]; cbn; try discriminate; destruct (act s); auto;
        unfold set_apply, tx_apply; cbn; [now rewrite set_add_eq_set|now rewrite set_remove_eq].
  Qed.

  Lemma sstep_updated (s : st) x : sstep tlt s (SApply (OpUpdated, x)) = (s, if act s then SRExn else SRNone).
  Proof. cbn. destruct (act s); reflexivity. Qed.

  (** ** Sets and maps to unit *)
  Definition isS (o : option unit) : bool := match o with Some _ => true | None => false end.
  Definition E (m : fmap T unit) (b : tset T) : Prop := forall x, b x = isS (m x).

  Lemma isS_true o : isS o = true <-> o = Some tt.
  Proof. destruct o as [[]|]; cbn; intuition discriminate. Qed.
  Lemma isS_false o : isS o = false <-> o = None.
  Proof. destruct o as [[]|]; cbn; intuition discriminate. Qed.

  Lemma E_upd m b x o : E m b -> E (upd tlt x o m) (tupd tlt x (isS o) b).
  Proof. intros H y. unfold upd, tupd. destruct (tlt x y || tlt y x); auto. Qed.

  Lemma E_add m b x : E m b -> E (match m x with None => upd tlt x (Some tt) m | Some _ => m end) (tupd tlt x true b).
  Proof.
    intros H. destruct (m x) as [[]|] eqn:Em.
    - intros y. unfold tupd. destruct (tlt x y) eqn:E1; cbn; auto. destruct (tlt y x) eqn:E2; auto.
      rewrite (tlt_total E2 E1), Em. reflexivity.
    - exact (E_upd x (Some tt) H).
  Qed.

  Lemma E_listing m b l : E m b -> listing tlt m l -> slisting tlt b (map fst l).
  Proof.
    intros H [Hs Hl]. split.
    - clear Hl. induction Hs as [|a l _ IH Hf]; cbn; constructor; auto.
      rewrite Forall_forall in *. intros y Hy. apply in_map_iff in Hy. destruct Hy as (p & <- & Hp). auto.
    - intros x. rewrite H, isS_true, <- Hl, in_map_iff. split.
      + intros ([y []] & <- & Hi). auto.
      + intros Hi. exists (x, tt). auto.
  Qed.

  Lemma strip_plain l : strip_list (plain l) = splain (map (@fst T unit) l).
  Proof. unfold strip_list, plain, splain. rewrite !map_map. reflexivity. Qed.
  Lemma strip_added (l : list (T * unit)) : strip_list (map (fun p => (OpAdded, p)) l) = map (fun p => (OpAdded, p)) (map fst l).
  Proof. unfold strip_list. rewrite !map_map. reflexivity. Qed.

  Lemma E_ret m b (r : res T unit) (Q : fmap T unit -> list (T * unit) -> Prop) (Q' : tset T -> list T -> Prop) :
    (forall l, Q m l -> Q' b (map fst l)) -> ret_list r (Q m) -> sret (strip r) (Q' b).
  Proof.
    intros H (e & l & -> & Hl). exists e, (map fst l). split; auto. cbn. now rewrite strip_plain.
  Qed.

  Lemma E_rev m b l : E m b -> enum_rev tlt m l -> slisting tlt b (rev (map fst l)).
  Proof. unfold enum_rev. intros H Hl. rewrite <- map_rev. now apply E_listing with m. Qed.

  Lemma E_find x m b l : E m b -> enum_find tlt x m l -> senum_find tlt x b (map fst l).
  Proof.
    intros H. unfold enum_find, senum_find. rewrite H. destruct (m x) as [v|]; cbn.
    - intros (before & t & -> & Hl). exists (map fst before), (map fst t). split; auto.
      pose proof (E_listing H Hl) as G. now rewrite map_app in G.
    - now intros ->.
  Qed.
  Lemma E_rfind x m b l : E m b -> enum_rfind tlt x m l -> senum_rfind tlt x b (map fst l).
  Proof.
    intros H. unfold enum_rfind, senum_rfind. rewrite H. destruct (m x) as [v|]; cbn.
    - intros (after & t & -> & Hl). exists (map fst after), (map fst t). split; auto.
      pose proof (E_listing H Hl) as G. rewrite map_app, map_rev in G. exact G.
    - now intros ->.
  Qed.

  Lemma strip_In op0 x (d : list (cop * (T * unit))) : In (op0, x) (strip_list d) <-> In (op0, (x, tt)) d.
  Proof.
    unfold strip_list. rewrite in_map_iff. split.
    - intros ([o [y []]] & [= <- <-] & H). exact H.
    - intros H. exists (op0, (x, tt)). auto.
  Qed.

  Lemma E_replay d : forall m b, E m b -> (forall x, ~ In (OpUpdated, x) d) ->
    E (replay tlt d m) (treplay tlt (strip_list d) b).
  Proof.
    induction d as [|[o [x []]] d IH]; intros m b H N; [exact H|].
    unfold replay, treplay in *. cbn. apply IH.
    - unfold apply_entry, tapply; cbn. destruct o.
      + exact (E_upd x (Some tt) H).
      + exact (E_upd x None H).
      + exfalso. apply (N (x, tt)). now left.
    - intros y Hy. apply (N y). now right.
  Qed.

  Lemma E_diff c bc m bm d : E c bc -> E m bm -> exact_diff tlt c m d -> sexact_diff tlt bc bm (strip_list d).
  Proof.
    intros Hc Hm [D1 D2 D3 D4 D5]. constructor.
    - intros x. rewrite strip_In, D1, Hc, Hm, isS_true, isS_false.
      destruct (m x) as [[]|]; intuition congruence.
    - intros x. rewrite strip_In, D2, Hc, Hm, isS_true, isS_false.
      destruct (c x) as [[]|]; intuition congruence.
    - intros x. rewrite strip_In. apply D3.
    - (* two entries for one key would be Removed then Added, with equal values *)
      assert (Hne : forall k v w, In (OpRemoved, (k, v)) d -> In (OpAdded, (k, w)) d -> False).
      { intros k [] [] H1 H2. apply D1 in H1. apply D2 in H2. intuition. }
      clear D1 D2 D3 D5. induction D4 as [|a l Hs IH Hf]; cbn; constructor.
      + apply IH. intros k v w H1 H2. apply (Hne k v w); now right.
      + rewrite Forall_forall in *. intros y Hy. unfold strip_list in Hy. apply in_map_iff in Hy.
        destruct Hy as (p & <- & Hp). pose proof (Hf _ Hp) as [Hlt|(He & Ha & Hb)].
        * exact Hlt.
        * exfalso. destruct a as [oa [ka va]], p as [ob [kb vb]]. cbn in *. subst.
          apply (Hne kb va vb); [now left|now right].
    - intros x. rewrite (@E_replay d _ _ Hc D3 x), D5, Hm. reflexivity.
  Qed.

  Lemma filter_fst p (l : list (T * unit)) :
    length (filter (fun x => p (fst x)) l) = length (filter p (map fst l)).
  Proof. induction l as [|[x []] l IH]; cbn; auto. destruct (p x); cbn; auto. Qed.

  (** ** The relation *)
  Definition erel (S : sst T unit) (B : tst T) : Prop :=
    E (content S) (tcontent B) /\
    match private S, tprivate B with
    | None, None => True
    | Some m, Some b => E m b
    | _, _ => False
    end.

  Lemma erel_next S B o : erel S B -> plain_op o = true -> erel (snext tlt S (shared o)) (tnext tlt B o).
  Proof.
    intros [Hc Hp] Ho. destruct S as [c pm], B as [bc pb]. cbn in *.
    destruct pm as [m|], pb as [b|]; try contradiction; destruct o; cbn; try (split; cbn; auto; fail).
    - split; cbn; auto. now apply E_add.
    - split; cbn; auto. exact (E_upd x None Hp).
    - split; cbn; auto. intros y. rewrite Hp. unfold restrict.
      destruct (m y); cbn; auto. destruct (p y); reflexivity.
    - split; cbn; auto. intros y. reflexivity.
    - destruct e as [[] x]; split; cbn; auto; unfold apply_entry, tapply; cbn;
        [exact (E_upd x (Some tt) Hp)|exact (E_upd x None Hp)|discriminate].
  Qed.

  Lemma ex_bool (r : res T unit) (P : Prop) (Q : Prop) :
    (exists b, r = RBool b /\ (b = true <-> P)) -> (P <-> Q) -> exists b, strip r = SRBool b /\ (b = true <-> Q).
  Proof. intros (b & -> & H) HQ. exists b. split; auto. tauto. Qed.

  Lemma E_none m b : E m b -> (forall x, m x = None) <-> (forall x, b x = false).
  Proof. intros H. split; intros G x; specialize (G x); [rewrite H|rewrite H in G]; now apply isS_false. Qed.

  Lemma E_neq m b x y : b = isS m -> y = isS x -> (m <> x <-> b <> y).
  Proof. intros -> ->. destruct m as [[]|], x as [[]|]; cbn; intuition congruence. Qed.
  Lemma E_eq m b x y : b = isS m -> y = isS x -> (m = x <-> b = y).
  Proof. intros -> ->. destruct m as [[]|], x as [[]|]; cbn; intuition congruence. Qed.

  Lemma contains_tr m b x (r : res T unit) : E m b ->
    (exists c, r = RBool c /\ (c = true <-> m x <> None)) -> strip r = SRBool (b x).
  Proof.
    intros H (c & -> & Hc). cbn. rewrite H. f_equal. destruct (m x) as [[]|], c; cbn; intuition congruence.
  Qed.

  Lemma read_tr S B o r : erel S B -> plain_op o = true -> read_ok tlt S (shared o) r -> sread_ok tlt B o (strip r).
  Proof.
    intros [Hc Hp] Ho. destruct S as [c pm], B as [bc pb]. cbn in *. unfold read_ok, sread_ok. cbn.
    assert (CN : forall m b, E m b -> (exists l, r = RNat (length l) /\ listing tlt m l) ->
      exists l, strip r = SRNat (length l) /\ slisting tlt b l).
    { intros m b H (l & -> & Hl). exists (map fst l). cbn. rewrite map_length. split; auto. now apply E_listing with m. }
    assert (EM : forall m b, E m b -> (exists e, r = RBool e /\ (e = true <-> forall k, m k = None)) ->
      exists e, strip r = SRBool e /\ (e = true <-> forall x, b x = false)).
    { intros m b H G. eapply ex_bool; [exact G|]. now apply E_none. }
    assert (R1 : forall m b, E m b -> ret_list r (enum_fwd tlt m) -> sret (strip r) (slisting tlt b)).
    { intros m b H. apply (@E_ret m b r (@enum_fwd T unit tlt) (slisting tlt)). intros l. now apply E_listing. }
    assert (R2 : forall m b, E m b -> ret_list r (enum_rev tlt m) -> sret (strip r) (fun l => slisting tlt b (rev l))).
    { intros m b H. apply (@E_ret m b r (@enum_rev T unit tlt) (fun b l => slisting tlt b (rev l))). intros l. now apply E_rev. }
    assert (R3 : forall m b k, E m b -> ret_list r (enum_find tlt k m) -> sret (strip r) (senum_find tlt k b)).
    { intros m b k H. apply (@E_ret m b r (@enum_find T unit tlt k) (senum_find tlt k)). intros l. now apply E_find. }
    assert (R4 : forall m b k, E m b -> ret_list r (enum_rfind tlt k m) -> sret (strip r) (senum_rfind tlt k b)).
    { intros m b k H. apply (@E_ret m b r (@enum_rfind T unit tlt k) (senum_rfind tlt k)). intros l. now apply E_rfind. }
    destruct pm as [m|], pb as [b|]; try contradiction; destruct o; cbn [shared]; try (now intros ->); auto;
      try (eapply CN; eassumption); try (eapply EM; eassumption); try (eapply contains_tr; eassumption);
      try (eapply R1; eassumption); try (eapply R2; eassumption); try (eapply R3; eassumption);
      try (eapply R4; eassumption).
    - intros ->. cbn. rewrite Hp. destruct (m x); reflexivity.
    - intros ->. cbn. rewrite Hp. destruct (m x); reflexivity.
    - intros (l & Hl & ->). exists (map fst l). split; [now apply E_listing with m|]. cbn. f_equal. apply filter_fst.
    - destruct e as [[] x]; cbn in *; try discriminate; now intros ->.
  Qed.

  Lemma commit_tr S B o r : erel S B -> plain_op o = true -> commit_ok tlt S (shared o) r -> scommit_ok tlt B o (strip r).
  Proof.
    intros [Hc Hp] Ho. destruct S as [c pm], B as [bc pb]. cbn in *. unfold commit_ok, scommit_ok. cbn.
    assert (PO : (r = RUnit /\ (forall k, c k = None)) \/
      (exists e l, r = REnum e (Some (map (fun p => (OpAdded, p)) l)) /\ l <> [] /\ listing tlt c l) ->
      (strip r = SRUnit /\ (forall k, bc k = false)) \/
      (exists e l, strip r = SREnum e (Some (map (fun p => (OpAdded, p)) l)) /\ l <> [] /\ slisting tlt bc l)).
    { intros [[-> H]|(e & l & -> & Hn & Hl)]; [left|right].
      - split; auto. now apply (E_none Hc).
      - exists e, (map fst l). cbn. rewrite strip_added. split; auto. split; [|now apply E_listing with c].
        destruct l; cbn; congruence. }
    destruct pm as [m|], pb as [b|]; try contradiction; destruct o; cbn [shared]; auto; try (now intros ->).
    - intros (e & d & -> & D). exists e, (strip_list d). split; auto. now apply E_diff with c m.
    - intros H. eapply ex_bool; [exact H|]. split; intros [x Hx]; exists x.
      + now apply (E_neq _ _ (Hc x) (Hp x)).
      + now apply (E_neq _ _ (Hc x) (Hp x)) in Hx.
    - intros [[-> H]|(d & -> & D & [x Hx])]; [left|right].
      + split; auto. intros x. now rewrite Hc, Hp, H.
      + exists (strip_list d). split; auto. split; [now apply E_diff with c m|].
        exists x. now apply (E_neq _ _ (Hc x) (Hp x)).
  Qed.

  Definition srel (s : st) (B : tst T) : Prop := exists S, rel tlt s S /\ erel S B.
  Definition sdropped (o : sop T) : list nat := match o with SDrop j => [j] | _ => [] end.

  Lemma dropped_shared o : dropped (shared o) = sdropped o.
  Proof. destruct o; reflexivity. Qed.

  Record sstep_ok s B (o : sop T) s' (r : sres T) : Prop := {
    sso_rel : srel s' (tnext tlt B o);
    sso_read : sread_ok tlt B o r;
    sso_commit : scommit_ok tlt B o r;
    sso_keep : keep (sdropped o) s s';
    sso_enum : forall e now, r = SREnum e now ->
      (forall j, In j (holders_of e) -> halive (hh s') j) /\ syields tlt (hh s') e = now }.

  Lemma sstep_sound (s : st) B o s' r : srel s B -> sstep tlt s o = (s', r) -> sstep_ok s B o s' r.
  Proof.
    intros (S & R & H) Est. destruct (plain_op o) eqn:Ho.
    - rewrite sstep_plain in Est by (auto; apply R).
      destruct (step tlt ueq s (shared o)) as [s1 r1] eqn:E1. injection Est as <- <-.
      destruct (@step_sound T unit tlt ueq tlt_irrefl tlt_trans tlt_total ueq_spec _ _ _ _ _ R E1) as [H1 H2 H3 H4 H5].
      cbn. constructor.
      + eexists. split; [exact H1|]. now apply erel_next.
      + eapply read_tr; eauto.
      + eapply commit_tr; eauto.
      + now rewrite <- dropped_shared.
      + intros e now He. destruct r1; try discriminate. injection He as <- <-.
        destruct (H5 e0 now0 eq_refl) as [HA HY]. split; auto. unfold syields. now rewrite HY.
    - destruct o as [| | | | | | | | | | | | | | | | | | | | |[[] x]| | | | |]; try discriminate.
      rewrite sstep_updated in Est. injection Est as <- <-. constructor.
      + exists S. split; auto. destruct H as [H1 H2]. split; cbn; destruct (private S), (tprivate B) eqn:EB; try contradiction; cbn; rewrite ?EB; auto.
      + unfold sread_ok; cbn. destruct H as [_ H2]. destruct R as (_ & _ & P).
        destruct (private S), (tprivate B); try contradiction; auto. destruct P as [-> _]. reflexivity.
      + exact I.
      + intros j Hj _. auto.
      + intros e now. destruct (act s); discriminate.
  Qed.

  Lemma sinit_rel : srel (init T unit) (tinit T).
  Proof.
    exists (@sinit T unit). split; [apply init_rel|]. split; [|exact I]. intros x. reflexivity.
  Qed.

  Lemma srun_sound ops : forall s B, srel s B ->
    shistory tlt (sread_ok tlt) B ops (snd (srun tlt s ops)) /\
    shistory tlt (scommit_ok tlt) B ops (snd (srun tlt s ops)) /\
    (exists B', srel (fst (srun tlt s ops)) B') /\
    keep (flat_map sdropped ops) s (fst (srun tlt s ops)).
  Proof.
    induction ops as [|o ops IH]; intros s B R; cbn.
    - repeat split; eauto.
    - destruct (sstep tlt s o) as [s1 r] eqn:E1. pose proof (sstep_sound _ R E1) as [H1 H2 H3 H4 H5].
      destruct (IH s1 _ H1) as (I1 & I2 & I3 & I4). destruct (srun tlt s1 ops) as [s2 rs]. cbn in *.
      split; [|split; [|split]]; auto.
      intros j Aj Nj. rewrite in_app_iff in Nj. destruct (H4 j Aj) as [A1 V1]; [tauto|].
      destruct (I4 j A1) as [A2 V2]; [tauto|]. split; auto. congruence.
  Qed.

  Theorem set_snapshot_stable ops1 o ops2 s1 rs1 s2 e now s3 rs3 :
    srun tlt (init T unit) ops1 = (s1, rs1) ->
    sstep tlt s1 o = (s2, SREnum e now) ->
    srun tlt s2 ops2 = (s3, rs3) ->
    (forall j, In (SDrop j) ops2 -> ~ In j (holders_of e)) ->
    syields tlt (hh s3) e = now.
  Proof.
    intros R1 R2 R3 ND.
    destruct (srun_sound ops1 sinit_rel) as (_ & _ & [S1 H1] & _). rewrite R1 in H1.
    pose proof (sstep_sound _ H1 R2) as [H2 _ _ _ HE]. destruct (HE e now eq_refl) as [A Y].
    destruct (srun_sound ops2 H2) as (_ & _ & _ & HK). rewrite R3 in HK. cbn in HK.
    rewrite <- Y. unfold syields. f_equal.
    apply (@yields_keep T unit tlt s2 s3 e). intros j Hj. apply HK; auto.
    rewrite in_flat_map. intros (o' & Ho & Hd). destruct o'; cbn in Hd; try easy.
    destruct Hd as [->|[]]. now apply (ND j).
  Qed.
End TxSet.
