From Coq Require Import List Bool Arith Lia.
From Verif Require Import Base TxEnumModel CowModel CowProofs TxListModel TxListSpec.
Import ListNotations.
Set Implicit Arguments.

Section TxList.
  Variable V : Type.
  Variable veq : V -> V -> bool.
  Hypothesis veq_spec : forall a b, veq a b = true <-> a = b.
  Notation vec := (list V).
  Notation rd := (rd (@nil V)).
  Notation val := (val (@nil V)).
  Notation entry := (cop * (nat * V))%type.
  Notation frame := (@frame vec (@nil V)).

  Lemma veq_refl a : veq a a = true.
  Proof. now apply veq_spec. Qed.

  (** ** List facts *)
  Lemma index_of_spec v l : first_at v l (index_of veq v l).
  Proof.
    induction l as [|x l IH]; cbn; [auto|].
    destruct (veq x v) eqn:E.
    - apply veq_spec in E. subst. exists [], l. auto.
    - assert (x <> v) by (intros ->; rewrite veq_refl in E; discriminate).
      destruct (index_of veq v l) as [i|]; cbn in *.
      + destruct IH as (a & b & -> & <- & N). exists (x :: a), b. cbn. intuition.
      + intuition.
  Qed.

  Lemma contains_spec l v : r_contains veq l v = true <-> In v l.
  Proof.
    unfold r_contains. pose proof (index_of_spec v l) as H. destruct (index_of veq v l); cbn in H.
    - destruct H as (a & b & -> & _). split; auto. intros _. rewrite in_app_iff. cbn. auto.
    - split; [discriminate|tauto].
  Qed.

  Lemma split_nth A (l : list A) i : i < length l -> exists a x b, l = a ++ x :: b /\ length a = i.
  Proof.
    revert i; induction l as [|y l IH]; intros [|i]; cbn; intros; try lia.
    - exists [], y, l. auto.
    - destruct (IH i) as (a & x & b & -> & <-); [lia|]. exists (y :: a), x, b. auto.
  Qed.
  Lemma split_le A (l : list A) i : i <= length l -> exists a b, l = a ++ b /\ length a = i.
  Proof.
    intros H. exists (firstn i l), (skipn i l). now rewrite firstn_skipn, firstn_length_le.
  Qed.

  Lemma set_at_app a x b (v : V) : set_at (length a) v (a ++ x :: b) = a ++ v :: b.
  Proof. unfold set_at. induction a; cbn; congruence. Qed.
  Lemma insert_at_app a b (v : V) : insert_at (length a) v (a ++ b) = a ++ v :: b.
  Proof. unfold insert_at. induction a; cbn; auto. now f_equal. Qed.
  Lemma erase_at_app a (x : V) b : erase_at (length a) (a ++ x :: b) = a ++ b.
  Proof. unfold erase_at. induction a; cbn in *; auto. now f_equal. Qed.

  Lemma numbered_combine i (l : vec) : numbered i l = combine (seq i (length l)) l.
  Proof. revert i; induction l; intros; cbn; auto. now rewrite IHl. Qed.
  Lemma map_tag A (t : cop) (l : list A) : map (fun x => (t, x)) l = combine (repeat t (length l)) l.
  Proof. induction l; cbn; congruence. Qed.
  Lemma elems_eq t (l : vec) : map (fun x => (t, x)) (numbered 0 l) = elems t l.
  Proof.
    rewrite map_tag. unfold elems. rewrite numbered_combine. f_equal.
    rewrite combine_length, seq_length. now rewrite Nat.min_id.
  Qed.

  (** ** MakeDiff *)
  Lemma diff_removed : forall (old : vec) i t, t <= i ->
    make_diff_from veq i t old [] = map (fun o => (OpRemoved, (i - t, o))) old.
  Proof.
    induction old as [|o old IH]; intros i t H; auto.
    change (make_diff_from veq i t (o :: old) []) with ((OpRemoved, (i - t, o)) :: make_diff_from veq (S i) (S t) old []).
    rewrite IH by lia. reflexivity.
  Qed.
  Lemma diff_added : forall (new : vec) i t, make_diff_from veq i t [] new = map (fun x => (OpAdded, x)) (numbered i new).
  Proof.
    intros new i t. destruct new as [|n new]; auto. cbn. f_equal. revert i.
    induction new as [|m new IH]; intros i; cbn; auto. now rewrite (IH (S i)).
  Qed.
  Lemma diff_cons o n (old new : vec) i t : make_diff_from veq i t (o :: old) (n :: new) =
    (if veq o n then [] else [(OpRemoved, (i, o)); (OpAdded, (i, n))]) ++ make_diff_from veq (S i) t old new.
  Proof. reflexivity. Qed.
  Opaque make_diff_from.

  Lemma diff_replay : forall (old new p : vec) i, length p = i ->
    replays (make_diff_from veq i 0 old new) (p ++ old) (p ++ new).
  Proof.
    induction old as [|o old IH]; intros new p i Hp.
    - rewrite diff_added, app_nil_r. revert p i Hp. induction new as [|n new IH]; intros p i Hp; cbn.
      + rewrite app_nil_r. constructor.
      + econstructor.
        * exists p, []. rewrite app_nil_r. eauto.
        * replace (p ++ n :: new) with ((p ++ [n]) ++ new) by now rewrite <- app_assoc.
          apply IH. rewrite app_length; cbn; lia.
    - destruct new as [|n new].
      + clear IH. rewrite diff_removed by lia. rewrite app_nil_r, Nat.sub_0_r.
        generalize (o :: old). intros l. induction l as [|x l IH]; cbn.
        * rewrite app_nil_r. constructor.
        * econstructor; [|exact IH]. exists p, l. auto.
      + rewrite diff_cons. destruct (veq o n) eqn:E; cbn.
        * apply veq_spec in E. subst n.
          replace (p ++ o :: old) with ((p ++ [o]) ++ old) by now rewrite <- app_assoc.
          replace (p ++ o :: new) with ((p ++ [o]) ++ new) by now rewrite <- app_assoc.
          apply IH. rewrite app_length; cbn; lia.
        * econstructor; [exists p, old; eauto|]. econstructor; [exists p, old; eauto|].
          replace (p ++ n :: old) with ((p ++ [n]) ++ old) by now rewrite <- app_assoc.
          replace (p ++ n :: new) with ((p ++ [n]) ++ new) by now rewrite <- app_assoc.
          apply IH. rewrite app_length; cbn; lia.
  Qed.

  Lemma numbered_In l : forall i j v, In (j, v) (@numbered V i l) <-> i <= j /\ nth_error l (j - i) = Some v.
  Proof.
    induction l as [|x l IH]; intros i j v; cbn.
    - split; [easy|]. intros [_ H]. destruct (j - i); discriminate.
    - rewrite IH. split.
      + intros [[= -> ->]|[H1 H2]].
        * rewrite Nat.sub_diag. auto.
        * split; [lia|]. replace (j - i) with (S (j - S i)) by lia. auto.
      + intros [H1 H2]. destruct (Nat.eq_dec i j) as [->|N].
        * rewrite Nat.sub_diag in H2. cbn in H2. left. congruence.
        * right. split; [lia|]. replace (j - i) with (S (j - S i)) in H2 by lia. auto.
  Qed.

  Lemma diff_in : forall (old new : vec) i op0 j v, In (op0, (j, v)) (make_diff_from veq i 0 old new) ->
    match op0 with
    | OpAdded => i <= j /\ nth_error new (j - i) = Some v /\ nth_error old (j - i) <> Some v
    | OpRemoved => i <= j /\ ((j - i < length new /\ nth_error old (j - i) = Some v /\ nth_error new (j - i) <> Some v) \/
        (j - i = length new /\ exists k, length new <= k /\ nth_error old k = Some v))
    | OpUpdated => False
    end.
  Proof.
    induction old as [|o old IH]; intros new i op0 j v.
    - rewrite diff_added, in_map_iff. intros (x & [= <- ->] & H). apply numbered_In in H.
      destruct H. repeat split; auto. destruct (j - i); discriminate.
    - destruct new as [|n new].
      + rewrite diff_removed by lia. rewrite in_map_iff. intros (x & [= <- <- <-] & H).
        rewrite Nat.sub_0_r. split; auto. right. rewrite Nat.sub_diag. split; auto.
        apply In_nth_error in H. destruct H as [k Hk]. exists k. split; [cbn; lia|auto].
      + rewrite diff_cons, in_app_iff. intros [H|H].
        * destruct (veq o n) eqn:E; [easy|].
          assert (o <> n) by (intros ->; rewrite veq_refl in E; discriminate).
          destruct H as [[= <- <- <-]|[[= <- <- <-]|[]]]; rewrite Nat.sub_diag; cbn.
          -- split; auto. left. repeat split; auto; [lia|congruence].
          -- repeat split; auto. congruence.
        * apply IH in H. destruct op0; auto.
          -- destruct H as (H1 & H2 & H3). replace (j - i) with (S (j - S i)) by lia. cbn. repeat split; auto. lia.
          -- destruct H as (H1 & H2). split; [lia|]. replace (j - i) with (S (j - S i)) by lia. cbn.
             destruct H2 as [(A & B & C)|(A & k & B & C)].
             ++ left. repeat split; auto. lia.
             ++ right. split; auto. exists (S k). cbn. split; auto. lia.
  Qed.

  Lemma diff_added_in : forall (old new : vec) i j v, nth_error new j = Some v -> nth_error old j <> Some v ->
    In (OpAdded, (i + j, v)) (make_diff_from veq i 0 old new).
  Proof.
    induction old as [|o old IH]; intros new i j v H1 H2.
    - rewrite diff_added. apply in_map, numbered_In. split; [lia|]. replace (i + j - i) with j by lia. auto.
    - destruct new as [|n new]; [destruct j; discriminate|]. rewrite diff_cons, in_app_iff.
      destruct j as [|j]; cbn in *.
      + left. injection H1 as ->. destruct (veq o v) eqn:E; [apply veq_spec in E; congruence|].
        right. left. now rewrite Nat.add_0_r.
      + right. replace (i + S j) with (S i + j) by lia. now apply IH.
  Qed.

  Lemma diff_empty : forall (old new : vec) i, make_diff_from veq i 0 old new = [] <-> old = new.
  Proof.
    induction old as [|o old IH]; intros new i.
    - rewrite diff_added. destruct new; cbn; intuition discriminate.
    - destruct new as [|n new].
      + rewrite diff_removed by lia. cbn. intuition discriminate.
      + rewrite diff_cons. destruct (veq o n) eqn:E; cbn.
        * rewrite IH. apply veq_spec in E. subst. split; congruence.
        * split; [discriminate|]. intros [= -> ->]. rewrite veq_refl in E. discriminate.
  Qed.

  Lemma make_diff_ok (c m : vec) : ldiff_ok c m (make_diff veq c m).
  Proof.
    unfold make_diff. constructor.
    - exact (@diff_replay c m [] 0 eq_refl).
    - apply diff_empty.
    - intros i v. split.
      + intros H. apply diff_in in H. rewrite Nat.sub_0_r in H. tauto.
      + intros [H1 H2]. exact (diff_added_in _ _ 0 _ H1 H2).
    - intros i v H. apply diff_in in H. rewrite Nat.sub_0_r in H. tauto.
    - intros [i v] H. now apply diff_in in H.
  Qed.

  (** ** The heap *)
  Definition cells (s : lst V) : list cell := match new s with Some c => [c] | None => [] end.
  Record inv (s : lst V) : Prop := {
    i_wf : wf (lhh s) (cells s);
    i_pub : pub s < length (mem (lhh s));
    i_old : old s < length (mem (lhh s));
    i_dp : forall c, In c (cells s) -> c_ptr c <> pub s;
    i_do : forall c, In c (cells s) -> c_ptr c <> old s;
    i_act : act s = true -> old s = pub s;
    i_cache : forall d, cached s = Some d -> d = make_diff veq (rd (lhh s) (old s)) (tx_items s) /\ new s <> None }.

  (** [s'] differs from [s] by new private content [m] only *)
  Record upto (s s' : lst V) (m : vec) : Prop := {
    u_inv : inv s'; u_items : tx_items s' = m; u_pub : published s' = published s;
    u_act : act s' = act s; u_frame : frame (lhh s) (lhh s') }.

  Lemma wr_rd (h : hp vec) p q m : p <> q -> rd (wr h p m) q = rd h q.
  Proof. intros N. unfold CowModel.rd; cbn. now apply setnth_nth_other. Qed.

  Lemma write_ok s f : inv s -> upto s (write s f) (f (tx_items s)).
  Proof.
    intros [W P O DP DO A C]. unfold write, cells, tx_items in *.
    destruct (new s) as [c|] eqn:N.
    - destruct (cow [] (lhh s) c (Some (val (lhh s) c))) as [[b c1] h1] eqn:Ec.
      destruct (@cow_ok vec [] _ _ _ _ _ _ _ W Ec) as (W1 & _ & F1 & L1 & V1).
      assert (V2 : val h1 c1 = val (lhh s) c) by now destruct b.
      destruct (@wr_ok vec [] _ _ _ (f (val h1 c1)) W1 L1) as (W2 & Vw & _ & F2).
      assert (HP : forall p, p < length (mem (lhh s)) -> c_ptr c <> p -> c_ptr c1 <> p /\ rd h1 p = rd (lhh s) p /\ p < length (mem h1)).
      { intros p Hp Hc. unfold cow in Ec. destruct (lock (lhh s) c).
        - injection Ec as <- <- <-. cbn. rewrite app_length. cbn. repeat split; try lia. now apply rd_app.
        - injection Ec as <- <- <-. auto. }
      destruct (HP (pub s) P) as (Np & Ep & Lp); [apply DP; now left|].
      destruct (HP (old s) O) as (No & Eo & Lo); [apply DO; now left|].
      constructor; auto.
      + constructor; cbn; auto; try (rewrite setnth_length; auto); try (now intros c0 [<-|[]]); discriminate.
      + unfold tx_items; cbn [new lhh]. now rewrite Vw, V2.
      + unfold published; cbn [pub lhh]. now rewrite wr_rd.
      + cbn. eapply frame_trans; eauto.
    - destruct (new_cell (lhh s) (rd (lhh s) (old s))) as [c1 h1] eqn:Ec.
      destruct (@new_cell_ok vec [] _ _ _ _ _ W Ec) as (W1 & V1 & _ & F1).
      assert (L1 : lock h1 c1 = None) by (injection Ec as <- <-; reflexivity).
      destruct (@wr_ok vec [] _ _ _ (f (val h1 c1)) W1 L1) as (W2 & Vw & _ & F2).
      assert (HP : forall p, p < length (mem (lhh s)) -> c_ptr c1 <> p /\ rd h1 p = rd (lhh s) p /\ p < length (mem h1)).
      { intros p Hp. injection Ec as <- <-. cbn. rewrite app_length. cbn. repeat split; try lia. now apply rd_app. }
      destruct (HP (pub s) P) as (Np & Ep & Lp).
      destruct (HP (old s) O) as (No & Eo & Lo).
      constructor; auto.
      + constructor; cbn; auto; try (rewrite setnth_length; auto); try (now intros c0 [<-|[]]); discriminate.
      + unfold tx_items; cbn [new lhh]. now rewrite Vw, V1.
      + unfold published; cbn [pub lhh]. now rewrite wr_rd.
      + cbn. eapply frame_trans; eauto.
  Qed.

  Lemma clear_ok s : inv s -> upto s (clear s) [].
  Proof.
    intros [W P O DP DO A C]. unfold clear, cells, tx_items in *.
    assert (FR : upto s (let (c, h) := new_cell (lhh s) [] in mk_lst h (pub s) (act s) (old s) (Some c) None) []).
    { assert (W0 : wf (lhh s) []).
      { destruct (new s); auto. now apply wf_tail in W. }
      destruct (new_cell (lhh s) []) as [c1 h1] eqn:Ec.
      destruct (@new_cell_ok vec [] _ _ _ _ _ W0 Ec) as (W1 & V1 & _ & F1).
      assert (HP : forall p, p < length (mem (lhh s)) -> c_ptr c1 <> p /\ rd h1 p = rd (lhh s) p /\ p < length (mem h1)).
      { intros p Hp. injection Ec as <- <-. cbn. rewrite app_length. cbn. repeat split; try lia. now apply rd_app. }
      destruct (HP (pub s) P) as (Np & Ep & Lp).
      destruct (HP (old s) O) as (No & Eo & Lo).
      constructor; auto.
      constructor; cbn; auto; try (now intros c0 [<-|[]]); discriminate. }
    destruct (new s) as [c|] eqn:N; [|exact FR].
    destruct (lock (lhh s) c) eqn:L; [exact FR|]. clear FR.
    destruct (@wr_ok vec [] _ _ _ [] W L) as (W2 & Vw & _ & F2).
    constructor; auto.
    - constructor; cbn; auto; try (rewrite setnth_length; auto); discriminate.
    - unfold published; cbn [pub lhh]. rewrite wr_rd; auto. apply DP. now left.
  Qed.

  Lemma pin_wf (h : hp vec) cs p : wf h cs -> p < length (mem h) -> (forall c, In c cs -> c_ptr c <> p) ->
    wf (snd (pin h p)) cs.
  Proof.
    intros [W1 W2 W3 W4 W5] Hp Hc. unfold pin; cbn. constructor; cbn; auto.
    - intros i q b H. destruct (Nat.lt_ge_cases i (length (hold h))).
      + rewrite nth_error_app1 in H by auto. eauto.
      + rewrite nth_error_app2 in H by auto. destruct (i - length (hold h)) as [|[|]]; try discriminate.
        injection H as <- <-. auto.
    - intros c i Hi Ei. destruct (W4 c i Hi Ei) as [b Hb]. exists b. rewrite nth_error_app1; auto.
      apply nth_error_Some. congruence.
    - intros c i q Hi H E. destruct (Nat.lt_ge_cases i (length (hold h))).
      + rewrite nth_error_app1 in H by auto. eauto.
      + rewrite nth_error_app2 in H by auto. destruct (i - length (hold h)) as [|[|]]; try discriminate.
        injection H as <-. exfalso. now apply (Hc c).
  Qed.
  Lemma pin_frame (h : hp vec) p : frame h (snd (pin h p)).
  Proof.
    intros i q H. cbn. split; auto. rewrite nth_error_app1; auto. apply nth_error_Some. congruence.
  Qed.
  Lemma pin_val (h : hp vec) p : halive (snd (pin h p)) (fst (pin h p)) /\ hval [] (snd (pin h p)) (fst (pin h p)) = rd h p.
  Proof.
    unfold pin, hval, halive; cbn. rewrite nth_error_app2, Nat.sub_diag by lia. cbn. split; eauto.
  Qed.

  Lemma pub_holder_ok s i s' : inv s -> pub_holder s = (i, s') ->
    upto s s' (tx_items s) /\ halive (lhh s') i /\ hval [] (lhh s') i = published s.
  Proof.
    intros [W P O DP DO A C] H. unfold pub_holder in H. destruct (pin (lhh s) (pub s)) as [j h] eqn:E.
    injection H as <- <-. pose proof (pin_wf W P DP) as W'. pose proof (@pin_frame (lhh s) (pub s)) as F.
    pose proof (@pin_val (lhh s) (pub s)) as [HA HV]. rewrite E in *. cbn in *.
    assert (M : mem h = mem (lhh s)) by (injection E as <- <-; reflexivity).
    assert (R : forall p, rd h p = rd (lhh s) p) by (intros p; unfold CowModel.rd; now rewrite M).
    split; [|split; [exact HA|exact HV]].
    assert (TI : tx_items (mk_lst h (pub s) (act s) (old s) (new s) (cached s)) = tx_items s).
    { unfold tx_items, CowModel.val; cbn. destruct (new s); now rewrite R. }
    constructor; cbn; auto.
    - constructor; cbn; rewrite ?M; auto. intros d Hd. rewrite R, TI. auto.
    - unfold published; cbn [pub lhh]. now rewrite R.
  Qed.

  Lemma items_holder_ok s i s' : inv s -> items_holder s = (i, s') ->
    upto s s' (tx_items s) /\ halive (lhh s') i /\ hval [] (lhh s') i = tx_items s.
  Proof.
    intros I H. pose proof I as [W P O DP DO A C]. unfold items_holder in H. unfold cells in *.
    destruct (new s) as [c|] eqn:N.
    - destruct (get_holder (lhh s) c) as [[j c'] h] eqn:E. injection H as <- <-.
      destruct (@get_holder_ok vec [] _ _ _ _ _ _ W E) as (W' & M & Ec & F & Hj). cbn.
      assert (R : forall p, rd h p = rd (lhh s) p) by (intros p; unfold CowModel.rd; now rewrite M).
      assert (TI : tx_items (mk_lst h (pub s) (act s) (old s) (Some c') (cached s)) = tx_items s).
      { unfold tx_items, CowModel.val; cbn. rewrite N, R. now rewrite Ec. }
      split; [|split; [eexists; eauto|]].
      + constructor; cbn; auto.
        * constructor; cbn; rewrite ?M; auto.
          -- intros c0 [<-|[]]. rewrite Ec. apply DP. now left.
          -- intros c0 [<-|[]]. rewrite Ec. apply DO. now left.
          -- intros d Hd. rewrite R. unfold tx_items in TI; cbn in TI. unfold tx_items; cbn. rewrite TI, N.
             destruct (C d Hd) as [-> _]. split; [|discriminate]. unfold tx_items. now rewrite N.
        * unfold published; cbn [pub lhh]. now rewrite R.
      + unfold hval. rewrite Hj. unfold tx_items. rewrite N. apply R.
    - destruct (pin (lhh s) (old s)) as [j h] eqn:E.
      injection H as <- <-. pose proof (pin_wf W O DO) as W'. pose proof (@pin_frame (lhh s) (old s)) as F.
      pose proof (@pin_val (lhh s) (old s)) as [HA HV]. rewrite E in *. cbn in *.
      assert (M : mem h = mem (lhh s)) by (injection E as <- <-; reflexivity).
      assert (R : forall p, rd h p = rd (lhh s) p) by (intros p; unfold CowModel.rd; now rewrite M).
      split; [|split; [exact HA|rewrite HV; unfold tx_items; now rewrite N]].
      assert (TI : tx_items (mk_lst h (pub s) (act s) (old s) None (cached s)) = tx_items s).
      { unfold tx_items; cbn. rewrite N. now rewrite R. }
      constructor; cbn; auto.
      + constructor; cbn; rewrite ?M; auto. intros d Hd. destruct (C d Hd) as [_ X]. now contradiction X.
      + unfold published; cbn [pub lhh]. now rewrite R.
  Qed.

  Lemma upto_refl s : inv s -> upto s s (tx_items s).
  Proof. intros H. constructor; auto. apply frame_refl. Qed.

  Lemma reset_ok s : inv s -> act s = true -> upto s (reset_write s) (published s).
  Proof.
    intros [W P O DP DO A C] Ha. constructor; auto.
    - constructor; cbn; auto; try easy. unfold cells in W. destruct (new s); auto. now apply wf_tail in W.
    - unfold tx_items; cbn. now rewrite (A Ha).
    - apply frame_refl.
  Qed.

  (** ** The calls *)
  Definition rel (s : lst V) (S : ll V) : Prop :=
    inv s /\ lcontent S = published s /\
    match lprivate S with
    | None => act s = false
    | Some m => act s = true /\ m = tx_items s
    end.

  Definition keep (out : list nat) (s s' : lst V) : Prop := forall j, halive (lhh s) j -> ~ In j out ->
    halive (lhh s') j /\ hval [] (lhh s') j = hval [] (lhh s) j.
  Lemma frame_keep s s' : frame (lhh s) (lhh s') -> keep [] s s'.
  Proof. intros F j A _. now apply frame_hval. Qed.
  Definition dropped (o : lop V) : list nat := match o with LDrop j => [j] | _ => [] end.

  Record step_ok s (S : ll V) (o : lop V) s' (r : lres V) : Prop := {
    so_rel : exists S', rel s' S' /\ lrel S o r S';
    so_keep : keep (dropped o) s s';
    so_enum : forall e now, r = LREnum e now ->
      (forall j, In j (lholders e) -> halive (lhh s') j) /\ lyields (lhh s') e = now }.

  Lemma rel_upto s s' S m m' : rel s S -> upto s s' m -> lprivate S = Some m' ->
    rel s' (mk_ll (lcontent S) (Some m)).
  Proof.
    intros (I & C & P) [U1 U2 U3 U4 U5] E. rewrite E in P. destruct P as [A _].
    split; auto. cbn. split; [congruence|]. split; congruence.
  Qed.

  Lemma rel_same s s' S : rel s S -> upto s s' (tx_items s) -> rel s' S.
  Proof.
    intros (I & C & P) [U1 U2 U3 U4 U5]. split; auto. split; [congruence|].
    destruct (lprivate S); [destruct P; split; congruence|congruence].
  Qed.

  Lemma nth_error_get (l : vec) i : (exists v, r_get l i = LRVal v /\ nth_error l i = Some v) \/
    (r_get l i = LRExn /\ length l <= i).
  Proof.
    unfold r_get. destruct (nth_error l i) eqn:E; [left; eauto|right]. split; auto. now apply nth_error_None.
  Qed.
  Lemma r_empty_spec (l : vec) : r_empty l = true <-> l = [].
  Proof. destruct l; cbn; intuition discriminate. Qed.

  Lemma set_spec s i v s' r : inv s -> set_ s i v = (s', r) ->
    exists m', upto s s' m' /\ edit (tx_items s) (put_at i v (tx_items s)) LRUnit r m'.
  Proof.
    intros I. unfold set_. destruct (i <? length (tx_items s)) eqn:E; intros [= <- <-].
    - apply Nat.ltb_lt in E. eexists. split; [now apply write_ok|]. left. split; auto.
      destruct (split_nth _ E) as (a & x & b & Hl & <-). rewrite Hl, set_at_app. exists a, x, b. auto.
    - apply Nat.ltb_ge in E. eexists. split; [now apply upto_refl|]. right. repeat split; auto.
      intros m (a & x & b & Hl & <- & _). rewrite Hl, app_length in E. cbn in E. lia.
  Qed.
  Lemma insert_spec s i v s' r : inv s -> insert s i v = (s', r) ->
    exists m', upto s s' m' /\ edit (tx_items s) (ins_at i v (tx_items s)) LRUnit r m'.
  Proof.
    intros I. unfold insert. destruct (i <=? length (tx_items s)) eqn:E; intros [= <- <-].
    - apply Nat.leb_le in E. eexists. split; [now apply write_ok|]. left. split; auto.
      destruct (split_le _ E) as (a & b & Hl & <-). rewrite Hl, insert_at_app. exists a, b. auto.
    - apply Nat.leb_gt in E. eexists. split; [now apply upto_refl|]. right. repeat split; auto.
      intros m (a & b & Hl & <- & _). rewrite Hl, app_length in E. lia.
  Qed.
  Lemma remove_at_spec s i s' r : inv s -> remove_at s i = (s', r) ->
    exists m', upto s s' m' /\ edit (tx_items s) (fun l => exists x, del_at i x (tx_items s) l) LRUnit r m'.
  Proof.
    intros I. unfold remove_at. destruct (i <? length (tx_items s)) eqn:E; intros [= <- <-].
    - apply Nat.ltb_lt in E. eexists. split; [now apply write_ok|]. left. split; auto.
      destruct (split_nth _ E) as (a & x & b & Hl & <-). rewrite Hl, erase_at_app. exists x, a, b. auto.
    - apply Nat.ltb_ge in E. eexists. split; [now apply upto_refl|]. right. repeat split; auto.
      intros m (x & a & b & Hl & <- & _). rewrite Hl, app_length in E. cbn in E. lia.
  Qed.

  Lemma step_sound s S o s' r : rel s S -> lstep veq s o = (s', r) -> step_ok s S o s' r.
  Proof.
    intros R Est. pose proof R as (I & C & P).
    assert (NOOP : lrel S o r S -> s' = s -> (forall e now, r <> LREnum e now) -> step_ok s S o s' r).
    { intros H -> Hr. constructor.
      - exists S. auto.
      - intros j Hj _. auto.
      - intros e now He. now apply Hr in He. }
    assert (NTX : act s = false -> lprivate S = None).
    { destruct (lprivate S); auto. destruct P. congruence. }
    assert (UP : forall m' m, lprivate S = Some m' -> upto s s' m -> dropped o = [] ->
       lrel S o r (mk_ll (lcontent S) (Some m)) -> (forall e now, r <> LREnum e now) -> step_ok s S o s' r).
    { intros m' m E U D H Hr. constructor.
      - eexists. split; [|exact H]. eapply rel_upto; eauto.
      - rewrite D. apply frame_keep, U.
      - intros e now He. now apply Hr in He. }
    assert (EN : forall i mk (l : vec), upto s s' (tx_items s) -> dropped o = [] ->
       halive (lhh s') i -> hval [] (lhh s') i = l ->
       r = LREnum (mk i) (lyields (lhh s') (mk i)) -> lholders (mk i) = [i] ->
       lrel S o r S -> step_ok s S o s' r).
    { intros i mk l U D HA HV -> HH HL. constructor.
      - exists S. split; auto. eapply rel_same; eauto.
      - rewrite D. apply frame_keep, U.
      - intros e now [= <- <-]. split; auto. rewrite HH. intros j [<-|[]]. auto. }
    destruct o; cbn [lstep] in Est;
      try (injection Est as <- <-; apply NOOP; auto; try discriminate; cbn; rewrite C; eauto using nth_error_get, index_of_spec; fail).
    - (* CGet *) injection Est as <- <-. apply NOOP; auto; cbn.
      + split; auto. rewrite C. apply nth_error_get.
      + intros e now. unfold r_get. destruct (nth_error _ _); discriminate.
    - injection Est as <- <-. apply NOOP; auto; try discriminate. cbn. rewrite C. split; auto.
      eexists; split; eauto. apply r_empty_spec.
    - injection Est as <- <-. apply NOOP; auto; try discriminate. cbn. rewrite C. split; auto.
      eexists; split; eauto. apply contains_spec.
    - (* CEnum *) unfold ret in Est. destruct (pub_holder s) as [i s1] eqn:E. injection Est as <- <-.
      destruct (pub_holder_ok I E) as (U & HA & HV). eapply EN with (mk := LFwd); eauto.
      cbn -[hval]. split; auto. rewrite HV, C, elems_eq. eauto.
    - unfold ret in Est. destruct (pub_holder s) as [i s1] eqn:E. injection Est as <- <-.
      destruct (pub_holder_ok I E) as (U & HA & HV). eapply EN with (mk := LRev); eauto.
      cbn -[hval]. split; auto. rewrite HV, C, elems_eq. eauto.
    - destruct (r_empty (published s)) eqn:Ee.
      + injection Est as <- <-. apply NOOP; auto; try discriminate. cbn. split; auto. left.
        rewrite C. split; auto. now apply r_empty_spec.
      + unfold ret in Est. destruct (pub_holder s) as [i s1] eqn:E. injection Est as <- <-.
        destruct (pub_holder_ok I E) as (U & HA & HV). eapply EN with (mk := LPop); eauto.
        cbn -[hval]. split; auto. right. rewrite HV, C, elems_eq. eexists. split; eauto.
        intros X. apply r_empty_spec in X. congruence.
    - (* Start *) destruct (act s) eqn:A.
      + injection Est as <- <-. destruct (lprivate S) as [m|] eqn:EP; [|congruence].
        apply NOOP; auto; try discriminate. cbn. rewrite EP. auto.
      + injection Est as <- <-. rewrite (NTX eq_refl) in P. destruct I as [W HP HO DP DO HA HC].
        constructor; cbn; auto; try discriminate.
        * eexists. rewrite (NTX eq_refl). split; [|split; [reflexivity|reflexivity]].
          split; [|split; auto]; cbn; auto.
          constructor; cbn; auto; try easy. unfold cells in W. destruct (new s); auto. now apply wf_tail in W.
        * intros j Hj _. auto.
    - (* End *) destruct (act s) eqn:A.
      + injection Est as <- <-. destruct (lprivate S) as [m|] eqn:EP; [|congruence].
        destruct I as [W HP HO DP DO HA HC].
        constructor; cbn; auto; try discriminate.
        * eexists. rewrite EP. split; [|split; [reflexivity|reflexivity]].
          split; [|split; [exact C|reflexivity]]. constructor; try assumption. discriminate.
        * intros j Hj _. auto.
      + injection Est as <- <-. pose proof (NTX eq_refl) as EP. apply NOOP; auto; try discriminate. cbn. rewrite EP. auto.
    (* transaction calls *)
    - destruct (act s) eqn:A; injection Est as <- <-; [|pose proof (NTX eq_refl) as EP; apply NOOP; auto; try discriminate; cbn; rewrite EP; auto].
      destruct (lprivate S) as [m|] eqn:EP; [|congruence]. destruct P as [_ ->].
      apply NOOP; auto; cbn; [rewrite EP; split; auto; apply nth_error_get|].
      intros e now. unfold r_get. destruct (nth_error _ _); discriminate.
    - destruct (act s) eqn:A; injection Est as <- <-; [|pose proof (NTX eq_refl) as EP; apply NOOP; auto; try discriminate; cbn; rewrite EP; auto].
      destruct (lprivate S) as [m|] eqn:EP; [|congruence]. destruct P as [_ ->].
      apply NOOP; auto; try discriminate; cbn. rewrite EP. auto.
    - destruct (act s) eqn:A; injection Est as <- <-; [|pose proof (NTX eq_refl) as EP; apply NOOP; auto; try discriminate; cbn; rewrite EP; auto].
      destruct (lprivate S) as [m|] eqn:EP; [|congruence]. destruct P as [_ ->].
      apply NOOP; auto; try discriminate; cbn. rewrite EP. auto.
    - destruct (act s) eqn:A; injection Est as <- <-; [|pose proof (NTX eq_refl) as EP; apply NOOP; auto; try discriminate; cbn; rewrite EP; auto].
      destruct (lprivate S) as [m|] eqn:EP; [|congruence]. destruct P as [_ ->].
      apply NOOP; auto; try discriminate; cbn. rewrite EP. split; auto. eexists; split; eauto. apply r_empty_spec.
    - destruct (act s) eqn:A; injection Est as <- <-; [|pose proof (NTX eq_refl) as EP; apply NOOP; auto; try discriminate; cbn; rewrite EP; auto].
      destruct (lprivate S) as [m|] eqn:EP; [|congruence]. destruct P as [_ ->].
      apply NOOP; auto; try discriminate; cbn. rewrite EP. split; auto. eexists; split; eauto. apply contains_spec.
    - destruct (act s) eqn:A; injection Est as <- <-; [|pose proof (NTX eq_refl) as EP; apply NOOP; auto; try discriminate; cbn; rewrite EP; auto].
      destruct (lprivate S) as [m|] eqn:EP; [|congruence]. destruct P as [_ ->].
      apply NOOP; auto; try discriminate; cbn. rewrite EP. split; auto. eexists; split; eauto. apply index_of_spec.
    - (* Enum *) destruct (act s) eqn:A; [|injection Est as <- <-; pose proof (NTX eq_refl) as EP; apply NOOP; auto; try discriminate; cbn; rewrite EP; auto].
      destruct (lprivate S) as [m|] eqn:EP; [|congruence]. destruct P as [_ ->].
      unfold ret in Est. destruct (items_holder s) as [i s1] eqn:E. injection Est as <- <-.
      destruct (items_holder_ok I E) as (U & HA & HV). eapply EN with (mk := LFwd); eauto.
      cbn -[hval]. rewrite EP. split; auto. rewrite HV, elems_eq. eauto.
    - destruct (act s) eqn:A; [|injection Est as <- <-; pose proof (NTX eq_refl) as EP; apply NOOP; auto; try discriminate; cbn; rewrite EP; auto].
      destruct (lprivate S) as [m|] eqn:EP; [|congruence]. destruct P as [_ ->].
      unfold ret in Est. destruct (items_holder s) as [i s1] eqn:E. injection Est as <- <-.
      destruct (items_holder_ok I E) as (U & HA & HV). eapply EN with (mk := LRev); eauto.
      cbn -[hval]. rewrite EP. split; auto. rewrite HV, elems_eq. eauto.
    - (* Add *) destruct (act s) eqn:A; [|injection Est as <- <-; pose proof (NTX eq_refl) as EP; apply NOOP; auto; try discriminate; cbn; rewrite EP; auto].
      destruct (lprivate S) as [m|] eqn:EP; [|congruence]. destruct P as [_ ->]. injection Est as <- <-.
      eapply UP; [reflexivity|apply write_ok; auto|reflexivity| |discriminate]. cbn. rewrite EP. auto.
    - (* Set *) destruct (act s) eqn:A; [|injection Est as <- <-; pose proof (NTX eq_refl) as EP; apply NOOP; auto; try discriminate; cbn; rewrite EP; auto].
      destruct (lprivate S) as [m|] eqn:EP; [|congruence]. destruct P as [_ ->].
      destruct (set_spec _ _ I Est) as (m' & U & E). eapply UP; eauto.
      + cbn. rewrite EP. eauto.
      + intros e now ->. destruct E as [[X _]|[X _]]; discriminate.
    - destruct (act s) eqn:A; [|injection Est as <- <-; pose proof (NTX eq_refl) as EP; apply NOOP; auto; try discriminate; cbn; rewrite EP; auto].
      destruct (lprivate S) as [m|] eqn:EP; [|congruence]. destruct P as [_ ->].
      destruct (insert_spec _ _ I Est) as (m' & U & E). eapply UP; eauto.
      + cbn. rewrite EP. eauto.
      + intros e now ->. destruct E as [[X _]|[X _]]; discriminate.
    - destruct (act s) eqn:A; [|injection Est as <- <-; pose proof (NTX eq_refl) as EP; apply NOOP; auto; try discriminate; cbn; rewrite EP; auto].
      destruct (lprivate S) as [m|] eqn:EP; [|congruence]. destruct P as [_ ->].
      destruct (remove_at_spec _ I Est) as (m' & U & E). eapply UP; eauto.
      + cbn. rewrite EP. eauto.
      + intros e now ->. destruct E as [[X _]|[X _]]; discriminate.
    - (* Remove *) destruct (act s) eqn:A; [|injection Est as <- <-; pose proof (NTX eq_refl) as EP; apply NOOP; auto; try discriminate; cbn; rewrite EP; auto].
      destruct (lprivate S) as [m|] eqn:EP; [|congruence]. destruct P as [_ ->].
      pose proof (index_of_spec v (tx_items s)) as HI. destruct (index_of veq v (tx_items s)) as [i|]; injection Est as <- <-.
      + destruct HI as (a & b & Hl & <- & Na).
        eapply UP; [reflexivity|apply write_ok; auto|reflexivity| |discriminate]. cbn. rewrite EP. right.
        split; auto. exists a, b. rewrite Hl, erase_at_app. auto.
      + apply NOOP; auto; try discriminate. cbn. rewrite EP. left. auto.
    - (* RemoveAll *) destruct (act s) eqn:A; [|injection Est as <- <-; pose proof (NTX eq_refl) as EP; apply NOOP; auto; try discriminate; cbn; rewrite EP; auto].
      destruct (lprivate S) as [m|] eqn:EP; [|congruence]. destruct P as [_ ->]. injection Est as <- <-.
      eapply UP; [reflexivity|apply write_ok; auto|reflexivity| |discriminate]. cbn. rewrite EP. auto.
    - (* Clear *) destruct (act s) eqn:A; [|injection Est as <- <-; pose proof (NTX eq_refl) as EP; apply NOOP; auto; try discriminate; cbn; rewrite EP; auto].
      destruct (lprivate S) as [m|] eqn:EP; [|congruence]. injection Est as <- <-.
      eapply UP; [reflexivity|apply clear_ok; auto|reflexivity| |discriminate]. cbn. rewrite EP. auto.
    - (* Apply *) destruct (act s) eqn:A; [|injection Est as <- <-; pose proof (NTX eq_refl) as EP; apply NOOP; auto; try discriminate; cbn; rewrite EP; auto; destruct e as [[] [i v]]; auto].
      destruct (lprivate S) as [m|] eqn:EP; [|congruence]. destruct P as [_ ->].
      destruct e as [op0 [i v]]. unfold apply in Est. cbn [fst snd] in Est.
      assert (exists m', upto s s' m' /\ edit (tx_items s) (match op0 with OpRemoved => (fun l => exists x, del_at i x (tx_items s) l) | _ => put_at i v (tx_items s) end) LRUnit r m') as (m' & U & E).
      { destruct op0; [exact (set_spec _ _ I Est)|exact (remove_at_spec _ I Est)|exact (set_spec _ _ I Est)]. }
      eapply UP; eauto.
      + cbn. rewrite EP. destruct op0; eauto.
      + intros e now ->. destruct E as [[X _]|[X _]]; discriminate.
    - (* Diff *) destruct (act s) eqn:A; [|injection Est as <- <-; pose proof (NTX eq_refl) as EP; apply NOOP; auto; try discriminate; cbn; rewrite EP; auto].
      destruct (lprivate S) as [m|] eqn:EP; [|congruence]. destruct P as [_ ->].
      pose proof I as [W HP HO DP DO HA HC].
      unfold diff in Est. destruct (cached s) as [d|] eqn:Ed.
      + injection Est as <- <-. destruct (HC d eq_refl) as [-> _]. constructor.
        * exists S. split; auto. cbn. rewrite EP. split; auto. eexists _, _. split; eauto.
          rewrite C. unfold published. rewrite <- (HA A). apply make_diff_ok.
        * intros j Hj _. auto.
        * intros e now [= <- <-]. split; [easy|reflexivity].
      + destruct (new s) as [c|] eqn:En; injection Est as <- <-.
        * assert (TI : tx_items s = val (lhh s) c) by (unfold tx_items; now rewrite En). constructor.
          -- exists S. split.
             ++ split; [|split; [exact C|]].
                ** constructor; cbn; auto; unfold cells in *; cbn; rewrite En in *; auto.
                   intros d [= <-]. split; [|discriminate]. now rewrite <- TI.
                ** rewrite EP. auto.
             ++ cbn. rewrite EP. split; auto. eexists _, _. split; eauto.
                rewrite C, <- TI. unfold published. rewrite <- (HA A). apply make_diff_ok.
          -- intros j Hj _. auto.
          -- intros e now [= <- <-]. split; [easy|reflexivity].
        * constructor.
          -- exists S. split; auto. cbn. rewrite EP. split; auto. eexists _, _. split; eauto.
             replace (tx_items s) with (lcontent S).
             ++ assert (X : make_diff veq (lcontent S) (lcontent S) = []) by (apply diff_empty; reflexivity).
                rewrite <- X. apply make_diff_ok.
             ++ rewrite C. unfold tx_items, published. rewrite En. now rewrite (HA A).
          -- intros j Hj _. auto.
          -- intros e now [= <- <-]. split; [easy|reflexivity].
    - (* IsDirty *) destruct (act s) eqn:A; [|injection Est as <- <-; pose proof (NTX eq_refl) as EP; apply NOOP; auto; try discriminate; cbn; rewrite EP; auto].
      destruct (lprivate S) as [m|] eqn:EP; [|congruence]. destruct P as [_ ->]. injection Est as <- <-.
      apply NOOP; auto; try discriminate. cbn. rewrite EP. split; auto. eexists; split; eauto.
      rewrite C. unfold tx_items, published. destruct (new s); [discriminate|]. intros _. now rewrite (i_act I A).
    - (* Commit *) destruct (act s) eqn:A; [|injection Est as <- <-; pose proof (NTX eq_refl) as EP; apply NOOP; auto; try discriminate; cbn; rewrite EP; auto].
      destruct (lprivate S) as [m|] eqn:EP; [|congruence]. destruct P as [_ ->].
      pose proof I as [W HP HO DP DO HA HC].
      pose proof (reset_ok I A) as RO.
      assert (SAME : published s = tx_items s -> r = LRCommit None -> s' = reset_write s -> step_ok s S LCommit s' r).
      { intros HE -> ->. constructor; [|apply frame_keep, RO|discriminate]. exists (mk_ll (tx_items s) (Some (tx_items s))). split.
        - split; [apply RO|]. cbn [lcontent lprivate]. split; [rewrite (u_pub RO); auto|split; auto].
          pose proof (u_items RO). congruence.
        - cbn. rewrite EP. split; auto. left. split; auto. congruence. }
      unfold commit in Est. destruct (new s) as [c|] eqn:En.
      + assert (TI : tx_items s = val (lhh s) c) by (unfold tx_items; now rewrite En).
        set (d := match cached s with Some d => d | None => make_diff veq (rd (lhh s) (old s)) (val (lhh s) c) end) in *.
        assert (Hd : d = make_diff veq (published s) (tx_items s)).
        { unfold d, published. rewrite <- (HA A), TI. destruct (cached s) as [x|] eqn:Ex; auto.
          destruct (HC x eq_refl) as [-> _]. now rewrite TI. }
        pose proof (make_diff_ok (published s) (tx_items s)) as DK. rewrite <- Hd in DK. clearbody d.
        destruct d as [|e d].
        * injection Est as <- <-. apply SAME; auto. now apply (ld_empty DK).
        * injection Est as <- <-. constructor; [|intros j Hj _; auto|discriminate].
          exists (mk_ll (tx_items s) (Some (tx_items s))). split.
          -- split; [|split].
             ++ constructor; cbn; auto; try easy; try (unfold cells in W; rewrite En in W; now apply wf_tail in W).
                ** apply (w_ptr W). unfold cells. rewrite En. now left.
                ** apply (w_ptr W). unfold cells. rewrite En. now left.
             ++ cbn. exact TI.
             ++ cbn. split; auto.
          -- cbn. rewrite EP. split; auto. right. exists (e :: d). split; auto. rewrite C. split; auto.
             intros X. apply (ld_empty DK) in X. discriminate.
      + injection Est as <- <-. apply SAME; auto. unfold tx_items, published. rewrite En. now rewrite (HA A).
    - (* Revert *) destruct (act s) eqn:A; [|injection Est as <- <-; pose proof (NTX eq_refl) as EP; apply NOOP; auto; try discriminate; cbn; rewrite EP; auto].
      destruct (lprivate S) as [m|] eqn:EP; [|congruence]. injection Est as <- <-.
      eapply UP; [reflexivity|apply reset_ok; auto|reflexivity| |discriminate]. cbn. rewrite EP. split; auto. now rewrite C.
    - (* Drop *) injection Est as <- <-. pose proof I as [W HP HO DP DO HA HC].
      destruct (drop_ok h W) as [W' M'].
      assert (R' : forall p, rd (drop_holder (lhh s) h) p = rd (lhh s) p) by (intros p; unfold CowModel.rd; now rewrite M').
      assert (TI : tx_items (mk_lst (drop_holder (lhh s) h) (pub s) (act s) (old s) (new s) (cached s)) = tx_items s).
      { unfold tx_items, CowModel.val; cbn. destruct (new s); now rewrite R'. }
      constructor; [| |discriminate].
      + exists S. split; [|cbn; auto]. split; [|split].
        * constructor; cbn; rewrite ?M'; auto. intros d Hd. rewrite R', TI. auto.
        * unfold published; cbn [pub lhh]. now rewrite R'.
        * destruct (lprivate S); cbn; auto. destruct P. rewrite TI. auto.
      + intros j [p Hp] Nj. cbn.
        assert (Nji : j <> h) by (intros ->; apply Nj; now left).
        assert (Hp' : nth_error (hold (drop_holder (lhh s) h)) j = Some (p, true)) by now apply drop_frame.
        split; [exists p; exact Hp'|]. unfold hval. rewrite Hp, Hp'. apply R'.
  Qed.

  Lemma init_rel : rel (linit V) (@ll0 V).
  Proof.
    split; [|split; reflexivity]. constructor; cbn; auto; try easy.
    constructor; cbn; try easy; [constructor|]. intros [|i] p b; discriminate.
  Qed.

  Lemma run_sound ops : forall s S, rel s S ->
    lhistory S ops (snd (lrun veq s ops)) /\
    (exists S', rel (fst (lrun veq s ops)) S') /\
    keep (flat_map dropped ops) s (fst (lrun veq s ops)).
  Proof.
    induction ops as [|o ops IH]; intros s S R; cbn.
    - repeat split; eauto. constructor.
    - destruct (lstep veq s o) as [s1 r] eqn:E. pose proof (step_sound _ R E) as [(S' & H1 & H2) H4 H5].
      destruct (IH s1 _ H1) as (I1 & I3 & I4). destruct (lrun veq s1 ops) as [s2 rs]. cbn in *.
      split; [econstructor; eauto|split]; auto.
      intros j Aj Nj. rewrite in_app_iff in Nj. destruct (H4 j Aj) as [A1 V1]; [tauto|].
      destruct (I4 j A1) as [A2 V2]; [tauto|]. split; auto. congruence.
  Qed.

  Theorem snapshot_stable ops1 o ops2 s1 rs1 s2 e now s3 rs3 :
    lrun veq (linit V) ops1 = (s1, rs1) ->
    lstep veq s1 o = (s2, LREnum e now) ->
    lrun veq s2 ops2 = (s3, rs3) ->
    (forall j, In (LDrop j) ops2 -> ~ In j (lholders e)) ->
    lyields (lhh s3) e = now.
  Proof.
    intros R1 R2 R3 ND.
    destruct (run_sound ops1 init_rel) as (_ & [S1 H1] & _). rewrite R1 in H1.
    pose proof (step_sound _ H1 R2) as [(S2 & H2 & _) _ HE]. destruct (HE e now eq_refl) as [A Y].
    destruct (run_sound ops2 H2) as (_ & _ & HK). rewrite R3 in HK. cbn in HK.
    assert (HV : forall j, In j (lholders e) -> hval [] (lhh s3) j = hval [] (lhh s2) j).
    { intros j Hj. apply HK; auto. rewrite in_flat_map. intros (o' & Ho & Hd). destruct o'; cbn in Hd; try easy.
      destruct Hd as [->|[]]. now apply (ND j). }
    rewrite <- Y. destruct e; cbn in *; rewrite ?HV; auto.
  Qed.
  (** ** Apply on diffs that only truncate (C15) *)
  Lemma elems_inj t (l l' : vec) : elems t l = elems t l' -> l = l'.
  Proof.
    rewrite <- !elems_eq. generalize 0. revert l'. induction l as [|x l IH]; intros [|y l'] n; cbn; try discriminate; auto.
    intros [= -> H]. f_equal. eauto.
  Qed.

  Lemma enum_items s e now : rel s (mk_ll (published s) (Some (tx_items s))) ->
    snd (lstep veq s LEnum) = LREnum e now -> now = elems OpUpdated (tx_items s).
  Proof.
    intros R H. destruct (lstep veq s LEnum) as [s' r] eqn:E. cbn in H. subst r.
    destruct (step_sound _ R E) as [(S' & _ & L) _ _]. cbn in L. destruct L as [_ [e' L]]. congruence.
  Qed.

  Lemma reach_rel ops : forall s rs, lrun veq (linit V) ops = (s, rs) -> inv s.
  Proof.
    intros s rs H. destruct (run_sound ops init_rel) as (_ & [S R] & _). rewrite H in R. apply R.
  Qed.

  Lemma apply_removed_tail (a : vec) : forall b s, inv s -> act s = true -> tx_items s = a ++ b ->
    let r := lrun veq s (map (fun x => LApply (OpRemoved, (length a, x))) b) in
    Forall (fun x => x = LRUnit) (snd r) /\ inv (fst r) /\ act (fst r) = true /\ tx_items (fst r) = a.
  Proof.
    induction b as [|x b IH]; intros s I A T; cbn -[lstep].
    - rewrite app_nil_r in T. auto.
    - destruct (lstep veq s (LApply (OpRemoved, (length a, x)))) as [s1 r1] eqn:E.
      cbn [lstep] in E. rewrite A in E. cbn [apply fst snd] in E. unfold apply in E. cbn [fst snd] in E.
      unfold remove_at in E. rewrite T in E.
      assert (L : (length a <? length (a ++ x :: b)) = true) by (apply Nat.ltb_lt; rewrite app_length; cbn; lia).
      rewrite L in E. injection E as <- <-.
      pose proof (write_ok (erase_at (length a)) I) as [U1 U2 U3 U4 U5]. rewrite T, erase_at_app in U2.
      destruct (IH _ U1 (eq_trans U4 A) U2) as (H1 & H2).
      destruct (lrun veq (write s (erase_at (length a))) _) as [s2 rs]. cbn in *. split; auto.
  Qed.

  Lemma apply_truncation ops (a b : vec) s rs e :
    lrun veq (linit V) ops = (s, rs) ->
    snd (lstep veq s LEnum) = LREnum e (elems OpUpdated (a ++ b)) ->
    let r := lrun veq s (map (fun x => LApply x) (make_diff veq (a ++ b) a)) in
    Forall (fun x => x = LRUnit) (snd r) /\ exists e', snd (lstep veq (fst r) LEnum) = LREnum e' (elems OpUpdated a).
  Proof.
    intros R H. pose proof (reach_rel _ R) as I.
    assert (A : act s = true) by (cbn in H; destruct (act s); auto; discriminate).
    assert (REL : forall s, inv s -> act s = true -> rel s (mk_ll (published s) (Some (tx_items s)))).
    { intros s0 I0 A0. split; auto. cbn. auto. }
    pose proof (enum_items (REL s I A) H) as X. apply elems_inj in X.
    assert (D : forall (a b : vec) i, make_diff_from veq i 0 (a ++ b) a = map (fun x => (OpRemoved, (i + length a, x))) b).
    { clear -veq_spec. intros a. induction a as [|x a IHa]; intros b i; cbn.
      - rewrite diff_removed by lia. now rewrite Nat.sub_0_r, Nat.add_0_r.
      - rewrite diff_cons, veq_refl, IHa. cbn. apply map_ext. intros y. repeat f_equal. lia. }
    unfold make_diff. rewrite D, map_map. cbn [plus].
    destruct (apply_removed_tail a b I A (eq_sym X)) as (H1 & H2 & H3 & H4). split; auto.
    destruct (lrun veq s _) as [s1 rs1]. cbn [fst snd] in *.
    destruct (lstep veq s1 LEnum) as [s2 r2] eqn:E. destruct (step_sound _ (REL s1 H2 H3) E) as [(S' & _ & L) _ _].
    cbn in L. destruct L as [_ [e' L]]. rewrite H4 in L. eauto.
  Qed.
End TxList.
