From Coq Require Import List Arith Bool ZArith Lia Sorting.Sorted.
From Verif Require Import RefCntModel RefCntSpec.
Import ListNotations.

Section P.
  Variables K V : Type.
  Variable less : K -> K -> bool.
  Hypothesis O : order less.
  Notation same := (same less).
  Notation entry := (entry K V).
  Notation impl := (impl K V).
  Notation find := (find (V := V) less).
  Notation emplace := (emplace (V := V) less).

  Lemma same_refl a : same a a = true.
  Proof. unfold RefCntModel.same. now rewrite (o_irrefl O). Qed.
  Lemma same_sym a b : same a b = same b a.
  Proof. unfold RefCntModel.same. apply andb_comm. Qed.
  Lemma same_trans a b c : same a b = true -> same b c = true -> same a c = true.
  Proof. apply (o_same O). Qed.
  Lemma same_cong a b c : same a b = true -> same a c = same b c.
  Proof.
    intros H. destruct (same b c) eqn:E; [now apply same_trans with b|].
    destruct (same a c) eqn:E'; [|reflexivity]. rewrite same_sym in H. rewrite (same_trans _ _ _ H E') in E. discriminate.
  Qed.

  Fixpoint get (m : impl) (k : K) : option entry :=
    match m with [] => None | e :: m' => if same k (ekey e) then Some e else get m' k end.

  Lemma find_get m k : match find m k with
    | Some i => exists e, nth_error m i = Some e /\ get m k = Some e /\ same k (ekey e) = true
    | None => get m k = None end.
  Proof.
    induction m as [|e m IH]; cbn; [reflexivity|].
    destruct (same k (ekey e)) eqn:E; [exists e; auto|].
    destruct (find m k) as [i|]; cbn; exact IH.
  Qed.
  Lemma get_same m k e : get m k = Some e -> same k (ekey e) = true.
  Proof. induction m as [|x m IH]; cbn; [discriminate|]. destruct (same k (ekey x)) eqn:E; [now intros [= <-]|auto]. Qed.
  Lemma get_cong m a b : same a b = true -> get m a = get m b.
  Proof. intros H. induction m as [|x m IH]; cbn; [reflexivity|]. rewrite (same_cong _ _ _ H), IH. reflexivity. Qed.

  Lemma get_set_at m : forall i k e e', find m k = Some i -> nth_error m i = Some e -> ekey e' = ekey e ->
    forall q, get (set_at m i e') q = if same q (ekey e) then Some e' else get m q.
  Proof.
    induction m as [|x m IH]; intros i k e e' F N E q; [discriminate|].
    cbn in F. destruct (same k (ekey x)) eqn:Sx.
    - injection F as <-. cbn in N. injection N as ->. unfold set_at. cbn. rewrite E. now destruct (same q (ekey e)).
    - destruct (find m k) as [j|] eqn:Fj; [|discriminate]. injection F as <-. cbn in N.
      specialize (IH j k e e' Fj N E q). unfold set_at in *. cbn. cbn in IH. rewrite IH.
      destruct (same q (ekey x)) eqn:Sq; [|reflexivity].
      destruct (same q (ekey e)) eqn:Se; [|reflexivity]. exfalso.
      pose proof (find_get m k) as G. rewrite Fj in G. destruct G as (e0 & N0 & _ & S0). rewrite N in N0. injection N0 as <-.
      rewrite same_sym in Se. pose proof (same_trans _ _ _ S0 (same_trans _ _ _ Se Sq)) as B. congruence.
  Qed.

  Notation SS := (StronglySorted (fun a b : entry => less (ekey a) (ekey b) = true)).

  Lemma less_not_same a b : less a b = true -> same a b = false.
  Proof. unfold RefCntModel.same. intros ->. reflexivity. Qed.
  Lemma less_same_l a b c : same a b = true -> less b c = true -> less a c = true.
  Proof.
    intros S L. destruct (less a c) eqn:E; [reflexivity|].
    destruct (less c a) eqn:E'.
    - pose proof (o_trans O _ _ _ L E') as B. unfold RefCntModel.same in S. rewrite B, andb_false_r in S. discriminate.
    - assert (same a c = true) by (unfold RefCntModel.same; now rewrite E, E').
      assert (same b c = true) by (rewrite same_sym in S; now apply same_trans with a).
      apply less_not_same in L. congruence.
  Qed.

  Lemma get_erase_at m : forall i e, SS m -> nth_error m i = Some e ->
    forall q, get (erase_at m i) q = if same q (ekey e) then None else get m q.
  Proof.
    induction m as [|x m IH]; intros i e S N q; [destruct i; discriminate|].
    inversion S as [|y l S1 F]; subst. destruct i as [|i].
    - injection N as ->. unfold erase_at. cbn. destruct (same q (ekey e)) eqn:E; [|reflexivity].
      clear -F E O. induction m as [|y m IH]; cbn; [reflexivity|]. inversion F as [|? ? L F']; subst.
      rewrite (same_cong _ _ _ E), (less_not_same _ _ L). now apply IH.
    - cbn in N. unfold erase_at in *. cbn. specialize (IH i e S1 N q). cbn in IH. rewrite IH.
      destruct (same q (ekey x)) eqn:Ex; [|reflexivity]. destruct (same q (ekey e)) eqn:Ee; [|reflexivity]. exfalso.
      rewrite Forall_forall in F. specialize (F e (nth_error_In _ _ N)). apply less_not_same in F.
      rewrite same_sym in Ex. rewrite (same_trans _ _ _ Ex Ee) in F. discriminate.
  Qed.

  Lemma get_emplace m e : get m (ekey e) = None -> forall q, get (emplace m e) q = if same q (ekey e) then Some e else get m q.
  Proof.
    induction m as [|x m IH]; cbn; intros G q; [reflexivity|].
    destruct (same (ekey e) (ekey x)) eqn:Sx; [discriminate|].
    destruct (less (ekey e) (ekey x)); cbn; [reflexivity|].
    rewrite IH by assumption. destruct (same q (ekey x)) eqn:Sq; [|reflexivity].
    destruct (same q (ekey e)) eqn:Se; [|reflexivity]. exfalso.
    rewrite same_sym in Se. rewrite (same_trans _ _ _ Se Sq) in Sx. discriminate.
  Qed.

  (** sortedness *)
  Lemma SS_set_at m : forall i e e', SS m -> nth_error m i = Some e -> ekey e' = ekey e -> SS (set_at m i e').
  Proof.
    induction m as [|x m IH]; intros i e e' S N E; [destruct i; discriminate|].
    inversion S as [|y l S1 F]; subst. destruct i as [|i].
    - injection N as ->. unfold set_at. cbn. constructor; [exact S1|]. rewrite E. exact F.
    - cbn in N. unfold set_at in *. cbn. constructor; [apply (IH i e e' S1 N E)|].
      rewrite Forall_forall in *. intros y Hy. change (In y (firstn i m ++ e' :: skipn (Datatypes.S i) m)) in Hy.
      apply in_app_or in Hy. destruct Hy as [Hy|[<-|Hy]].
      + apply F. rewrite <- (firstn_skipn i m). apply in_or_app. now left.
      + rewrite E. apply F. eapply nth_error_In; eauto.
      + apply F. rewrite <- (firstn_skipn (Datatypes.S i) m). apply in_or_app. now right.
  Qed.
  Lemma SS_erase_at m : forall i, SS m -> SS (erase_at m i).
  Proof.
    induction m as [|x m IH]; intros i S; [destruct i; constructor|].
    inversion S as [|y l S1 F]; subst. destruct i as [|i]; unfold erase_at; cbn; [exact S1|].
    constructor; [apply (IH i S1)|]. rewrite Forall_forall in *. intros y Hy. apply F.
    change (In y (firstn i m ++ skipn (Datatypes.S i) m)) in Hy. apply in_app_or in Hy. destruct Hy as [Hy|Hy].
    - rewrite <- (firstn_skipn i m). apply in_or_app. now left.
    - rewrite <- (firstn_skipn (Datatypes.S i) m). apply in_or_app. now right.
  Qed.
  Lemma in_emplace m e y : In y (emplace m e) <-> y = e \/ In y m.
  Proof. induction m as [|x m IH]; cbn; [intuition|]. destruct (less (ekey e) (ekey x)); cbn; rewrite ?IH; intuition. Qed.
  Lemma SS_emplace m e : SS m -> get m (ekey e) = None -> SS (emplace m e).
  Proof.
    induction m as [|x m IH]; cbn; intros S G; [repeat constructor|].
    inversion S as [|y l S1 F]; subst.
    destruct (same (ekey e) (ekey x)) eqn:Sx; [discriminate|].
    destruct (less (ekey e) (ekey x)) eqn:L.
    - constructor; [exact S|]. constructor; [exact L|]. rewrite Forall_forall in *. intros y Hy.
      apply (o_trans O _ (ekey x)); [exact L|now apply F].
    - constructor; [now apply IH|]. rewrite Forall_forall in *. intros y Hy. apply in_emplace in Hy.
      destruct Hy as [->|Hy]; [|now apply F].
      unfold RefCntModel.same in Sx. rewrite L in Sx. destruct (less (ekey x) (ekey e)); [reflexivity|discriminate].
  Qed.

  Lemma set_at_erase m i (e e' : entry) : nth_error m i = Some e -> erase_at (set_at m i e') i = erase_at m i.
  Proof.
    revert i. induction m as [|x m IH]; intros [|i] N; cbn in N; try discriminate; unfold set_at, erase_at in *; cbn; [reflexivity|].
    f_equal. specialize (IH i N). cbn in IH. exact IH.
  Qed.
  Lemma set_at_nth m i (e e' : entry) : nth_error m i = Some e -> nth_error (set_at m i e') i = Some e'.
  Proof.
    revert i. induction m as [|x m IH]; intros [|i] N; cbn in N; try discriminate; unfold set_at in *; cbn; [reflexivity|].
    specialize (IH i N). cbn in IH. exact IH.
  Qed.

  (** calls of clear about one key *)
  Lemma clear_about m k : SS m ->
    filter (about less k) (map (fun e => Removed (ekey e) (evalue e)) m) =
    match get m k with Some e => [Removed (ekey e) (evalue e)] | None => [] end.
  Proof.
    induction m as [|x m IH]; cbn; intros S; [reflexivity|]. inversion S as [|y l S1 F]; subst.
    destruct (same k (ekey x)) eqn:E; [|now apply IH]. f_equal.
    clear -F E O. induction m as [|y m IH]; cbn; [reflexivity|]. inversion F as [|? ? L F']; subst.
    rewrite (same_cong _ _ _ E), (less_not_same _ _ L). now apply IH.
  Qed.

  (** ** refinement *)
  Definition ok (h : list (op K V)) (m : impl) (l : list (callback K V)) : Prop :=
    SS m /\
    (forall k, match get m k with
               | Some e => refs_to less h k <> 0 /\ erefs e = Z.of_nat (refs_to less h k) /\ held less h k = Some (ekey e, evalue e)
               | None => refs_to less h k = 0 /\ held less h k = None
               end) /\
    (forall k, filter (about less k) l = told less h k).

  Lemma refs_to_le (h : list (op K V)) k : refs_to less h k <= length h.
  Proof. induction h as [|[k' v|k'|] h IH]; cbn; [lia| | |lia]; destruct (same k k'); lia. Qed.

  Lemma inc_small n : (Z.of_nat n + 1 < size_max)%Z -> inc (Z.of_nat n) = Z.of_nat (S n).
  Proof. intros H. unfold inc. rewrite Z.mod_small; lia. Qed.
  Lemma dec_small n : n <> 0 -> (Z.of_nat n < size_max)%Z -> dec (Z.of_nat n) = Z.of_nat (pred n).
  Proof. intros H H'. unfold dec. rewrite Z.mod_small; lia. Qed.

  Lemma run_ok (h : list (op K V)) : (Z.of_nat (length h) < size_max)%Z -> ok h (fst (run less h)) (snd (run less h)).
  Proof.
    induction h as [|o h IH]; intros Len.
    - cbn. split; [constructor|]. split; [intros k; cbn; auto|intros k; reflexivity].
    - cbn [length] in Len. destruct IH as (S & G & T); [lia|]. cbn [run].
      destruct (run less h) as [m l] eqn:R. cbn [fst snd] in *.
      assert (Bd : forall k, (Z.of_nat (refs_to less h k) + 1 < size_max)%Z) by (intros k; pose proof (refs_to_le h k); lia).
      destruct o as [k v|k|].
      + (* add *)
        unfold do_op, add. pose proof (find_get m k) as F. destruct (find m k) as [i|] eqn:Fi.
        * destruct F as (e & N & Ge & Se). rewrite N. cbn [st calls fst snd]. rewrite app_nil_r.
          pose proof (G k) as Gk. rewrite Ge in Gk. destruct Gk as (Gk1 & Gk2 & Gk3).
          split; [eapply SS_set_at; eauto|]. split.
          -- intros q. rewrite (get_set_at m i k e (ekey e, inc (erefs e), evalue e) Fi N eq_refl q). cbn.
             pose proof (G q) as Gq. rewrite (same_sym q (ekey e)).
             assert (Sq : same q k = same (ekey e) q) by (rewrite (same_sym q k); apply (same_cong _ _ _ Se)).
             rewrite Sq. destruct (same (ekey e) q) eqn:E; [|exact Gq].
             assert (Eq : get m q = Some e) by (rewrite <- Ge; apply get_cong; now rewrite Sq).
             rewrite Eq in Gq. destruct Gq as (A & B & C). rewrite B. split; [discriminate|]. split; [now apply inc_small|].
             destruct (Nat.eqb_spec (refs_to less h q) 0); [congruence|exact C].
          -- intros q. cbn. rewrite T.
             assert (Z0 : same q k && (refs_to less h q =? 0) = false); [|now rewrite Z0, app_nil_r].
             destruct (same q k) eqn:E; [cbn|reflexivity]. pose proof (G q) as Gq. rewrite (get_cong _ _ _ E), Ge in Gq.
             apply Nat.eqb_neq. tauto.
        * cbn [st calls fst snd]. pose proof (G k) as Gk. rewrite F in Gk.
          split; [apply SS_emplace; auto|]. split.
          -- intros q. rewrite get_emplace by exact F. cbn. pose proof (G q) as Gq.
             destruct (same q k) eqn:E; [|exact Gq].
             rewrite (get_cong _ _ _ E), F in Gq. destruct Gq as [A B]. rewrite A. cbn. auto.
          -- intros q. rewrite filter_app, T. cbn. f_equal. pose proof (G q) as Gq.
             destruct (same q k) eqn:E; [cbn|reflexivity].
             rewrite (get_cong _ _ _ E), F in Gq. destruct Gq as [-> _]. reflexivity.
      + (* erase *)
        unfold do_op, erase. pose proof (find_get m k) as F. destruct (find m k) as [i|] eqn:Fi.
        * destruct F as (e & N & Ge & Se). rewrite N.
          pose proof (G k) as Gk. rewrite Ge in Gk. destruct Gk as (Gk1 & Gk2 & Gk3).
          assert (Dec : dec (erefs e) = Z.of_nat (pred (refs_to less h k))).
          { rewrite Gk2. apply dec_small; [exact Gk1|]. pose proof (Bd k). lia. }
          assert (Sq : forall q, same q k = same q (ekey e)).
          { intros q. rewrite (same_sym q k), (same_sym q (ekey e)). apply (same_cong _ _ _ Se). }
          destruct (0 <? dec (erefs e))%Z eqn:D.
          -- apply Z.ltb_lt in D. cbn [st calls fst snd]. rewrite app_nil_r.
             split; [eapply SS_set_at; eauto|]. split.
             ++ intros q. rewrite (get_set_at m i k e (ekey e, dec (erefs e), evalue e) Fi N eq_refl q). cbn.
                pose proof (G q) as Gq. rewrite Sq. destruct (same q (ekey e)) eqn:E; [|exact Gq].
                assert (Eq : get m q = Some e) by (rewrite <- Ge; apply get_cong; now rewrite Sq).
                rewrite Eq in Gq. destruct Gq as (A & B & C).
                assert (Eb : refs_to less h q = refs_to less h k) by (apply Nat2Z.inj; congruence). rewrite Eb.
                split; [lia|]. split; [exact Dec|]. destruct (Nat.leb_spec (refs_to less h k) 1); [lia|exact C].
             ++ intros q. cbn. rewrite T.
                assert (Z0 : same q k && (refs_to less h q =? 1) = false); [|now rewrite Z0, app_nil_r].
                destruct (same q k) eqn:E; [cbn|reflexivity]. pose proof (G q) as Gq. rewrite (get_cong _ _ _ E), Ge in Gq.
                destruct Gq as (A & B & C). apply Nat.eqb_neq. intros Q. rewrite Q in B. rewrite B in Gk2.
                assert (refs_to less h k = 1) by lia. rewrite H in Dec. cbn in Dec. lia.
          -- apply Z.ltb_ge in D. cbn [st calls fst snd].
             assert (R1 : refs_to less h k = 1) by lia.
             rewrite (set_at_erase m i _ _ N).
             split; [now apply SS_erase_at|]. split.
             ++ intros q. rewrite (get_erase_at m i e S N q). cbn. pose proof (G q) as Gq. rewrite Sq.
                destruct (same q (ekey e)) eqn:E; [|exact Gq].
                assert (Eq : get m q = Some e) by (rewrite <- Ge; apply get_cong; now rewrite Sq).
                rewrite Eq in Gq. destruct Gq as (A & B & C).
                assert (Eb : refs_to less h q = 1) by lia. rewrite Eb. auto.
             ++ intros q. rewrite filter_app, T. cbn. f_equal. rewrite Sq.
                destruct (same q (ekey e)) eqn:E; [cbn|reflexivity]. pose proof (G q) as Gq.
                assert (Eq : get m q = Some e) by (rewrite <- Ge; apply get_cong; now rewrite Sq).
                rewrite Eq in Gq. destruct Gq as (A & B & C). rewrite C.
                assert (Eb : refs_to less h q = 1) by lia. rewrite Eb. reflexivity.
        * cbn [st calls fst snd]. rewrite app_nil_r. split; [exact S|]. split.
          -- intros q. cbn. pose proof (G q) as Gq. destruct (same q k) eqn:E; [|exact Gq].
             rewrite (get_cong _ _ _ E), F in Gq |- *. destruct Gq as [A B]. rewrite A. auto.
          -- intros q. cbn. rewrite T.
             assert (Z0 : same q k && (refs_to less h q =? 1) = false); [|now rewrite Z0, app_nil_r].
             destruct (same q k) eqn:E; [cbn|reflexivity]. pose proof (G q) as Gq. rewrite (get_cong _ _ _ E), F in Gq.
             destruct Gq as [-> _]. reflexivity.
      + (* clear *)
        unfold do_op, clear. cbn [st calls fst snd]. split; [constructor|]. split; [intros q; cbn; auto|].
        intros q. rewrite filter_app, T, (clear_about _ _ S). cbn. f_equal. pose proof (G q) as Gq.
        destruct (get m q) as [e|]; [destruct Gq as (_ & _ & ->)|destruct Gq as (_ & ->)]; reflexivity.
  Qed.

  Lemma count_get m k : count less m k = match get m k with Some e => erefs e | None => 0%Z end.
  Proof.
    unfold count. pose proof (find_get m k) as F. destruct (find m k); [|now rewrite F].
    destruct F as (e & -> & -> & _). reflexivity.
  Qed.
  Lemma lookup_get m k : lookup less m k = match get m k with Some e => Some (ekey e, evalue e) | None => None end.
  Proof.
    unfold lookup. pose proof (find_get m k) as F. destruct (find m k); [|now rewrite F].
    destruct F as (e & -> & -> & _). reflexivity.
  Qed.

  (** the expected calls alternate *)
  Lemma held_refs (h : list (op K V)) k : held less h k = None <-> refs_to less h k = 0.
  Proof.
    induction h as [|[k' v|k'|] h IH]; cbn; try tauto.
    - destruct (same k k'); [|exact IH]. destruct (Nat.eqb_spec (refs_to less h k) 0); [split; discriminate|].
      split; [|discriminate]. intros H. apply IH in H. congruence.
    - destruct (same k k'); [|exact IH]. destruct (Nat.leb_spec (refs_to less h k) 1); [split; [lia|auto]|].
      rewrite IH. lia.
  Qed.
  Fixpoint ends (x : option (K * V)) (l : list (callback K V)) : option (K * V) :=
    match l with [] => x | Added q v :: l => ends (Some (q, v)) l | Removed _ _ :: l => ends None l end.
  Lemma alternate_app x l1 l2 : alternate x (l1 ++ l2) <-> alternate x l1 /\ alternate (ends x l1) l2.
  Proof. revert x. induction l1 as [|[q v|q v] l1 IH]; intros x; cbn; [tauto| |]; rewrite IH; tauto. Qed.
  Lemma ends_app x l1 l2 : ends x (l1 ++ l2) = ends (ends x l1) l2.
  Proof. revert x. induction l1 as [|[q v|q v] l1 IH]; intros x; cbn; auto. Qed.
  Lemma told_alternate (h : list (op K V)) k : alternate None (told less h k) /\ ends None (told less h k) = held less h k.
  Proof.
    induction h as [|[k' v|k'|] h [IH1 IH2]]; cbn; [auto|..]; rewrite alternate_app, ends_app, IH2.
    - destruct (same k k'); cbn; [|rewrite ?andb_false_r; auto].
      destruct (Nat.eqb_spec (refs_to less h k) 0) as [E|E]; cbn; [|auto].
      apply held_refs in E. rewrite E. auto.
    - destruct (same k k'); cbn; [|auto].
      destruct (Nat.eqb_spec (refs_to less h k) 1) as [E|E].
      + rewrite E. cbn. destruct (held less h k) as [[q v]|] eqn:H; cbn; auto.
      + cbn. split; [auto|]. destruct (Nat.leb_spec (refs_to less h k) 1); [|reflexivity].
        apply held_refs. lia.
    - destruct (held less h k) as [[q v]|] eqn:H; cbn; auto.
  Qed.

  (** erase(iterator) is erase of the key there *)
  Lemma find_nth m i e : SS m -> nth_error m i = Some e -> find m (ekey e) = Some i.
  Proof.
    revert i. induction m as [|x m IH]; intros [|i] S N; cbn in N; try discriminate.
    - injection N as ->. cbn. now rewrite same_refl.
    - inversion S as [|y l S1 F]; subst. cbn. rewrite Forall_forall in F. specialize (F e (nth_error_In _ _ N)).
      apply less_not_same in F. rewrite same_sym in F. rewrite F, (IH i S1 N). reflexivity.
  Qed.
End P.
