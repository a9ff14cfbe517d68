(** Proofs for C65: optional *)
From Verif Require Import Base LifeModel LifeSpec LifeProofs.

Ltac two r q p :=
  destruct (Nat.eq_dec r q) as [->|?]; [rewrite ?upd_same|
    rewrite ?(upd_other _ _ q) by assumption; destruct (Nat.eq_dec r p) as [->|?]; [rewrite ?upd_same|rewrite ?(upd_other _ _ p) by assumption; rewrite ?(upd_other _ _ q) by assumption]].
Section Optional.
  Variable moved : tag -> Z -> Z.
  Notation ospec := (ospec moved).
  Notation ostep := (ostep moved).

  Definition omem (s : st) (c : ocontents) : Prop := forall p, mem s p = match c p with Some (Some v) => Some (0, v) | _ => None end.
  Definition rd (s : st) (c : ocontents) (a : src) : st :=
    match a with SMove q _ => set_mem s (upd (mem s) q (Some (0, moved 0 (ovalue c a)))) | _ => s end.
  Lemma rd_kind : forall s c a, kind (rd s c a) = kind s. Proof. destruct a; reflexivity. Qed.
  Lemma rd_alive : forall s c a, alive (rd s c a) = alive s. Proof. destruct a; reflexivity. Qed.
  Lemma rd_lost : forall s c a, lost (rd s c a) = lost s. Proof. destruct a; reflexivity. Qed.
  Lemma rd_mem : forall s c a, omem s c -> omem (rd s c a) (otaken moved c a).
  Proof. intros s c [v|q t|q t] H p; cbn [rd otaken]; try apply H. cbn [mem set_mem]. cases p q; [reflexivity|apply H]. Qed.
  Lemma read_ok : forall s c a, omem s c -> ovalid c a -> read_src moved a s = Ok (ovalue c a) (rd s c a).
  Proof.
    intros s c [v|q t|q t] H Hv; cbn [read_src ovalue rd ovalid] in *; [reflexivity| |]; destruct Hv as [-> [v Hv]]; specialize (H q); rewrite Hv in *.
    - unfold ref. rewrite H. reflexivity.
    - unfold bind, ref, set_ref, ret. rewrite H. cbn [Nat.eqb]. rewrite H. reflexivity.
  Qed.
  Lemma make_ok : forall s c a p x, omem s c -> ovalid c a -> (match c p with Some (Some _) => False | _ => True end) ->
    make moved p 0 a x s = match x with None => Ok tt (set_mem (rd s c a) (upd (mem (rd s c a)) p (Some (0, ovalue c a)))) | Some e => Throw e (rd s c a) end.
  Proof.
    intros s c a p x H Hv Hp. unfold make, bind. rewrite (read_ok s c a H Hv). unfold ctor. destruct x; [reflexivity|].
    assert (E : mem (rd s c a) p = None).
    { rewrite (rd_mem s c a H p). destruct a; cbn [otaken]; [destruct (c p) as [[|]|]; tauto|destruct (c p) as [[|]|]; tauto|].
      cbn [ovalid] in Hv. destruct Hv as [_ [v Hv]]. rewrite upd_other by (intros ->; rewrite Hv in Hp; exact Hp). destruct (c p) as [[|]|]; tauto. }
    rewrite E. reflexivity.
  Qed.
  Lemma taken_none : forall c a p, ovalid c a -> c p = None -> otaken moved c a p = None.
  Proof. intros c [v|q t|q t] p Hv H; cbn in *; try exact H. destruct Hv as [_ [v Hv]]. rewrite upd_other; [exact H|]. intros ->. congruence. Qed.
  Lemma taken_shape : forall c a p, ovalid c a ->
    match otaken moved c a p with Some (Some _) => exists v, c p = Some (Some v) | r => c p = r end.
  Proof.
    intros c [v|q t|q t] p Hv; cbn [otaken ovalid] in *.
    - destruct (c p) as [[w|]|] eqn:E; eauto.
    - destruct (c p) as [[w|]|] eqn:E; eauto.
    - destruct Hv as [_ [v Hv]]. cases p q; [eauto|]. destruct (c p) as [[w|]|] eqn:E; eauto.
  Qed.

  (** the parts of the invariant that a read does not change *)
  Lemma rd_holds : forall s c a, oholds s c -> ovalid c a -> oholds (rd s c a) (otaken moved c a).
  Proof.
    intros s c a [Hm [Ha [Hk Hl]]] Hv. split; [apply rd_mem; exact Hm|]. rewrite rd_alive, rd_kind, rd_lost. split; [|split; [|exact Hl]].
    - intros p. rewrite Ha. pose proof (taken_shape c a p Hv) as T. destruct (otaken moved c a p) as [[w|]|]; [destruct T as [v ->]|rewrite T|rewrite T]; reflexivity.
    - intros p. specialize (Hk p). pose proof (taken_shape c a p Hv) as T. destruct (otaken moved c a p) as [[w|]|]; [destruct T as [v E]; rewrite E in Hk; exact Hk|rewrite T in Hk; exact Hk|exact I].
  Qed.

  Definition ofollows (m : M st unit) (s : st) (r : outcome ocontents) : Prop :=
    match r with
    | Done c' => exists s', m s = Ok tt s' /\ oholds s' c'
    | Threw c' => exists e s', m s = Throw e s' /\ oholds s' c'
    | Terminated => False
    end.

  Lemma reset_ok : forall s c p, oholds s c -> c p <> None -> ofollows (o_reset p) s (Done (upd c p (Some None))).
  Proof.
    intros s c p [Hm [Ha [Hk Hl]]] Hp. unfold ofollows, o_reset, bind, get_kind, put_kind, dtor, ret. pose proof (Hk p) as K. pose proof (Hm p) as Mp.
    destruct (c p) as [[v|]|] eqn:E; [| |contradiction].
    - rewrite K. cbn [Nat.eqb mem set_kind]. rewrite Mp. cbn [Nat.eqb]. eexists. split; [reflexivity|]. unfold oholds. cbn [mem set_mem set_kind alive kind lost].
      split; [intros q; cases q p; [reflexivity|apply Hm]|]. split; [intros q; cases q p; [rewrite Ha, E; reflexivity|apply Ha]|].
      split; [intros q; cases q p; [reflexivity|apply Hk]|exact Hl].
    - rewrite K. cbn [Nat.eqb]. exists s. split; [reflexivity|]. unfold oholds.
      split; [intros q; cases q p; [rewrite Mp; reflexivity|apply Hm]|]. split; [intros q; cases q p; [rewrite Ha, E; reflexivity|apply Ha]|].
      split; [intros q; cases q p; [exact K|apply Hk]|exact Hl].
  Qed.

  (** a value is put where there is none *)
  Lemma fill_holds : forall s c a p, oholds s c -> ovalid c a -> c p = Some None ->
    oholds (set_kind (set_mem (rd s c a) (upd (mem (rd s c a)) p (Some (0, ovalue c a)))) (upd (kind (rd s c a)) p 1)) (upd (otaken moved c a) p (Some (Some (ovalue c a)))).
  Proof.
    intros s c a p H Hv Hp. pose proof (rd_holds s c a H Hv) as [Hm [Ha [Hk Hl]]]. unfold oholds. cbn [mem set_mem set_kind alive kind lost].
    split; [intros q; cases q p; [reflexivity|apply Hm]|].
    split; [intros q; cases q p; [|apply Ha]|split; [intros q; cases q p; [reflexivity|apply Hk]|exact Hl]].
    rewrite Ha. pose proof (taken_shape c a p Hv) as T. destruct (otaken moved c a p) as [[w|]|]; [reflexivity|reflexivity|congruence].
  Qed.

  Lemma assign_ok : forall s c p a x, oholds s c -> c p <> None -> ovalid c a -> no_self_move p a -> ofollows (o_assign moved p a x) s (ogives moved c p a x).
  Proof.
    intros s c p a x H Hp Hv Hn. pose proof H as [Hm [Ha [Hk Hl]]]. unfold ofollows, o_assign, ogives, bind, get_kind. pose proof (Hk p) as K.
    destruct (c p) as [[v|]|] eqn:E; [| |contradiction]; rewrite K; cbn [Nat.eqb].
    - unfold bind. rewrite (read_ok s c a Hm Hv). pose proof (rd_holds s c a H Hv) as HR. pose proof HR as [Rm [Ra [Rk Rl]]].
      destruct x as [e|]; [exists e, (rd s c a); auto|]. unfold set_ref.
      assert (T : exists w, otaken moved c a p = Some (Some w)).
      { destruct a as [v'|q t|q t]; cbn [otaken no_self_move] in *; [exists v; exact E|exists v; exact E|]. rewrite upd_other by congruence. exists v; exact E. }
      destruct T as [w T]. rewrite Rm, T. cbn [Nat.eqb]. eexists. split; [reflexivity|]. unfold oholds. cbn [mem set_mem set_kind alive kind lost].
      split; [intros q; cases q p; [reflexivity|apply Rm]|]. split; [intros q; cases q p; [rewrite Ra, T; reflexivity|apply Ra]|].
      split; [intros q; cases q p; [specialize (Rk p); rewrite T in Rk; exact Rk|apply Rk]|exact Rl].
    - unfold bind. rewrite (make_ok s c a p x Hm Hv) by (rewrite E; exact I). destruct x as [e|].
      + exists e. eexists. split; [reflexivity|]. apply rd_holds; assumption.
      + eexists. split; [reflexivity|]. apply fill_holds; assumption.
  Qed.

  Lemma oholds_ext : forall s c c', oholds s c -> (forall p, c p = c' p) -> oholds s c'.
  Proof.
    intros s c c' [Hm [Ha [Hk Hl]]] E. split; [intros p; rewrite <- E; apply Hm|]. split; [intros p; rewrite <- E; apply Ha|].
    split; [intros p; rewrite <- E; apply Hk|exact Hl].
  Qed.
  Lemma upd_eta : forall (A : Type) (c : nat -> A) p a, c p = a -> forall q, c q = upd c p a q.
  Proof. intros A c p a H q. cases q p; [exact H|reflexivity]. Qed.

  Lemma new_holds : forall s c p k, oholds s c -> c p = None -> oholds (set_kind s (upd (kind s) p k)) c.
  Proof.
    intros s c p k [Hm [Ha [Hk Hl]]] Hp. split; [exact Hm|]. split; [exact Ha|]. split; [|exact Hl].
    intros q. cbn [kind set_kind]. cases q p; [rewrite Hp; exact I|apply Hk].
  Qed.
  Lemma up_holds : forall s c p w, oholds s c -> c p = None -> mem s p = None -> kind s p = 0 -> w = set_alive s (upd (alive s) p true) -> oholds w (upd c p (Some None)).
  Proof.
    intros s c p w [Hm [Ha [Hk Hl]]] Hp Mp K ->. split; [intros q; cbn [mem set_alive]; cases q p; [exact Mp|apply Hm]|].
    split; [intros q; cbn [alive set_alive]; cases q p; [reflexivity|apply Ha]|]. split; [intros q; cbn [kind set_alive]; cases q p; [exact K|apply Hk]|exact Hl].
  Qed.

  (** an item in a container that is being constructed: _initialized has been set to true already *)
  Lemma construct_ok : forall s c p a x, oholds s c -> c p = None -> ovalid c a ->
    ofollows (constructing p (put_kind p 1 ;;; make moved p 0 a x)) s (ogives moved c p a x).
  Proof.
    intros s c p a x H Hp Hv. unfold ofollows, constructing, bind, put_kind. set (s1 := set_kind s (upd (kind s) p 1)).
    assert (H1 : oholds s1 c) by (apply new_holds; assumption). pose proof H1 as [Hm1 _].
    rewrite (make_ok s1 c a p x Hm1 Hv) by (rewrite Hp; exact I). unfold ogives. pose proof (rd_holds s1 c a H1 Hv) as [Rm [Ra [Rk Rl]]].
    assert (T : otaken moved c a p = None) by (apply taken_none; assumption).
    destruct x as [e|].
    - unfold give_up. rewrite Rm, T. exists e. eexists. split; [reflexivity|]. unfold oholds. cbn [mem set_mem set_alive alive kind lost].
      split; [intros q; cases q p; [rewrite T; reflexivity|apply Rm]|]. split; [intros q; cases q p; [rewrite T; reflexivity|apply Ra]|]. split; assumption.
    - unfold take_up. eexists. split; [reflexivity|]. unfold oholds. cbn [mem set_mem set_alive alive kind lost].
      split; [intros q; cases q p; [reflexivity|apply Rm]|]. split; [intros q; cases q p; [reflexivity|apply Ra]|].
      split; [|exact Rl]. intros q. cases q p; [rewrite rd_kind; unfold s1; cbn [kind set_kind]; apply upd_same|apply Rk].
  Qed.

  Theorem ostep_ok : forall o s c, oholds s c -> oallowed c o -> ofollows (ostep o) s (ospec c o).
  Proof.
    intros [p|p a x|p q mv x|p|p q mv x|p a x|p|p a x|p q] s c H Ha; cbn [oallowed LifeSpec.ospec LifeModel.ostep] in *.
    - pose proof H as [Hm _]. unfold ofollows, constructing, put_kind, take_up. eexists. split; [reflexivity|].
      eapply up_holds; [apply (new_holds s c p 0); assumption|assumption| | |reflexivity].
      + cbn [mem set_kind]. rewrite Hm, Ha. reflexivity.
      + cbn [kind set_kind]. apply upd_same.
    - destruct Ha as [Hp Hv]. apply construct_ok; assumption.
    - destruct Ha as [Hp Hq]. pose proof H as [Hm [_ [Hk _]]]. pose proof (Hk q) as K. destruct (c q) as [[v|]|] eqn:E; [| |contradiction].
      + pose proof (construct_ok s c p (from q mv) x H Hp) as CO.
        assert (Hv : ovalid c (from q mv)) by (destruct mv; cbn; eauto). specialize (CO Hv). unfold from in *.
        unfold ofollows, constructing, bind, get_kind in *. rewrite K. cbn [Nat.eqb]. exact CO.
      + unfold ofollows, constructing, bind, get_kind, put_kind, ret, take_up. rewrite K. cbn [Nat.eqb]. eexists. split; [reflexivity|].
        eapply up_holds; [apply (new_holds s c p 0); assumption|assumption| | |reflexivity].
        * cbn [mem set_kind]. rewrite Hm, Hp. reflexivity.
        * cbn [kind set_kind]. apply upd_same.
    - pose proof (reset_ok s c p H Ha) as [s1 [R [Hm [Hal [Hk Hl]]]]]. unfold ofollows, bind. rewrite R. unfold give_up.
      pose proof (Hm p) as Mp. rewrite upd_same in Mp. rewrite Mp. eexists. split; [reflexivity|]. unfold oholds. cbn [mem set_mem set_alive alive kind lost].
      split; [intros q; cases q p; [reflexivity|specialize (Hm q); rewrite upd_other in Hm by assumption; exact Hm]|].
      split; [intros q; cases q p; [reflexivity|specialize (Hal q); rewrite upd_other in Hal by assumption; exact Hal]|].
      split; [intros q; cases q p; [exact I|specialize (Hk q); rewrite upd_other in Hk by assumption; exact Hk]|exact Hl].
    - destruct Ha as [Hp [Hq Hn]]. pose proof H as [_ [_ [Hk _]]]. pose proof (Hk q) as K. destruct (c q) as [[v|]|] eqn:E; [| |contradiction].
      + assert (Hv : ovalid c (from q mv)) by (destruct mv; cbn; eauto).
        pose proof (assign_ok s c p (from q mv) x H Hp Hv Hn) as A. unfold ofollows in *. unfold o_assign_from, bind, get_kind. rewrite K. cbn [Nat.eqb]. exact A.
      + pose proof (reset_ok s c p H Hp) as R. unfold ofollows in *. unfold o_assign_from, bind at 1, get_kind. rewrite K. cbn [Nat.eqb]. exact R.
    - destruct Ha as [Hp [Hv Hn]]. apply assign_ok; assumption.
    - apply reset_ok; assumption.
    - destruct Ha as [Hp [Hv Hn]]. pose proof (reset_ok s c p H Hp) as [s1 [R H1]]. unfold ofollows, o_emplace, bind. rewrite R.
      set (c1 := upd c p (Some None)) in *.
      assert (Hv1 : ovalid c1 a) by (destruct a; cbn in *; [exact I| |]; destruct Hv as [? [v Hv]]; split; try assumption; exists v; unfold c1; rewrite upd_other by assumption; exact Hv).
      assert (V : ovalue c1 a = ovalue c a) by (destruct a; cbn in *; [reflexivity| |]; unfold c1; rewrite upd_other by assumption; reflexivity).
      assert (T : forall q, upd (otaken moved c1 a) p (Some None) q = upd (otaken moved c a) p (Some None) q).
      { intros q. destruct (Nat.eq_dec q p) as [->|Q]; [rewrite !upd_same; reflexivity|]. rewrite (upd_other _ (otaken moved c1 a)), (upd_other _ (otaken moved c a)) by exact Q.
        destruct a; cbn [otaken]; try (unfold c1; apply upd_other; exact Q). cbn [otaken] in *. rewrite V. cases q q0; [reflexivity|unfold c1; apply upd_other; exact Q]. }
      pose proof H1 as [Hm1 _]. rewrite (make_ok s1 c1 a p x Hm1 Hv1) by (unfold c1; rewrite upd_same; exact I).
      destruct x as [e|].
      + exists e. eexists. split; [reflexivity|]. eapply oholds_ext; [apply (rd_holds s1 c1 a H1 Hv1)|].
        intros q. rewrite <- T. apply upd_eta. pose proof (taken_shape c1 a p Hv1) as S1. unfold c1 in S1 at 2 3 4. rewrite upd_same in S1.
        destruct (otaken moved c1 a p) as [[w|]|]; [destruct S1; discriminate|reflexivity|discriminate].
      + unfold put_kind. eexists. split; [reflexivity|].
        pose proof (fill_holds s1 c1 a p H1 Hv1 (upd_same _ _ _ _)) as F. eapply oholds_ext; [exact F|]. intros q. rewrite V.
        specialize (T q). revert T. cases q p; [reflexivity|]. intros T. exact T.
    - destruct Ha as [Hp Hq]. pose proof H as [Hm [Hal [Hk Hl]]]. unfold ofollows, o_swap, get_kind. unfold bind at 1 2.
      pose proof (Hk p) as Kp. pose proof (Hk q) as Kq. destruct (c p) as [[v|]|] eqn:Ep; [| |contradiction]; (destruct (c q) as [[w|]|] eqn:Eq; [| |contradiction]); rewrite Kp, Kq; cbn [Nat.eqb].
      + unfold bind, ref, set_ref. rewrite (Hm p), Ep. cbn [Nat.eqb]. rewrite (Hm q), Eq. cbn [Nat.eqb]. rewrite (Hm p), Ep. cbn [Nat.eqb mem set_mem].
        assert (Q : exists v', upd (mem s) p (Some (0, w)) q = Some (0, v')) by (cases q p; [eauto|rewrite Hm, Eq; eauto]).
        destruct Q as [v' Q]. match goal with |- context [match ?e with _ => _ end] => replace e with (Some (0, v')) by (symmetry; exact Q) end. cbn [Nat.eqb]. eexists. split; [reflexivity|]. unfold oholds. cbn [mem set_mem alive kind lost].
        split; [intros r; two r q p; [reflexivity|reflexivity|apply Hm]|].
        split; [intros r; two r q p; [rewrite Hal, Eq; reflexivity|rewrite Hal, Ep; reflexivity|apply Hal]|].
        split; [intros r; two r q p; [exact Kq|exact Kp|apply Hk]|exact Hl].
      + assert (N : p <> q) by (intros ->; congruence).
        assert (Hq' : c q <> None) by (rewrite Eq; discriminate).
        assert (Hv : ovalid c (SMove p 0)) by (cbn; eauto).
        destruct (assign_ok s c q (SMove p 0) None H Hq' Hv N) as [s1 [A H1]]. unfold bind. rewrite A.
        cbn [otaken ovalue] in H1. rewrite Ep in H1.
        destruct (reset_ok s1 _ p H1) as [s2 [R H2]]; [rewrite upd_other, upd_same by exact N; discriminate|]. rewrite R. exists s2. split; [reflexivity|].
        eapply oholds_ext; [exact H2|]. intros r. destruct (Nat.eq_dec r p) as [->|?]; [rewrite upd_same, upd_other, upd_same by congruence; reflexivity|]. rewrite (upd_other _ _ p) by assumption. two r q p; congruence.
      + assert (N : q <> p) by (intros ->; congruence).
        assert (Hp' : c p <> None) by (rewrite Ep; discriminate).
        assert (Hv : ovalid c (SMove q 0)) by (cbn; eauto).
        destruct (assign_ok s c p (SMove q 0) None H Hp' Hv N) as [s1 [A H1]]. unfold bind. rewrite A.
        cbn [otaken ovalue] in H1. rewrite Eq in H1.
        destruct (reset_ok s1 _ q H1) as [s2 [R H2]]; [rewrite upd_other, upd_same by exact N; discriminate|]. rewrite R. exists s2. split; [reflexivity|].
        eapply oholds_ext; [exact H2|]. intros r. two r q p; try reflexivity; congruence.
      + unfold ret. exists s. split; [reflexivity|]. eapply oholds_ext; [exact H|]. intros r. two r q p; [exact Eq|exact Ep|reflexivity].
  Qed.

  Theorem orun_ok : forall ops s c, oholds s c -> history ospec oallowed ops c ->
    exists c' s', contents ospec ops c = Some c' /\ run ostep ops s = Ok tt s' /\ oholds s' c'.
  Proof.
    induction ops as [|o ops IH]; intros s c H Hh; cbn [contents run]; [exists c, s; auto|]. destruct Hh as [Ha Hh].
    pose proof (ostep_ok o s c H Ha) as K. unfold ofollows in K. destruct (ospec c o) as [c'|c'|].
    - destruct K as [s' [-> H']]. apply IH; assumption.
    - destruct K as [e [s' [-> H']]]. apply IH; assumption.
    - contradiction.
  Qed.
End Optional.
