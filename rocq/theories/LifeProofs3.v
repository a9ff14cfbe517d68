(** Proofs for C65: any *)
From Verif Require Import Base LifeModel LifeSpec LifeProofs LifeProofs2.

Section Any.
  Variable moved : tag -> Z -> Z.
  Variable tight : bool.
  Notation astep := (astep moved).
  Notation aholds := (aholds moved tight).

  Definition held (s : st) (p : place) (a : aval) : Prop :=
    match a with
    | AEmpty => kind s p = 0
    | AScalar v => kind s p = 1 /\ data s p = v
    | AString v => kind s p = 2 /\ mem s p = Some (0, v)
    | AObject t v => kind s p = 3 /\ heap s (ptr s p) = Some (t, v)
    end.
  Definition left_over (o : tag * Z) : Prop := tight = false /\ exists v, o = (0, moved 0 v).
  (** all of the invariant but which containers exist *)
  Definition core (s : st) (c : acontents) : Prop :=
    (forall p a, c p = Some a -> held s p a) /\
    (forall p q t v t' v', c p = Some (AObject t v) -> c q = Some (AObject t' v') -> ptr s p = ptr s q -> p = q) /\
    (forall n, heap s n <> None -> n < next s /\ exists p t v, c p = Some (AObject t v) /\ ptr s p = n) /\
    (forall p o, mem s p = Some o -> match c p with Some (AString _) => True | Some _ => left_over o | None => False end) /\
    (forall o, In o (lost s) -> left_over o).
  Lemma aholds_core : forall s c, aholds s c <-> (forall p, alive s p = match c p with Some _ => true | None => false end) /\ core s c.
  Proof. intros s c. unfold LifeSpec.aholds, core, left_over. tauto. Qed.
  Lemma core_ext : forall s c c', core s c -> (forall p, c p = c' p) -> core s c'.
  Proof.
    intros s c c' [H1 [H2 [H3 [H4 H5]]]] E. split; [intros p a; rewrite <- E; apply H1|]. split; [intros p q t v t' v'; rewrite <- !E; apply H2|].
    split; [intros n Hn; destruct (H3 n Hn) as [? [p [t [v [? ?]]]]]; split; [assumption|]; exists p, t, v; rewrite <- E; auto|].
    split; [intros p o; rewrite <- E; apply H4|exact H5].
  Qed.

  Lemma start_core : forall s c p, core s c -> c p = None -> core (set_kind s (upd (kind s) p 0)) (upd c p (Some AEmpty)).
  Proof.
    intros s c p [H1 [H2 [H3 [H4 H5]]]] Hp. unfold core, held. cbn [mem kind alive heap ptr data next lost set_kind].
    split; [intros q a; cases q p; [intros [= <-]; reflexivity|intros E; exact (H1 q a E)]|].
    split; [intros q r t v t' v'; cases q p; [discriminate|]; cases r p; [discriminate|apply H2]|].
    split; [intros n Hn; destruct (H3 n Hn) as [? [q [t [v [? ?]]]]]; split; [assumption|]; exists q, t, v; rewrite upd_other by congruence; auto|].
    split; [|exact H5]. intros q o Ho. specialize (H4 q o Ho). cases q p; [rewrite Hp in H4; contradiction|exact H4].
  Qed.

  (** the any at p goes away, whatever its type says *)
  Lemma drop_core : forall s c p s1, core s c -> c p = Some AEmpty ->
    mem s1 = mem s -> heap s1 = heap s -> ptr s1 = ptr s -> data s1 = data s -> next s1 = next s -> lost s1 = lost s -> (forall q, q <> p -> kind s1 q = kind s q) ->
    exists s', give_up p s1 = Ok tt s' /\ core s' (upd c p None) /\ alive s' = upd (alive s1) p false.
  Proof.
    intros s c p s1 [H1 [H2 [H3 [H4 H5]]]] Hp Em Eh Ep Ed En El Ek. unfold give_up. eexists. split; [reflexivity|]. split; [|destruct (mem s1 p); reflexivity].
    unfold core, held.
    assert (X : forall (A : Type) (f : st -> A), f (match mem s1 p with Some o => set_lost s1 (o :: lost s1) | None => s1 end) = match mem s1 p with Some o => f (set_lost s1 (o :: lost s1)) | None => f s1 end)
      by (intros; destruct (mem s1 p); reflexivity).
    cbn [mem kind alive heap ptr data next lost set_alive set_mem]. rewrite !(X _ mem), !(X _ kind), !(X _ heap), !(X _ ptr), !(X _ data), !(X _ next), !(X _ lost).
    cbn [mem kind alive heap ptr data next lost set_lost].
    assert (Y : forall (A : Type) (a : A), match mem s1 p with Some _ => a | None => a end = a) by (intros; destruct (mem s1 p); reflexivity).
    rewrite !Y. rewrite Em, Eh, Ep, Ed, En, El.
    split; [intros q a; cases q p; [discriminate|]; intros E; rewrite Ek by assumption; exact (H1 q a E)|].
    split; [intros q r t v t' v'; cases q p; [discriminate|]; cases r p; [discriminate|apply H2]|].
    split; [intros n Hn; destruct (H3 n Hn) as [? [q [t [v [? ?]]]]]; split; [assumption|]; exists q, t, v; rewrite upd_other by congruence; auto|].
    split; [intros q o; cases q p; [discriminate|apply H4]|].
    destruct (mem s p) as [o'|] eqn:M; [|exact H5]. intros o [<-|Ho]; [|apply H5; exact Ho]. specialize (H4 p o' M). rewrite Hp in H4. exact H4.
  Qed.

  Lemma destroy_core : forall s c p a, core s c -> c p = Some a ->
    exists s', a_destroy p s = Ok tt s' /\ core s' (upd c p (Some AEmpty)) /\ alive s' = alive s /\ ptr s' = ptr s.
  Proof.
    intros s c p a [H1 [H2 [H3 [H4 H5]]]] Hp. pose proof (H1 p a Hp) as K. unfold a_destroy, get_kind, get_ptr, put_kind, dtor, delete_object, ret, bind.
    destruct a as [|v|v|t v]; cbn [held] in K; [|destruct K as [K D]|destruct K as [K D]|destruct K as [K D]]; rewrite K; cbn [Nat.eqb].
    1, 2: eexists; split; [reflexivity|]; split; [|split; reflexivity]; unfold core, held; cbn [mem kind alive heap ptr data next lost set_kind];
      (split; [intros q a; cases q p; [intros [= <-]; reflexivity|intros E; exact (H1 q a E)]|]);
      (split; [intros q r t v' t' w; cases q p; [discriminate|]; cases r p; [discriminate|apply H2]|]);
      (split; [intros n Hn; destruct (H3 n Hn) as [? [q [t [w [? ?]]]]]; split; [assumption|]; exists q, t, w; rewrite upd_other by congruence; auto|]);
      (split; [|exact H5]); intros q o Ho; specialize (H4 q o Ho); cases q p; [rewrite Hp in H4; exact H4|exact H4].
    - rewrite D. cbn [Nat.eqb]. eexists. split; [reflexivity|]. split; [|split; reflexivity]. unfold core, held. cbn [mem kind alive heap ptr data next lost set_kind set_mem].
      split; [intros q a; cases q p; [intros [= <-]; reflexivity|intros E; exact (H1 q a E)]|].
      split; [intros q r t v' t' w; cases q p; [discriminate|]; cases r p; [discriminate|apply H2]|].
      split; [intros n Hn; destruct (H3 n Hn) as [? [q [t [w [? ?]]]]]; split; [assumption|]; exists q, t, w; rewrite upd_other by congruence; auto|].
      split; [|exact H5]. intros q o. cases q p; [discriminate|]. apply H4.
    - rewrite D. eexists. split; [reflexivity|]. split; [|split; reflexivity]. unfold core, held. cbn [mem kind alive heap ptr data next lost set_kind set_heap].
      split; [intros q a; cases q p; [intros [= <-]; reflexivity|]|].
      { intros E. pose proof (H1 q a E) as Kq. destruct a as [|w|w|t' w]; cbn [held] in Kq; try exact Kq. destruct Kq as [Kq Dq]. split; [exact Kq|].
        rewrite upd_other; [exact Dq|]. intros X. apply (H2 q p t' w t v E Hp) in X. contradiction. }
      split; [intros q r t0 v' t' w; cases q p; [discriminate|]; cases r p; [discriminate|apply H2]|].
      split; [intros n; cases n (ptr s p); [congruence|]; intros Hn; destruct (H3 n Hn) as [? [q [t0 [w [? ?]]]]]; split; [assumption|]; exists q, t0, w; rewrite upd_other by congruence; auto|].
      split; [|exact H5]. intros q o Ho; specialize (H4 q o Ho); cases q p; [rewrite Hp in H4; exact H4|exact H4].
  Qed.

  (** a value is stored in an empty any *)
  Definition stored (s : st) (p : place) (a : aval) (s' : st) : Prop :=
    held s' p a /\ alive s' = alive s /\ (forall q, q <> p -> kind s' q = kind s q /\ data s' q = data s q /\ mem s' q = mem s q /\ ptr s' q = ptr s q) /\
    match a with
    | AString v => mem s' p = Some (0, v) /\ heap s' = heap s /\ next s' = next s /\ lost s' = match mem s p with Some o => o :: lost s | None => lost s end
    | AObject t v => mem s' = mem s /\ lost s' = lost s /\ heap s' = upd (heap s) (next s) (Some (t, v)) /\ next s' = S (next s) /\ ptr s' p = next s
    | _ => mem s' = mem s /\ heap s' = heap s /\ next s' = next s /\ lost s' = lost s
    end.
  Lemma next_free : forall s c, core s c -> heap s (next s) = None.
  Proof. intros s c [_ [_ [H3 _]]]. destruct (heap s (next s)) eqn:E; [|reflexivity]. destruct (H3 (next s)) as [H _]; [congruence|lia]. Qed.
  Lemma stored_core : forall s c p a s', core s c -> c p = Some AEmpty -> stored s p a s' -> core s' (upd c p (Some a)).
  Proof.
    intros s c p a s' HC Hp [S1 [S2 [S3 S4]]]. pose proof (next_free s c HC) as NF. destruct HC as [H1 [H2 [H3 [H4 H5]]]].
    assert (O : forall q b, q <> p -> c q = Some b -> (forall t v, b = AObject t v -> heap s' (ptr s q) = heap s (ptr s q)) -> held s' q b).
    { intros q b Hq E X. pose proof (H1 q b E) as K. destruct (S3 q Hq) as [E1 [E2 [E3 E4]]]. destruct b; cbn [held] in *; rewrite ?E1, ?E2, ?E3, ?E4; try exact K.
      destruct K as [K D]. split; [exact K|]. rewrite (X _ _ eq_refl). exact D. }
    assert (HH : forall q t v, c q = Some (AObject t v) -> ptr s q <> next s).
    { intros q t v E X. pose proof (H1 q _ E) as [_ D]. rewrite X in D. congruence. }
    assert (U : forall q r t v t' v', upd c p (Some a) q = Some (AObject t v) -> upd c p (Some a) r = Some (AObject t' v') -> ptr s' q = ptr s' r -> q = r).
    { intros q r t v t' v'. cases q p; cases r p.
      - reflexivity.
      - intros [= ->] E X. cbn in S4. destruct S4 as [_ [_ [_ [_ Ep]]]]. destruct (S3 r) as [_ [_ [_ E4]]]; [assumption|]. rewrite Ep, E4 in X. exfalso. eapply HH; [exact E|]. symmetry. exact X.
      - intros E [= ->] X. cbn in S4. destruct S4 as [_ [_ [_ [_ Ep]]]]. destruct (S3 q) as [_ [_ [_ E4]]]; [assumption|]. rewrite Ep, E4 in X. exfalso. eapply HH; [exact E|exact X].
      - intros E E' X. destruct (S3 q) as [_ [_ [_ E4]]]; [assumption|]. destruct (S3 r) as [_ [_ [_ E4']]]; [assumption|]. rewrite E4, E4' in X. eapply H2; eassumption. }
    assert (G : forall n, heap s n <> None -> n < next s /\ exists q t v, upd c p (Some a) q = Some (AObject t v) /\ ptr s' q = n).
    { intros n Hn. destruct (H3 n Hn) as [? [q [t [v [E X]]]]]. split; [assumption|]. exists q, t, v. assert (q <> p) by congruence.
      destruct (S3 q) as [_ [_ [_ E4]]]; [assumption|]. rewrite upd_other, E4 by assumption. auto. }
    assert (Mp : forall o, mem s p = Some o -> left_over o) by (intros o Ho; specialize (H4 p o Ho); rewrite Hp in H4; exact H4).
    assert (Mq : forall q o, q <> p -> mem s' q = Some o -> match c q with Some (AString _) => True | Some _ => left_over o | None => False end).
    { intros q o Hq. destruct (S3 q Hq) as [_ [_ [E3 _]]]. rewrite E3. apply H4. }
    unfold core. split; [|split; [exact U|split; [|split]]].
    - intros q b. cases q p; [intros [= <-]; exact S1|]. intros E. apply O; [assumption|exact E|]. intros t v ->.
      destruct a as [|w|w|t' w]; destruct S4 as [? [S42 [S43 ?]]]; rewrite ?S42; try reflexivity. rewrite S43. apply upd_other. eapply HH. exact E.
    - intros n. destruct a as [|w|w|t' w].
      + destruct S4 as [_ [-> [-> _]]]. apply G.
      + destruct S4 as [_ [-> [-> _]]]. apply G.
      + destruct S4 as [_ [-> [-> _]]]. apply G.
      + destruct S4 as [_ [_ [-> [-> Ep]]]]. cases n (next s); [intros _; split; [lia|]; exists p, t', w; rewrite upd_same; auto|].
        intros Hn. destruct (G n Hn) as [? G']. split; [lia|exact G'].
    - intros q o. cases q p; [|apply Mq; assumption].
      destruct a as [|w|w|t' w]; [| |tauto|]; destruct S4 as [-> _]; apply Mp.
    - destruct a as [|w|w|t' w].
      + destruct S4 as [_ [_ [_ ->]]]. exact H5.
      + destruct S4 as [_ [_ [_ ->]]]. exact H5.
      + destruct S4 as [_ [_ [_ ->]]]. destruct (mem s p) as [o'|] eqn:E; [|exact H5]. intros o [<-|Ho]; [apply Mp; reflexivity|apply H5; exact Ho].
      + destruct S4 as [_ [-> _]]. exact H5.
  Qed.

  Definition plain (i : item) : option aval := match i with IScalar v => Some (AScalar v) | IString v => Some (AString v) | IObject t v => Some (AObject t v) | IOwn _ => None end.
  Lemma init_stored : forall s p i a x, plain i = Some a ->
    if throws a x then exists e k, a_init p i x s = Throw e (set_kind s (upd (kind s) p k)) else exists s', a_init p i x s = Ok tt s' /\ stored s p a s'.
  Proof.
    intros s p [v|v|t v|q] a x; cbn [plain]; intros [= <-]; cbn [throws can_throw]; unfold a_init, bind, put_kind, put_data, ctor, new_object, put_ptr.
    - destruct x; cbn; eexists; (split; [reflexivity|]); unfold stored, held; cbn [mem kind alive heap ptr data next lost set_kind set_data];
        (split; [rewrite !upd_same; auto|]); (split; [reflexivity|]); (split; [|auto]); intros q Hq; rewrite !upd_other by exact Hq; auto.
    - destruct x; cbn; [eexists; eexists; reflexivity|]. destruct (mem s p) as [o|] eqn:M; eexists; (split; [reflexivity|]); unfold stored, held; cbn [mem kind alive heap ptr data next lost set_kind set_data set_mem set_lost];
        rewrite ?M; (split; [rewrite !upd_same; auto|]); (split; [reflexivity|]); (split; [intros q Hq; rewrite !upd_other by exact Hq; auto|rewrite upd_same; auto]).
    - destruct x; cbn; [eexists; eexists; reflexivity|]. eexists; split; [reflexivity|]; unfold stored, held; cbn [mem kind alive heap ptr data next lost set_kind set_data set_ptr set_heap].
      split; [rewrite !upd_same; auto|]. split; [reflexivity|]. split; [intros q Hq; rewrite !upd_other by exact Hq; auto|rewrite upd_same; auto 6].
  Qed.
  Lemma copy_stored : forall s c p q a x, core s c -> kind s p = 0 -> c q = Some a -> q <> p ->
    if throws a x then exists e, a_copy p q x s = Throw e s else exists s', a_copy p q x s = Ok tt s' /\ stored s p a s'.
  Proof.
    intros s c p q a x [H1 _] Kp Hq N. pose proof (H1 q a Hq) as K. unfold a_copy, bind, get_kind, put_kind, put_data, get_data, get_ptr, heap_ref, ref, ctor, new_object, put_ptr, stored.
    rewrite Kp. cbn [Nat.eqb negb]. destruct a as [|v|v|t v]; cbn [held throws can_throw] in *; [|destruct K as [K D]|destruct K as [K D]|destruct K as [K D]]; rewrite K; cbn [Nat.eqb].
    - destruct x; eexists; (split; [reflexivity|]); cbn [mem kind alive heap ptr data next lost set_kind set_data]; rewrite ?K;
        (split; [rewrite !upd_same; auto|]); (split; [reflexivity|]); (split; [|auto]); intros r Hr; rewrite !upd_other by exact Hr; auto.
    - destruct x; eexists; (split; [reflexivity|]); cbn [mem kind alive heap ptr data next lost set_kind set_data]; rewrite ?K, ?D;
        (split; [rewrite !upd_same; auto|]); (split; [reflexivity|]); (split; [|auto]); intros r Hr; rewrite !upd_other by exact Hr; auto.
    - rewrite D. cbn [Nat.eqb]. destruct x; [eexists; reflexivity|]. destruct (mem s p) as [o|] eqn:M; eexists; (split; [reflexivity|]); cbn [mem kind alive heap ptr data next lost set_kind set_data set_mem set_lost]; rewrite ?K, ?M;
        (split; [rewrite !upd_same; auto|]); (split; [reflexivity|]); (split; [intros r Hr; rewrite !upd_other by exact Hr; auto|rewrite upd_same; auto]).
    - rewrite D. cbn [fst snd]. destruct x; [eexists; reflexivity|]. eexists; split; [reflexivity|]; cbn [mem kind alive heap ptr data next lost set_kind set_data set_ptr set_heap]. rewrite K.
      split; [rewrite !upd_same; auto|]. split; [reflexivity|]. split; [intros r Hr; rewrite !upd_other by exact Hr; auto|rewrite upd_same; auto 6].
  Qed.

  Lemma move_core : forall s c p q a, core s c -> c p = Some AEmpty -> c q = Some a -> q <> p -> (tight = true -> match a with AString _ => False | _ => True end) ->
    exists s', a_move moved p q s = Ok tt s' /\ core s' (upd (upd c p (Some a)) q (Some AEmpty)) /\ alive s' = alive s.
  Proof.
    intros s c p q a [H1 [H2 [H3 [H4 H5]]]] Hp Hq N Ht. pose proof (H1 p _ Hp) as Kp. pose proof (H1 q a Hq) as K. cbn [held] in Kp.
    assert (Mp : forall o, mem s p = Some o -> left_over o) by (intros o Ho; specialize (H4 p o Ho); rewrite Hp in H4; exact H4).
    assert (Nst : forall v : Z, (forall w, a <> AString w) -> forall o, mem s q = Some o -> left_over o).
    { intros v Hns o Ho. specialize (H4 q o Ho). rewrite Hq in H4. destruct a; try exact H4. exfalso. eapply Hns. reflexivity. }
    assert (N' : p <> q) by congruence.
    unfold a_move, bind, get_kind, put_kind, put_data, get_data, get_ptr, ref, set_ref, ctor, put_ptr. rewrite Kp. cbn [Nat.eqb negb].
    destruct a as [|v|v|t v]; cbn [held] in K; [|destruct K as [K D]|destruct K as [K D]|destruct K as [K D]]; rewrite K; cbn [Nat.eqb].
    1, 2: eexists; split; [reflexivity|]; split; [|reflexivity]; unfold core, held; cbn [mem kind alive heap ptr data next lost set_kind set_data]; rewrite ?K, ?Kp, ?D;
      (split; [intros r b; two r q p; [intros [= <-]; reflexivity|intros [= <-]; auto|intros E; exact (H1 r b E)]|]);
      (split; [intros r r' t v' t' w; two r q p; [discriminate|discriminate|]; two r' q p; [discriminate|discriminate|apply H2]|]);
      (split; [intros n Hn; destruct (H3 n Hn) as [? [r [t [w [? ?]]]]]; split; [assumption|]; exists r, t, w; rewrite !upd_other by congruence; auto|]);
      (split; [|exact H5]); intros r o; two r q p; [apply (Nst 0%Z); congruence|apply Mp|apply H4].
    - rewrite D. cbn [Nat.eqb]. rewrite D. cbn [Nat.eqb mem set_mem]. rewrite (upd_other _ (mem s)) by congruence.
      assert (T : tight = false) by (destruct tight; [exfalso; apply Ht; reflexivity|reflexivity]).
      assert (Lq : left_over (0, moved 0 v)) by (split; [exact T|eauto]).
      destruct (mem s p) as [o'|] eqn:M; eexists; (split; [reflexivity|]); (split; [|reflexivity]); unfold core, held; cbn [mem kind alive heap ptr data next lost set_kind set_data set_mem set_lost]; rewrite ?K, ?Kp;
        (split; [intros r b; two r q p; [intros [= <-]; reflexivity|intros [= <-]; auto|intros E; exact (H1 r b E)]|]);
        (split; [intros r r' t v' t' w; two r q p; [discriminate|discriminate|]; two r' q p; [discriminate|discriminate|apply H2]|]);
        (split; [intros n Hn; destruct (H3 n Hn) as [? [r [t [w [? ?]]]]]; split; [assumption|]; exists r, t, w; rewrite !upd_other by congruence; auto|]);
        (split; [intros r o; destruct (Nat.eq_dec r q) as [->|]; [rewrite (upd_other _ _ p) by assumption; rewrite !upd_same; intros [= <-]; exact Lq|];
            rewrite (upd_other _ (upd c p _) q) by assumption; destruct (Nat.eq_dec r p) as [->|]; [rewrite !upd_same; auto|rewrite !upd_other by assumption; apply H4]|]).
      + intros o [<-|Ho]; [apply Mp; reflexivity|apply H5; exact Ho].
      + exact H5.
    - eexists; (split; [reflexivity|]); (split; [|reflexivity]); unfold core, held; cbn [mem kind alive heap ptr data next lost set_kind set_data set_ptr]; rewrite ?K, ?Kp.
      split; [intros r b; two r q p; [intros [= <-]; reflexivity|intros [= <-]; auto|intros E; exact (H1 r b E)]|].
      split.
      { intros r r' t1 v1 t2 v2. two r q p; [discriminate| |]; (two r' q p; [discriminate| |]).
        - reflexivity.
        - intros _ E X. exfalso. assert (q = r') by (eapply H2; [exact Hq|exact E|exact X]). congruence.
        - intros E _ X. exfalso. assert (r = q) by (eapply H2; [exact E|exact Hq|exact X]). congruence.
        - apply H2. }
      split.
      { intros n Hn; destruct (H3 n Hn) as [? [r [t1 [w [E X]]]]]; split; [assumption|]. destruct (Nat.eq_dec r q) as [->|R].
        - exists p, t1, w. rewrite (upd_other _ _ q) by assumption. rewrite !upd_same. split; [congruence|exact X].
        - exists r, t1, w. assert (r <> p) by congruence. rewrite !upd_other by assumption. auto. }
      split; [|exact H5]. intros r o; two r q p; [apply (Nst 0%Z); congruence|apply Mp|apply H4].
  Qed.

  Definition afollows (m : M st unit) (s : st) (r : outcome acontents) : Prop :=
    match r with
    | Done c' => exists s', m s = Ok tt s' /\ aholds s' c'
    | Threw c' => exists e s', m s = Throw e s' /\ aholds s' c'
    | Terminated => False
    end.

  Lemma alive_same : forall s c s' c', aholds s c -> core s' c' -> alive s' = alive s -> (forall q, c' q = None <-> c q = None) -> aholds s' c'.
  Proof.
    intros s c s' c' H HC HA E. apply aholds_core. apply aholds_core in H. destruct H as [H _]. split; [|exact HC]. intros q. rewrite HA, H.
    specialize (E q). destruct (c q), (c' q); try reflexivity; exfalso; [destruct E as [E _]|destruct E as [_ E]]; specialize (E eq_refl); discriminate.
  Qed.
  Lemma built : forall p m s c s' c', aholds s c -> m s = Ok tt s' -> core s' c' -> alive s' = alive s -> c' p <> None -> (forall q, q <> p -> (c' q = None <-> c q = None)) ->
    exists s2, constructing p m s = Ok tt s2 /\ aholds s2 c'.
  Proof.
    intros p m s c s' c' H R HC HA Hp E. unfold constructing. rewrite R. unfold take_up. eexists. split; [reflexivity|]. apply aholds_core. apply aholds_core in H. destruct H as [H _].
    split; [|exact HC]. intros q. cbn [alive set_alive]. cases q p; [destruct (c' p); [reflexivity|contradiction]|]. rewrite HA, H. specialize (E q ltac:(assumption)).
    destruct (c q), (c' q); try reflexivity; exfalso; [destruct E as [E _]|destruct E as [_ E]]; specialize (E eq_refl); discriminate.
  Qed.
  (** a constructor that throws *)
  Lemma not_built_any : forall p m s c s0 s1 e, aholds s c -> c p = None -> m s = Throw e s1 -> core s0 (upd c p (Some AEmpty)) ->
    mem s1 = mem s0 -> heap s1 = heap s0 -> ptr s1 = ptr s0 -> data s1 = data s0 -> next s1 = next s0 -> lost s1 = lost s0 -> (forall q, q <> p -> kind s1 q = kind s0 q) -> alive s1 = alive s ->
    exists e' s', constructing p m s = Throw e' s' /\ aholds s' c.
  Proof.
    intros p m s c s0 s1 e H Hp R HC Em Eh Ep Ed En El Ek Ea. destruct (drop_core s0 _ p s1 HC (upd_same _ _ _ _) Em Eh Ep Ed En El Ek) as [s' [G [HC' A]]].
    exists e, s'. unfold constructing. rewrite R, G. split; [reflexivity|]. apply aholds_core. apply aholds_core in H. destruct H as [H _]. split.
    - intros q. rewrite A. cases q p; [rewrite Hp; reflexivity|]. rewrite Ea. apply H.
    - eapply core_ext; [exact HC'|]. intros q. cases q p; [symmetry; exact Hp|reflexivity].
  Qed.

  (** the argument is bound now and read later *)
  Lemma arg_ok : forall s c i a, core s c -> exists_own c i -> aitem c i = Some a ->
    exists b, a_bind i s = Ok b s /\ b <> BNone /\
      forall s' c', core s' c' -> ptr s' = ptr s -> (match i with IOwn q => c' q = c q | _ => True end) -> exists j, a_arg b s' = Ok j s' /\ plain j = Some a.
  Proof.
    intros s c i a [H1 _] He Ha.
    assert (V : forall i, (match i with IOwn _ => False | _ => True end) -> aitem c i = Some a -> plain i = Some a) by (intros [v|v|t v|q]; cbn; tauto).
    destruct i as [v|v|t v|q].
    1-3: eexists; split; [reflexivity|]; split; [discriminate|]; intros; eexists; split; [reflexivity|]; apply V; [exact I|exact Ha].
    cbn [a_bind aitem exists_own] in *. destruct (c q) as [b|] eqn:Eq; [|discriminate]. pose proof (H1 q b Eq) as K. unfold bind, get_kind, get_ptr, ret.
    destruct b as [|v|v|t v]; cbn [held] in K; [discriminate|destruct K as [K D]|destruct K as [K D]|destruct K as [K D]]; injection Ha as <-; rewrite K; cbn [Nat.eqb]; eexists; (split; [reflexivity|]); (split; [discriminate|]).
    - intros s' c' [H1' _] Ep E. pose proof (H1' q _ E) as [K' D']. cbn [a_arg]. unfold bind, get_data, ret. eexists. split; [reflexivity|]. rewrite D'. reflexivity.
    - intros s' c' [H1' _] Ep E. pose proof (H1' q _ E) as [K' D']. cbn [a_arg]. unfold bind, ref, ret. rewrite D'. eexists. split; reflexivity.
    - intros s' c' [H1' _] Ep E. pose proof (H1' q _ E) as [K' D']. cbn [a_arg]. unfold bind, heap_ref, ret. rewrite <- Ep, D'. eexists. split; reflexivity.
  Qed.
  Lemma arg_none : forall s c i, core s c -> exists_own c i -> aitem c i = None -> a_bind i s = Ok BNone s.
  Proof.
    intros s c [v|v|t v|q] [H1 _] He Ha; cbn [aitem exists_own a_bind] in *; try discriminate. destruct (c q) as [[|v|v|t v]|] eqn:E; try discriminate; [|contradiction].
    pose proof (H1 q _ E) as K. cbn [held] in K. unfold bind, get_kind, ret. rewrite K. reflexivity.
  Qed.

  Theorem astep_ok : forall o s c, aholds s c -> aallowed tight c o -> afollows (astep o) s (aspec c o).
  Proof.
    intros o s c H Ha. pose proof (proj1 (aholds_core s c) H) as [HA HC].
    destruct o as [p|p i x|p q x|p q|p|p q x|p q|p i x]; cbn [aallowed aspec LifeModel.astep] in *.
    - unfold afollows. eapply built; [exact H|reflexivity|apply start_core; assumption|reflexivity|rewrite upd_same; discriminate|]. intros q Hq. rewrite upd_other by exact Hq. tauto.
    - destruct Ha as [Hp He]. pose proof (start_core s c p HC Hp) as SC. destruct (aitem c i) as [a|] eqn:Ei.
      + destruct (arg_ok s c i a HC He Ei) as [b [B [_ R]]]. destruct (R _ _ SC eq_refl) as [j [J P]].
        { destruct i as [v|v|t v|q]; try exact I. cbn [exists_own] in He. apply upd_other. congruence. }
        pose proof (init_stored (set_kind s (upd (kind s) p 0)) p j a x P) as IS. destruct (throws a x).
        * destruct IS as [e [k IS]]. unfold afollows. eapply not_built_any; [exact H|exact Hp|unfold bind, put_kind; rewrite B, J, IS; reflexivity|exact SC|..]; try reflexivity.
          intros q Hq. cbn [kind set_kind]. rewrite !upd_other by exact Hq. reflexivity.
        * destruct IS as [s' [IS ST]]. unfold afollows. pose proof (stored_core _ _ _ _ _ SC (upd_same _ _ _ _) ST) as C'. destruct ST as [_ [A _]].
          eapply built; [exact H| | |exact A| |].
          { unfold bind, put_kind. rewrite B, J, IS. reflexivity. }
          { eapply core_ext; [exact C'|]. intros q. cases q p; reflexivity. }
          { rewrite upd_same. discriminate. }
          { intros q Hq. rewrite upd_other by exact Hq. tauto. }
      + pose proof (arg_none s c i HC He Ei) as B. unfold afollows. eapply not_built_any; [exact H|exact Hp|unfold bind, put_kind; rewrite B; reflexivity|exact SC|..]; reflexivity.
    - destruct Ha as [Hp Hq]. pose proof (start_core s c p HC Hp) as SC. destruct (c q) as [a|] eqn:Eq; [|contradiction].
      assert (N : q <> p) by congruence.
      assert (Eq' : upd c p (Some AEmpty) q = Some a) by (rewrite upd_other by exact N; exact Eq).
      assert (K0 : kind (set_kind s (upd (kind s) p 0)) p = 0) by apply upd_same.
      pose proof (copy_stored _ _ p q a x SC K0 Eq' N) as IS. destruct (throws a x).
      + destruct IS as [e IS]. unfold afollows. eapply not_built_any; [exact H|exact Hp|unfold bind at 1, put_kind at 1; exact IS|exact SC|..]; reflexivity.
      + destruct IS as [s' [IS ST]]. unfold afollows. pose proof (stored_core _ _ _ _ _ SC (upd_same _ _ _ _) ST) as C'. destruct ST as [_ [A _]].
        eapply built; [exact H| | |exact A| |].
        { unfold bind at 1, put_kind at 1. exact IS. }
        { eapply core_ext; [exact C'|]. intros r. cases r p; reflexivity. }
        { rewrite upd_same. discriminate. }
        { intros r Hr. rewrite upd_other by exact Hr. tauto. }
    - destruct Ha as [Hp [Hq Ht]]. pose proof (start_core s c p HC Hp) as SC. unfold not_a_string in Ht. destruct (c q) as [a|] eqn:Eq; [|contradiction].
      assert (N : q <> p) by congruence.
      assert (Eq' : upd c p (Some AEmpty) q = Some a) by (rewrite upd_other by exact N; exact Eq).
      destruct (move_core _ _ p q a SC (upd_same _ _ _ _) Eq' N) as [s' [R [C' A]]]; [intros T; specialize (Ht T); destruct a; tauto|].
      unfold afollows. eapply built; [exact H| | |exact A| |].
      { unfold bind at 1, put_kind at 1. exact R. }
      { eapply core_ext; [exact C'|]. intros r. two r q p; reflexivity. }
      { rewrite upd_other, upd_same by congruence. discriminate. }
      { intros r Hr. two r q p; [rewrite Eq; split; discriminate|contradiction|tauto]. }
    - destruct (c p) as [a|] eqn:Ep; [|contradiction]. destruct (destroy_core s c p a HC Ep) as [s1 [D [C1 [A1 _]]]].
      destruct (drop_core s1 _ p s1 C1 (upd_same _ _ _ _)) as [s' [G [C' A']]]; try reflexivity. unfold afollows, bind. rewrite D, G. exists s'. split; [reflexivity|].
      apply aholds_core. split; [|eapply core_ext; [exact C'|]; intros q; cases q p; reflexivity]. intros q. rewrite A', A1. cases q p; [reflexivity|apply HA].
    - destruct Ha as [Hp [Hq N]]. destruct (c p) as [a0|] eqn:Ep; [|contradiction]. destruct (c q) as [a|] eqn:Eq; [|contradiction].
      destruct (destroy_core s c p a0 HC Ep) as [s1 [D [C1 [A1 _]]]].
      assert (Eq' : upd c p (Some AEmpty) q = Some a) by (rewrite upd_other by exact N; exact Eq).
      assert (K0 : kind s1 p = 0) by (destruct C1 as [X _]; exact (X p _ (upd_same _ _ _ _))).
      pose proof (copy_stored _ _ p q a x C1 K0 Eq' N) as IS. destruct (throws a x).
      + destruct IS as [e IS]. exists e, s1. unfold bind at 1. rewrite D. split; [exact IS|]. eapply alive_same; [exact H|exact C1|exact A1|].
        intros r. cases r p; [rewrite Ep; split; discriminate|tauto].
      + destruct IS as [s' [IS ST]]. pose proof (stored_core _ _ _ _ _ C1 (upd_same _ _ _ _) ST) as C'. destruct ST as [_ [A _]].
        exists s'. unfold bind at 1. rewrite D. split; [exact IS|]. eapply alive_same; [exact H| |rewrite A; exact A1|].
        { eapply core_ext; [exact C'|]. intros r. cases r p; reflexivity. }
        intros r. cases r p; [rewrite Ep; split; discriminate|tauto].
    - destruct Ha as [Hp [Hq [N Ht]]]. unfold not_a_string in Ht. destruct (c p) as [a0|] eqn:Ep; [|contradiction]. destruct (c q) as [a|] eqn:Eq; [|contradiction].
      destruct (destroy_core s c p a0 HC Ep) as [s1 [D [C1 [A1 _]]]].
      assert (Eq' : upd c p (Some AEmpty) q = Some a) by (rewrite upd_other by exact N; exact Eq).
      destruct (move_core _ _ p q a C1 (upd_same _ _ _ _) Eq' N) as [s' [R [C' A]]]; [intros T; specialize (Ht T); destruct a; tauto|].
      exists s'. unfold bind at 1. rewrite D. split; [exact R|]. eapply alive_same; [exact H| |rewrite A; exact A1|].
      { eapply core_ext; [exact C'|]. intros r. two r q p; reflexivity. }
      intros r. two r q p; [rewrite Eq; split; discriminate|rewrite Ep; split; discriminate|tauto].
    - destruct Ha as [Hp [He [Ho ->]]]. destruct (c p) as [a0|] eqn:Ep; [|contradiction].
      destruct (aitem c i) as [a|] eqn:Ei.
      + destruct (arg_ok s c i a HC He Ei) as [b [B [Nb R]]]. destruct (destroy_core s c p a0 HC Ep) as [s1 [D [C1 [A1 P1]]]]. destruct (R _ _ C1 P1) as [j [J P]].
        { destruct i as [v|v|t v|q]; try exact I. cbn [own_is_not] in Ho. apply upd_other. congruence. }
        pose proof (init_stored s1 p j a None P) as IS. cbn [throws] in IS. destruct IS as [s' [IS ST]].
        pose proof (stored_core _ _ _ _ _ C1 (upd_same _ _ _ _) ST) as C'. destruct ST as [_ [A _]].
        exists s'. unfold bind. rewrite B. split.
        { destruct b; try contradiction; rewrite D, J; exact IS. }
        eapply alive_same; [exact H| |rewrite A; exact A1|].
        { eapply core_ext; [exact C'|]. intros r. cases r p; reflexivity. }
        intros r. cases r p; [rewrite Ep; split; discriminate|tauto].
      + pose proof (arg_none s c i HC He Ei) as B. exists StdException, s. unfold bind. rewrite B. split; [reflexivity|exact H].
  Qed.

  Theorem arun_ok : forall ops s c, aholds s c -> history aspec (aallowed tight) ops c ->
    exists c' s', contents aspec ops c = Some c' /\ run astep ops s = Ok tt s' /\ aholds s' c'.
  Proof.
    induction ops as [|o ops IH]; intros s c H Hh; cbn [contents run]; [exists c, s; auto|]. destruct Hh as [Ha Hh].
    pose proof (astep_ok o s c H Ha) as K. unfold afollows in K. destruct (aspec c o) as [c'|c'|].
    - destruct K as [s' [-> H']]. apply IH; assumption.
    - destruct K as [e [s' [-> H']]]. apply IH; assumption.
    - contradiction.
  Qed.
End Any.
