(** C65: lifetimes of the contents of variants, optionals and anys. *)
From Verif Require Import Base LifeModel LifeSpec LifeProofs LifeProofs2 LifeProofs3.

(* ---------------------------------------------------------------- variant *)
Lemma clean_v : forall types empty s, clean_slate s -> vholds types empty s (fun _ => None).
Proof. intros types empty s [H1 [H2 [_ H4]]]. split; [exact H1|]. split; [exact H2|]. split; [discriminate|]. rewrite H4. intros o []. Qed.
Lemma clean_o : forall s, clean_slate s -> oholds s (fun _ => None).
Proof. intros s [H1 [H2 [_ H4]]]. split; [exact H1|]. split; [exact H2|]. split; [intros; exact I|exact H4]. Qed.
Lemma clean_a : forall moved tight s, clean_slate s -> aholds moved tight s (fun _ => None).
Proof.
  intros moved tight s [H1 [H2 [H3 H4]]]. split; [exact H2|]. split; [discriminate|]. split; [discriminate|]. split; [intros n Hn; rewrite H3 in Hn; contradiction|].
  split; [intros p o; rewrite H1; discriminate|]. rewrite H4. intros o [].
Qed.

(** After any history of proper operations - constructions, copies, moves, assignments, emplacements, destructions, with std::exceptions
    thrown by the items' constructors wherever they may be - every variant contains what the specification says and nothing else is alive;
    the program is terminated exactly when a never-empty variant's item constructor throws, and no undefined behaviour occurs. *)
Theorem C65_variant_history : forall moved types empty, (forall e, empty = Some e -> e < types) ->
  forall s ops, clean_slate s -> history (vspec moved empty) (vallowed types) ops (fun _ => None) ->
  match contents (vspec moved empty) ops (fun _ => None) with
  | Some c => exists s', run (vstep moved types empty) ops s = Ok tt s' /\ vholds types empty s' c
  | None => run (vstep moved types empty) ops s = Abort
  end.
Proof. intros moved types empty He s ops Hs Hh. apply vrun_ok; [exact He|apply clean_v; exact Hs|exact Hh]. Qed.
Print Assumptions C65_variant_history.

(** ... so when all variants are gone every item has been destroyed once (all but values of the type EmptyType, which have no destructor
    to call: the constructor of a variant that throws leaves one) *)
Theorem C65_variant_no_leak : forall moved types empty, (forall e, empty = Some e -> e < types) ->
  forall s ops c s', clean_slate s -> history (vspec moved empty) (vallowed types) ops (fun _ => None) ->
  contents (vspec moved empty) ops (fun _ => None) = Some c -> (forall p, c p = None) -> run (vstep moved types empty) ops s = Ok tt s' ->
  (forall p, mem s' p = None) /\ (forall p, alive s' p = false) /\ (forall o, In o (lost s') -> Some (fst o) = empty).
Proof.
  intros moved types empty He s ops c s' Hs Hh Hc Hn R. pose proof (C65_variant_history moved types empty He s ops Hs Hh) as K. rewrite Hc in K.
  destruct K as [s2 [R2 [K1 [K2 [_ K4]]]]]. rewrite R in R2. injection R2 as <-. split; [intros p; rewrite K1; apply Hn|].
  split; [intros p; rewrite K2, Hn; reflexivity|exact K4].
Qed.
Print Assumptions C65_variant_no_leak.

(** v = v destroys the item first and then copies it: undefined behaviour, for every variant in every state *)
Theorem C65_variant_self_assignment_refuted : forall moved types empty s c p x, vholds types empty s c -> c p <> None ->
  vstep moved types empty (VCopy p p x) s = Bad /\ vstep moved types empty (VMove p p x) s = Bad.
Proof.
  intros moved types empty s c p x H Hp. destruct (c p) as [[t v]|] eqn:E; [|contradiction].
  destruct (destruct_open _ _ _ _ _ _ _ H E) as [D HO]. destruct H as [Hm [_ [Hk _]]]. destruct (Hk _ _ _ E) as [K Ht].
  cbn [vstep]. unfold bind, assign_from, assign_move. rewrite D. unfold with_type. cbn [kind set_mem]. rewrite K. replace (t <? types) with true by (symmetry; apply Nat.ltb_lt; exact Ht).
  unfold assign_val, catch_std, make, read_src, bind, ref. split; destruct empty; cbn [mem set_mem]; rewrite upd_same; reflexivity.
Qed.
Print Assumptions C65_variant_self_assignment_refuted.

(** the same for v = v.get<T>() and v.emplace<T>(v.get<T>()), where the two types are the same or not *)
Theorem C65_variant_own_item_refuted : forall moved types empty s c p t t' v x, vholds types empty s c -> c p = Some (t, v) ->
  vstep moved types empty (VAssign p t' (SRef p t) x) s = Bad /\ vstep moved types empty (VEmplace p t' (SRef p t) x) s = Bad.
Proof.
  intros moved types empty s c p t t' v x H E. destruct (destruct_open _ _ _ _ _ _ _ H E) as [D HO].
  cbn [vstep]. unfold emplace, bind. rewrite D. unfold assign_val, catch_std, make, read_src, bind, ref. split; destruct empty; cbn [mem set_mem]; rewrite upd_same; reflexivity.
Qed.
Print Assumptions C65_variant_own_item_refuted.

(** an exception that is not a std::exception leaves the variant with the type of the destroyed item: its destructor is then undefined behaviour *)
Theorem C65_variant_foreign_exception_refuted : forall moved types empty s c p t v, vholds types empty s c -> c p <> None ->
  exists s', vstep moved types empty (VAssign p t (SVal v) (Some OtherException)) s = Throw OtherException s' /\ vstep moved types empty (VDelete p) s' = Bad.
Proof.
  intros moved types empty s c p t v H Hp. destruct (c p) as [[t0 v0]|] eqn:E; [|contradiction].
  destruct (destruct_open _ _ _ _ _ _ _ H E) as [D HO]. destruct H as [Hm [_ [Hk _]]]. destruct (Hk _ _ _ E) as [K Ht].
  exists (set_mem s (upd (mem s) p None)). cbn [vstep]. unfold bind. rewrite D. unfold assign_val, catch_std, make, bind, read_src, ret, ctor, destruct_item, with_type.
  split; [destruct empty; reflexivity|]. cbn [kind set_mem]. rewrite K. replace (t0 <? types) with true by (symmetry; apply Nat.ltb_lt; exact Ht).
  unfold dtor. cbn [mem set_mem]. rewrite upd_same. reflexivity.
Qed.
Print Assumptions C65_variant_foreign_exception_refuted.

(* ---------------------------------------------------------------- optional *)
(** Optionals never terminate the program, whatever is thrown (of any type); an assignment that throws leaves the target as it was, an
    emplacement that throws leaves it empty; o = o is allowed. *)
Theorem C65_optional_history : forall moved s ops, clean_slate s -> history (ospec moved) oallowed ops (fun _ => None) ->
  exists c s', contents (ospec moved) ops (fun _ => None) = Some c /\ run (ostep moved) ops s = Ok tt s' /\ oholds s' c.
Proof. intros moved s ops Hs Hh. apply orun_ok; [apply clean_o; exact Hs|exact Hh]. Qed.
Print Assumptions C65_optional_history.

Theorem C65_optional_no_leak : forall moved s ops c s', clean_slate s -> history (ospec moved) oallowed ops (fun _ => None) ->
  contents (ospec moved) ops (fun _ => None) = Some c -> (forall p, c p = None) -> run (ostep moved) ops s = Ok tt s' ->
  (forall p, mem s' p = None) /\ (forall p, alive s' p = false) /\ lost s' = [].
Proof.
  intros moved s ops c s' Hs Hh Hc Hn R. destruct (C65_optional_history moved s ops Hs Hh) as [c2 [s2 [C2 [R2 [K1 [K2 [_ K4]]]]]]].
  rewrite R in R2. injection R2 as <-. rewrite Hc in C2. injection C2 as <-. split; [intros p; rewrite K1, Hn; reflexivity|].
  split; [intros p; rewrite K2, Hn; reflexivity|exact K4].
Qed.
Print Assumptions C65_optional_no_leak.

(** emplacing an optional from its own item: the item is destroyed before it is read *)
Theorem C65_optional_emplace_own_refuted : forall moved s c p v x, oholds s c -> c p = Some (Some v) ->
  ostep moved (OEmplace p (SRef p 0) x) s = Bad /\ ostep moved (OEmplace p (SMove p 0) x) s = Bad.
Proof.
  intros moved s c p v x [Hm [_ [Hk _]]] E. pose proof (Hk p) as K. rewrite E in K. pose proof (Hm p) as Mp. rewrite E in Mp.
  cbn [ostep]. unfold o_emplace, o_reset, bind, get_kind, put_kind, dtor, make, read_src, ref. unfold bind. rewrite K. cbn [Nat.eqb mem set_kind]. rewrite Mp. cbn [Nat.eqb].
  unfold bind, ref. cbn [mem set_mem set_kind]. rewrite upd_same. split; reflexivity.
Qed.
Print Assumptions C65_optional_emplace_own_refuted.

(* ---------------------------------------------------------------- any *)
(** As long as no string is moved between anys ([tight]), and no value that is assigned throws: the heap holds exactly the objects the anys
    contain, each any its own, and the strings exactly those in the anys. *)
Theorem C65_any_history_partial : forall moved tight s ops, clean_slate s -> history aspec (aallowed tight) ops (fun _ => None) ->
  exists c s', contents aspec ops (fun _ => None) = Some c /\ run (astep moved) ops s = Ok tt s' /\ aholds moved tight s' c.
Proof. intros moved tight s ops Hs Hh. apply arun_ok; [apply clean_a; exact Hs|exact Hh]. Qed.
Print Assumptions C65_any_history_partial.

(** when all anys are gone no object is left; a string that was moved from is never destroyed, but nothing else is lost *)
Theorem C65_any_no_leak_partial : forall moved tight s ops c s', clean_slate s -> history aspec (aallowed tight) ops (fun _ => None) ->
  contents aspec ops (fun _ => None) = Some c -> (forall p, c p = None) -> run (astep moved) ops s = Ok tt s' ->
  (forall n, heap s' n = None) /\ (forall p, mem s' p = None) /\ (forall p, alive s' p = false) /\
  (tight = true -> lost s' = []) /\ (forall o, In o (lost s') -> exists v, o = (0, moved 0 v)).
Proof.
  intros moved tight s ops c s' Hs Hh Hc Hn R. destruct (C65_any_history_partial moved tight s ops Hs Hh) as [c2 [s2 [C2 [R2 [K1 [_ [_ [K4 [K5 K6]]]]]]]]].
  rewrite R in R2. injection R2 as <-. rewrite Hc in C2. injection C2 as <-.
  split; [intros n; destruct (heap s' n) eqn:E; [|reflexivity]; destruct (K4 n) as [_ [p' [t [v [X _]]]]]; [congruence|rewrite Hn in X; discriminate]|].
  split; [intros p; destruct (mem s' p) as [o|] eqn:E; [|reflexivity]; specialize (K5 p o E); rewrite Hn in K5; contradiction|].
  split; [intros p; rewrite K1, Hn; reflexivity|]. split.
  - intros ->. destruct (lost s') as [|o l]; [reflexivity|]. destruct (K6 o (or_introl eq_refl)) as [X _]. discriminate.
  - intros o Ho. apply K6 in Ho. tauto.
Qed.
Print Assumptions C65_any_no_leak_partial.

(** a = a destroys the contents of a and copies nothing: a is empty *)
Theorem C65_any_self_assignment_refuted : forall moved tight s c p a x, aholds moved tight s c -> c p = Some a ->
  exists s', astep moved (ACopy p p x) s = Ok tt s' /\ aholds moved tight s' (upd c p (Some AEmpty)).
Proof.
  intros moved tight s c p a x H E. pose proof (proj1 (aholds_core moved tight s c) H) as [HA HC].
  destruct (destroy_core moved tight s c p a HC E) as [s1 [D [C1 [A1 _]]]].
  assert (K0 : kind s1 p = 0) by (destruct C1 as [X _]; exact (X p _ (upd_same _ _ _ _))).
  cbn [astep]. unfold bind at 1. rewrite D. unfold a_copy, bind, get_kind, put_kind, get_data, put_data. rewrite K0. cbn [Nat.eqb negb]. rewrite K0. cbn [Nat.eqb].
  eexists. split; [reflexivity|]. apply aholds_core. cbn [kind set_data]. rewrite K0. split.
  - intros q. cbn [alive set_kind set_data]. rewrite A1. cases q p; [rewrite HA, E; reflexivity|apply HA].
  - assert (ST : stored s1 p AEmpty (set_kind (set_data s1 (upd (data s1) p (data s1 p))) (upd (kind (set_data s1 (upd (data s1) p (data s1 p)))) p 0))).
    { unfold stored, held. cbn [mem kind alive heap ptr data next lost set_kind set_data]. split; [apply upd_same|]. split; [reflexivity|]. split; [|auto].
      intros q Hq. rewrite !upd_other by exact Hq. auto. }
    pose proof (stored_core moved tight _ _ _ _ _ C1 (upd_same _ _ _ _) ST) as C'. eapply core_ext; [exact C'|]. intros q. cases q p; reflexivity.
Qed.
Print Assumptions C65_any_self_assignment_refuted.

(** an any whose assignment throws already has the type of the value it does not hold: its destructor destroys a string that does not exist
    or deletes the object it held before a second time *)
Theorem C65_any_throwing_assignment_refuted : forall moved s c p, aholds moved true s c -> c p <> None ->
  (forall v e, exists s', astep moved (AAssign p (IString v) (Some e)) s = Throw e s' /\ astep moved (ADelete p) s' = Bad) /\
  (forall t v t' v' e, c p = Some (AObject t v) -> exists s', astep moved (AAssign p (IObject t' v') (Some e)) s = Throw e s' /\ astep moved (ADelete p) s' = Bad).
Proof.
  intros moved s c p H Hp. pose proof (proj1 (aholds_core moved true s c) H) as [HA HC]. destruct (c p) as [a|] eqn:E; [|contradiction].
  destruct (destroy_core moved true s c p a HC E) as [s1 [D [C1 [A1 P1]]]]. split.
  - intros v e. exists (set_kind s1 (upd (kind s1) p 2)). cbn [astep a_bind]. unfold ret, bind. rewrite D. cbn [a_arg a_init]. unfold ret, bind, put_kind, ctor. split; [reflexivity|].
    unfold a_destroy, bind, get_kind. cbn [kind set_kind]. rewrite upd_same. cbn [Nat.eqb]. unfold dtor. cbn [mem set_kind].
    destruct C1 as [_ [_ [_ [X _]]]]. destruct (mem s1 p) as [o|] eqn:M; [|reflexivity]. specialize (X p o M). rewrite upd_same in X. destruct X as [X _]. discriminate.
  - intros t v t' v' e [= ->]. exists (set_kind s1 (upd (kind s1) p 3)). cbn [astep a_bind]. unfold ret, bind. rewrite D. cbn [a_arg a_init]. unfold ret, bind, put_kind, new_object. split; [reflexivity|].
    unfold a_destroy, bind, get_kind. cbn [kind set_kind]. rewrite upd_same. cbn [Nat.eqb]. unfold get_ptr, delete_object. cbn [heap ptr set_kind].
    replace (heap s1 (ptr s1 p)) with (@None (tag * Z)); [reflexivity|]. destruct (heap s1 (ptr s1 p)) eqn:Hh; [|reflexivity].
    exfalso. pose proof C1 as [_ [_ [X _]]]. destruct (X (ptr s1 p)) as [_ [q [t1 [v1 [Y1 Y2]]]]]; [congruence|].
    destruct (Nat.eq_dec q p) as [->|N]; [rewrite upd_same in Y1; discriminate|]. rewrite upd_other in Y1 by exact N. rewrite P1 in Y2.
    destruct HC as [_ [U _]]. apply N. eapply U; eassumption.
Qed.
Print Assumptions C65_any_throwing_assignment_refuted.

(** a = any_cast<const T&>(a): undefined behaviour for strings and objects *)
Theorem C65_any_own_value_refuted : forall moved s c p x, aholds moved true s c -> match c p with Some (AString _) | Some (AObject _ _) => True | _ => False end ->
  astep moved (AAssign p (IOwn p) x) s = Bad.
Proof.
  intros moved s c p x H Hp. pose proof (proj1 (aholds_core moved true s c) H) as [HA HC]. destruct (c p) as [a|] eqn:E; [|contradiction].
  destruct (destroy_core moved true s c p a HC E) as [s1 [D [C1 [A1 P1]]]]. pose proof HC as [Hh _]. pose proof (Hh p a E) as K.
  cbn [astep a_bind]. unfold bind, get_kind, get_ptr, ret. destruct a as [|v|v|t v]; try contradiction; destruct K as [K _]; rewrite K; cbn [Nat.eqb]; rewrite D; cbn [a_arg]; unfold bind.
  - unfold ref. destruct C1 as [_ [_ [_ [X _]]]]. destruct (mem s1 p) as [o|] eqn:M; [|reflexivity]. specialize (X p o M). rewrite upd_same in X. destruct X as [X _]. discriminate.
  - unfold heap_ref. rewrite <- P1. replace (heap s1 (ptr s1 p)) with (@None (tag * Z)); [reflexivity|]. destruct (heap s1 (ptr s1 p)) eqn:Hq; [|reflexivity].
    exfalso. pose proof C1 as [_ [_ [X _]]]. destruct (X (ptr s1 p)) as [_ [q [t1 [v1 [Y1 Y2]]]]]; [congruence|].
    destruct (Nat.eq_dec q p) as [->|N]; [rewrite upd_same in Y1; discriminate|]. rewrite upd_other in Y1 by exact N. rewrite P1 in Y2.
    destruct HC as [_ [U _]]. apply N. eapply U; eassumption.
Qed.
Print Assumptions C65_any_own_value_refuted.

(** a string that was moved out of an any is never destroyed *)
Theorem C65_any_moved_string_refuted : forall moved s p q v, clean_slate s -> p <> q ->
  exists s', run (astep moved) [ANewVal q (IString v) None; ANewMove p q; ADelete p; ADelete q] s = Ok tt s' /\ lost s' = [(0, moved 0 v)].
Proof.
  intros moved s p q v [H1 [H2 [H3 H4]]] N.
  assert (E1 : exists s1, astep moved (ANewVal q (IString v) None) s = Ok tt s1 /\ mem s1 q = Some (0, v) /\ mem s1 p = None /\ kind s1 q = 2 /\ lost s1 = []).
  { eexists. split; [cbn [astep a_bind]; unfold constructing, ret, put_kind, a_arg, a_init, ctor, take_up, ret, bind, put_kind; cbn [mem set_kind]; rewrite H1; reflexivity|].
    cbn [mem kind lost set_alive set_mem set_kind]. rewrite !upd_same, upd_other by exact N. auto. }
  destruct E1 as [s1 [E1 [M1 [M2 [K1 L1]]]]].
  assert (E2 : exists s2, astep moved (ANewMove p q) s1 = Ok tt s2 /\ mem s2 q = Some (0, moved 0 v) /\ mem s2 p = Some (0, v) /\ kind s2 q = 0 /\ kind s2 p = 2 /\ lost s2 = []).
  { eexists. split.
    - cbn [astep]. unfold constructing, a_move, put_kind, get_kind, ref, set_ref, ctor, take_up, bind. cbn [kind set_kind]. rewrite upd_same. cbn [Nat.eqb negb].
      cbn [kind set_kind]. rewrite upd_other by congruence. rewrite K1. cbn [Nat.eqb mem set_kind]. rewrite M1. cbn [Nat.eqb mem set_kind]. rewrite M1. cbn [Nat.eqb mem set_kind set_mem].
      rewrite (upd_other _ (mem s1)) by exact N. rewrite M2. reflexivity.
    - cbn [mem kind lost set_alive set_mem set_kind]. rewrite !upd_same. rewrite (upd_other _ _ p _ q) by congruence. rewrite !upd_same. rewrite (upd_other _ _ q _ p) by congruence.
      rewrite upd_same. rewrite (upd_other _ _ p _ q) by congruence. auto 6. }
  destruct E2 as [s2 [E2 [M3 [M4 [K2 [K3 L2]]]]]].
  assert (E3 : exists s3, astep moved (ADelete p) s2 = Ok tt s3 /\ mem s3 q = Some (0, moved 0 v) /\ kind s3 q = 0 /\ lost s3 = []).
  { eexists. split.
    - cbn [astep]. unfold a_destroy, get_kind, put_kind, dtor, give_up, bind. rewrite K3. cbn [Nat.eqb]. rewrite M4. cbn [Nat.eqb mem set_mem set_kind]. rewrite upd_same. reflexivity.
    - cbn [mem kind lost set_alive set_mem set_kind]. rewrite !upd_other by congruence. auto. }
  destruct E3 as [s3 [E3 [M5 [K4 L3]]]].
  eexists. cbn [run]. rewrite E1, E2, E3. cbn [astep]. unfold a_destroy, get_kind, put_kind, give_up, ret, bind. rewrite K4. cbn [Nat.eqb mem set_kind]. rewrite M5. split; [reflexivity|].
  cbn [lost set_alive set_mem set_lost set_kind]. rewrite L3. reflexivity.
Qed.
Print Assumptions C65_any_moved_string_refuted.

(* ---------------------------------------------------------------- the hypotheses are met *)
Definition st0 : st := {| mem := fun _ => None; kind := fun _ => 7; alive := fun _ => false; heap := fun _ => None; ptr := fun _ => 7; data := fun _ => 7%Z; next := 0; lost := [] |}.
Lemma st0_clean : clean_slate st0. Proof. repeat split. Qed.
Definition mv0 (t : tag) (v : Z) : Z := 0%Z.

(** a variant<EmptyType, A, B>: assignments, a throwing one, a copy and a move *)
Definition vprog : list vop :=
  [VNew 0 None; VNewVal 1 1 (SVal 5) None; VAssign 0 2 (SVal 6) None; VCopy 0 1 (Some StdException); VMove 0 1 None; VEmplace 1 2 (SRef 0 1) None; VNewCopy 2 1 (Some StdException)].
Example vprog_proper : history (vspec mv0 (Some 0)) (vallowed 3) vprog (fun _ => None) /\
  match contents (vspec mv0 (Some 0)) vprog (fun _ => None) with Some c => c 0 = Some (1, 5%Z) /\ c 1 = Some (2, 5%Z) /\ c 2 = None | None => False end.
Proof. cbv -[lt]. repeat split; try lia; try discriminate; try (eexists; reflexivity). Qed.
(** a never-empty variant terminates *)
Example vterminates : contents (vspec mv0 None) [VNew 0 None; VAssign 0 1 (SVal 5) (Some StdException)] (fun _ => None) = None.
Proof. reflexivity. Qed.
Definition oprog : list oop :=
  [ONew 0; ONewVal 1 (SVal 5) None; OFrom 0 1 true None; OSwap 0 1; OAssign 1 (SVal 3) (Some OtherException); OEmplace 0 (SRef 1 0) (Some StdException); OFrom 1 1 false None; ODelete 0].
Example oprog_proper : history (ospec mv0) oallowed oprog (fun _ => None) /\
  match contents (ospec mv0) oprog (fun _ => None) with Some c => c 0 = None /\ c 1 = Some (Some 5%Z) | None => False end.
Proof. cbv. repeat split; try lia; try discriminate; try (eexists; reflexivity). Qed.
Definition aprog : list aop :=
  [ANewVal 0 (IObject 4 9) None; ANewCopy 1 0 None; ANewVal 2 (IString 8) None; AMove 0 1; ACopy 1 2 (Some StdException); AAssign 2 (IOwn 0) None; AAssign 1 (IScalar 3) None; ANewVal 3 (IObject 1 1) (Some OtherException)].
Example aprog_proper : history aspec (aallowed true) aprog (fun _ => None) /\
  match contents aspec aprog (fun _ => None) with Some c => c 0 = Some (AObject 4 9%Z) /\ c 1 = Some (AScalar 3%Z) /\ c 2 = Some (AObject 4 9%Z) /\ c 3 = None | None => False end.
Proof. cbv. repeat split; try lia; try discriminate. Qed.
Example aprog_run : match run (astep mv0) aprog st0 with Ok _ s => heap s (ptr s 0) = Some (4, 9%Z) /\ heap s (ptr s 2) = Some (4, 9%Z) /\ ptr s 0 <> ptr s 2 | _ => False end.
Proof. cbv. repeat split; discriminate. Qed.
