(** Invariants of promise/future. *)
From Coq Require Import List Arith Lia Bool.
From Verif Require Import Conc FutureModel.
Import ListNotations.
Set Implicit Arguments.

Section P.
Variables V E : Type.
Implicit Types (s : st V E).

Definition Inv s : Prop :=
  (forall t i g, thr s t = TBlocked i g -> res s i = None) /\
  (forall t i g, thr s t = TBlocked i g \/ thr s t = TWoken i g -> i < made s) /\
  (forall p i b, prom s p = Some (i, b) -> i < made s) /\
  (forall i, made s <= i -> res s i = None) /\
  (* without a promise object the state is satisfied *)
  (forall i, i < made s -> (exists p b, prom s p = Some (i, b)) \/ res s i <> None) /\
  (forall p q i b c, prom s p = Some (i, b) -> prom s q = Some (i, c) -> p = q).

Lemma init_inv : Inv (init V E).
Proof. unfold Inv, init; cbn. repeat split; intros; try discriminate; try (destruct H; discriminate); auto; lia. Qed.

Lemma fupd_eq (A : Type) (f : nat -> A) t a u : fupd f t a u = if Nat.eqb u t then a else f u.
Proof. reflexivity. Qed.

Lemma check_inv s t i g : Inv s -> i < made s -> Inv (fst (check s t i g)).
Proof.
  intros (I1 & I2 & I3 & I4 & I5 & I6) Hi. unfold check. destruct (res s i) eqn:Er; cbn [fst]; unfold Inv; cbn [thr res made prom].
  - split; [|split; [|auto]].
    + intros u j h. rewrite fupd_eq. destruct (Nat.eqb u t); [discriminate|apply I1].
    + intros u j h. rewrite fupd_eq. destruct (Nat.eqb u t); [intros [|]; discriminate|apply I2].
  - split; [|split; [|auto]].
    + intros u j h. rewrite fupd_eq. destruct (Nat.eqb u t); [intros [= <- <-]; exact Er|apply I1].
    + intros u j h. rewrite fupd_eq. destruct (Nat.eqb u t); [intros [[= <- <-]|[= ]]; exact Hi|apply I2].
Qed.

Lemma put_inv s i r : Inv s -> i < made s -> Inv (put s i r).
Proof.
  intros (I1 & I2 & I3 & I4 & I5 & I6) Hi. unfold put, Inv; cbn [thr res made prom].
  split; [|split; [|split; [|split; [|split]]]]; auto.
  - intros t j g. unfold wake. destruct (thr s t) as [|k h|k h] eqn:Et; try discriminate.
    destruct (Nat.eqb_spec i k); [discriminate|]. intros [= <- <-]. rewrite fupd_other by auto. eapply I1; eauto.
  - intros t j g. unfold wake. destruct (thr s t) as [|k h|k h] eqn:Et.
    + intros [|]; discriminate.
    + destruct (Nat.eqb_spec i k); intros [X|X]; try discriminate; injection X as <- <-; eapply I2; eauto.
    + intros [|X]; [discriminate|]. injection X as <- <-. eapply I2; eauto.
  - intros j Hj. rewrite fupd_other by lia. auto.
  - intros j Hj. destruct (Nat.eq_dec j i) as [->|N]; [right; rewrite fupd_same; discriminate|rewrite fupd_other by exact N; auto].
Qed.

Lemma destroy_inv s p i b r : Inv s -> prom s p = Some (i, b) ->
  Inv (match r with Some x => put (mkS (res s) (made s) (fupd (prom s) p None) (thr s)) i x | None => mkS (res s) (made s) (fupd (prom s) p None) (thr s) end)
  \/ (r = None /\ res s i = None).
Proof.
  intros (I1 & I2 & I3 & I4 & I5 & I6) Hp.
  destruct r as [x|].
  - left. pose proof (I3 _ _ _ Hp) as Hi. unfold put, Inv; cbn [thr res made prom].
    split; [|split; [|split; [|split; [|split]]]].
    + intros t j g. unfold wake. destruct (thr s t) as [|k h|k h] eqn:Et; try discriminate.
      destruct (Nat.eqb_spec i k); [discriminate|]. intros [= <- <-]. rewrite fupd_other by auto. eapply I1; eauto.
    + intros t j g. unfold wake. destruct (thr s t) as [|k h|k h] eqn:Et.
      * intros [|]; discriminate.
      * destruct (Nat.eqb_spec i k); intros [X|X]; try discriminate; injection X as <- <-; eapply I2; eauto.
      * intros [|X]; [discriminate|]. injection X as <- <-. eapply I2; eauto.
    + intros q j c. rewrite fupd_eq. destruct (Nat.eqb q p); [discriminate|apply I3].
    + intros j Hj. rewrite fupd_other by lia. auto.
    + intros j Hj. destruct (Nat.eq_dec j i) as [->|N]; [right; rewrite fupd_same; discriminate|].
      rewrite fupd_other by exact N. destruct (I5 j Hj) as [(q & c & Hq)|X]; [left|auto].
      exists q, c. rewrite fupd_other; [exact Hq|]. intros ->. congruence.
    + intros q q' j c c'. rewrite !fupd_eq. destruct (Nat.eqb q p), (Nat.eqb q' p); try discriminate. apply I6.
  - destruct (res s i) eqn:Er; [left|right; auto]. unfold Inv; cbn [thr res made prom].
    split; [exact I1|]. split; [exact I2|]. split; [|split; [exact I4|split]].
    + intros q j c. rewrite fupd_eq. destruct (Nat.eqb q p); [discriminate|apply I3].
    + intros j Hj. destruct (I5 j Hj) as [(q & c & Hq)|X]; [|auto].
      destruct (Nat.eq_dec q p) as [->|N]; [right; congruence|left]. exists q, c. rewrite fupd_other; auto.
    + intros q q' j c c'. rewrite !fupd_eq. destruct (Nat.eqb q p), (Nat.eqb q' p); try discriminate. apply I6.
Qed.

Lemma step_inv s l s' o : Inv s -> step s l = Some (s', o) -> Inv s'.
Proof.
  intros HI Hs. pose proof HI as (I1 & I2 & I3 & I4 & I5 & I6). destruct l as [p|p|p q|p|p v|p e|t i|t i|t|t|t|i]; cbn [step] in Hs.
  - destruct (prom s p) eqn:Ep; [discriminate|]. injection Hs as <- <-. unfold Inv; cbn [thr res made prom].
    split; [exact I1|]. split; [intros t i g H; specialize (I2 t i g H); lia|]. split; [|split; [|split]].
    + intros q i b. rewrite fupd_eq. destruct (Nat.eqb q p); [intros [= <- <-]; lia|]. intros H. specialize (I3 _ _ _ H). lia.
    + intros i Hi. apply I4. lia.
    + intros i Hi. destruct (Nat.eq_dec i (made s)) as [->|N]; [left; exists p, false; rewrite fupd_same; reflexivity|].
      destruct (I5 i ltac:(lia)) as [(q & c & Hq)|X]; [left|auto]. exists q, c. rewrite fupd_other; [exact Hq|congruence].
    + intros q q' i b c. rewrite !fupd_eq. destruct (Nat.eqb_spec q p), (Nat.eqb_spec q' p); try congruence.
      * intros [= <- <-] H. specialize (I3 _ _ _ H). lia.
      * intros H [= <- <-]. specialize (I3 _ _ _ H). lia.
      * apply I6.
  - destruct (prom s p) as [[i b]|] eqn:Ep; [|discriminate]. destruct (res s i) eqn:Er; injection Hs as <- <-.
    + destruct (destroy_inv p None HI Ep) as [H|[_ H]]; [exact H|congruence].
    + destruct (destroy_inv p (Some Broken) HI Ep) as [H|[H _]]; [exact H|discriminate].
  - destruct (prom s p) as [[i a]|] eqn:Ep; [|discriminate]. destruct (prom s q) as [[j b]|] eqn:Eq; [|discriminate].
    destruct (Nat.eqb_spec p q); [discriminate|]. injection Hs as <- <-. unfold Inv; cbn [thr res made prom].
    split; [exact I1|]. split; [exact I2|]. split; [|split; [exact I4|split]].
    + intros u k c. rewrite !fupd_eq. destruct (Nat.eqb u q); [intros [= <- <-]; eauto|]. destruct (Nat.eqb u p); [intros [= <- <-]; eauto|apply I3].
    + intros k Hk. destruct (I5 k Hk) as [(u & c & Hu)|X]; [left|auto].
      destruct (Nat.eq_dec u p) as [->|N1]; [exists q, b; rewrite fupd_same; congruence|].
      destruct (Nat.eq_dec u q) as [->|N2]; [exists p, a; rewrite fupd_other, fupd_same by auto; congruence|].
      exists u, c. rewrite !fupd_other by auto. exact Hu.
    + intros u w k c d. rewrite !fupd_eq. destruct (Nat.eqb_spec u q), (Nat.eqb_spec w q); try congruence;
        destruct (Nat.eqb_spec u p), (Nat.eqb_spec w p); try congruence; intros H1 H2; subst;
        repeat match goal with H : Some _ = Some _ |- _ => injection H as <- <- end;
        repeat match goal with H : Some _ = Some _ |- _ => injection H; intros; subst; clear H end; eauto;
        try (exfalso; assert (p = q) by eauto; congruence);
        match goal with H1 : prom _ ?a = Some (?k, _), H2 : prom _ ?b = Some (?k, _) |- _ => assert (a = b) by eauto; congruence end.
  - destruct (prom s p) as [[i [|]]|] eqn:Ep; [injection Hs as <- <-; exact HI| |discriminate].
    injection Hs as <- <-. unfold Inv; cbn [thr res made prom].
    split; [exact I1|]. split; [exact I2|]. split; [|split; [exact I4|split]].
    + intros u k c. rewrite fupd_eq. destruct (Nat.eqb u p); [intros [= <- <-]; eauto|apply I3].
    + intros k Hk. destruct (I5 k Hk) as [(u & c & Hu)|X]; [left|auto].
      destruct (Nat.eq_dec u p) as [->|N1]; [exists p, true; rewrite fupd_same; congruence|]. exists u, c. rewrite fupd_other; auto.
    + intros u w k c d. rewrite !fupd_eq. destruct (Nat.eqb_spec u p), (Nat.eqb_spec w p); try congruence.
      * intros [= <- <-] H. symmetry. subst. eauto.
      * intros H [= <- <-]. subst. eauto.
      * apply I6.
  - destruct (prom s p) as [[i b]|] eqn:Ep; [|discriminate]. destruct (res s i); injection Hs as <- <-; [exact HI|]. apply put_inv; eauto.
  - destruct (prom s p) as [[i b]|] eqn:Ep; [|discriminate]. destruct (res s i); injection Hs as <- <-; [exact HI|]. apply put_inv; eauto.
  - destruct (thr s t) eqn:Et; try discriminate. destruct (Nat.ltb_spec i (made s)); [|discriminate].
    injection Hs as Hs. pose proof (@check_inv s t i false HI H) as X. rewrite Hs in X. exact X.
  - destruct (thr s t) eqn:Et; try discriminate. destruct (Nat.ltb_spec i (made s)); [|discriminate].
    injection Hs as Hs. pose proof (@check_inv s t i true HI H) as X. rewrite Hs in X. exact X.
  - destruct (thr s t) eqn:Et; try discriminate.
    injection Hs as Hs. pose proof (@check_inv s t i isget HI (I2 _ _ _ (or_intror Et))) as X. rewrite Hs in X. exact X.
  - destruct (thr s t) eqn:Et; try discriminate. injection Hs as <- <-. unfold Inv; cbn [thr res made prom].
    split; [|split; [|auto]].
    + intros u j h. rewrite fupd_eq. destruct (Nat.eqb u t); [discriminate|apply I1].
    + intros u j h. rewrite fupd_eq. destruct (Nat.eqb u t); [intros [X|X]; [discriminate|injection X as <- <-; eauto]|apply I2].
  - destruct (thr s t) as [|i [|]|] eqn:Et; try discriminate. injection Hs as <- <-. unfold Inv; cbn [thr res made prom].
    split; [|split; [|auto]].
    + intros u j h. rewrite fupd_eq. destruct (Nat.eqb u t); [discriminate|apply I1].
    + intros u j h. rewrite fupd_eq. destruct (Nat.eqb u t); [intros [|]; discriminate|apply I2].
  - destruct (i <? made s); [|discriminate]. injection Hs as <- <-. exact HI.
Qed.

Lemma run_inv s ls s' : Inv s -> run s ls s' -> Inv s'.
Proof. intros HI Hr. induction Hr; auto. apply IHHr. eapply step_inv; eauto. Qed.

Lemma step_res s l s' o i r : step s l = Some (s', o) -> res s i = Some r -> res s' i = Some r.
Proof.
  intros Hs Hr. destruct l as [p|p|p q|p|p v|p e|t j|t j|t|t|t|j]; cbn [step] in Hs;
    repeat match type of Hs with context [match ?x with _ => _ end] => destruct x eqn:?; try discriminate end;
    try (injection Hs as <- <-); try exact Hr;
    try (cbn [put res]; rewrite fupd_other; [exact Hr|congruence]);
    unfold check in Hs; destruct (res s _) eqn:?; injection Hs as <- <-; exact Hr.
Qed.
Lemma run_res s ls s' i r : run s ls s' -> res s i = Some r -> res s' i = Some r.
Proof. intros Hr. induction Hr; auto. intros H1. apply IHHr. eapply step_res; eauto. Qed.

Lemma check_got s t j g s' o : check s t j g = (s', o) -> res s' = res s /\
  (forall i r, o = OGot i r -> res s i = Some r) /\ (forall i, o = OReady i -> res s i <> None) /\ (forall i, o <> OSet i).
Proof.
  unfold check. destruct (res s j) eqn:Ej; [destruct g|]; intros [= <- <-]; repeat split; intros; try discriminate;
    match goal with H : _ = _ |- _ => injection H; intros; subst; congruence end.
Qed.
End P.
