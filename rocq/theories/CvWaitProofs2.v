(** * The invariant is inductive; results; a cancelled wait can return *)

From Coq Require Import List Arith Bool Lia.
From Verif Require Import Conc CvWaitModel CvWaitProofs.
Import ListNotations.

Definition reach (s : st) : Prop := exists ls, steps step init ls s.

Ltac moved I P := eapply move_inv; [exact I|..]; rewrite ?P; cbn; auto; try tauto.

Lemma wf_simple p : leaves p = [] -> regset p = [] ->
  match p with PReg _ _ _ _ | PSleep _ _ _ | PWoken _ _ _ | PRel _ _ _ | PDtor _ _ _ _ | PUnreg _ _ _ => False | _ => True end -> wf_pc p.
Proof. intros L R H. unfold wf_pc. rewrite L, R. destruct p; try contradiction; repeat split; try constructor; cbn; tauto. Qed.

Lemma not_owner s w : Inv s -> holding (pcs s w) = false -> owner s <> Some w.
Proof. intros I H O. apply (iO2 _ I) in O. congruence. Qed.
Lemma is_owner s w : Inv s -> holding (pcs s w) = true -> owner s = Some w.
Proof. intros I. apply (iO1 _ I). Qed.

Lemma ret_inv' s w ls r : Inv s -> leaves (pcs s w) = ls -> regset (pcs s w) = [] -> ktarget (pcs s w) = None ->
  holding (pcs s w) = true -> Inv (ret s w ls r).
Proof.
  intros I L R K H. pose proof (is_owner s w I H) as O. rewrite <- (set_owner_id s). apply ret_inv; auto.
Qed.

Theorem step_inv s l s' : Inv s -> step s l = Some s' -> Inv s'.
Proof.
  intros I. destruct l as [w c]. unfold step. cbn [fst snd].
  pose proof (iW _ I w) as W.
  destruct (pcs s w) as [| |ls tm todo got|ls tm got|ls got tout|ls todo l|ls r todo l|ls r todo|ls r|b t h|b t h|b t h|b t] eqn:P.
  - (* Idle *)
    destruct c as [| | | |ls tm|t| | |]; try discriminate.
    + destruct (owner s) eqn:O; [discriminate|]. intros [= <-]. moved I P.
    + intros [= <-]. now apply broadcast_inv.
    + destruct (cancelled (toks s t)) eqn:C; intros [= <-]; [exact I|]. apply (cancel_inv s w t false I P C).
  - (* Hold *)
    assert (O : owner s = Some w) by (apply (is_owner s w I); now rewrite P).
    destruct c as [| | | |ls tm|t| | |]; try discriminate.
    + intros [= <-]. moved I P.
    + intros [= <-]. now apply broadcast_inv.
    + destruct (nodup ls) eqn:N; cbn; [|discriminate].
      destruct (existsb (fun t => inuse (toks s t)) ls) eqn:U; cbn; [discriminate|].
      destruct ls as [|t ls]; [discriminate|]. intros [= <-].
      apply call_inv; auto; [now apply nodup_NoDup|discriminate|].
      intros u Hu. destruct (inuse (toks s u)) eqn:E; [|reflexivity].
      rewrite <- U. symmetry. apply existsb_exists. eauto.
    + destruct (cancelled (toks s t)) eqn:C; intros [= <-]; [exact I|]. apply (cancel_inv s w t true I P C).
  - (* PReg *)
    assert (O : owner s = Some w) by (apply (is_owner s w I); now rewrite P).
    destruct W as (W1 & W2 & W3 & W4 & W5). cbn in W1, W2.
    assert (Ex : forall got0, PReg ls tm todo got0 = pcs s w -> got0 = [] -> Inv (ret s w ls Cancelled)).
    { intros got0 E ->. apply ret_inv'; auto; rewrite P in *; inversion E; subst; reflexivity. }
    destruct todo as [|t todo].
    + destruct c; try (destruct tm, got; discriminate).
      * destruct got as [|g got].
        -- destruct tm; intros [= <-]; apply ret_inv'; auto; now rewrite P.
        -- rewrite app_nil_r in W3.
           destruct tm; intros [= <-]; moved I P; repeat split; cbn; auto; discriminate.
      * destruct tm, got; try discriminate. destruct (Nat.eqb (length (@nil nat)) (length ls)); [|discriminate].
        intros [= <-]. apply ret_inv'; auto; now rewrite P.
    + destruct c; try (destruct tm, got; discriminate).
      * assert (Q : (if cancelled (toks s t) then Some (set_pc s w (PReg ls tm todo got))
                     else match handler (toks s t) with
                          | Some _ => None
                          | None => Some (set_tok (set_pc s w (PReg ls tm todo (got ++ [t]))) t
                                     (with_handler (toks s t) (Some (w, calls s w)))) end) = Some s' -> Inv s').
        { destruct (cancelled (toks s t)) eqn:C.
          - intros [= <-]. rewrite <- set_owner_same. moved I P. repeat split; cbn; auto.
            + now apply NoDup_remove_1 in W3.
            + intros u A. apply W4. now right.
          - destruct (handler (toks s t)) eqn:H; [discriminate|]. intros [= <-]. now apply reg_inv. }
        destruct tm, got; exact Q.
      * destruct tm, got; try discriminate. destruct (Nat.eqb (length (t :: todo)) (length ls)); [|discriminate].
        intros [= <-]. apply ret_inv'; auto; now rewrite P.
  - (* PSleep *)
    destruct W as (W1 & W2 & W3 & W4). cbn in W1, W2.
    assert (O : owner s <> Some w) by (apply (not_owner s w I); now rewrite P).
    assert (Q : forall b, Inv (set_pc s w (PWoken ls got b))).
    { intros b. rewrite <- set_owner_same. moved I P. repeat split; cbn; auto. }
    destruct c; try (destruct tm; discriminate); destruct tm; try discriminate; intros [= <-]; apply Q.
  - (* PWoken *)
    destruct W as (W1 & W2 & W3). cbn in W1, W2.
    destruct c; try discriminate. destruct (owner s) eqn:O; [discriminate|]. intros [= <-].
    destruct tout; moved I P; try (intros; rewrite app_nil_r; tauto); repeat split; cbn; rewrite ?app_nil_r; auto.
  - (* PRel *)
    assert (O : owner s = Some w) by (apply (is_owner s w I); now rewrite P).
    destruct W as (W1 & W2 & W3). cbn in W1, W2.
    destruct todo as [|t todo]; destruct c; try discriminate.
    + destruct l as [|x l]; intros [= <-]; [apply ret_inv'; auto; now rewrite P|].
      rewrite <- set_owner_same. moved I P; try (intros; rewrite app_nil_r; tauto); repeat split; cbn; rewrite ?app_nil_r; auto.
    + intros [= <-]. apply unreg_inv; rewrite ?P; cbn; auto.
      * repeat split; cbn; auto.
        -- intros u A. apply W2. cbn. destruct (cancelled (toks s t)).
           ++ apply in_app_or in A. destruct A as [A|A]; [right; apply in_or_app; now left|].
              apply in_app_or in A. destruct A as [A|[A|[]]]; [right; apply in_or_app; now right|now left].
           ++ now right.
        -- cbn in W3. inversion W3 as [|x y Nx Ny]; subst. destruct (cancelled (toks s t)); [|exact Ny].
           rewrite app_assoc. apply NoDup_Add with (a := t) (l := todo ++ l); [|split; assumption].
           rewrite <- (app_nil_r ((todo ++ l) ++ [t])), <- app_assoc. cbn.
           pose proof (Add_app t (todo ++ l) []) as Z. now rewrite app_nil_r in Z.
      * intros u N. destruct (cancelled (toks s t)); rewrite ?in_app_iff; cbn; intuition congruence.
      * intros u A. destruct (cancelled (toks s t)) eqn:C; [|auto].
        apply in_app_or in A. destruct A as [A|[<-|[]]]; auto.
      * cbn in W3. inversion W3 as [|x y Nx Ny]; subst. destruct (cancelled (toks s t)) eqn:C; [left|right].
        -- split; [rewrite !in_app_iff; cbn; auto|reflexivity].
        -- auto.
  - (* PDtor *)
    assert (O : owner s = Some w) by (apply (is_owner s w I); now rewrite P).
    destruct W as (W1 & W2 & W3). cbn in W1, W2.
    destruct todo as [|t todo]; destruct c; try discriminate.
    + destruct l as [|x l]; intros [= <-]; [apply ret_inv'; auto; now rewrite P|].
      moved I P.
      * intros u A. apply (iC _ I u w). now rewrite P.
      * repeat split; cbn; auto.
    + intros [= <-]. apply unreg_inv; rewrite ?P; cbn; auto.
      * repeat split; cbn; auto.
        -- intros u A. apply W2. cbn. destruct (cancelled (toks s t)).
           ++ apply in_app_or in A. destruct A as [A|A]; [right; apply in_or_app; now left|].
              apply in_app_or in A. destruct A as [A|[A|[]]]; [right; apply in_or_app; now right|now left].
           ++ now right.
        -- cbn in W3. inversion W3 as [|x y Nx Ny]; subst. destruct (cancelled (toks s t)); [|exact Ny].
           rewrite app_assoc. apply NoDup_Add with (a := t) (l := todo ++ l); [|split; assumption].
           pose proof (Add_app t (todo ++ l) []) as Z. now rewrite app_nil_r in Z.
      * intros u N. destruct (cancelled (toks s t)); rewrite ?in_app_iff; cbn; intuition congruence.
      * intros u A. destruct (cancelled (toks s t)) eqn:C; [|auto].
        apply in_app_or in A. destruct A as [A|[<-|[]]]; auto.
      * cbn in W3. inversion W3 as [|x y Nx Ny]; subst. destruct (cancelled (toks s t)) eqn:C; [left|right].
        -- split; [rewrite !in_app_iff; cbn; auto|reflexivity].
        -- auto.
  - (* PUnreg *)
    destruct W as (W1 & W2 & W3). cbn in W1, W2.
    assert (O : owner s <> Some w) by (apply (not_owner s w I); now rewrite P).
    destruct todo as [|t todo]; destruct c; try discriminate.
    + intros [= <-]. rewrite <- set_owner_same. moved I P. repeat split; cbn; auto; contradiction.
    + destruct (negb (cancelled (toks s t)) || done (toks s t)) eqn:E; [|discriminate]. intros [= <-].
      inversion W3 as [|x y Nx Ny]; subst.
      apply unreg_inv; rewrite ?P; cbn; auto.
      * split; [exact W1|]. split; [|exact Ny]. cbn. intros u A. apply W2. now right.
      * intros u N. intuition congruence.
      * right. split; [exact Nx|]. apply orb_true_iff in E. rewrite negb_true_iff in E. exact E.
  - (* PRelock *)
    destruct c; try discriminate. destruct (owner s) eqn:O; [discriminate|]. intros [= <-].
    apply ret_inv; auto; rewrite P; cbn; auto.
  - (* KCall *)
    destruct b, h as [h|]; destruct c; try discriminate.
    + intros [= <-]. rewrite <- set_owner_same. moved I P. split; [|right]; apply (is_owner s w I); now rewrite P.
    + intros [= <-]. rewrite <- set_owner_same. moved I P; try discriminate. split; [|right]; apply (is_owner s w I); now rewrite P.
    + destruct (owner s) eqn:O; [discriminate|]. intros [= <-]. moved I P.
    + intros [= <-]. rewrite <- set_owner_same. moved I P; try discriminate. right. split; [reflexivity|].
      apply (not_owner s w I). now rewrite P.
  - (* KHave *)
    assert (Q : Inv (logged (set_pc (broadcast s) w (KUnl b t h)) (EHandled (fst h) (snd h) t))) by now apply khave_inv.
    destruct b; destruct c; try discriminate; intros [= <-]; exact Q.
  - (* KUnl *)
    assert (O : owner s = Some w) by (apply (is_owner s w I); now rewrite P).
    destruct b; destruct c; try discriminate; intros [= <-].
    + rewrite <- set_owner_same. moved I P; discriminate.
    + moved I P; discriminate.
  - (* KTail *)
    assert (Q := tail_inv s w b t I P).
    destruct b; destruct c; try discriminate; intros [= <-]; exact Q.
Qed.

Theorem reach_inv s : reach s -> Inv s.
Proof.
  intros [ls H]. eapply steps_inv; [|exact inv_init|exact H]. intros. eapply step_inv; eauto.
Qed.
