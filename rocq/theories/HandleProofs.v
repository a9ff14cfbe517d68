From Coq Require Import List Arith Bool Lia Permutation.
From Verif Require CountSpec CountProofs.
From Verif Require Import HandleModel HandleSpec.
Import ListNotations.

(** ** holders *)
Lemma merge_snoc_left {A} (x : A) l a b : merge l a b -> merge (l ++ [x]) (a ++ [x]) b.
Proof. induction 1; cbn; try (constructor; assumption). apply merge_left, merge_nil. Qed.

Section H.
  Context {V : Type}.
  Variable thr : nat -> bool.
  Definition hwf (h : @holder V) : Prop := valid h = true -> exists x, handle h = Some x.
  Definition cur (h : @holder V) : list V := if valid h then initially (handle h) else [].
  Lemma succ_app (a b : list (V * bool)) : succeeded (a ++ b) = succeeded a ++ succeeded b.
  Proof. unfold succeeded. now rewrite filter_app, map_app. Qed.

  Lemma cleanup_cases h c : hwf h ->
    (valid h = false /\ cleanup thr h c = (Holder (handle h) false, c, false)) \/
    (exists x, h = Holder (Some x) true /\ thr (length c) = true /\ cleanup thr h c = (h, c ++ [(x, true)], true)) \/
    (exists x, h = Holder (Some x) true /\ thr (length c) = false /\ cleanup thr h c = (Holder (Some x) false, c ++ [(x, false)], false)).
  Proof.
    intros W. unfold cleanup. destruct h as [[x|] [|]]; cbn.
    - destruct (thr (length c)); [right; left|right; right]; exists x; auto.
    - left; auto.
    - destruct (W eq_refl) as [y Hy]. discriminate.
    - left; auto.
  Qed.

  Lemma hrun_account l : forall h c h' c' xs, hwf h -> hrun thr h c l = (h', c', xs) ->
    hwf h' /\ exists cs g, c' = c ++ cs /\ cur h ++ taken l xs = g ++ cur h' /\ merge g (succeeded cs) (released l xs).
  Proof.
    induction l as [|o l IH]; intros h c h' c' xs W H; cbn [hrun] in H.
    - injection H as <- <- <-. split; [exact W|]. exists [], []. rewrite !app_nil_r. cbn [app]. repeat split. constructor.
    - destruct (hstep thr h c o) as [[h1 c1] x] eqn:E1. destruct (hrun thr h1 c1 l) as [[h2 c2] ys] eqn:E2. injection H as <- <- <-.
      destruct o as [v| | |]; cbn [hstep] in E1.
      + destruct (cleanup_cases h c W) as [[Hv Hc]|[(y & Hh & Ht & Hc)|(y & Hh & Ht & Hc)]]; rewrite Hc in E1; cbn in E1; injection E1 as <- <- <-.
        * assert (W1 : hwf (Holder (Some v) true)) by (intros _; eexists; reflexivity).
          destruct (IH _ _ _ _ _ W1 E2) as (W2 & cs & g & -> & G & M). split; [exact W2|]. exists cs, g.
          unfold cur at 1. rewrite Hv. cbn. cbn in G. auto.
        * subst h. assert (W1 : hwf (Holder (Some y) true)) by (intros _; eexists; reflexivity).
          destruct (IH _ _ _ _ _ W1 E2) as (W2 & cs & g & -> & G & M). split; [exact W2|]. exists ((y, true) :: cs), g.
          rewrite <- app_assoc. cbn. cbn in G. auto.
        * subst h. assert (W1 : hwf (Holder (Some v) true)) by (intros _; eexists; reflexivity).
          destruct (IH _ _ _ _ _ W1 E2) as (W2 & cs & g & -> & G & M). split; [exact W2|]. exists ((y, false) :: cs), (y :: g).
          rewrite <- app_assoc. cbn. cbn in G. rewrite G. split; [auto|]. split; [auto|]. now apply merge_left.
      + destruct (cleanup_cases h c W) as [[Hv Hc]|[(y & Hh & Ht & Hc)|(y & Hh & Ht & Hc)]]; rewrite Hc in E1; cbn in E1; injection E1 as <- <- <-.
        * assert (W1 : hwf (Holder (handle h) false)) by (intros D; discriminate).
          destruct (IH _ _ _ _ _ W1 E2) as (W2 & cs & g & -> & G & M). split; [exact W2|]. exists cs, g.
          unfold cur at 1. rewrite Hv. cbn. cbn in G. auto.
        * subst h. assert (W1 : hwf (Holder (Some y) true)) by (intros _; eexists; reflexivity).
          destruct (IH _ _ _ _ _ W1 E2) as (W2 & cs & g & -> & G & M). split; [exact W2|]. exists ((y, true) :: cs), g.
          rewrite <- app_assoc. cbn. cbn in G. auto.
        * subst h. assert (W1 : hwf (Holder (Some y) false)) by (intros D; discriminate).
          destruct (IH _ _ _ _ _ W1 E2) as (W2 & cs & g & -> & G & M). split; [exact W2|]. exists ((y, false) :: cs), (y :: g).
          rewrite <- app_assoc. cbn. cbn in G. rewrite G. split; [auto|]. split; [auto|]. now apply merge_left.
      + destruct (valid h) eqn:Hv.
        * injection E1 as <- <- <-. destruct (W Hv) as [y Hy].
          assert (W1 : hwf (Holder (handle h) false)) by (intros D; discriminate).
          destruct (IH _ _ _ _ _ W1 E2) as (W2 & cs & g & -> & G & M). split; [exact W2|]. exists cs, (y :: g).
          unfold cur at 1. rewrite Hv, Hy. cbn. cbn in G. rewrite G. split; [auto|]. split; [auto|]. now apply merge_right.
        * injection E1 as <- <- <-. destruct (IH _ _ _ _ _ W E2) as (W2 & cs & g & -> & G & M). split; [exact W2|]. exists cs, g.
          cbn. auto.
      + assert (E1' : h1 = h /\ c1 = c) by (destruct (valid h); injection E1 as <- <- <-; auto). destruct E1' as [-> ->].
        destruct (IH _ _ _ _ _ W E2) as (W2 & cs & g & -> & G & M). split; [exact W2|]. exists cs, g.
        cbn. destruct x; auto.
  Qed.

  Lemma hwf_new (v : option V) : hwf (holder_new v).
  Proof. intros H. destruct v; [eexists; reflexivity|discriminate]. Qed.
  Lemma cur_new (v : option V) : cur (holder_new v) = initially v. Proof. now destruct v. Qed.

  (** the account of a holder that is now destroyed *)
  Lemma close_account h c cs g (all rel : list V) h' c' t : hwf h -> all = g ++ cur h -> merge g (succeeded cs) rel -> c = cs ->
    cleanup thr h c = (h', c', t) ->
    exists kept lost, all = kept ++ lost /\ merge kept (succeeded c') rel /\ (lost = [] \/ exists x c0, lost = [x] /\ c' = c0 ++ [(x, true)]).
  Proof.
    intros W G M -> E. destruct (cleanup_cases h cs W) as [[Hv Hc]|[(y & Hh & Ht & Hc)|(y & Hh & Ht & Hc)]]; rewrite Hc in E; injection E as <- <- <-.
    - exists g, []. unfold cur in G. rewrite Hv in G. auto.
    - subst h. exists g, [y]. cbn in G. split; [exact G|]. split; [|right; exists y, cs; auto].
      rewrite succ_app. cbn. now rewrite app_nil_r.
    - subst h. exists (g ++ [y]), []. cbn in G. split; [rewrite G; now rewrite app_nil_r|]. split; [|auto].
      rewrite succ_app. cbn. now apply merge_snoc_left.
  Qed.

  Lemma hlife_account (v : option V) l c xs : hlife thr v l = (c, xs) ->
    exists kept lost, initially v ++ taken l xs = kept ++ lost /\ merge kept (succeeded c) (released l xs) /\
      (lost = [] \/ exists x c0, lost = [x] /\ c = c0 ++ [(x, true)]).
  Proof.
    unfold hlife. destruct (hrun thr (holder_new v) [] l) as [[h c1] ys] eqn:E. destruct (cleanup thr h c1) as [[h' c2] t] eqn:E2.
    intros H. injection H as <- <-. destruct (hrun_account l _ _ _ _ _ (hwf_new v) E) as (W & cs & g & Hc & G & M).
    rewrite cur_new in G. cbn in Hc. subst c1. exact (close_account h cs cs g _ _ h' c2 t W G M eq_refl E2).
  Qed.

  Lemma hrun_current l : forall (h : @holder V) c h' c' xs, hwf h -> hrun thr h c l = (h', c', xs) ->
    (if valid h' then handle h' else None) = current (if valid h then handle h else None) l xs.
  Proof.
    induction l as [|o l IH]; intros h c h' c' xs W H; cbn [hrun] in H.
    - injection H as <- <- <-. reflexivity.
    - destruct (hstep thr h c o) as [[h1 c1] x] eqn:E1. destruct (hrun thr h1 c1 l) as [[h2 c2] ys] eqn:E2. injection H as <- <- <-.
      assert (W1 : hwf h1).
      { assert (E1' : hrun thr h c [o] = (h1, c1, [x])) by (cbn [hrun]; now rewrite E1).
        exact (proj1 (hrun_account [o] _ _ _ _ _ W E1')). }
      rewrite (IH _ _ _ _ _ W1 E2). clear IH E2.
      destruct o as [v| | |]; cbn [hstep] in E1.
      + destruct (cleanup_cases h c W) as [[Hv Hc]|[(y & Hh & Ht & Hc)|(y & Hh & Ht & Hc)]]; rewrite Hc in E1; cbn in E1; injection E1 as <- <- <-; try subst h; reflexivity.
      + destruct (cleanup_cases h c W) as [[Hv Hc]|[(y & Hh & Ht & Hc)|(y & Hh & Ht & Hc)]]; rewrite Hc in E1; cbn in E1; injection E1 as <- <- <-; try subst h; try reflexivity.
      + destruct (valid h) eqn:Hv; injection E1 as <- <- <-; cbn; rewrite ?Hv; reflexivity.
      + destruct (valid h) eqn:Hv; injection E1 as <- <- <-; cbn; rewrite ?Hv; reflexivity.
  Qed.

  Lemma nothrow_calls l : (forall n, thr n = false) -> forall (h : @holder V) c h' c' xs, hwf h -> (forall z, In z c -> snd z = false) -> hrun thr h c l = (h', c', xs) ->
    (forall z, In z c' -> snd z = false) /\ (forall v k, nth_error l k = Some (HSet v) -> nth_error xs k = Some (Done None)) /\ (forall k, nth_error l k = Some HClear -> nth_error xs k = Some (Done None)).
  Proof.
    intros N. induction l as [|o l IH]; intros h c h' c' xs W F H; cbn [hrun] in H.
    - injection H as <- <- <-. split; [exact F|]. split; intros; destruct k; discriminate.
    - destruct (hstep thr h c o) as [[h1 c1] x] eqn:E1. destruct (hrun thr h1 c1 l) as [[h2 c2] ys] eqn:E2. injection H as <- <- <-.
      assert (W1 : hwf h1).
      { assert (E1' : hrun thr h c [o] = (h1, c1, [x])) by (cbn [hrun]; now rewrite E1).
        exact (proj1 (hrun_account [o] _ _ _ _ _ W E1')). }
      assert (F1 : (forall z, In z c1 -> snd z = false) /\ ((exists v, o = HSet v) \/ o = HClear -> x = Done None)).
      { destruct o as [v| | |]; cbn [hstep] in E1.
        - destruct (cleanup_cases h c W) as [[Hv Hc]|[(y & Hh & Ht & Hc)|(y & Hh & Ht & Hc)]]; rewrite Hc in E1; cbn in E1; injection E1 as <- <- <-.
          + split; auto.
          + rewrite N in Ht. discriminate.
          + split; auto. intros z Hz. apply in_app_or in Hz. destruct Hz as [Hz|[<-|[]]]; auto.
        - destruct (cleanup_cases h c W) as [[Hv Hc]|[(y & Hh & Ht & Hc)|(y & Hh & Ht & Hc)]]; rewrite Hc in E1; cbn in E1; injection E1 as <- <- <-.
          + split; auto.
          + rewrite N in Ht. discriminate.
          + split; auto. intros z Hz. apply in_app_or in Hz. destruct Hz as [Hz|[<-|[]]]; auto.
        - destruct (valid h); injection E1 as <- <- <-; (split; [exact F|intros [[v D]|D]; discriminate]).
        - destruct (valid h); injection E1 as <- <- <-; (split; [exact F|intros [[v D]|D]; discriminate]). }
      destruct F1 as [F1 X]. destruct (IH _ _ _ _ _ W1 F1 E2) as (A & B & C). split; [exact A|]. split.
      + intros v [|k] Hk; cbn in *; [injection Hk as ->; f_equal; apply X; left; eauto|now apply B with v].
      + intros [|k] Hk; cbn in *; [injection Hk as ->; f_equal; apply X; auto|now apply C].
  Qed.
  Lemma succeeded_all (c : list (V * bool)) : (forall z, In z c -> snd z = false) -> succeeded c = map fst c.
  Proof.
    intros F. unfold succeeded. f_equal. induction c as [|a c IH]; cbn; [reflexivity|]. rewrite (F a (or_introl eq_refl)). cbn. f_equal. apply IH. intros z Hz. apply F. now right.
  Qed.

  (** shared holders *)
  Lemma shrun_dead l : forall (h : @holder V) c, exists xs, shrun thr (Shared 0 h) c l = (Shared 0 h, c, xs) /\ sh_taken l xs = [] /\ sh_released l xs = [].
  Proof.
    induction l as [|o l IH]; intros h c; cbn [shrun].
    - exists []. auto.
    - destruct (IH h c) as (xs & E & T & R). exists (Threw :: xs).
      assert (Es : shstep thr (Shared 0 h) c o = (Shared 0 h, c, Threw)) by (destruct o; reflexivity).
      rewrite Es, E. split; [reflexivity|]. destruct o as [| |[v| | |]]; cbn; auto.
  Qed.
  Lemma shrun_account l : forall n h c s' c' xs, hwf h -> shrun thr (Shared (S n) h) c l = (s', c', xs) -> copies s' = 0 ->
    exists cs kept lost, c' = c ++ cs /\ cur h ++ sh_taken l xs = kept ++ lost /\ merge kept (succeeded cs) (sh_released l xs) /\
      (lost = [] \/ exists x c0, lost = [x] /\ cs = c0 ++ [(x, true)]).
  Proof.
    induction l as [|o l IH]; intros n h c s' c' xs W H Z; cbn [shrun] in H.
    - injection H as <- <- <-. discriminate Z.
    - destruct (shstep thr (Shared (S n) h) c o) as [[s1 c1] x] eqn:E1. destruct (shrun thr s1 c1 l) as [[s2 c2] ys] eqn:E2. injection H as <- <- <-.
      destruct o as [| |o].
      + cbn in E1. injection E1 as <- <- <-. cbn. eauto.
      + destruct n as [|n].
        * cbn in E1. destruct (cleanup thr h c) as [[h1 c3] t] eqn:Ec. injection E1 as <- <- <-.
          destruct (shrun_dead l h1 c3) as (zs & E & T & R). rewrite E in E2. injection E2 as <- <- <-. cbn. rewrite T, R, app_nil_r.
          destruct (cleanup_cases h c W) as [[Hv Hc]|[(y & Hh & Ht & Hc)|(y & Hh & Ht & Hc)]]; rewrite Hc in Ec; injection Ec as <- <- <-.
          -- exists [], [], []. rewrite app_nil_r. unfold cur. rewrite Hv. repeat split; auto. constructor.
          -- subst h. exists [(y, true)], [], [y]. repeat split; auto; [constructor|right; exists y, []; auto].
          -- subst h. exists [(y, false)], [y], []. repeat split; auto. apply merge_left. constructor.
        * cbn in E1. injection E1 as <- <- <-. cbn. eauto.
      + unfold shstep in E1. cbn [copies impl] in E1. destruct (hstep thr h c o) as [[h1 c3] r] eqn:Eh. injection E1 as <- <- <-.
        assert (Eh' : hrun thr h c [o] = (h1, c3, [r])) by (cbn [hrun]; now rewrite Eh).
        destruct (hrun_account [o] _ _ _ _ _ W Eh') as (W1 & cs1 & g & -> & G & M).
        destruct (IH n h1 _ _ _ _ W1 E2 Z) as (cs & kept & lost & -> & K & M2 & L).
        exists (cs1 ++ cs), (g ++ kept), lost. rewrite app_assoc. split; [reflexivity|].
        assert (T : sh_taken (SOp o :: l) (r :: ys) = taken [o] [r] ++ sh_taken l ys) by (destruct o, r; reflexivity).
        assert (R : sh_released (SOp o :: l) (r :: ys) = released [o] [r] ++ sh_released l ys) by (destruct o; try reflexivity; destruct r as [[v|]|]; reflexivity).
        rewrite T, R. split; [rewrite app_assoc, G, <- app_assoc, K, app_assoc; reflexivity|]. split.
        * rewrite succ_app. clear -M M2. induction M; cbn; [exact M2|apply merge_left; assumption|apply merge_right; assumption].
        * destruct L as [L|(z & c0 & L1 & L2)]; [auto|]. right. exists z, (cs1 ++ c0). rewrite L2, app_assoc. auto.
  Qed.
End H.

(** ** transactions *)
Section T.
  Context {S : Type}.
  Lemma trun_inactive (l : list (top S)) : forall x s, active x = false -> trun x s l = (x, s, [], map (fun _ => true) l).
  Proof. induction l as [|o l IH]; intros x s A; cbn [trun map]; [reflexivity|]. unfold tstep. rewrite A, (IH x s A). reflexivity. Qed.
  Lemma committed_inactive (l : list (top S)) : committed l (map (fun _ => true) l) = false.
  Proof. induction l as [|[]]; cbn; auto. Qed.
  Lemma executed_inactive (l : list (top S)) : executed l (map (fun _ => true) l) = [].
  Proof. induction l as [|[]]; cbn; auto. Qed.

  Lemma undo_app (l m : list (func S)) s : undo (l ++ m) s =
    (let '(s', g, t) := undo l s in if t then (s', g, true) else let '(s'', g', t') := undo m s' in (s'', g ++ g', t')).
  Proof.
    revert s. induction l as [|f l IH]; intros s; cbn [app undo].
    - destruct (undo m s) as [[s' g] t]. reflexivity.
    - destruct (body f s) as [s1 [|]]; [reflexivity|]. rewrite IH. destruct (undo l s1) as [[s2 g] [|]]; [reflexivity|].
      destruct (undo m s2) as [[s3 g'] t']. reflexivity.
  Qed.

  Definition restores (x : tx S) (s s0 : S) : Prop := exists g, undo (rev (seq x)) s = (s0, g, false).

  Lemma trun_restores (l : list (top S)) : forall x s s0 x' s' g ts, all_pairs undoable l -> active x = true -> restores x s s0 -> trun x s l = (x', s', g, ts) ->
    (committed l ts = false -> if active x' then restores x' s' s0 else s' = s0) /\
    (committed l ts = true -> active x' = false /\ g = [] /\ s' = fold_left (fun s a => fst (body (fst a) s)) (executed l ts) s).
  Proof.
    induction l as [|o l IH]; intros x s s0 x' s' g ts P A R H; cbn [trun] in H.
    - injection H as <- <- <- <-. rewrite A. split; [auto|discriminate].
    - assert (P' : all_pairs undoable l) by (intros a r Hin; apply P; now right).
      destruct (tstep x s o) as [[[x1 s1] g1] t1] eqn:E1. destruct (trun x1 s1 l) as [[[x2 s2] g2] ts2] eqn:E2. injection H as <- <- <- <-.
      unfold tstep in E1. rewrite A in E1. destruct o as [a r| |].
      + destruct (P a r (or_introl eq_refl)) as [P1 P2]. destruct (body a s) as [sa [|]] eqn:Ea; injection E1 as <- <- <- <-.
        * specialize (P1 s sa Ea). subst sa. exact (IH _ _ s0 _ _ _ _ P' A R E2).
        * assert (R' : restores (Tx (seq x ++ [r]) true) sa s0).
          { destruct R as [gr Hr]. exists ((fid r, false) :: gr). cbn [seq]. rewrite rev_app_distr. cbn [rev app undo]. now rewrite (P2 s sa Ea), Hr. }
          destruct (IH (Tx (seq x ++ [r]) true) _ s0 _ _ _ _ P' eq_refl R' E2) as [I1 I2]. split; [exact I1|]. cbn [committed executed fold_left fst app]. rewrite Ea. exact I2.
      + injection E1 as <- <- <- <-. rewrite (trun_inactive l (Tx (seq x) false) s eq_refl) in E2. injection E2 as <- <- <- <-.
        cbn [committed executed negb orb]. split; [discriminate|]. intros _. rewrite executed_inactive. auto.
      + destruct R as [gr Hr]. rewrite Hr in E1. injection E1 as <- <- <- <-. rewrite (trun_inactive l (Tx (seq x) false) s0 eq_refl) in E2. injection E2 as <- <- <- <-.
        cbn [committed]. rewrite committed_inactive. split; [reflexivity|discriminate].
  Qed.

  Lemma tlife_restores (l : list (top S)) s0 s' g ts : all_pairs undoable l -> tlife s0 l = (s', g, ts) ->
    (committed l ts = false -> s' = s0) /\ (committed l ts = true -> g = [] /\ s' = fold_left (fun s a => fst (body (fst a) s)) (executed l ts) s0).
  Proof.
    unfold tlife. intros P H. destruct (trun tx_new s0 l) as [[[x s1] g1] ts1] eqn:E.
    assert (R : restores tx_new s0 s0) by (exists []; reflexivity).
    destruct (trun_restores l tx_new _ s0 _ _ _ _ P eq_refl R E) as [I1 I2].
    destruct (active x) eqn:A.
    - destruct (tstep x s1 TRollback) as [[[x2 s2] g2] t2] eqn:E2. injection H as <- <- <-. split.
      + intros C. destruct (I1 C) as [gr Hr]. unfold tstep in E2. rewrite A, Hr in E2. injection E2 as <- <- <- <-. reflexivity.
      + intros C. destruct (I2 C) as [D _]. congruence.
    - injection H as <- <- <-. split; [exact I1|]. intros C. now destruct (I2 C) as (_ & D1 & D2).
  Qed.

  (** rollbacks that never throw: which are called, in which order *)
  Lemma undo_nothrow (l : list (func S)) s : (forall f, In f l -> never_throws f) -> exists s', undo l s = (s', map (fun f => (fid f, false)) l, false).
  Proof.
    revert s. induction l as [|f l IH]; intros s N; cbn [undo map]; [eauto|]. pose proof (N f (or_introl eq_refl) s) as Nf.
    destruct (body f s) as [s1 t]. cbn in Nf. subst t. destruct (IH s1) as [s2 E]; [intros; apply N; now right|]. rewrite E. eauto.
  Qed.
  Lemma trun_order (l : list (top S)) : forall x s x' s' g ts, all_pairs (fun _ r => never_throws r) l -> active x = true ->
    (forall f, In f (seq x) -> never_throws f) -> trun x s l = (x', s', g, ts) ->
    (forall f, In f (seq x') -> never_throws f) /\ seq x' = seq x ++ map snd (executed l ts) /\
    (if active x' then g = [] /\ committed l ts = false
     else if committed l ts then g = [] else g = map (fun f => (fid f, false)) (rev (seq x'))).
  Proof.
    induction l as [|o l IH]; intros x s x' s' g ts P A N H; cbn [trun] in H.
    - injection H as <- <- <- <-. cbn. rewrite A, app_nil_r. auto.
    - assert (P' : all_pairs (fun _ r => never_throws r) l) by (intros a r Hin; apply (P a); now right).
      destruct (tstep x s o) as [[[x1 s1] g1] t1] eqn:E1. destruct (trun x1 s1 l) as [[[x2 s2] g2] ts2] eqn:E2. injection H as <- <- <- <-.
      unfold tstep in E1. rewrite A in E1. destruct o as [a r| |].
      + destruct (body a s) as [sa [|]] eqn:Ea; injection E1 as <- <- <- <-.
        * destruct (IH _ _ _ _ _ _ P' A N E2) as (I0 & I1 & I2). cbn. auto.
        * assert (N' : forall f, In f (seq (Tx (seq x ++ [r]) true)) -> never_throws f).
          { intros f Hf. cbn in Hf. apply in_app_or in Hf. destruct Hf as [Hf|[<-|[]]]; [auto|]. apply (P a r). now left. }
          destruct (IH (Tx (seq x ++ [r]) true) _ _ _ _ _ P' eq_refl N' E2) as (I0 & I1 & I2). cbn. cbn in I1. rewrite <- app_assoc in I1. auto.
      + injection E1 as <- <- <- <-. rewrite (trun_inactive l (Tx (seq x) false) s eq_refl) in E2. injection E2 as <- <- <- <-.
        cbn. rewrite executed_inactive, app_nil_r. auto.
      + assert (N2 : forall f, In f (rev (seq x)) -> never_throws f) by (intros f Hf; apply N; now apply in_rev).
        destruct (undo_nothrow _ s N2) as [s3 E3]. rewrite E3 in E1. injection E1 as <- <- <- <-.
        rewrite (trun_inactive l (Tx (seq x) false) s3 eq_refl) in E2. injection E2 as <- <- <- <-.
        cbn. rewrite executed_inactive, committed_inactive, !app_nil_r. auto.
  Qed.
  Lemma tlife_order (l : list (top S)) s s' g ts : all_pairs (fun _ r => never_throws r) l -> tlife s l = (s', g, ts) ->
    g = if committed l ts then [] else map (fun f => (fid f, false)) (rev (map snd (executed l ts))).
  Proof.
    unfold tlife. intros P H. destruct (trun tx_new s l) as [[[x s1] g1] ts1] eqn:E.
    assert (N0 : forall f, In f (@seq S tx_new) -> never_throws f) by (intros f []).
    destruct (trun_order l tx_new _ _ _ _ _ P eq_refl N0 E) as (N & Q & G). cbn in Q.
    destruct (active x) eqn:A.
    - destruct G as [-> C]. unfold tstep in H. rewrite A in H.
      assert (N2 : forall f, In f (rev (seq x)) -> never_throws f) by (intros f Hf; apply N; now apply in_rev).
      destruct (undo_nothrow _ s1 N2) as [s3 E3]. rewrite E3 in H. injection H as <- <- <-. rewrite C, Q. reflexivity.
    - injection H as <- <- <-. rewrite <- Q. now destruct (committed l ts1).
  Qed.

  Lemma undo_prefix (l : list (func S)) : forall s s' g t, undo l s = (s', g, t) ->
    exists done rest, l = done ++ rest /\ map fst g = map fid done /\
      (t = false -> rest = [] /\ forall e, In e g -> snd e = false) /\
      (t = true -> exists g0 k, g = g0 ++ [(k, true)] /\ forall e, In e g0 -> snd e = false).
  Proof.
    induction l as [|f l IH]; intros s s' g t H; cbn [undo] in H.
    - injection H as <- <- <-. exists [], []. repeat split; [intros e []|discriminate].
    - destruct (body f s) as [s1 [|]].
      + injection H as <- <- <-. exists [f], l. repeat split; try discriminate. intros _. exists [], (fid f). split; [reflexivity|]. intros e [].
      + destruct (undo l s1) as [[s2 g2] t2] eqn:E. injection H as <- <- <-. destruct (IH _ _ _ _ E) as (dn & rest & -> & M & I1 & I2).
        exists (f :: dn), rest. cbn. rewrite M. split; [reflexivity|]. split; [reflexivity|]. split.
        * intros Ht. destruct (I1 Ht) as [J1 J2]. split; [exact J1|]. intros e [<-|He]; auto.
        * intros Ht. destruct (I2 Ht) as (g0 & k & -> & J). exists ((fid f, false) :: g0), k. split; [reflexivity|]. intros e [<-|He]; auto.
  Qed.
End T.

(** ** tokens *)
Lemma tdestroy_forward l : tdestroy (Multi true l) = flat_map tdestroy l.
Proof. cbn. induction l as [|t l IH]; cbn; [reflexivity|]. now rewrite IH. Qed.
Lemma tdestroy_backward l : tdestroy (Multi false l) = flat_map tdestroy (rev l).
Proof.
  cbn. assert (G : forall acc, fold_left (fun acc t => tdestroy t ++ acc) l acc = flat_map tdestroy (rev l) ++ acc).
  { induction l as [|t l IH]; intros acc; cbn [fold_left rev]; [reflexivity|]. rewrite IH, flat_map_app. cbn. now rewrite app_nil_r, <- app_assoc. }
  rewrite G. now rewrite app_nil_r.
Qed.
Fixpoint tok_ind2 (P : tok -> Prop) (F : forall id, P (Fn id)) (M : forall b l, Forall P l -> P (Multi b l)) (t : tok) : P t :=
  match t with
  | Fn id => F id
  | Multi b l => M b l ((fix go l : Forall P l := match l with [] => Forall_nil P | x :: r => Forall_cons x (tok_ind2 P F M x) (go r) end) l)
  end.
Lemma tdestroy_once t : Permutation (tdestroy t) (functions t).
Proof.
  induction t as [id|b l IH] using tok_ind2; [reflexivity|].
  assert (FF : functions (Multi b l) = flat_map functions l). { cbn. clear. induction l as [|t l IH]; cbn; [reflexivity|]. now rewrite IH. }
  assert (Q : Permutation (flat_map tdestroy l) (flat_map functions l)).
  { clear FF. induction IH as [|x l Hx Hl IHl]; cbn; [reflexivity|]. now apply Permutation_app. }
  rewrite FF. destruct b.
  - now rewrite tdestroy_forward.
  - rewrite tdestroy_backward. transitivity (flat_map tdestroy l); [|exact Q]. apply Permutation_flat_map. apply Permutation_sym, Permutation_rev.
Qed.
Lemma brun_adds forward (ts : list tok) : forall l, brun forward (Some l) (map BAdd ts) = (Some (l ++ ts), map (fun _ => Done None) ts).
Proof.
  induction ts as [|t ts IH]; intros l; cbn; [now rewrite app_nil_r|]. rewrite IH, <- app_assoc. reflexivity.
Qed.
Lemma brun_used forward (l : list bop) : brun forward None l = (None, map (fun _ => Threw) l).
Proof. induction l as [|o l IH]; cbn; [reflexivity|]. now rewrite IH. Qed.

(** ** unique_ptr *)
(** the counting lemmas of CountProofs, at this type *)
Definition refs (o : nat) (l : list uptr) : nat := CountSpec.refs o l.
Definition one (o : nat) (p : uptr) : nat := refs o [p].
Definition upd (l : list uptr) (i : nat) (p : uptr) : list uptr := uset l i p.
Lemma uset_upd l i p : uset l i p = upd l i p. Proof. reflexivity. Qed.
Lemma upd_length l i p : length (upd l i p) = length l. Proof. exact (CountProofs.upd_length l i p). Qed.
Lemma nth_upd (l : list uptr) i x k d : nth k (upd l i x) d = if (Nat.eqb i k) && (i <? length l) then x else nth k l d.
Proof. exact (CountProofs.nth_upd l i x k d). Qed.
Lemma refs_app o l m : refs o (l ++ m) = refs o l + refs o m. Proof. exact (CountProofs.refs_app o l m). Qed.
Lemma refs_cons o p l : refs o (p :: l) = one o p + refs o l. Proof. exact (CountProofs.refs_cons o p l). Qed.
Lemma refs_nil o : refs o [] = 0. Proof. reflexivity. Qed.
Lemma one_none o : one o None = 0. Proof. reflexivity. Qed.
Lemma one_same o : one o (Some o) = 1. Proof. exact (CountProofs.one_same o). Qed.
Lemma one_some o q : one o (Some q) = if Nat.eqb o q then 1 else 0. Proof. exact (CountProofs.one_some o q). Qed.
Lemma refs_upd o l i p : i < length l -> refs o (upd l i p) + one o (nth i l None) = refs o l + one o p.
Proof. exact (CountProofs.refs_upd o l i p). Qed.
Lemma refs_in o l : In (Some o) l <-> 0 < refs o l. Proof. exact (CountProofs.refs_in o l). Qed.
Lemma refs_repeat o n : refs o (repeat None n) = 0. Proof. exact (CountProofs.refs_repeat o n). Qed.
Definition blocked (pend : list nat) (i : nat) : bool := existsb (Nat.eqb i) pend.
Definition mask (vs : list uptr) (pend : list nat) : list uptr :=
  map (fun i => if blocked pend i then None else nth i vs None) (List.seq 0 (length vs)).
Lemma blocked_in pend i : blocked pend i = true <-> In i pend.
Proof. unfold blocked. rewrite existsb_exists. split; [intros (x & H & E); apply Nat.eqb_eq in E; now subst|]. intros H. exists i. now rewrite Nat.eqb_refl. Qed.
Lemma blocked_not pend i : ~ In i pend -> blocked pend i = false.
Proof. intros H. destruct (blocked pend i) eqn:E; [|reflexivity]. apply blocked_in in E. contradiction. Qed.
Lemma mask_length vs pend : length (mask vs pend) = length vs.
Proof. unfold mask. now rewrite map_length, seq_length. Qed.
Lemma mask_nth vs pend k : nth k (mask vs pend) None = if blocked pend k then None else nth k vs None.
Proof.
  destruct (Nat.lt_ge_cases k (length vs)) as [L|L].
  - unfold mask. set (f := fun i => if blocked pend i then None else nth i vs None).
    rewrite (nth_indep _ None (f 0)) by (rewrite map_length, seq_length; lia). rewrite map_nth, seq_nth by lia. reflexivity.
  - rewrite nth_overflow by (rewrite mask_length; lia). rewrite (nth_overflow vs) by lia. now destruct (blocked pend k).
Qed.
Lemma list_ext (a b : list uptr) : length a = length b -> (forall k, nth k a None = nth k b None) -> a = b.
Proof. intros L H. apply nth_ext with (d := None) (d' := None); auto. Qed.
Lemma mask_upd vs pend j x : ~ In j pend -> mask (upd vs j x) pend = upd (mask vs pend) j x.
Proof.
  intros N. apply list_ext; [now rewrite mask_length, !upd_length, mask_length|]. intros k.
  rewrite mask_nth, !nth_upd, mask_length, mask_nth. destruct (Nat.eqb j k) eqn:E; cbn; [|reflexivity].
  apply Nat.eqb_eq in E. subst k. now rewrite (blocked_not _ _ N).
Qed.
Lemma mask_block vs pend i : i < length vs -> mask vs (i :: pend) = upd (mask vs pend) i None.
Proof.
  intros L. apply list_ext; [now rewrite mask_length, upd_length, mask_length|]. intros k.
  rewrite mask_nth, nth_upd, mask_length, mask_nth. unfold blocked at 1. cbn [existsb]. fold (blocked pend k). rewrite (Nat.eqb_sym i k).
  destruct (Nat.ltb_spec i (length vs)); [|lia]. destruct (Nat.eqb k i); reflexivity.
Qed.

Definition todo_ptrs (m : umicro) : list uptr := match m with UDelete o => [Some o] | UStore _ p => [p] end.
Definition ucount (s : ustate) (o : nat) : nat :=
  refs o (mask (uvars s) (pending s)) + refs o (map Some (raws s)) + refs o (flat_map todo_ptrs (utodo s)).
Definition is_deleted (s : ustate) (o : nat) : bool := existsb (Nat.eqb o) (udeleted s).
Record UInv (s : ustate) : Prop := {
  u_count : forall o, ucount s o = if (o <? made s) && negb (is_deleted s o) then 1 else 0;
  u_made : forall o, In o (udeleted s) -> o < made s;
  u_nodup : NoDup (udeleted s);
  u_pend : NoDup (pending s) /\ forall i, In i (pending s) -> i < length (uvars s) }.

Lemma is_deleted_in s o : is_deleted s o = true <-> In o (udeleted s).
Proof. apply blocked_in. Qed.
Lemma uinv_init n : UInv (uinitial n).
Proof.
  split.
  - intros o. unfold ucount, uinitial. cbn [uvars raws utodo map flat_map].
    assert (E : mask (repeat None n) (pending (uinitial n)) = repeat None n).
    { apply list_ext; [now rewrite mask_length|]. intros k. rewrite mask_nth. reflexivity. }
    unfold uinitial in E. rewrite E. rewrite !refs_nil. rewrite refs_repeat. reflexivity.
  - intros o [].
  - constructor.
  - split; [constructor|intros i []].
Qed.
Lemma one_def o p : refs o [p] = one o p. Proof. reflexivity. Qed.
Lemma refs_delete_of o p : refs o (flat_map todo_ptrs (delete_of p)) = one o p.
Proof. destruct p; reflexivity. Qed.
Lemma pending_delete_of p : flat_map (fun m => match m with UStore i _ => [i] | _ => [] end) (delete_of p) = [].
Proof. destruct p; reflexivity. Qed.

(** what reset does to the count: the new pointer comes in *)
Lemma reset_count vs rw md dl td i p o :
  i < length vs -> ~ In i (pending (U vs rw md dl td)) ->
  ucount (U vs rw md dl (delete_of (nth i vs None) ++ [UStore i p] ++ td)) o = ucount (U vs rw md dl td) o + one o p.
Proof.
  intros L N. unfold ucount. cbn [uvars raws utodo].
  assert (Pd : pending (U vs rw md dl (delete_of (nth i vs None) ++ [UStore i p] ++ td)) = i :: pending (U vs rw md dl td)).
  { unfold pending. cbn [utodo]. rewrite flat_map_app, pending_delete_of. reflexivity. }
  rewrite Pd, mask_block by exact L. rewrite !flat_map_app, !refs_app. rewrite refs_delete_of. cbn [flat_map todo_ptrs app]. rewrite one_def.
  pose proof (refs_upd o (mask vs (pending (U vs rw md dl td))) i None) as H. rewrite mask_length in H. specialize (H L).
  rewrite mask_nth, (blocked_not _ _ N), one_none in H. lia.
Qed.
Lemma reset_pending vs rw md dl td i p : pending (U vs rw md dl (delete_of (nth i vs None) ++ [UStore i p] ++ td)) = i :: pending (U vs rw md dl td).
Proof. unfold pending. cbn [utodo]. rewrite flat_map_app, pending_delete_of. reflexivity. Qed.

Lemma uinv_reset s s1 i p : UInv s -> i < length (uvars s) -> ~ In i (pending s) ->
  (* s1: s with the pointer p taken from where it was *)
  utodo s1 = utodo s -> udeleted s1 = udeleted s -> length (uvars s1) = length (uvars s) -> made s <= made s1 ->
  (forall o, ucount s1 o + one o p = if (o <? made s1) && negb (is_deleted s o) then 1 else 0) ->
  UInv (U (uvars s1) (raws s1) (made s1) (udeleted s1) (reset_code s1 i p ++ utodo s1)).
Proof.
  intros I L N Et Ed El Em C. destruct s1 as [vs rw md dl td]. cbn [utodo udeleted uvars made raws] in *. subst td dl.
  assert (Ep : pending (U vs rw md (udeleted s) (utodo s)) = pending s) by reflexivity.
  unfold reset_code, uvar. cbn [uvars]. rewrite <- !app_assoc.
  split.
  - intros o. rewrite reset_count; [|lia|now rewrite Ep]. rewrite C. reflexivity.
  - intros o Ho. cbn in *. pose proof (u_made s I o Ho). lia.
  - exact (u_nodup s I).
  - rewrite reset_pending, Ep. destruct (u_pend s I) as [P1 P2]. split; [constructor; auto|]. intros k [<-|Hk]; cbn; [lia|]. rewrite El. auto.
Qed.

Lemma count_le s o : UInv s -> ucount s o <= 1.
Proof. intros I. rewrite (u_count s I). destruct (_ && _); lia. Qed.
Lemma raws_nodup s : UInv s -> NoDup (raws s).
Proof.
  intros I. assert (H : forall o, refs o (map Some (raws s)) <= 1) by (intros o; pose proof (count_le s o I); unfold ucount in *; lia).
  clear I. induction (raws s) as [|a l IH]; [constructor|]. constructor.
  - intros Hin. specialize (H a). cbn [map] in H. rewrite refs_cons, one_same in H. assert (0 < refs a (map Some l)) by (apply refs_in; now apply in_map). lia.
  - apply IH. intros o. specialize (H o). cbn [map] in H. rewrite refs_cons in H. lia.
Qed.
Lemma refs_remove o a l : NoDup l -> In a l -> refs o (map Some (remove Nat.eq_dec a l)) + one o (Some a) = refs o (map Some l).
Proof.
  induction l as [|b l IH]; intros D H; [contradiction|]. inversion D as [|? ? Nb Dl]; subst. cbn [remove map]. destruct (Nat.eq_dec a b) as [->|Nab].
  - rewrite notin_remove by exact Nb. rewrite refs_cons. lia.
  - destruct H as [H|H]; [congruence|]. cbn [map]. rewrite !refs_cons. specialize (IH Dl H). lia.
Qed.

Lemma uinv_start s c s' : UInv s -> ulegal s c -> ustart s c = Some s' -> UInv s'.
Proof.
  intros I [N Lg] H. unfold ustart in H. destruct (negb (running s)); [discriminate|]. destruct c as [i|i j|i|i|i o|i j|i]; cbn [variables_of] in N.
  - destruct (Nat.ltb_spec i (length (uvars s))) as [L|L]; [|discriminate]. injection H as <-.
    apply (uinv_reset s (U (uvars s) (raws s) (S (made s)) (udeleted s) (utodo s)) i (Some (made s)) I L (N i (or_introl eq_refl)) eq_refl eq_refl eq_refl); [cbn; lia|].
    intros o. change (ucount (U (uvars s) (raws s) (S (made s)) (udeleted s) (utodo s)) o) with (ucount s o). rewrite (u_count s I). cbn [made].
    rewrite one_some. destruct (Nat.eqb_spec o (made s)) as [->|Ne].
    + rewrite Nat.ltb_irrefl. cbn [andb negb]. assert (is_deleted s (made s) = false).
      { destruct (is_deleted s (made s)) eqn:E; [|reflexivity]. apply is_deleted_in in E. apply (u_made s I) in E. lia. }
      rewrite H. destruct (Nat.ltb_spec (made s) (S (made s))); [reflexivity|lia].
    + destruct (Nat.ltb_spec o (made s)), (Nat.ltb_spec o (S (made s))); cbn [andb]; try lia.
  - destruct (Nat.ltb_spec i (length (uvars s))) as [L|L]; [|discriminate]. destruct (Nat.ltb_spec j (length (uvars s))) as [L2|L2]; [|discriminate]. cbn in H. injection H as <-.
    apply (uinv_reset s (U (uset (uvars s) j None) (raws s) (made s) (udeleted s) (utodo s)) i (uvar s j) I L (N i (or_introl eq_refl)) eq_refl eq_refl);
      [cbn; now rewrite uset_upd, upd_length|reflexivity|].
    intros o. rewrite <- (u_count s I). unfold ucount. cbn [uvars raws utodo]. change (pending (U (uset (uvars s) j None) (raws s) (made s) (udeleted s) (utodo s))) with (pending s).
    assert (Nj : ~ In j (pending s)) by (apply N; right; now left).
    rewrite uset_upd, mask_upd by exact Nj.
    pose proof (refs_upd o (mask (uvars s) (pending s)) j None) as R. rewrite mask_length in R. specialize (R L2). rewrite mask_nth, (blocked_not _ _ Nj), one_none in R.
    unfold uvar. lia.
  - destruct (Nat.ltb_spec i (length (uvars s))) as [L|L]; [|discriminate]. injection H as <-.
    apply (uinv_reset s s i None I L (N i (or_introl eq_refl)) eq_refl eq_refl eq_refl (le_n _)).
    intros o. rewrite one_none, (u_count s I). lia.
  - destruct (Nat.ltb_spec i (length (uvars s))) as [L|L]; [|discriminate]. injection H as <-. cbn [app].
    assert (Ni : ~ In i (pending s)) by (apply N; now left).
    split; cbn [udeleted made]; try apply I.
    + intros o. etransitivity; [|apply (u_count s I)]. unfold ucount. cbn [uvars raws utodo].
      change (pending (U (uset (uvars s) i None) (match uvar s i with Some o0 => o0 :: raws s | None => raws s end) (made s) (udeleted s) (utodo s))) with (pending s).
      rewrite uset_upd, mask_upd by exact Ni.
      pose proof (refs_upd o (mask (uvars s) (pending s)) i None) as R. rewrite mask_length in R. specialize (R L). rewrite mask_nth, (blocked_not _ _ Ni), one_none in R.
      unfold uvar in *. destruct (nth i (uvars s) None) as [a|]; cbn [map]; rewrite ?refs_cons; [|rewrite one_none in R]; lia.
    + cbn [uvars]. rewrite uset_upd, upd_length. exact (u_pend s I).
  - destruct (Nat.ltb_spec i (length (uvars s))) as [L|L]; [|discriminate]. destruct (existsb (Nat.eqb o) (raws s)) eqn:E; [|discriminate]. cbn in H. injection H as <-.
    apply blocked_in in E.
    apply (uinv_reset s (U (uvars s) (remove Nat.eq_dec o (raws s)) (made s) (udeleted s) (utodo s)) i (Some o) I L (N i (or_introl eq_refl)) eq_refl eq_refl eq_refl (le_n _)).
    intros q. rewrite <- (u_count s I). unfold ucount. cbn [uvars raws utodo].
    change (pending (U (uvars s) (remove Nat.eq_dec o (raws s)) (made s) (udeleted s) (utodo s))) with (pending s).
    pose proof (refs_remove q o (raws s) (raws_nodup s I) E). lia.
  - destruct (Nat.ltb_spec i (length (uvars s))) as [L|L]; [|discriminate]. destruct (Nat.ltb_spec j (length (uvars s))) as [L2|L2]; [|discriminate]. cbn in H. injection H as <-.
    assert (Ni : ~ In i (pending s)) by (apply N; now left). assert (Nj : ~ In j (pending s)) by (apply N; right; now left).
    split; cbn [udeleted made]; try apply I.
    + intros o. etransitivity; [|apply (u_count s I)]. unfold ucount. cbn [uvars raws utodo app].
      match goal with |- context [pending ?x] => change (pending x) with (pending s) end.
      rewrite !uset_upd, !mask_upd by assumption.
      pose proof (refs_upd o (mask (uvars s) (pending s)) i (uvar s j)) as R. rewrite mask_length in R. specialize (R L). rewrite mask_nth, (blocked_not _ _ Ni) in R.
      pose proof (refs_upd o (upd (mask (uvars s) (pending s)) i (uvar s j)) j (uvar s i)) as R2. rewrite upd_length, mask_length in R2. specialize (R2 L2).
      rewrite nth_upd, mask_length, mask_nth, (blocked_not _ _ Nj) in R2. unfold uvar in *.
      destruct (Nat.eqb_spec i j) as [->|Ne]; cbn [andb] in R2; [destruct (Nat.ltb_spec j (length (uvars s))); [|lia]|]; lia.
    + cbn [uvars app]. rewrite !uset_upd, !upd_length. exact (u_pend s I).
  - contradiction.
Qed.

Lemma uinv_step s s' : UInv s -> ustep s = Some s' -> UInv s'.
Proof.
  intros I H. unfold ustep in H. destruct (utodo s) as [|[o|i p] r] eqn:Et; [discriminate| |]; injection H as <-.
  - assert (Ep : pending (U (uvars s) (raws s) (made s) (udeleted s ++ [o]) r) = pending s) by (unfold pending; now rewrite Et).
    assert (C : forall q, ucount (U (uvars s) (raws s) (made s) (udeleted s ++ [o]) r) q + one q (Some o) = ucount s q).
    { intros q. unfold ucount. rewrite Ep, Et. cbn [uvars raws utodo flat_map todo_ptrs app]. rewrite refs_cons. lia. }
    pose proof (C o) as Co. rewrite one_same, (u_count s I) in Co. destruct (o <? made s) eqn:Lo; [|cbn in Co; lia]. destruct (is_deleted s o) eqn:Do; cbn in Co; [lia|].
    split; cbn [udeleted made].
    + intros q. pose proof (C q) as Cq. rewrite (u_count s I) in Cq. rewrite one_some in Cq.
      unfold is_deleted. cbn [udeleted]. rewrite existsb_app. cbn [existsb]. rewrite orb_false_r.
      change (existsb (Nat.eqb q) (udeleted s)) with (is_deleted s q).
      destruct (Nat.eqb_spec q o) as [Eq|Ne].
      * subst q. rewrite Lo, Do in Cq. cbn [andb negb] in Cq. rewrite orb_true_r. cbn [negb]. rewrite andb_false_r. lia.
      * rewrite orb_false_r. lia.
    + intros q Hq. apply in_app_or in Hq. destruct Hq as [Hq|[<-|[]]]; [exact (u_made s I q Hq)|now apply Nat.ltb_lt].
    + pose proof (u_nodup s I) as D.
      assert (No : ~ In o (udeleted s)) by (intros X; apply is_deleted_in in X; congruence).
      clear -D No. induction (udeleted s) as [|a l IH]; cbn; [constructor; [intros []|constructor]|].
      inversion D; subst. constructor; [|apply IH; [assumption|intros X; apply No; now right]].
      intros X. apply in_app_or in X. destruct X as [X|[<-|[]]]; [contradiction|]. apply No. now left.
    + rewrite Ep. exact (u_pend s I).
  - assert (Ep : pending s = i :: pending (U (uset (uvars s) i p) (raws s) (made s) (udeleted s) r)) by (unfold pending; now rewrite Et).
    destruct (u_pend s I) as [P1 P2]. rewrite Ep in P1, P2. inversion P1 as [|? ? Ni Nd]; subst.
    assert (L : i < length (uvars s)) by (apply P2; now left).
    split; cbn [udeleted made].
    + intros q. etransitivity; [|apply (u_count s I)]. unfold ucount. rewrite Ep, Et.
      remember (pending (U (uset (uvars s) i p) (raws s) (made s) (udeleted s) r)) as pd eqn:Hpd. cbn [uvars raws utodo flat_map todo_ptrs app]. rewrite refs_cons.
      rewrite mask_block by exact L. rewrite uset_upd, mask_upd by exact Ni.
      pose proof (refs_upd q (mask (uvars s) pd) i p) as R. pose proof (refs_upd q (mask (uvars s) pd) i None) as R2. rewrite mask_length in R, R2. specialize (R L). specialize (R2 L).
      rewrite mask_nth in R, R2. rewrite one_none in R2. lia.
    + apply I.
    + apply I.
    + split; [exact Nd|]. intros k Hk. cbn [uvars]. rewrite uset_upd, upd_length. apply P2. now right.
Qed.

Lemma uinv_reach n s : ureach n s -> UInv s.
Proof. induction 1; [apply uinv_init|eapply uinv_start; eauto|eapply uinv_step; eauto]. Qed.

Lemma owns_count s i o : owns s i o -> 0 < refs o (mask (uvars s) (pending s)).
Proof.
  intros [V N]. apply refs_in. assert (L : i < length (uvars s)).
  { unfold uvar in V. destruct (Nat.lt_ge_cases i (length (uvars s))); [assumption|]. rewrite nth_overflow in V by assumption. discriminate. }
  rewrite <- V. unfold uvar. replace (nth i (uvars s) None) with (nth i (mask (uvars s) (pending s)) None) by (rewrite mask_nth; now rewrite (blocked_not _ _ N)).
  apply nth_In. now rewrite mask_length.
Qed.
Lemma raw_count s o : In o (raws s) -> 0 < refs o (map Some (raws s)).
Proof. intros H. apply refs_in. now apply in_map. Qed.
Lemma count_alive s o : UInv s -> 0 < ucount s o -> o < made s /\ ~ In o (udeleted s).
Proof.
  intros I H. rewrite (u_count s I) in H. destruct (Nat.ltb_spec o (made s)); cbn in H; [|lia]. split; [assumption|].
  destruct (is_deleted s o) eqn:E; cbn in H; [lia|]. intros X. apply is_deleted_in in X. congruence.
Qed.
Lemma refs_two o l i j : i < j -> nth i l None = Some o -> nth j l None = Some o -> 2 <= refs o l.
Proof.
  revert i j. induction l as [|a l IH]; intros i j L A B; [destruct j; discriminate|]. rewrite refs_cons. destruct j as [|j]; [lia|]. cbn in B. destruct i as [|i].
  - cbn in A. subst a. rewrite one_same. assert (0 < refs o l).
    { apply refs_in. rewrite <- B. apply nth_In. destruct (Nat.lt_ge_cases j (length l)); [assumption|]. rewrite nth_overflow in B by assumption. discriminate. }
    lia.
  - cbn in A. assert (Lij : i < j) by lia. pose proof (IH i j Lij A B). lia.
Qed.
