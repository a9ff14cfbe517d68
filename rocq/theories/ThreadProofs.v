From Coq Require Import List Bool Arith Lia.
From Verif Require Import Conc ThreadModel ThreadSpec.
Import ListNotations.

Definition begun (x : thr) : bool := match ob x with NoObject => false | _ => match ph x with InFunc | Ended | Gone => true | _ => false end end.
Definition ended (x : thr) : bool := match ob x with NoObject => false | _ => match ph x with Ended | Gone => true | _ => false end end.
Definition b2n (b : bool) : nat := if b then 1 else 0.

Record ok (t : nat) (x : thr) (rg : list (nat * nat)) (h : list event) : Prop := mk_ok {
  o_begun : begins t h = b2n (begun x);
  o_ended : ends t h = b2n (ended x);
  o_dead : In (DtorReturned t) h <-> ob x = Destroyed;
  o_ctor : In (CtorReturned t) h <-> (match ob x with NoObject | Constructing => False | _ => True end);
  o_dtor : forall b, In (DtorBegan t b) h -> joiner x = b /\ (match ob x with Cancelled | Released | Destroyed => True | _ => False end);
  o_gone : ob x = Destroyed -> ph x = Gone;
  o_guard : guards x <> 0 -> match ob x with Constructing | Alive | Cancelled => True | _ => False end;
  o_reg1 : running_phase (ph x) = true -> ph x <> Starting -> In (tid x, t) rg;
  o_reg2 : ob x <> NoObject -> ob x <> Destroyed -> ph x <> Starting -> In (tid x, t) rg;
  o_abs : ob x <> NoObject -> ph x <> Absent;
  o_adopt : ob x = NoObject -> match ph x with Absent | InFunc | Gone => True | _ => False end;
  o_past : match ob x with NoObject | Constructing => True | _ => past_start (ph x) = true end
}.

Definition quiet (h : list event) : Prop :=
  forall h1 t h2, h = h1 ++ DtorReturned t :: h2 -> Forall (fun e => ~ concerns t e) h2.

Record inv (s : st) : Prop := mk_inv {
  v_ok : forall t, ok t (th s t) (reg s) (hist s);
  v_fresh : forall t, count s <= t -> th s t = no_thr;
  v_reg : forall id t, In (id, t) (reg s) -> tid (th s t) = id /\ t < count s /\ ph (th s t) <> Starting;
  v_nodup : NoDup (map snd (reg s));
  v_ids : forall t u, running_phase (ph (th s t)) = true -> running_phase (ph (th s u)) = true -> tid (th s t) = tid (th s u) -> t = u;
  v_quiet : quiet (hist s);
  v_ab : aborted s = true -> exists t, In (Escaped t) (hist s) \/ In (JoinedSelf t) (hist s)
}.

Lemma begins_app t a b : begins t (a ++ b) = begins t a + begins t b.
Proof. unfold begins. now rewrite filter_app, app_length. Qed.
Lemma ends_app t a b : ends t (a ++ b) = ends t a + ends t b.
Proof. unfold ends. now rewrite filter_app, app_length. Qed.

Definition about (t : nat) (e : event) : Prop := concerns t e.
Lemma about_other t u e : about t e -> u <> t -> e <> CtorReturned u /\ e <> DtorReturned u /\ (forall b, e <> DtorBegan u b) /\
  begins u [e] = 0 /\ ends u [e] = 0.
Proof.
  intros H Hn. assert (E : Nat.eqb t u = false) by (apply Nat.eqb_neq; auto).
  destruct e; cbn in H; subst; (split; [congruence|split; [congruence|split; [intros; congruence|split; unfold begins, ends; cbn; rewrite ?E; reflexivity]]]).
Qed.

Lemma begins_others t u ev : Forall (about t) ev -> u <> t -> begins u ev = 0 /\ ends u ev = 0.
Proof.
  induction 1 as [|e ev He Hev IH]; intros Hn; [split; reflexivity|].
  destruct (IH Hn). destruct (about_other t u e He Hn) as (_ & _ & _ & H1 & H2).
  change (e :: ev) with ([e] ++ ev). rewrite begins_app, ends_app. lia.
Qed.
Lemma about_in t u ev : Forall (about t) ev -> u <> t -> ~ In (CtorReturned u) ev /\ ~ In (DtorReturned u) ev /\ forall b, ~ In (DtorBegan u b) ev.
Proof.
  intros H Hn. rewrite Forall_forall in H. repeat split; [intros Hi|intros Hi|intros b Hi];
  destruct (about_other t u _ (H _ Hi) Hn) as (Y1 & Y2 & Y3 & _); try congruence; eapply Y3; eauto.
Qed.

(* events about t and changes of the registry that do not concern u *)
Lemma ok_other t u x rg rg' h ev : ok u x rg h -> Forall (about t) ev -> u <> t ->
  (forall id, In (id, u) rg -> In (id, u) rg') -> ok u x rg' (h ++ ev).
Proof.
  intros [] He Hn Hr. destruct (begins_others t u ev He Hn). destruct (about_in t u ev He Hn) as (A & B & C).
  split; auto.
  - rewrite begins_app; lia.
  - rewrite ends_app; lia.
  - rewrite in_app_iff. tauto.
  - rewrite in_app_iff. tauto.
  - intros b Hi. apply in_app_iff in Hi as [Hi|Hi]; [auto|]. now apply C in Hi.
Qed.

Lemma quiet_app h ev t : quiet h -> Forall (about t) ev -> ~ In (DtorReturned t) h ->
  (In (DtorReturned t) ev -> ev = [DtorReturned t]) -> quiet (h ++ ev).
Proof.
  intros Hq He Hn Ho h1 u h2 Hh.
  assert (Hsplit : (exists r, h = h1 ++ DtorReturned u :: r /\ h2 = r ++ ev) \/ (exists p r, ev = p ++ DtorReturned u :: r /\ h2 = r)).
  { clear -Hh. revert h1 Hh. induction h as [|e h IH]; intros h1 Hh; [right; exists h1, h2; auto|].
    destruct h1 as [|e1 h1]; cbn in Hh; injection Hh as -> Hh.
    - left. exists h. auto.
    - destruct (IH _ Hh) as [(r & -> & ->)|(p & r & -> & ->)]; [left; exists r; auto|right; eauto]. }
  destruct Hsplit as [(r & Hh' & ->)|(p & r & Hev & ->)].
  - apply Forall_app. split; [exact (Hq _ _ _ Hh')|].
    assert (u <> t). { intros ->. apply Hn. rewrite Hh'. apply in_app_iff; cbn; auto. }
    rewrite Forall_forall in *. intros e Hi Hc. specialize (He e Hi). apply H. clear -He Hc. destruct e; cbn in *; congruence.
  - assert (u = t) as ->. { rewrite Hev, Forall_app in He. destruct He as (_ & He). inversion He; subst. cbn in H1. auto. }
    rewrite Ho in Hev by (rewrite Hev; apply in_app_iff; cbn; auto).
    destruct p as [|e1 p]; cbn in Hev; injection Hev as ?; subst; auto. destruct p; discriminate.
Qed.

Lemma init_inv : inv init.
Proof.
  split; cbn; auto; try (intros; contradiction); try discriminate.
  - intros t. split; cbn; auto; try tauto; try discriminate; try (intros; contradiction); try (split; [tauto|discriminate]).
  - constructor.
  - intros h1 t h2 H. destruct h1; discriminate.
Qed.

(* a step of thread t that keeps its kernel id and the registry *)
Lemma inv_upd s t x ev ab : inv s -> th s t <> no_thr ->
  tid x = tid (th s t) -> (running_phase (ph x) = true -> running_phase (ph (th s t)) = true) ->
  (ph x = Starting -> ph (th s t) = Starting) ->
  Forall (about t) ev -> ob (th s t) <> Destroyed -> (In (DtorReturned t) ev -> ev = [DtorReturned t]) ->
  ok t x (reg s) (hist s ++ ev) ->
  (ab = true -> aborted s = true \/ exists u, In (Escaped u) ev \/ In (JoinedSelf u) ev) ->
  inv (mk_st (count s) (fupd (th s) t x) (reg s) ab (hist s ++ ev)).
Proof.
  intros [Ho Hf Hr Hn Hi Hq Ha] Hne Ht Hrun Hstart He Hd Hdr Hok Hab.
  assert (Hlt : t < count s). { destruct (Nat.lt_ge_cases t (count s)); auto. exfalso. auto. }
  split; cbn [count th reg aborted hist].
  - intros u. unfold fupd. destruct (Nat.eqb_spec u t) as [->|Hu]; auto. eapply ok_other; eauto.
  - intros u Hu. rewrite fupd_other by lia. auto.
  - intros id u Hu. specialize (Hr id u Hu). unfold fupd. destruct (Nat.eqb_spec u t) as [->|]; auto. rewrite Ht.
    destruct Hr as (? & ? & ?). repeat split; auto.
  - auto.
  - intros u v. unfold fupd. destruct (Nat.eqb_spec u t) as [->|], (Nat.eqb_spec v t) as [->|]; auto.
    + rewrite Ht. intros. apply Hi; auto.
    + rewrite Ht. intros. apply Hi; auto.
  - apply quiet_app with (t := t); auto. rewrite (o_dead _ _ _ _ (Ho t)). auto.
  - intros H. destruct (Hab H) as [H1|(u & H1)].
    + destruct (Ha H1) as (u & H2). exists u. rewrite !in_app_iff. tauto.
    + exists u. rewrite !in_app_iff. tauto.
Qed.

Lemma running_in s id t u : id_free s id = true -> inv s -> running_phase (ph (th s u)) = true -> tid (th s u) = id -> u = t \/ False.
Proof.
  intros H Hi Hr Ht. exfalso. unfold id_free in H. rewrite forallb_forall in H.
  assert (Hu : u < count s). { destruct (Nat.lt_ge_cases u (count s)); auto. rewrite (v_fresh _ Hi u) in Hr by auto. discriminate. }
  specialize (H u). rewrite in_seq in H. specialize (H ltac:(lia)). rewrite Hr, Ht, Nat.eqb_refl in H. discriminate.
Qed.

Ltac solve_ok Ho :=
  let H := fresh in pose proof Ho as H; destruct H as [A1 A2 A3 A4 A5 A6 A7 A8 A9 A10 A11 A12];
  unfold begun, ended in *; cbn [ph ob tid par joiner guards set_ph set_ob set_guards] in *;
  split; cbn [ph ob tid par joiner guards set_ph set_ob set_guards] in *; unfold begun, ended in *;
  cbn [ph ob tid par joiner guards set_ph set_ob set_guards] in *;
  rewrite ?begins_app, ?ends_app, ?in_app_iff; cbn.

Lemma registered_In s t : registered s t = true <-> exists id, In (id, t) (reg s).
Proof.
  unfold registered. rewrite existsb_exists. split.
  - intros ((id & u) & H & Hu). apply Nat.eqb_eq in Hu. cbn in Hu. subst. eauto.
  - intros (id & H). exists (id, t). cbn. rewrite Nat.eqb_refl. auto.
Qed.

Lemma inv_new s x rg' : inv s -> id_free s (tid x) = true -> ok (count s) x rg' (hist s) -> running_phase (ph x) = true ->
  (rg' = reg s \/ rg' = reg s ++ [(tid x, count s)] /\ ph x <> Starting) ->
  inv (mk_st (S (count s)) (fupd (th s) (count s) x) rg' false (hist s)).
Proof.
  intros Hi Hid Hok Hrun Hrg. pose proof Hi as [Ho Hf Hr Hn Hu Hq Ha].
  assert (Hinc : forall e, In e (reg s) -> In e rg'). { intros e He. destruct Hrg as [-> | [-> _]]; rewrite ?in_app_iff; auto. }
  split; cbn [count th reg aborted hist].
  - intros t. unfold fupd. destruct (Nat.eqb_spec t (count s)) as [->|]; auto.
    rewrite <- (app_nil_r (hist s)). eapply ok_other with (t := count s); eauto.
  - intros t Ht. rewrite fupd_other by lia. apply Hf. lia.
  - intros id t Ht. unfold fupd. destruct (Nat.eqb_spec t (count s)) as [->|Hne].
    + destruct Hrg as [-> | [-> Hst]].
      * specialize (Hr _ _ Ht). lia.
      * apply in_app_iff in Ht as [Ht|[[= <-]|[]]]; [specialize (Hr _ _ Ht); lia|]. repeat split; auto.
    + assert (In (id, t) (reg s)) as H0. { destruct Hrg as [-> | [-> Hst]]; auto. apply in_app_iff in Ht as [Ht|[[= ]|[]]]; auto. congruence. }
      destruct (Hr _ _ H0) as (? & ? & ?). repeat split; auto.
  - destruct Hrg as [-> | [-> Hst]]; auto. rewrite map_app; cbn.
    assert (Hni : ~ In (count s) (map snd (reg s))).
    { intros Hx. apply in_map_iff in Hx as ((id & t) & Ht & Hx). cbn in Ht. subst. specialize (Hr _ _ Hx). lia. }
    clear -Hn Hni. induction (map snd (reg s)) as [|a l IH]; cbn in *; [repeat constructor; auto|].
    inversion Hn; subst. constructor; [rewrite in_app_iff; cbn; intuition|apply IH; tauto].
  - intros u v. unfold fupd. destruct (Nat.eqb_spec u (count s)) as [->|], (Nat.eqb_spec v (count s)) as [->|]; auto.
    + intros _ H1 H2. destruct (running_in s (tid x) (count s) v Hid Hi H1 (eq_sym H2)) as [->|[]]. auto.
    + intros H1 _ H2. destruct (running_in s (tid x) (count s) u Hid Hi H1 H2) as [->|[]]. auto.
  - auto.
  - discriminate.
Qed.

Lemma ok_fresh s : inv s -> ok (count s) no_thr (reg s) (hist s).
Proof. intros Hi. rewrite <- (v_fresh _ Hi (count s)) by lia. apply (v_ok _ Hi). Qed.

Ltac fin Hi t E :=
  let O := fresh "O" in pose proof (v_ok _ Hi t) as O; rewrite E in O; destruct O as [A1 A2 A3 A4 A5 A6 A7 A8 A9 A10 A11 A12];
  cbn [begun ended ph ob tid par joiner guards running_phase past_start b2n] in *;
  split; cbn [begun ended set_ph set_ob set_guards ph ob tid par joiner guards running_phase past_start b2n];
  rewrite ?begins_app, ?ends_app;
  [ rewrite A1; unfold begins; cbn [filter length]; rewrite ?Nat.eqb_refl; cbn; try lia; auto
  | rewrite A2; unfold ends; cbn [filter length]; rewrite ?Nat.eqb_refl; cbn; try lia; auto
  | rewrite in_app_iff, A3; cbn; intuition congruence
  | rewrite in_app_iff, A4; cbn; intuition congruence
  | intros b0 Hb0; apply in_app_iff in Hb0 as [Hb0|Hb0]; [try (apply A5 in Hb0; intuition congruence)|cbn in Hb0; intuition congruence]
  | try congruence; auto | try tauto; try (intros; lia); auto | try congruence; auto | try congruence; auto | try congruence; auto | try congruence; auto | auto ].

Lemma inv_same s t ev ab : inv s -> th s t <> no_thr ->
  Forall (about t) ev -> ob (th s t) <> Destroyed -> (In (DtorReturned t) ev -> ev = [DtorReturned t]) ->
  ok t (th s t) (reg s) (hist s ++ ev) ->
  (ab = true -> aborted s = true \/ exists u, In (Escaped u) ev \/ In (JoinedSelf u) ev) ->
  inv (mk_st (count s) (th s) (reg s) ab (hist s ++ ev)).
Proof.
  intros [Ho Hf Hr Hn Hi Hq Ha] Hne He Hd Hdr Hok Hab.
  split; cbn [count th reg aborted hist]; auto.
  - intros u. destruct (Nat.eq_dec u t) as [->|Hu]; auto. eapply ok_other; eauto.
  - apply quiet_app with (t := t); auto. rewrite (o_dead _ _ _ _ (Ho t)). auto.
  - intros H. destruct (Hab H) as [H1|(u & H1)].
    + destruct (Ha H1) as (u & H2). exists u. rewrite !in_app_iff. tauto.
    + exists u. rewrite !in_app_iff. tauto.
Qed.

Ltac upd_case Hi t E Eab Ho :=
  let Hna := fresh in let Hgn := fresh in
  pose proof (o_adopt _ _ _ _ (Ho t)) as Hna; pose proof (o_gone _ _ _ _ (Ho t)) as Hgn; rewrite E in Hna, Hgn; cbn in Hna, Hgn;
  unfold upd, set_ph, set_ob, set_guards; cbn [ph ob tid par joiner guards];
  apply inv_upd; auto; rewrite ?E; cbn [ph ob tid par joiner guards running_phase];
  try discriminate; try (intuition congruence); try (repeat constructor; fail); try (unfold no_thr; congruence); try (intros _; reflexivity); try (cbn [In]; intuition discriminate);
  try match goal with |- ok _ (mk_thr _ ?o _ _ _ _) _ _ => try (is_var o; destruct o); try tauto; try congruence; fin Hi t E; try tauto; try (intuition congruence) end.

Lemma step_inv s l s' : inv s -> step s l = Some s' -> inv s'.
Proof.
  intros Hi. unfold step. destruct (aborted s) eqn:Eab; [discriminate|]. pose proof Hi as [Ho Hf Hr Hn Hu Hq Ha].
  destruct l.
  - (* New *) destruct (id_free s id) eqn:Ei; [|discriminate]. cbn [andb]. destruct (match p with Some q => _ | None => _ end); [|discriminate].
    intros [= <-]. apply inv_new; auto. pose proof (ok_fresh s Hi) as [A1 A2 A3 A4 A5 A6 A7 A8 A9 A10 A11 A12]. cbn in *.
    split; cbn; auto; try tauto; try congruence; try (intuition congruence).
  - (* Register *) destruct (th s t) as [p o i pr j g] eqn:E. cbn [ph ob tid]. destruct p; try discriminate.
    intros [= <-].
    assert (Hlt : t < count s). { destruct (Nat.lt_ge_cases t (count s)); auto. rewrite Hf in E by auto. discriminate. }
    assert (Hni : ~ In t (map snd (reg s))).
    { intros Hx. apply in_map_iff in Hx as ((id & u) & Ht & Hx). cbn in Ht. subst. apply Hr in Hx. rewrite E in Hx. cbn in Hx. tauto. }
    split; cbn [count th reg aborted hist set_ph ph ob tid par joiner guards].
    + intros u. unfold fupd. destruct (Nat.eqb_spec u t) as [->|Hne].
      * pose proof (o_adopt _ _ _ _ (Ho t)) as Hna. rewrite E in Hna; cbn in Hna.
        destruct o; try (exfalso; now apply Hna); fin Hi t E; intros; apply in_app_iff; cbn; auto.
      * eapply ok_other with (t := t); eauto; [repeat constructor|]. intros. apply in_app_iff; auto.
    + intros u Hu'. rewrite fupd_other by lia. auto.
    + intros id u Hx. unfold fupd. apply in_app_iff in Hx as [Hx|[[= <- <-]|[]]].
      * destruct (Nat.eqb_spec u t) as [->|]; [|auto]. exfalso. apply Hni. change t with (snd (id, t)). now apply in_map.
      * rewrite Nat.eqb_refl. cbn. repeat split; auto. discriminate.
    + rewrite map_app; cbn. clear -Hn Hni. induction (map snd (reg s)) as [|a l IH]; cbn in *; [repeat constructor; auto|].
      inversion Hn; subst. constructor; [rewrite in_app_iff; cbn; intuition|apply IH; tauto].
    + intros u v. unfold fupd. destruct (Nat.eqb_spec u t) as [->|], (Nat.eqb_spec v t) as [->|]; auto.
      * cbn. intros _ H1 H2. apply Hu; auto. now rewrite E. rewrite E. auto.
      * cbn. intros H1 _ H2. apply Hu; auto. now rewrite E. rewrite E. auto.
    + apply quiet_app with (t := t); auto; [repeat constructor| |cbn; intuition discriminate].
      rewrite (o_dead _ _ _ _ (Ho t)), E. cbn. intros ->. pose proof (o_gone _ _ _ _ (Ho t)) as G. rewrite E in G. now specialize (G eq_refl).
    + discriminate.
  - (* Notify *) destruct (th s t) as [p o i pr j g] eqn:E. cbn [ph]. destruct p; try discriminate. intros [= <-]. upd_case Hi t E Eab Ho.
  - (* Enter *) destruct (th s t) as [p o i pr j g] eqn:E. cbn [ph]. destruct p; try discriminate. intros [= <-]. upd_case Hi t E Eab Ho.
  - (* Exit *) destruct (th s t) as [p o i pr j g] eqn:E. cbn [ph ob]. destruct p; try discriminate.
    assert (G : o <> NoObject -> forall ab, inv (mk_st (count s) (fupd (th s) t (mk_thr Ended o i pr j g)) (reg s) (aborted s) (hist s ++ [FuncEnded t; Touched t])) /\
      (inv (mk_st (count s) (fupd (th s) t (mk_thr Ended o i pr j g)) (reg s) ab ((hist s ++ [FuncEnded t; Touched t]) ++ [Escaped t])) )).
    { intros Hno ab. split.
      - upd_case Hi t E Eab Ho.
      - rewrite <- app_assoc. cbn [app]. upd_case Hi t E Eab Ho. intros _. right. exists t. left. cbn; auto. }
    destruct o; try discriminate; (destruct (G ltac:(discriminate) true) as (G1 & G2); destruct w; intros [= <-]; [exact G1|exact G1|exact G2]).
  - (* Leave *) destruct (th s t) as [p o i pr j g] eqn:E. cbn [ph ob]. destruct p; try discriminate.
    + destruct o; try discriminate. intros [= <-]. upd_case Hi t E Eab Ho.
    + intros [= <-]. upd_case Hi t E Eab Ho.
  - (* CtorReturn *) destruct (th s t) as [p o i pr j g] eqn:E. cbn [ph ob]. destruct o; try discriminate.
    destruct (past_start p) eqn:Ep; [|discriminate]. intros [= <-]. destruct p; try discriminate; upd_case Hi t E Eab Ho.
  - (* Destroy *) destruct (th s t) as [p o i pr j g] eqn:E. cbn [ph ob]. destruct o; try discriminate.
    destruct (match by_ with Some _ => _ | None => _ end); [|discriminate]. intros [= <-].
    destruct p; upd_case Hi t E Eab Ho.
  - (* Release *) destruct (th s t) as [p o i pr j g] eqn:E. cbn [ph ob guards]. destruct o, g; try discriminate. intros [= <-].
    destruct p; upd_case Hi t E Eab Ho.
  - (* Join *) destruct (th s t) as [p o i pr j g] eqn:E. cbn [ph ob joiner]. destruct o; try discriminate.
    destruct (match j with Some u => Nat.eqb u t | None => false end).
    + intros [= <-].
      replace (mk_st (count s) (th s) (reg s) true (hist s ++ [JoinedSelf t])) with (mk_st (count s) (th s) (reg s) true (hist s ++ [JoinedSelf t])) by reflexivity.
      apply inv_same with (t := t); auto; rewrite ?E; cbn; try discriminate; try (intros; exfalso; intuition discriminate); auto.
      * repeat constructor.
      * destruct p; fin Hi t E.
      * intros _. right. exists t. cbn; auto.
    + destruct p; try discriminate. intros [= <-]. upd_case Hi t E Eab Ho.
  - (* Guard *) destruct (th s t) as [p o i pr j g] eqn:E. cbn [ph ob guards].
    destruct o; try discriminate; (destruct (registered s t); [|discriminate]); intros [= <-]; destruct p; upd_case Hi t E Eab Ho.
  - (* Signal *) destruct (th s t) as [p o i pr j g] eqn:E. cbn [guards]. destruct g; try discriminate. intros [= <-].
    pose proof (o_guard _ _ _ _ (Ho t)) as Hg. rewrite E in Hg. cbn in Hg. specialize (Hg ltac:(discriminate)).
    destruct o; try contradiction; destruct p; upd_case Hi t E Eab Ho.
  - (* Unguard *) destruct (th s t) as [p o i pr j g] eqn:E. cbn [guards]. destruct g; try discriminate. intros [= <-].
    pose proof (o_guard _ _ _ _ (Ho t)) as Hg. rewrite E in Hg. cbn in Hg. specialize (Hg ltac:(discriminate)).
    destruct o; try contradiction; destruct p; upd_case Hi t E Eab Ho.
  - (* Adopt *) destruct (id_free s id) eqn:Ei; [|discriminate].
    intros [= <-]. apply (inv_new s (mk_thr InFunc NoObject id None None 0) (reg s ++ [(id, count s)])); auto.
    + pose proof (ok_fresh s Hi) as [A1 A2 A3 A4 A5 A6 A7 A8 A9 A10 A11 A12]. cbn in *.
      split; cbn; auto; try tauto; try congruence; try (intuition congruence).
      intros. apply in_app_iff; cbn; auto.
    + right. split; [reflexivity|discriminate].
  - (* SignalAdopted *) destruct (th s t) as [p o i pr j g] eqn:E. cbn [ph ob].
    destruct p; try discriminate; destruct o; try discriminate; intros [= <-]; upd_case Hi t E Eab Ho.
  - (* DropData *) destruct (registered s t) eqn:Erg; [|discriminate]. destruct (held s t) eqn:Eh; [discriminate|]. intros [= <-].
    set (rg := filter (fun e => negb (Nat.eqb (snd e) t)) (reg s)).
    assert (Hin : forall id u, In (id, u) rg <-> In (id, u) (reg s) /\ u <> t).
    { intros id u. unfold rg. rewrite filter_In. cbn. rewrite negb_true_iff, Nat.eqb_neq. tauto. }
    unfold held in Eh. apply orb_false_iff in Eh as (Eh & _). apply orb_false_iff in Eh as (Eh1 & Eh2).
    split; cbn [count th reg aborted hist]; auto.
    + intros u. destruct (Nat.eq_dec u t) as [->|Hne].
      * destruct (Ho t). split; auto; [congruence|]. intros H1 H2 H3. destruct (ob (th s t)); congruence.
      * rewrite <- (app_nil_r (hist s)). eapply ok_other with (t := t); eauto. intros id H0. apply Hin. auto.
    + intros id u H0. apply Hin in H0 as (H0 & _). auto.
    + unfold rg. clear -Hn. induction (reg s) as [|e l IH]; cbn in *; auto. inversion Hn; subst.
      destruct (negb _); cbn; auto. constructor; auto. intros H. apply H1. apply in_map_iff in H as (e' & <- & H).
      apply filter_In in H as (H & _). now apply in_map.
    + discriminate.
Qed.

Lemma reach_inv ls s : steps step init ls s -> inv s.
Proof. apply steps_inv; [intros; eapply step_inv; eauto|apply init_inv]. Qed.

Lemma steps1 s l s1 : step s l = Some s1 -> steps step s [l] s1.
Proof. intros H. econstructor; [exact H|constructor]. Qed.

Lemma ctor_completes s t : inv s -> aborted s = false -> ob (th s t) = Constructing ->
  exists ls s', steps step s ls s' /\ length ls <= 3 /\ Forall (makes t) ls /\ In (CtorReturned t) (hist s').
Proof.
  intros Hi Ha Hob.
  assert (G1 : forall s, aborted s = false -> ob (th s t) = Constructing -> past_start (ph (th s t)) = true ->
    exists ls s', steps step s ls s' /\ length ls <= 1 /\ Forall (makes t) ls /\ In (CtorReturned t) (hist s')).
  { intros s1 H1 H2 H3. exists [CtorReturn t]. eexists. split; [apply steps1; unfold step; rewrite H1, H2, H3; reflexivity|].
    split; [cbn; lia|]. split; [constructor; [unfold makes; auto|constructor]|]. cbn. apply in_app_iff; cbn; auto. }
  assert (G2 : forall s, aborted s = false -> ob (th s t) = Constructing -> ph (th s t) = Registered ->
    exists ls s', steps step s ls s' /\ length ls <= 2 /\ Forall (makes t) ls /\ In (CtorReturned t) (hist s')).
  { intros s1 H1 H2 H3. destruct (G1 (upd s1 t (set_ph (th s1 t) Started) [Touched t])) as (ls & s' & R1 & R2 & R3 & R4); auto;
      try (cbn; rewrite fupd_same; auto; fail).
    exists (Notify t :: ls), s'. split; [econstructor; [unfold step; rewrite H1, H3; reflexivity|exact R1]|].
    split; [cbn; lia|]. split; [constructor; auto; right; left; auto|auto]. }
  pose proof (o_abs _ _ _ _ (v_ok _ Hi t)) as Hab. rewrite Hob in Hab. specialize (Hab ltac:(discriminate)).
  destruct (ph (th s t)) eqn:Hp; try congruence.
  - destruct (G2 (mk_st (count s) (fupd (th s) t (set_ph (th s t) Registered)) (reg s ++ [(tid (th s t), t)]) false (hist s ++ [Touched t])))
      as (ls & s' & R1 & R2 & R3 & R4); auto; try (cbn; rewrite fupd_same; auto; fail).
    exists (Register t :: ls), s'. split; [econstructor; [unfold step; rewrite Ha, Hp; reflexivity|exact R1]|].
    split; [cbn; lia|]. split; [constructor; auto; left; auto|auto].
  - destruct (G2 s Ha Hob Hp) as (ls & s' & R1 & R2 & R3 & R4). exists ls, s'. repeat split; auto.
  - destruct (G1 s Ha Hob) as (ls & s' & R1 & R2 & R3 & R4); [rewrite Hp; auto|]. exists ls, s'. repeat split; auto; lia.
  - destruct (G1 s Ha Hob) as (ls & s' & R1 & R2 & R3 & R4); [rewrite Hp; auto|]. exists ls, s'. repeat split; auto; lia.
  - destruct (G1 s Ha Hob) as (ls & s' & R1 & R2 & R3 & R4); [rewrite Hp; auto|]. exists ls, s'. repeat split; auto; lia.
  - destruct (G1 s Ha Hob) as (ls & s' & R1 & R2 & R3 & R4); [rewrite Hp; auto|]. exists ls, s'. repeat split; auto; lia.
Qed.

Lemma dtor_completes : forall g s t, guards (th s t) = g -> inv s -> aborted s = false ->
  (ob (th s t) = Cancelled \/ ob (th s t) = Released) -> (ph (th s t) = Ended \/ ph (th s t) = Gone) -> joiner (th s t) <> Some t ->
  exists ls s', steps step s ls s' /\ length ls <= g + 3 /\ Forall (finishes t) ls /\ In (DtorReturned t) (hist s').
Proof.
  assert (G1 : forall s t, aborted s = false -> ob (th s t) = Released -> ph (th s t) = Gone -> joiner (th s t) <> Some t ->
    exists ls s', steps step s ls s' /\ length ls <= 1 /\ Forall (finishes t) ls /\ In (DtorReturned t) (hist s')).
  { intros s t H1 H2 H3 H4. exists [Join t]. eexists. split.
    { apply steps1. unfold step. rewrite H1, H2, H3. destruct (joiner (th s t)) as [u|]; [|reflexivity].
      destruct (Nat.eqb_spec u t); [congruence|reflexivity]. }
    split; [cbn; lia|]. split; [constructor; [unfold finishes; auto|constructor]|]. cbn. apply in_app_iff; cbn; auto. }
  assert (G2 : forall s t, aborted s = false -> ob (th s t) = Released -> (ph (th s t) = Ended \/ ph (th s t) = Gone) -> joiner (th s t) <> Some t ->
    exists ls s', steps step s ls s' /\ length ls <= 2 /\ Forall (finishes t) ls /\ In (DtorReturned t) (hist s')).
  { intros s t H1 H2 [H3|H3] H4.
    - destruct (G1 (upd s t (set_ph (th s t) Gone) [Touched t]) t) as (ls & s' & R1 & R2 & R3 & R4); auto;
        try (cbn; rewrite fupd_same; auto; fail).
      exists (Leave t :: ls), s'. split; [econstructor; [unfold step; rewrite H1, H3; reflexivity|exact R1]|].
      split; [cbn; lia|]. split; [constructor; auto; unfold finishes; auto|auto].
    - destruct (G1 s t H1 H2 H3 H4) as (ls & s' & R1 & R2 & R3 & R4). exists ls, s'. repeat split; auto. }
  induction g as [|g IH]; intros s t Hg Hi Ha Hob Hp Hj.
  - destruct Hob as [Hob|Hob].
    + destruct (G2 (upd s t (set_ob (th s t) Released) []) t) as (ls & s' & R1 & R2 & R3 & R4); auto;
        try (cbn; rewrite fupd_same; auto; fail).
      exists (Release t :: ls), s'. split; [econstructor; [unfold step; rewrite Ha, Hob, Hg; reflexivity|exact R1]|].
      split; [cbn; lia|]. split; [constructor; auto; unfold finishes; auto|auto].
    + destruct (G2 s t Ha Hob Hp Hj) as (ls & s' & R1 & R2 & R3 & R4). exists ls, s'. repeat split; auto; lia.
  - assert (E : step s (Unguard t) = Some (upd s t (set_guards (th s t) g) [])) by (unfold step; rewrite Ha, Hg; reflexivity).
    destruct (IH (upd s t (set_guards (th s t) g) []) t) as (ls & s' & R1 & R2 & R3 & R4); auto; try (cbn; rewrite fupd_same; auto; fail).
    + eapply step_inv; eauto.
    + exists (Unguard t :: ls), s'. split; [econstructor; [exact E|exact R1]|].
      split; [cbn; lia|]. split; [constructor; auto; unfold finishes; auto|auto].
Qed.

Lemma find_In {A} f (l : list A) x : find f l = Some x -> In x l /\ f x = true.
Proof. apply find_some. Qed.
Lemma lookup_In s id u : lookup s id = Some u -> In (id, u) (reg s).
Proof.
  unfold lookup. destruct (find _ _) as [[i v]|] eqn:E; cbn; [|discriminate]. intros [= ->].
  apply find_some in E as (H & Hi). cbn in Hi. apply Nat.eqb_eq in Hi. now subst.
Qed.
Lemma In_lookup s id t : In (id, t) (reg s) -> exists u, lookup s id = Some u.
Proof.
  intros H. unfold lookup. destruct (find _ _) as [[i v]|] eqn:E; [eexists; reflexivity|].
  apply (find_none _ _ E) in H. cbn in H. rewrite Nat.eqb_refl in H. discriminate.
Qed.

(** processor times *)
Definition exited (s : sst) (t : nat) : bool := match over s t with Some _ => true | None => false end.
Definition cost (s : sst) (d : nat) : nat := match over s d with Some c => c | None => 0 end.
Definition at_ (s : sst) (p d : nat) : nat :=
  match nearest (S d) (parent s) (exited s) d with Some q => if Nat.eqb q p then cost s d else 0 | None => 0 end.
Definition counted (s : sst) (p : nat) : nat := sum (map (at_ s p) (seq 0 (made s))).

Lemma nearest_ext par par' ex ex' : forall f d, (forall c, c <= d -> par c = par' c) -> (forall c p, par c = Some p -> p < c) ->
  (forall c, c < d -> ex c = ex' c) -> nearest f par ex d = nearest f par' ex' d.
Proof.
  induction f as [|f IH]; intros d H1 H2 H3; cbn; auto. rewrite <- H1 by auto.
  destruct (par d) as [p|] eqn:E; auto. pose proof (H2 _ _ E). rewrite <- H3 by auto.
  destruct (ex p); auto. apply IH; auto; intros; [apply H1|apply H3]; lia.
Qed.
Lemma nearest_fuel par ex : (forall c p, par c = Some p -> p < c) -> forall f g d, d < f -> d < g -> nearest f par ex d = nearest g par ex d.
Proof.
  intros H. induction f as [|f IH]; intros g d Hf Hg; [lia|]. destruct g as [|g]; [lia|]. cbn.
  destruct (par d) as [p|] eqn:E; auto. destruct (ex p); auto. pose proof (H _ _ E). apply IH; lia.
Qed.
Lemma nearest_lt par ex : (forall c p, par c = Some p -> p < c) -> forall f d q, nearest f par ex d = Some q -> q < d /\ ex q = false.
Proof.
  intros H. induction f as [|f IH]; intros d q; cbn; [discriminate|]. destruct (par d) as [p|] eqn:E; [|discriminate].
  pose proof (H _ _ E). destruct (ex p) eqn:Ep; [|intros [= <-]; auto]. intros H1. destruct (IH _ _ H1). split; auto; lia.
Qed.

Record sinv (s : sst) : Prop := mk_sinv {
  s_par : forall c p, parent s c = Some p -> p < c /\ c < made s;
  s_new : forall t, made s <= t -> over s t = None /\ kids s t = 0;
  s_str : forall c p, parent s c = Some p -> exited s p = true -> exited s c = true;
  s_kids : forall p, exited s p = false -> kids s p = counted s p
}.

Lemma sum_app a b : sum (a ++ b) = sum a + sum b.
Proof. induction a; cbn; lia. Qed.
Lemma sum_ext (f g : nat -> nat) l : (forall x, In x l -> f x = g x) -> sum (map f l) = sum (map g l).
Proof. induction l as [|x l IH]; cbn; [reflexivity|]. intros H. rewrite H, IH; auto. Qed.
Lemma sum_add (f g : nat -> nat) l : sum (map (fun x => f x + g x) l) = sum (map f l) + sum (map g l).
Proof. induction l as [|x l IH]; cbn; auto. lia. Qed.
Lemma sum_zero (f : nat -> nat) l : (forall x, In x l -> f x = 0) -> sum (map f l) = 0.
Proof. induction l as [|x l IH]; cbn; [reflexivity|]. intros H. rewrite H, IH; auto. Qed.
Lemma sum_at t c : forall n b, b <= t < b + n -> sum (map (fun x => if Nat.eqb x t then c else 0) (seq b n)) = c.
Proof.
  induction n as [|n IH]; intros b H; cbn; [lia|]. destruct (Nat.eqb_spec b t).
  - subst. rewrite sum_zero; [lia|]. intros x Hx. apply in_seq in Hx. destruct (Nat.eqb_spec x t); auto; lia.
  - rewrite IH; lia.
Qed.

Lemma sinit_inv : sinv sinit.
Proof. split; cbn; intros; try discriminate; auto. Qed.

Lemma sstep_inv s l s' : sinv s -> (match l with SExit t _ => forall c, parent s c = Some t -> exited s c = true | SNew _ => True end) ->
  sstep s l = Some s' -> sinv s'.
Proof.
  intros [Hp Hn Hs Hk] Hstr. assert (Hp1 : forall c p, parent s c = Some p -> p < c) by (intros; apply Hp; auto).
  destruct l as [q|t cpu]; cbn [sstep].
  - destruct (match q with Some _ => _ | None => _ end) eqn:Eq; [|discriminate]. intros [= <-].
    assert (Hq : forall p, q = Some p -> p < made s /\ exited s p = false).
    { intros p ->. apply andb_true_iff in Eq as (E1 & E2). apply Nat.ltb_lt in E1. unfold exited. destruct (over s p); auto; discriminate. }
    destruct (Hn (made s) ltac:(lia)) as (Hm1 & Hm2).
    split; cbn [parent made over kids].
    + intros c p. unfold fupd. destruct (Nat.eqb_spec c (made s)) as [->|].
      * intros H. destruct (Hq p H). lia.
      * intros H. destruct (Hp c p H). lia.
    + intros t Ht. apply Hn. lia.
    + intros c p. unfold fupd, exited; cbn. destruct (Nat.eqb_spec c (made s)) as [->|].
      * intros H. destruct (Hq p H) as (_ & H1). unfold exited in H1. rewrite H1. discriminate.
      * apply Hs.
    + intros p Hpe. change (exited s p = false) in Hpe. rewrite Hk by auto. unfold counted; cbn [made].
      rewrite seq_S, map_app, sum_app. cbn [map sum plus]. 
      assert (Hlast : at_ (mk_sst (S (made s)) (fupd (parent s) (made s) q) (over s) (kids s)) p (made s) = 0).
      { unfold at_, cost; cbn [over]. rewrite Hm1. destruct (nearest _ _ _ _) as [v|]; auto. destruct (Nat.eqb v p); auto. }
      rewrite Hlast, !Nat.add_0_r. apply sum_ext. intros d Hd. apply in_seq in Hd. unfold at_, cost; cbn [over parent].
      replace (nearest (S d) (fupd (parent s) (made s) q) (exited (mk_sst (S (made s)) (fupd (parent s) (made s) q) (over s) (kids s))) d)
        with (nearest (S d) (parent s) (exited s) d); auto.
      apply nearest_ext; auto. intros c Hc. rewrite fupd_other by lia. auto.
  - destruct (Nat.ltb_spec t (made s)); [|discriminate]. destruct (over s t) eqn:Eo; [discriminate|]. cbn [andb]. intros [= <-].
    set (s' := mk_sst _ _ _ _).
    assert (Hex : forall d, exited s' d = if Nat.eqb d t then true else exited s d).
    { intros d. unfold exited, s', fupd; cbn. destruct (Nat.eqb d t); auto. }
    assert (Het : exited s t = false) by (unfold exited; now rewrite Eo).
    assert (Hpt : forall p, parent s t = Some p -> exited s p = false).
    { intros p H1. destruct (exited s p) eqn:E; auto. rewrite (Hs t p H1 E) in Het. discriminate. }
    (* nearest after the exit *)
    assert (Hnear : forall f d, d < f -> nearest f (parent s) (exited s') d =
      match nearest f (parent s) (exited s) d with Some q => if Nat.eqb q t then parent s t else Some q | None => None end).
    { induction f as [|f IH]; intros d Hd; [lia|]. cbn [nearest]. destruct (parent s d) as [p|] eqn:Ed; auto.
      pose proof (Hp1 _ _ Ed). rewrite Hex. destruct (Nat.eqb_spec p t) as [->|Hpt'].
      - rewrite Het, Nat.eqb_refl. destruct f as [|f]; [lia|]. cbn [nearest]. destruct (parent s t) as [p|] eqn:Et; auto.
        rewrite Hex. pose proof (Hp1 _ _ Et). replace (Nat.eqb p t) with false by (symmetry; apply Nat.eqb_neq; lia).
        now rewrite (Hpt p eq_refl).
      - destruct (exited s p) eqn:Ep; [apply IH; lia|]. now rewrite (proj2 (Nat.eqb_neq p t) Hpt'). }
    split.
    + exact Hp.
    + intros u Hu. change (made s <= u) in Hu. destruct (Hn u Hu) as (H1 & H2). cbn. rewrite fupd_other by lia. split; auto.
      destruct (parent s t) as [p|] eqn:Et; auto. pose proof (Hp _ _ Et). rewrite fupd_other by lia. auto.
    + intros c p H1. change (parent s c = Some p) in H1. rewrite !Hex. destruct (Nat.eqb_spec p t) as [->|].
      * intros _. destruct (Nat.eqb c t); auto.
      * intros H2. destruct (Nat.eqb c t); auto. eauto.
    + intros p Hpe. rewrite Hex in Hpe. destruct (Nat.eqb_spec p t) as [Heq|Hne]; [discriminate|].
      assert (Hat : forall d, In d (seq 0 (made s)) -> at_ s' p d = at_ s p d +
        (match parent s t with Some q => if Nat.eqb q p then at_ s t d + (if Nat.eqb d t then cpu else 0) else 0 | None => 0 end)).
      { intros d Hd. apply in_seq in Hd. unfold at_. change (parent s') with (parent s). rewrite Hnear by lia.
        unfold cost, s'; cbn [over]. unfold fupd. destruct (Nat.eqb_spec d t) as [->|Hdt].
        - rewrite Eo. unfold fupd. rewrite ?Nat.eqb_refl. cbn [nearest]. destruct (parent s t) as [q|] eqn:Et; auto.
          rewrite (Hpt q eq_refl). pose proof (Hp _ _ Et).
          replace (Nat.eqb q t) with false by (symmetry; apply Nat.eqb_neq; lia).
          destruct (Nat.eqb q p); lia.
        - rewrite ?(fupd_other _ (Some cpu) Hdt). destruct (nearest (S d) (parent s) (exited s) d) as [q|] eqn:En.
          + destruct (Nat.eqb_spec q t) as [->|].
            * rewrite (proj2 (Nat.eqb_neq t p)) by auto. destruct (parent s t) as [r|]; auto. destruct (Nat.eqb r p); lia.
            * destruct (parent s t) as [r|]; [|lia]. destruct (Nat.eqb r p); lia.
          + destruct (parent s t) as [r|]; auto. destruct (Nat.eqb r p); lia. }
      unfold counted. change (made s') with (made s). rewrite (sum_ext _ _ _ Hat), sum_add. fold (counted s p).
      rewrite <- Hk by auto. unfold s'; cbn [kids]. destruct (parent s t) as [q|] eqn:Et.
      * unfold fupd. destruct (Nat.eqb_spec p q) as [->|].
        -- rewrite Nat.eqb_refl, sum_add, sum_at by lia. fold (counted s t). rewrite <- Hk by auto. lia.
        -- rewrite (proj2 (Nat.eqb_neq q p)) by auto. rewrite sum_zero; auto.
      * rewrite sum_zero; auto.
Qed.

(* every thread exits after those it has made *)
Lemma sreach ls : forall s, structured ls -> steps sstep sinit ls s -> sinv s.
Proof.
  intros s Hst H. assert (G : forall pre s0, steps sstep sinit pre s0 -> sinv s0 -> forall ls' s, steps sstep s0 ls' s -> structured (pre ++ ls') -> sinv s).
  { clear. intros pre s0 H0 Hi ls' s H. revert pre H0 Hi. induction H as [s|s l s1 ls s2 E H IH]; intros pre H0 Hi Hst; auto.
    apply (IH (pre ++ [l])).
    - eapply steps_app; [exact H0|]. econstructor; [exact E|]. constructor.
    - eapply sstep_inv; eauto. destruct l as [p|t cpu]; auto. intros c Hc.
      pose proof (Hst pre t cpu ls s eq_refl H0 c Hc). unfold exited. destruct (over s c); congruence.
    - now rewrite <- app_assoc. }
  apply (G [] sinit (steps_nil _ _) sinit_inv ls s H). exact Hst.
Qed.
