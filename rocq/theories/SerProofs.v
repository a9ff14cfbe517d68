(** Proofs for C64 *)
From Verif Require Import Base SerModel SerSpec.
Local Open Scope Z_scope.

Section TyInd.
  Variable P : ty -> Prop.
  Hypothesis Hb : P TBool.
  Hypothesis Hi : forall s n, P (TInt s n).
  Hypothesis Hs : P TStr.
  Hypothesis Hy : P TBytes.
  Hypothesis Ho : forall t, P t -> P (TOpt t).
  Hypothesis Hv : forall t, P t -> P (TVec t).
  Hypothesis Hse : forall t, P t -> P (TSet t).
  Hypothesis Hm : forall k t, P k -> P t -> P (TMap k t).
  Hypothesis Hp : forall a b, P a -> P b -> P (TPair a b).
  Hypothesis He : P TEmpty.
  Hypothesis Hva : forall ts, Forall P ts -> P (TVariant ts).
  Hypothesis Hst : forall fs, Forall (fun f => P (snd f)) fs -> P (TStruct fs).
  Hypothesis Hco : forall fs, Forall (fun f => P (snd f)) fs -> P (TComposite fs).
  Hypothesis Hpt : forall fs, Forall (fun f => P (snd f)) fs -> P (TPtr fs).
  Fixpoint ty_ind2 (t : ty) : P t :=
    let go := fix go (l : list ty) : Forall P l := match l with [] => Forall_nil _ | x :: r => Forall_cons x (ty_ind2 x) (go r) end in
    let gof := fix gof (l : list (name * ty)) : Forall (fun f => P (snd f)) l :=
      match l with [] => Forall_nil _ | x :: r => Forall_cons x (ty_ind2 (snd x)) (gof r) end in
    match t with
    | TBool => Hb | TInt s n => Hi s n | TStr => Hs | TBytes => Hy | TOpt t' => Ho t' (ty_ind2 t') | TVec t' => Hv t' (ty_ind2 t')
    | TSet t' => Hse t' (ty_ind2 t') | TMap k t' => Hm k t' (ty_ind2 k) (ty_ind2 t') | TPair a b => Hp a b (ty_ind2 a) (ty_ind2 b)
    | TEmpty => He | TVariant ts => Hva ts (go ts) | TStruct fs => Hst fs (gof fs) | TComposite fs => Hco fs (gof fs) | TPtr fs => Hpt fs (gof fs)
    end.
End TyInd.

(* ------------------------------------------------------------------ the encoding *)
Fixpoint present (t : ty) (v : value) : bool :=
  match t, v with TOpt t', VSome w => present t' w | TOpt _, _ => false | TEmpty, _ => false | _, _ => true end.

Fixpoint enc (t : ty) (v : value) {struct t} : tree :=
  match t, v with
  | TBool, VBool b => TrBool b
  | TInt _ _, VInt z => TrInt (to_s64 z)
  | TStr, VStr s => TrStr s
  | TBytes, VBytes s => TrBytes s
  | TOpt t', VSome w => enc t' w
  | TVec t', VList vs => TrList (map (enc t') vs)
  | TSet t', VList vs => TrList (map (enc t') vs)
  | TMap k w, VList ps => TrList (map (fun p => match p with VPair a b => TrList [enc k a; enc w b] | _ => TrNull end) ps)
  | TPair a b, VPair x y => TrList [enc a x; enc b y]
  | TVariant ts, VVariant i w => TrObj ((s_index, TrInt (to_s64 (Z.of_nat i))) ::
      (fix alt (l : list ty) (n : nat) {struct l} : list (name * tree) :=
         match l with [] => [] | t' :: r => match n with O => if present t' w then [(s_obj, enc t' w)] else [] | S n' => alt r n' end end) ts i)
  | TStruct fs, VStruct vs | TComposite fs, VStruct vs | TPtr fs, VPtr vs => TrObj
      ((fix fields (l : list (name * ty)) (ws : list value) {struct l} : list (name * tree) :=
         match l, ws with (n, t') :: r, w :: ws' => (if present t' w then [(n, enc t' w)] else []) ++ fields r ws' | _, _ => [] end) fs vs)
  | _, _ => TrNull
  end.

Fixpoint ser_fields (l : list (name * ty)) (ws : list value) {struct l} : list ev :=
  match l, ws with (n, t') :: r, w :: ws' => ser (Some n) t' w ++ ser_fields r ws' | _, _ => [] end.
Fixpoint enc_fields (l : list (name * ty)) (ws : list value) {struct l} : list (name * tree) :=
  match l, ws with (n, t') :: r, w :: ws' => (if present t' w then [(n, enc t' w)] else []) ++ enc_fields r ws' | _, _ => [] end.
Definition ser_alt (w : value) := fix alt (l : list ty) (n : nat) {struct l} : list ev :=
  match l with [] => [] | t' :: r => match n with O => ser (Some s_obj) t' w | S n' => alt r n' end end.
Definition enc_alt (w : value) := fix alt (l : list ty) (n : nat) {struct l} : list (name * tree) :=
  match l with [] => [] | t' :: r => match n with O => if present t' w then [(s_obj, enc t' w)] else [] | S n' => alt r n' end end.

Lemma ser_struct : forall nm fs vs, ser nm (TStruct fs) (VStruct vs) = pre nm ++ [EBeginObject] ++ ser_fields fs vs ++ [EEndObject].
Proof. reflexivity. Qed.
Lemma ser_composite : forall nm fs vs, ser nm (TComposite fs) (VStruct vs) = pre nm ++ [EBeginObject] ++ ser_fields fs vs ++ [EEndObject].
Proof. reflexivity. Qed.
Lemma ser_ptr : forall nm fs vs, ser nm (TPtr fs) (VPtr vs) = pre nm ++ [EBeginObject] ++ ser_fields fs vs ++ [EEndObject].
Proof. reflexivity. Qed.
Lemma ser_variant : forall nm ts i w, ser nm (TVariant ts) (VVariant i w) =
  pre nm ++ [EBeginObject; EName s_index; EInt (to_s64 (Z.of_nat i))] ++ ser_alt w ts i ++ [EEndObject].
Proof. reflexivity. Qed.
Lemma enc_struct : forall fs vs, enc (TStruct fs) (VStruct vs) = TrObj (enc_fields fs vs).
Proof. reflexivity. Qed.
Lemma enc_composite : forall fs vs, enc (TComposite fs) (VStruct vs) = TrObj (enc_fields fs vs).
Proof. reflexivity. Qed.
Lemma enc_ptr : forall fs vs, enc (TPtr fs) (VPtr vs) = TrObj (enc_fields fs vs).
Proof. reflexivity. Qed.
Lemma enc_variant : forall ts i w, enc (TVariant ts) (VVariant i w) = TrObj ((s_index, TrInt (to_s64 (Z.of_nat i))) :: enc_alt w ts i).
Proof. reflexivity. Qed.

(* ------------------------------------------------------------------ the sink *)
Lemma run_app : forall a b st, run (a ++ b) st = match run a st with Some st' => run b st' | None => None end.
Proof. induction a as [|e a IH]; intros b st; cbn [run app]; [reflexivity|]. destruct (step e st); [apply IH|reflexivity]. Qed.

Section Sink.
  Variable less : value -> value -> bool.

  Definition wrote (nm : option name) (x : tree) (evs : list ev) : Prop :=
    forall st, match nm with
               | None => run evs st = put x st
               | Some n => forall l s, st = FObj l None :: s -> run evs st = Some (FObj ((n, x) :: l) None :: s)
               end.

  Lemma wrote_pre : forall nm x body, (forall st, run body st = put x st) -> wrote nm x (pre nm ++ body).
  Proof.
    intros [n|] x body H st; cbn [pre app].
    - intros l s ->. cbn [run step]. rewrite H. reflexivity.
    - apply H.
  Qed.

  Lemma run_list : forall (evs : list (list ev)) (xs : list tree),
    Forall2 (fun e x => wrote None x e) evs xs ->
    forall l st, run (concat evs) (FList l :: st) = Some (FList (rev xs ++ l) :: st).
  Proof.
    induction 1 as [|e x evs xs H Hr IH]; intros l st; cbn [concat rev app]; [reflexivity|].
    rewrite run_app. rewrite (H (FList l :: st)). cbn [put]. rewrite IH, <- app_assoc. reflexivity.
  Qed.

  Lemma wrote_list : forall nm evs xs, Forall2 (fun e x => wrote None x e) evs xs ->
    wrote nm (TrList xs) (pre nm ++ [EBeginList] ++ concat evs ++ [EEndList]).
  Proof.
    intros nm evs xs H. apply wrote_pre. intros st. cbn [app run step]. rewrite run_app, (run_list _ _ H), app_nil_r.
    cbn [run step]. rewrite rev_involutive. destruct (put (TrList xs) st); reflexivity.
  Qed.

  Definition wrote_prop (n : name) (t : ty) (v : value) : Prop :=
    if present t v then wrote (Some n) (enc t v) (ser (Some n) t v) else ser (Some n) t v = [].

  Lemma run_prop : forall n t v l s, wrote_prop n t v ->
    run (ser (Some n) t v) (FObj l None :: s) = Some (FObj ((if present t v then [(n, enc t v)] else []) ++ l) None :: s).
  Proof.
    intros n t v l s H. unfold wrote_prop in H. destruct (present t v).
    - exact (H _ _ _ eq_refl).
    - rewrite H. reflexivity.
  Qed.

  Lemma run_fields : forall fs vs, Forall2 (fun f v => wrote_prop (fst f) (snd f) v) fs vs ->
    forall l s, run (ser_fields fs vs) (FObj l None :: s) = Some (FObj (rev (enc_fields fs vs) ++ l) None :: s).
  Proof.
    induction 1 as [|[n t] v fs vs H Hr IH]; intros l s; cbn [ser_fields enc_fields]; [reflexivity|].
    rewrite run_app, (run_prop _ _ _ _ _ H), IH. cbn [fst snd] in *. rewrite rev_app_distr.
    destruct (present t v); cbn [rev app]; rewrite <- ?app_assoc; reflexivity.
  Qed.

  Lemma wrote_fields : forall nm fs vs, Forall2 (fun f v => wrote_prop (fst f) (snd f) v) fs vs ->
    wrote nm (TrObj (enc_fields fs vs)) (pre nm ++ [EBeginObject] ++ ser_fields fs vs ++ [EEndObject]).
  Proof.
    intros nm fs vs H. apply wrote_pre. intros st. cbn [app run step]. rewrite run_app, (run_fields _ _ H), app_nil_r.
    cbn [run step]. rewrite rev_involutive. destruct (put _ st); reflexivity.
  Qed.

  Definition Q (t : ty) : Prop := forall v, typed less t v -> readable t ->
    wrote None (enc t v) (ser None t v) /\ forall n, wrote_prop n t v.

  Lemma wrote_none : forall n t w, readable t -> wrote_prop n t w -> present t w = false -> exists t', t = TOpt t'.
  Proof. intros n t w Hr _ Hp. destruct t; cbn in Hp; try discriminate; [eauto|inversion Hr]. Qed.

  Lemma Q_simple : forall t v, present t v = true -> (forall nm, wrote nm (enc t v) (ser nm t v)) ->
    wrote None (enc t v) (ser None t v) /\ forall n, wrote_prop n t v.
  Proof. intros t v Hp H. split; [apply H|]. intros n. unfold wrote_prop. rewrite Hp. apply H. Qed.

  Lemma Forall2_map_map : forall (A B C : Type) (R : B -> C -> Prop) (f : A -> B) (g : A -> C) l,
    Forall (fun a => R (f a) (g a)) l -> Forall2 R (map f l) (map g l).
  Proof. induction 1; cbn; constructor; auto. Qed.

  Lemma fields_wrote : forall fs vs, Forall (fun f => Q (snd f)) fs -> Forall (fun f => readable (snd f)) fs ->
    Forall2 (fun f v => typed less (snd f) v) fs vs -> Forall2 (fun f v => wrote_prop (fst f) (snd f) v) fs vs.
  Proof.
    intros fs vs HQ HR HT. induction HT as [|f v fs vs H Hr IH]; [constructor|].
    inversion HQ; subst. inversion HR; subst. constructor; [|auto]. match goal with H : Q _ |- _ => apply H; assumption end.
  Qed.

  Lemma alt_wrote : forall ts i t v l s, nth_error ts i = Some t ->
    (t = TEmpty \/ (wrote None (enc t v) (ser None t v) /\ forall n, wrote_prop n t v)) ->
    run (ser_alt v ts i) (FObj l None :: s) = Some (FObj (enc_alt v ts i ++ l) None :: s).
  Proof.
    induction ts as [|t0 ts IH]; intros [|i] t v l s Hn H; cbn [nth_error] in Hn; try discriminate.
    - injection Hn as ->. cbn [ser_alt enc_alt]. destruct H as [->|[_ H]].
      + cbn [present]. destruct v; reflexivity.
      + rewrite (run_prop _ _ _ _ _ (H s_obj)). reflexivity.
    - cbn [ser_alt enc_alt]. exact (IH i t v l s Hn H).
  Qed.

  Lemma enc_alt_short : forall ts i v, exists x, enc_alt v ts i = x /\ rev x = x.
  Proof.
    induction ts as [|t ts IH]; intros [|i] v; cbn [enc_alt]; try (eexists; split; [reflexivity|reflexivity]).
    - destruct (present t v); eexists; split; reflexivity.
    - apply IH.
  Qed.

  Lemma Q_all : forall t, Q t.
  Proof.
    apply ty_ind2; unfold Q.
    - intros v Ht _. inversion Ht; subst. apply Q_simple; [reflexivity|]. intros nm. cbn [ser enc]. apply wrote_pre. intros st. cbn [run step].
      destruct (put _ st); reflexivity.
    - intros s n v Ht _. inversion Ht; subst; (apply Q_simple; [reflexivity|]; intros nm; cbn [ser enc]; apply wrote_pre; intros st; cbn [run step];
      destruct (put _ st); reflexivity).
    - intros v Ht _. inversion Ht; subst. apply Q_simple; [reflexivity|]. intros nm. cbn [ser enc]. apply wrote_pre. intros st. cbn [run step].
      destruct (put _ st); reflexivity.
    - intros v Ht _. inversion Ht; subst. apply Q_simple; [reflexivity|]. intros nm. cbn [ser enc]. apply wrote_pre. intros st. cbn [run step].
      destruct (put _ st); reflexivity.
    - intros t IH v Ht Hr. inversion Hr; subst. inversion Ht; subst.
      + split.
        * cbn [ser enc]. intros st. cbn [run step]. destruct (put _ st); reflexivity.
        * intros n. unfold wrote_prop. reflexivity.
      + cbn [ser enc]. destruct (IH v0) as [A B]; [assumption..|]. split; [exact A|]. intros n. specialize (B n). unfold wrote_prop in *.
        cbn [present]. exact B.
    - intros t IH v Ht Hr. inversion Hr; subst. inversion Ht; subst. apply Q_simple; [reflexivity|]. intros nm. cbn [ser enc].
      rewrite flat_map_concat_map. apply wrote_list. apply Forall2_map_map. eapply Forall_impl; [|eassumption]. intros a Ha. apply IH; assumption.
    - intros t IH v Ht Hr. inversion Hr; subst. inversion Ht; subst. apply Q_simple; [reflexivity|]. intros nm. cbn [ser enc].
      rewrite flat_map_concat_map. apply wrote_list. apply Forall2_map_map. eapply Forall_impl; [|eassumption]. intros a Ha. apply IH; assumption.
    - intros k t IHk IHt v Ht Hr. inversion Hr; subst. inversion Ht as [| | | | | | | | |k' t' ks vs Hk Hv Hl Hi| | | | | | |]; subst. apply Q_simple; [reflexivity|]. intros nm. cbn [ser enc].
      rewrite flat_map_concat_map. apply wrote_list. rewrite !map_map. apply Forall2_map_map. cbn [fst snd].
      clear Hi Ht Hr. revert vs Hv Hl. induction Hk as [|x ks Hx Hk IH]; intros [|y vs] Hv Hl; cbn [combine]; try constructor; try discriminate.
      + cbn [fst snd]. inversion Hv; subst.
        replace ([EBeginList] ++ ser None k x ++ ser None t y ++ [EEndList]) with (pre None ++ [EBeginList] ++ concat [ser None k x; ser None t y] ++ [EEndList])
          by (cbn [concat pre app]; rewrite app_nil_r, <- app_assoc; reflexivity).
        apply wrote_list. constructor; [apply IHk; assumption|]. constructor; [apply IHt; assumption|constructor].
      + inversion Hv; subst. apply IH; [assumption|cbn in Hl; lia].
    - intros a b IHa IHb v Ht Hr. inversion Hr; subst. inversion Ht as [| | | | | | | | | |a' b' x y Hx Hy| | | | | |]; subst. apply Q_simple; [reflexivity|]. intros nm. cbn [ser enc].
      replace ([EBeginList] ++ ser None a x ++ ser None b y ++ [EEndList]) with ([EBeginList] ++ concat [ser None a x; ser None b y] ++ [EEndList])
          by (cbn [concat app]; rewrite app_nil_r, <- app_assoc; reflexivity).
      apply wrote_list. constructor; [apply IHa; assumption|]. constructor; [apply IHb; assumption|constructor].
    - intros v _ Hr. inversion Hr.
    - intros ts IH v Ht Hr. inversion Hr; subst. inversion Ht as [| | | | | | | | | | | |ts' i t w Hn Hw| | | |]; subst. apply Q_simple; [reflexivity|]. intros nm.
      rewrite ser_variant, enc_variant. apply wrote_pre. intros st. cbn [app run step put].
      rewrite run_app. rewrite (alt_wrote ts i t w _ _ Hn).
      + cbn [run step]. rewrite rev_app_distr. cbn [rev app]. destruct (enc_alt_short ts i w) as [x [Ex Rx]]. rewrite Ex, Rx.
        destruct (put _ st); reflexivity.
      + assert (Hin : In t ts) by (eapply nth_error_In; eassumption). rewrite Forall_forall in *.
        match goal with H : forall x, In x ts -> x = TEmpty \/ _ |- _ => destruct (H _ Hin) as [?|Hrd]; [left; assumption|right] end.
        apply IH; assumption.
    - intros fs IH v Ht Hr. inversion Hr; subst. inversion Ht; subst. apply Q_simple; [reflexivity|]. intros nm. rewrite ser_struct, enc_struct.
      apply wrote_fields. apply fields_wrote; assumption.
    - intros fs IH v Ht Hr. inversion Hr; subst. inversion Ht; subst. apply Q_simple; [reflexivity|]. intros nm. rewrite ser_composite, enc_composite.
      apply wrote_fields. apply fields_wrote; assumption.
    - intros fs IH v Ht Hr. inversion Hr; subst. inversion Ht; subst; (apply Q_simple; [reflexivity|]); intros nm.
      + cbn [ser enc]. apply wrote_pre. intros st. cbn [run step]. destruct (put _ st); reflexivity.
      + rewrite ser_ptr, enc_ptr. apply wrote_fields. apply fields_wrote; assumption.
  Qed.

  Lemma document_ser : forall t v, readable t -> typed less t v -> document (ser None t v) = Some (enc t v).
  Proof. intros t v Hr Ht. unfold document. destruct (Q_all t v Ht Hr) as [H _]. rewrite (H [FRoot None]). reflexivity. Qed.
End Sink.
