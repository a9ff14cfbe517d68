From Coq Require Import List Bool Arith Lia Permutation.
From Verif Require Import Conc TxEnumModel ObtainModel ObtainSpec.
Import ListNotations.
Local Open Scope nat_scope.

Section A.
Variable A : Type.
Notation pop r := (populate (option A) A (value_slot A) r).
Lemma pop_set v l : forall h own, pop true (Some v) h l own = mk_sent (Some v) (h + length l) own.
Proof. induction l as [|a l IH]; intros h own; cbn; [f_equal; lia|]. rewrite IH. f_equal. lia. Qed.
Lemma pop_values l : forall h own, pop true None h l own = mk_sent (hd_error l) (h + (length l - 1)) own.
Proof. destruct l as [|a l]; intros h own; cbn; [f_equal; lia|]. rewrite pop_set. f_equal. lia. Qed.
Lemma pop_collect r l : forall s h own, populate (list A) A (collect_slot A) r s h l own = mk_sent (s ++ l) h own.
Proof. induction l as [|a l IH]; intros s h own; cbn; [now rewrite app_nil_r|]. rewrite IH, <- app_assoc. reflexivity. Qed.
Lemma pop_op_true l : forall s h own, exists h',
  populate (list A) (cop * A) (collect_op_slot A) true s h l own = mk_sent (s ++ added l) h' own /\ h' + length (added l) = h + length l.
Proof.
  induction l as [|[o a] l IH]; intros s h own; cbn [populate].
  - exists h. cbn. rewrite app_nil_r. auto.
  - unfold collect_op_slot at 1. cbn [fst snd]. destruct o; cbn [added flat_map fst snd].
    + destruct (IH (s ++ [a]) h own) as (h' & E & L). exists h'. rewrite E. rewrite <- app_assoc. cbn [app length]. unfold added in L. split; [reflexivity|]. cbn. lia.
    + destruct (IH s (h + 1) own) as (h' & E & L). exists h'. rewrite E. split; [reflexivity|]. unfold added in L. cbn [app length]. lia.
    + destruct (IH s (h + 1) own) as (h' & E & L). exists h'. rewrite E. split; [reflexivity|]. unfold added in L. cbn [app length]. lia.
Qed.
Lemma pop_op_adds l : forall s h own, only_adds l ->
  populate (list A) (cop * A) (collect_op_slot A) false s h l own = mk_sent (s ++ map snd l) h own.
Proof.
  induction l as [|[o a] l IH]; intros s h own H; cbn [populate].
  - cbn. now rewrite app_nil_r.
  - assert (E : o = OpAdded) by exact (H (o, a) (or_introl eq_refl)). subst o. unfold collect_op_slot at 1. cbn [fst snd]. rewrite IH; [|intros c Hc; apply H; right; exact Hc].
    rewrite <- app_assoc. reflexivity.
Qed.
Lemma pop_op_other l : forall s h own, ~ only_adds l ->
  thrown (populate (list A) (cop * A) (collect_op_slot A) false s h l own) = true.
Proof.
  induction l as [|[o a] l IH]; intros s h own H; cbn [populate].
  - exfalso. apply H. intros c [].
  - unfold collect_op_slot at 1. cbn [fst snd]. destruct o; [|reflexivity|reflexivity]. apply IH. intros N. apply H. intros c [<-|Hc]; [reflexivity|exact (N c Hc)].
Qed.
End A.

Section B.
Variables V E : Type.
Notation ast := (ast V E).
Notation astep := (@astep V E).

Definition resultof (s : ast) : option (outcome V E) :=
  match first_outcome (calls s) with
  | Some o => Some o
  | None => match copies s, caller_at s with 0, CDone => Some Broken | _, _ => None end
  end.
Record ainv (s : ast) : Prop := {
  ai_res : result s = resultof s;
  ai_run : running s <= copies s;
  ai_esc : escaped s = others (calls s);
  ai_ret : retrieved s = match caller_at s with CDone => true | _ => false end;
  ai_start : caller_at s = CStart \/ caller_at s = CMade -> copies s = 0 /\ calls s = [] }.

Lemma first_snoc (l : list (called V E)) c : first_outcome (l ++ [c]) =
  match first_outcome l with Some o => Some o | None => first_outcome [c] end.
Proof. induction l as [|x l IH]; [reflexivity|]. destruct x; cbn [first_outcome app]; try reflexivity. exact IH. Qed.
Lemma others_snoc (l : list (called V E)) c : others (l ++ [c]) = others l + match c with ThrewOther => 1 | _ => 0 end.
Proof. unfold others. rewrite filter_app, app_length. destruct c; reflexivity. Qed.

Lemma ainv_init : ainv (ainit V E).
Proof. split; cbn; auto. Qed.
Lemma ainv_step s l s' : ainv s -> astep s l = Some s' -> ainv s'.
Proof.
  intros [R N X T S0] H. destruct s as [res ca rt cp rn cs es]. unfold resultof, holds_task in *. cbn [result caller_at retrieved copies running calls escaped] in *.
  destruct l as [| | | | | |o]; cbn [ObtainModel.astep result caller_at retrieved copies running calls escaped] in H.
  - destruct ca; try discriminate. injection H as <-. split; cbn; auto.
  - destruct ca; try discriminate. injection H as <-. destruct (S0 (or_intror eq_refl)) as [-> ->]. split; unfold resultof; cbn [result caller_at retrieved copies running calls escaped]; auto; try lia. intros [Q|Q]; discriminate.
  - destruct ca; try discriminate. subst rt. injection H as <-. unfold release. cbn [result caller_at retrieved copies running calls escaped].
    destruct cp as [|cp]; split; unfold resultof; cbn [result caller_at retrieved copies running calls escaped]; auto; try (intros [Q|Q]; discriminate).
    subst res. destruct (first_outcome cs); reflexivity.
  - unfold holds_task in H. cbn in H. destruct cp as [|cp]; [discriminate|]. injection H as <-. split; unfold resultof; cbn [result caller_at retrieved copies running calls escaped]; auto; try lia;
      try (subst res; destruct (first_outcome cs); reflexivity); try (intros Q; specialize (S0 Q); destruct S0; discriminate).
  - unfold holds_task in H. cbn [running copies] in H. destruct (rn <? cp) eqn:L; [|discriminate]. apply Nat.ltb_lt in L. injection H as <-.
    destruct cp as [|cp]; [lia|]. replace (S cp - 1) with cp by lia. unfold release. cbn [result caller_at retrieved copies running calls escaped].
    destruct cp as [|cp], ca; split; unfold resultof; cbn [result caller_at retrieved copies running calls escaped]; auto; try lia; try (subst res; destruct (first_outcome cs); reflexivity);
      try (intros Q; specialize (S0 Q); destruct S0; discriminate).
  - unfold holds_task in H. cbn [running copies] in H. destruct (rn <? cp) eqn:L; [|discriminate]. apply Nat.ltb_lt in L. injection H as <-.
    split; unfold resultof; cbn [result caller_at retrieved copies running calls escaped]; auto; try lia.
  - destruct (0 <? rn) eqn:L; [|discriminate]. apply Nat.ltb_lt in L. injection H as <-. destruct cp as [|cp]; [lia|].
    assert (Z : ca = CStart \/ ca = CMade -> False) by (intros Q; destruct (S0 Q); discriminate).
    destruct o as [v|e|]; split; unfold resultof; cbn [result caller_at retrieved copies running calls escaped]; try (rewrite first_snoc); try (rewrite others_snoc); auto; try lia; try tauto;
      subst res; destruct (first_outcome cs); reflexivity.
Qed.
Lemma ainv_reach ls s : steps astep (ainit V E) ls s -> ainv s.
Proof. intros H. exact (@steps_inv _ _ astep ainv ainv_step _ ls s ainv_init H). Qed.

Lemma ares_stays s l s' r : caller_at s <> CStart -> astep s l = Some s' -> result s = Some r -> result s' = Some r.
Proof.
  intros C H R. destruct s as [res ca rt cp rn cs es]. cbn [result caller_at] in *. subst res.
  destruct l as [| | | | | |o]; cbn [ObtainModel.astep result caller_at retrieved copies running calls escaped] in H.
  - destruct ca; [congruence| | |]; discriminate.
  - destruct ca; try discriminate. injection H as <-. reflexivity.
  - destruct ca; try discriminate. destruct rt; [discriminate|]. injection H as <-. unfold release. cbn. destruct cp; reflexivity.
  - destruct (0 <? cp); [|discriminate]. injection H as <-. reflexivity.
  - destruct (holds_task _); [|discriminate]. injection H as <-. unfold release. cbn. destruct (cp - 1), ca; reflexivity.
  - destruct (holds_task _); [|discriminate]. injection H as <-. reflexivity.
  - destruct (0 <? rn); [|discriminate]. injection H as <-. destruct o; reflexivity.
Qed.
Lemma caller_stays s l s' : caller_at s <> CStart -> astep s l = Some s' -> caller_at s' <> CStart.
Proof.
  intros C H. destruct s as [res ca rt cp rn cs es]. cbn [caller_at] in *.
  destruct l as [| | | | | |o]; cbn [ObtainModel.astep result caller_at retrieved copies running calls escaped] in H.
  - destruct ca; [congruence| | |]; discriminate.
  - destruct ca; try discriminate. injection H as <-. discriminate.
  - destruct ca; try discriminate. destruct rt; [discriminate|]. injection H as <-. unfold release. cbn. destruct cp; discriminate.
  - destruct (0 <? cp); [|discriminate]. injection H as <-. exact C.
  - destruct (holds_task _); [|discriminate]. injection H as <-. unfold release. cbn. destruct (cp - 1), ca; cbn; congruence.
  - destruct (holds_task _); [|discriminate]. injection H as <-. exact C.
  - destruct (0 <? rn); [|discriminate]. injection H as <-. destruct o; exact C.
Qed.
Lemma ares_stays_all s ls s' r : caller_at s <> CStart -> steps astep s ls s' -> result s = Some r -> result s' = Some r.
Proof.
  intros C H. revert C. induction H as [s|s l s1 ls s2 H1 H2 IH]; intros C R; [exact R|].
  apply IH; [exact (caller_stays _ _ _ C H1)|exact (ares_stays _ _ _ _ C H1 R)].
Qed.
End B.

Section C.
Variable V : Type.
Notation wst := (wst V).
Notation wstep := (@wstep V).

Record winv (s : wst) : Prop := {
  wi_res : wresult s = match wsets s with v :: _ => Some (Some v) | [] => match wphase s with Gone => Some None | _ => None end end;
  wi_hand : whandled s = length (wsets s) - 1;
  wi_dang : dangling s = false;
  wi_ref : wrefused s = false;
  wi_tak : wtaken s = wretrieved s;
  wi_in : wphase s = Disconnected \/ wphase s = Gone \/ wphase s = Building -> entered s = [] /\ leaving s = 0 }.

Lemma winv_init : winv (winit V).
Proof. split; cbn; auto. Qed.
Lemma winv_step s l s' : winv s -> wstep s l = Some s' -> winv s'.
Proof.
  intros [R N X T S0 I] H. destruct s as [res ph en lv st hd tk rt rf dg]. cbn [wresult wphase entered leaving wsets whandled wtaken wretrieved wrefused dangling] in *.
  subst dg rf tk hd. destruct l as [v| |v|i| | | | |]; cbn [ObtainModel.wstep wresult wphase entered leaving wsets whandled wtaken wretrieved wrefused dangling] in H.
  - destruct ph; try discriminate. injection H as <-. unfold do_set. split; cbn [wresult wphase entered leaving wsets whandled wtaken wretrieved wrefused dangling]; auto.
    + subst res. destruct st; reflexivity.
    + rewrite app_length. subst res. destruct st; cbn; lia.
  - destruct ph; try discriminate. injection H as <-. split; cbn; auto; try (intros [Q|[Q|Q]]; discriminate).
  - destruct ph; injection H as <-; split; cbn; auto; try (intros [Q|[Q|Q]]; discriminate).
  - destruct (nth_error en i) as [v|] eqn:E; [|discriminate]. injection H as <-.
    assert (P : ~ (ph = Disconnected \/ ph = Gone \/ ph = Building)). { intros Q. destruct (I Q) as [-> _]. destruct i; discriminate. }
    unfold do_set. split; cbn [wresult wphase entered leaving wsets whandled wtaken wretrieved wrefused dangling]; auto; try tauto.
    + subst res. destruct st; [|reflexivity]. destruct ph; try reflexivity. tauto.
    + rewrite app_length. subst res. destruct st; cbn; [destruct ph; try reflexivity; tauto|lia].
    + destruct ph; try reflexivity. tauto.
  - destruct (0 <? lv) eqn:L; [|discriminate]. apply Nat.ltb_lt in L. injection H as <-. split; cbn; auto. intros Q. destruct (I Q). lia.
  - destruct ph; try discriminate. injection H as <-. destruct rt; split; cbn; auto; try (intros [Q|[Q|Q]]; discriminate).
  - destruct ph; try discriminate. injection H as <-. split; cbn; auto; try (intros [Q|[Q|Q]]; discriminate).
  - destruct ph; try discriminate. destruct en; [|discriminate]. destruct lv; [|discriminate]. injection H as <-. split; cbn; auto.
  - destruct ph; try discriminate. injection H as <-. split; cbn; auto. subst res. destruct st; reflexivity.
Qed.
Lemma winv_reach ls s : steps wstep (winit V) ls s -> winv s.
Proof. intros H. exact (@steps_inv _ _ wstep winv winv_step _ ls s winv_init H). Qed.

Lemma rem_perm (l : list V) i v : nth_error l i = Some v -> Permutation l (v :: firstn i l ++ skipn (S i) l).
Proof.
  revert i. induction l as [|x l IH]; intros [|i] H; try discriminate.
  - cbn in H. injection H as ->. reflexivity.
  - change (skipn (S (S i)) (x :: l)) with (skipn (S i) l). cbn [firstn app]. rewrite (IH i H) at 1. apply perm_swap.
Qed.
Definition enters (l : wlab V) : list V := match l with WEnter v => [v] | _ => [] end.
Lemma nothing_lost s ls s' : wphase s = Alive -> ~ In WRelease ls -> steps wstep s ls s' ->
  Permutation (wsets s' ++ entered s') (wsets s ++ entered s ++ flat_map enters ls).
Proof.
  intros P N H. revert P N. induction H as [s|s l s1 ls s2 H1 H2 IH]; intros P N.
  - cbn. now rewrite app_nil_r.
  - destruct s as [res ph en lv st hd tk rt rf dg]. cbn [wresult wphase entered leaving wsets whandled wtaken wretrieved wrefused dangling] in *. subst ph.
    assert (N2 : ~ In WRelease ls) by (intros Q; apply N; right; exact Q).
    destruct l as [v| |v|i| | | | |]; cbn [ObtainModel.wstep wresult wphase entered leaving wsets whandled wtaken wretrieved wrefused dangling flat_map enters app] in *; try discriminate.
    + injection H1 as <-. rewrite IH; [|reflexivity|exact N2]. cbn [wsets entered]. rewrite <- app_assoc. reflexivity.
    + destruct (nth_error en i) as [v|] eqn:E; [|discriminate]. injection H1 as <-. rewrite IH; [|reflexivity|exact N2]. unfold do_set. cbn [wsets entered].
      rewrite <- !app_assoc. apply Permutation_app_head. rewrite !app_assoc. apply Permutation_app_tail. rewrite <- app_assoc. cbn [app].
      symmetry. exact (rem_perm en i v E).
    + destruct (0 <? lv); [|discriminate]. injection H1 as <-. rewrite IH; [|reflexivity|exact N2]. reflexivity.
    + injection H1 as <-. destruct tk; [|destruct rt]; (rewrite IH; [|reflexivity|exact N2]); reflexivity.
    + exfalso. apply N. left. reflexivity.
Qed.
End C.
