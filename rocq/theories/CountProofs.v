(** * Proofs about counting pointers *)
From Coq Require Import List Arith Bool ZArith Lia.
From Verif Require Import CountModel CountSpec.
Import ListNotations.

(** ** lists *)
Lemma upd_length {A} (l : list A) i x : length (upd l i x) = length l.
Proof.
  unfold upd. destruct (Nat.ltb_spec i (length l)); [|reflexivity].
  rewrite app_length, firstn_length. cbn [length]. rewrite skipn_length. lia.
Qed.
Lemma upd_split {A} (l1 l2 : list A) a x : upd (l1 ++ a :: l2) (length l1) x = l1 ++ x :: l2.
Proof.
  unfold upd. rewrite app_length. cbn [length]. destruct (Nat.ltb_spec (length l1) (length l1 + S (length l2))); [|lia].
  f_equal; [now rewrite firstn_app, Nat.sub_diag, firstn_all, app_nil_r|].
  f_equal. replace (S (length l1)) with (length (l1 ++ [a])) by (rewrite app_length; cbn; lia).
  replace (l1 ++ a :: l2) with ((l1 ++ [a]) ++ l2) by now rewrite <- app_assoc.
  now rewrite skipn_app, skipn_all, Nat.sub_diag.
Qed.
Lemma nth_error_upd {A} (l : list A) i x k : nth_error (upd l i x) k = if (Nat.eqb i k) && (i <? length l) then Some x else nth_error l k.
Proof.
  destruct (Nat.ltb_spec i (length l)) as [L|L].
  - destruct (nth_error l i) as [a|] eqn:E; [|apply nth_error_None in E; lia].
    apply nth_error_split in E. destruct E as (l1 & l2 & -> & <-). rewrite upd_split.
    destruct (Nat.eqb_spec (length l1) k) as [<-|N]; cbn.
    + rewrite nth_error_app2, Nat.sub_diag by lia. reflexivity.
    + destruct (Nat.lt_ge_cases k (length l1)).
      * rewrite !nth_error_app1 by lia. reflexivity.
      * rewrite !nth_error_app2 by lia. destruct (k - length l1) eqn:F; [lia|]. reflexivity.
  - unfold upd. destruct (Nat.ltb_spec i (length l)); [lia|]. now rewrite andb_false_r.
Qed.
Lemma nth_upd {A} (l : list A) i x k d : nth k (upd l i x) d = if (Nat.eqb i k) && (i <? length l) then x else nth k l d.
Proof.
  pose proof (nth_error_upd l i x k) as H. destruct ((Nat.eqb i k) && (i <? length l)).
  - now apply nth_error_nth.
  - destruct (nth_error l k) as [a|] eqn:E.
    + rewrite (nth_error_nth _ _ d H), (nth_error_nth _ _ d E). reflexivity.
    + apply nth_error_None in H, E. now rewrite !nth_overflow.
Qed.
Lemma sum_upd {A} (f : A -> nat) (l : list A) i a x : nth_error l i = Some a ->
  list_sum (map f (upd l i x)) + f a = list_sum (map f l) + f x.
Proof.
  intros E. apply nth_error_split in E. destruct E as (l1 & l2 & -> & <-). rewrite upd_split.
  rewrite !map_app, !list_sum_app. cbn [map list_sum fold_right]. change (fold_right plus 0 (map f l2)) with (list_sum (map f l2)). lia.
Qed.
Lemma sum_in {A} (f : A -> nat) (l : list A) i a : nth_error l i = Some a -> f a <= list_sum (map f l).
Proof.
  intros E. apply nth_error_split in E. destruct E as (l1 & l2 & -> & <-). rewrite !map_app, !list_sum_app. cbn [map list_sum fold_right]. lia.
Qed.
Lemma sum_in2 {A} (f : A -> nat) (l : list A) i k a b : i <> k -> nth_error l i = Some a -> nth_error l k = Some b -> f a + f b <= list_sum (map f l).
Proof.
  intros N E F. pose proof (sum_upd f l i a a E) as H1.
  apply nth_error_split in E. destruct E as (l1 & l2 & -> & <-).
  rewrite !map_app, !list_sum_app. cbn [map list_sum fold_right]. change (fold_right plus 0 (map f l2)) with (list_sum (map f l2)).
  destruct (Nat.lt_ge_cases k (length l1)).
  - rewrite nth_error_app1 in F by lia. apply (sum_in f) in F. lia.
  - rewrite nth_error_app2 in F by lia. destruct (k - length l1) eqn:G; [lia|]. cbn in F. apply (sum_in f) in F. lia.
Qed.
Lemma sum_zero {A} (f : A -> nat) (l : list A) : (forall a, In a l -> f a = 0) -> list_sum (map f l) = 0.
Proof.
  induction l as [|a l IH]; intros H; [reflexivity|]. change (list_sum (map f (a :: l))) with (f a + list_sum (map f l)).
  rewrite (H a) by (cbn; auto). rewrite IH; [reflexivity|]. intros b Hb. apply H. cbn; auto.
Qed.
Lemma sum_pos {A} (f : A -> nat) (l : list A) : 0 < list_sum (map f l) -> exists a, In a l /\ 0 < f a.
Proof.
  induction l as [|a l IH]; [cbn; lia|]. change (list_sum (map f (a :: l))) with (f a + list_sum (map f l)). intros H. destruct (f a) eqn:E.
  - destruct IH as (b & Hb & P); [exact H|]. exists b. cbn; auto.
  - exists a. split; [cbn; auto|lia].
Qed.

(** ** references *)
Definition one (o : obj) (p : ptr) : nat := refs o [p].
Lemma refs_app o l m : refs o (l ++ m) = refs o l + refs o m.
Proof. unfold refs. now rewrite filter_app, app_length. Qed.
Lemma refs_cons o p l : refs o (p :: l) = one o p + refs o l.
Proof. change (p :: l) with ([p] ++ l). apply refs_app. Qed.
Lemma refs_nil o : refs o [] = 0. Proof. reflexivity. Qed.
Lemma one_none o : one o None = 0. Proof. reflexivity. Qed.
Lemma one_same o : one o (Some o) = 1. Proof. unfold one, refs. cbn. now rewrite Nat.eqb_refl. Qed.
Lemma one_other o q : o <> q -> one o (Some q) = 0.
Proof. intros N. unfold one, refs. cbn. now destruct (Nat.eqb_spec o q). Qed.
Lemma one_some o q : one o (Some q) = if Nat.eqb o q then 1 else 0.
Proof. unfold one, refs. cbn. now destruct (Nat.eqb o q). Qed.
Lemma refs_upd o l i p : i < length l -> refs o (upd l i p) + one o (nth i l None) = refs o l + one o p.
Proof.
  intros L. destruct (nth_error l i) as [a|] eqn:E; [|apply nth_error_None in E; lia].
  assert (X : nth i l None = a) by (now apply nth_error_nth). rewrite X. clear X. apply nth_error_split in E. destruct E as (l1 & l2 & -> & <-). rewrite upd_split.
  rewrite !refs_app, !refs_cons. lia.
Qed.
Lemma refs_in o l : In (Some o) l <-> 0 < refs o l.
Proof.
  induction l as [|p l IH]; [cbn; split; [tauto|lia]|]. rewrite refs_cons. cbn [In]. split.
  - intros [->|H]; [rewrite one_same; lia|]. apply IH in H. lia.
  - intros H. destruct p as [q|]; [|rewrite one_none in H; right; apply IH; lia].
    rewrite one_some in H. destruct (Nat.eqb_spec o q) as [->|N]; [auto|right; apply IH; lia].
Qed.
Lemma refs_repeat o n : refs o (repeat None n) = 0.
Proof. induction n; [reflexivity|]. cbn [repeat]. rewrite refs_cons, one_none. exact IHn. Qed.
Lemma refs_held_drop o p : refs o (flat_map held_by (drop p)) = one o p.
Proof. destruct p; reflexivity. Qed.
Lemma refs_held_drops o l : refs o (flat_map held_by (flat_map drop (rev l))) = refs o l.
Proof.
  induction l as [|p l IH]; [reflexivity|]. cbn [rev]. rewrite flat_map_app, flat_map_app, refs_app, IH, refs_cons.
  cbn [flat_map]. rewrite app_nil_r, refs_held_drop. lia.
Qed.

Definition deletes1 (o : obj) (m : list micro) : nat := length (filter (fun x => match x with MDelete q => Nat.eqb o q | _ => false end) m).
Definition deletes (s : state) (o : obj) : nat := list_sum (map (fun th => deletes1 o (todo th)) (threads s)).
Lemma deletes1_app o l m : deletes1 o (l ++ m) = deletes1 o l + deletes1 o m.
Proof. unfold deletes1. now rewrite filter_app, app_length. Qed.
Lemma deletes1_drop o p : deletes1 o (drop p) = 0. Proof. destruct p; reflexivity. Qed.
Lemma deletes1_drops o l : deletes1 o (flat_map drop l) = 0.
Proof. induction l as [|p l IH]; [reflexivity|]. cbn [flat_map]. now rewrite deletes1_app, deletes1_drop. Qed.

Definition tself (o : obj) (th : thread) : nat := refs o (vars th) + refs o (flat_map held_by (todo th)).
Definition hself (o : obj) (x : object) : nat := refs o (members x).
Lemma owners_eq s o : owners s o = list_sum (map (tself o) (threads s)) + list_sum (map (hself o) (heap s)).
Proof. reflexivity. Qed.

(** ** the invariant *)
Definition place_ok (s : state) (vs : list ptr) (p : place) : Prop :=
  match p with PVar i => i < length vs | PMember o f => In (Some o) vs /\ f < length (members (the s o)) end.
Definition is_release (m : micro) : Prop := match m with MDec _ | MDelete _ => True | _ => False end.
Definition shape (s : state) (th : thread) : Prop :=
  match todo th with
  | MCopy to o :: r => r = [] /\ In (Some o) (vars th) /\ place_ok s (vars th) to
  | MSet to p :: r => r = [] /\ place_ok s (vars th) to
  | l => Forall is_release l
  end.

Record Inv (s : state) : Prop := {
  i_alive : forall o, alive (the s o) = true ->
    cnt (the s o) = Z.of_nat (owners s o) /\ deletes s o = (if Nat.eqb (owners s o) 0 then 1 else 0);
  i_dead : forall o, alive (the s o) = false -> owners s o = 0 /\ deletes s o = 0 /\ members (the s o) = [];
  i_log : NoDup (deleted s) /\ forall o, In o (deleted s) <-> o < length (heap s) /\ alive (the s o) = false;
  i_todo : forall t th, nth_error (threads s) t = Some th -> shape s th;
  i_bad : bad s = false }.

Lemma alive_lt s o : alive (the s o) = true -> o < length (heap s).
Proof.
  intros H. destruct (Nat.lt_ge_cases o (length (heap s))); [assumption|]. unfold the in H. rewrite nth_overflow in H by assumption. discriminate.
Qed.
Lemma the_nth_error s o : o < length (heap s) -> nth_error (heap s) o = Some (the s o).
Proof. intros H. unfold the. now apply nth_error_nth'. Qed.

Lemma owned_alive s o : Inv s -> 0 < owners s o -> alive (the s o) = true.
Proof. intros I H. destruct (alive (the s o)) eqn:E; [reflexivity|]. apply (i_dead s I) in E. lia. Qed.
Lemma tself_le s t th o : nth_error (threads s) t = Some th -> tself o th <= owners s o.
Proof. intros E. apply (sum_in (tself o)) in E. rewrite owners_eq. lia. Qed.
Lemma var_owned s t th o : nth_error (threads s) t = Some th -> In (Some o) (vars th) -> 0 < owners s o.
Proof. intros E H. apply refs_in in H. apply (tself_le _ _ _ o) in E. unfold tself in E. lia. Qed.
Lemma member_owned s p o : In (Some o) (members (the s p)) -> 0 < owners s o.
Proof.
  intros H. destruct (Nat.lt_ge_cases p (length (heap s))) as [L|L].
  - apply refs_in in H. pose proof (sum_in (hself o) _ _ _ (the_nth_error s p L)). rewrite owners_eq. unfold hself in *. lia.
  - unfold the in H. rewrite nth_overflow in H by assumption. destruct H.
Qed.
Lemma var_in th i o : var th i = Some o -> In (Some o) (vars th).
Proof.
  unfold var. intros H. destruct (Nat.lt_ge_cases i (length (vars th))) as [L|L].
  - rewrite <- H. now apply nth_In.
  - rewrite nth_overflow in H by assumption. discriminate.
Qed.

(** states that agree on the heap's objects for all that is owned have the same shapes *)
Lemma shape_mono s s' th : shape s th ->
  (forall o, In (Some o) (vars th) -> length (members (the s' o)) = length (members (the s o))) -> shape s' th.
Proof.
  unfold shape. intros H E. destruct (todo th) as [|[to o|to p|o|o] r]; auto.
  - destruct H as (-> & H1 & H2). split; [reflexivity|]. split; [assumption|]. destruct to as [i|q f]; cbn in *; [assumption|].
    destruct H2 as [H2 H3]. split; [assumption|]. rewrite E by assumption. assumption.
  - destruct H as (-> & H2). split; [reflexivity|]. destruct to as [i|q f]; cbn in *; [assumption|].
    destruct H2 as [H2 H3]. split; [assumption|]. rewrite E by assumption. assumption.
Qed.

Lemma inv_init ns : Inv (initial ns).
Proof.
  assert (Ht : forall th, In th (threads (initial ns)) -> todo th = [] /\ forall o, refs o (vars th) = 0).
  { intros th H. cbn in H. apply in_map_iff in H. destruct H as (n & <- & _). cbn. split; [reflexivity|]. intros o. apply refs_repeat. }
  assert (Ho : forall o, owners (initial ns) o = 0).
  { intros o. rewrite owners_eq. cbn [heap initial map list_sum fold_right]. rewrite sum_zero; [reflexivity|].
    intros th H. destruct (Ht th H) as [E1 E2]. unfold tself. rewrite E1, E2. reflexivity. }
  constructor.
  - intros o H. apply alive_lt in H. cbn in H. lia.
  - intros o _. split; [apply Ho|]. split.
    + apply sum_zero. intros th H. destruct (Ht th H) as [E1 _]. now rewrite E1.
    + cbn. now destruct o.
  - split; [constructor|]. intros o. cbn. split; [tauto|]. intros [H _]. lia.
  - intros t th H. apply nth_error_In in H. destruct (Ht th H) as [E1 _]. unfold shape. rewrite E1. constructor.
  - reflexivity.
Qed.

(** ** a step that changes thread t's record and the heap *)
Lemma the_upd h ths d b o x q : the (State (upd h o x) ths d b) q = if Nat.eqb o q && (o <? length h) then x else nth q h dead_object.
Proof. unfold the. cbn. apply nth_upd. Qed.

Definition mk (s : state) (t : nat) (th : thread) (h : list object) (d : list obj) : state := State h (upd (threads s) t th) d (bad s).

Lemma owners_mk s t th th' h d o : nth_error (threads s) t = Some th ->
  owners (mk s t th' h d) o + tself o th + list_sum (map (hself o) (heap s)) = owners s o + tself o th' + list_sum (map (hself o) h).
Proof.
  intros E. rewrite !owners_eq. cbn [mk threads heap]. pose proof (sum_upd (tself o) _ _ _ th' E). lia.
Qed.
Lemma deletes_mk s t th th' h d o : nth_error (threads s) t = Some th ->
  deletes (mk s t th' h d) o + deletes1 o (todo th) = deletes s o + deletes1 o (todo th').
Proof. intros E. unfold deletes. cbn [mk threads]. apply (sum_upd (fun th => deletes1 o (todo th)) _ _ _ th' E). Qed.
Lemma hsum_upd s o x q : alive (the s o) = true ->
  list_sum (map (hself q) (upd (heap s) o x)) + refs q (members (the s o)) = list_sum (map (hself q) (heap s)) + refs q (members x).
Proof. intros A. apply alive_lt in A. apply (sum_upd (hself q)). now apply the_nth_error. Qed.

Lemma i_todo_mk s t th th' h d : Inv s -> nth_error (threads s) t = Some th ->
  (forall o t2 th2, nth_error (threads s) t2 = Some th2 -> In (Some o) (vars th2) -> length (members (nth o h dead_object)) = length (members (the s o))) ->
  shape (mk s t th' h d) th' ->
  forall t2 th2, nth_error (threads (mk s t th' h d)) t2 = Some th2 -> shape (mk s t th' h d) th2.
Proof.
  intros I E M H t2 th2 E2. cbn [mk threads] in E2. rewrite nth_error_upd in E2.
  destruct (Nat.eqb t t2 && (t <? length (threads s))).
  - injection E2 as <-. exact H.
  - apply shape_mono with s; [now apply (i_todo s I t2)|]. intros o Ho. unfold the at 1. cbn [mk heap]. eauto.
Qed.

(** touching a live object changes nothing *)
Lemma touch_alive s o : alive (the s o) = true -> touch s o = s.
Proof. intros A. unfold touch. rewrite A. cbn. rewrite orb_false_r. now destruct s. Qed.

Lemma set_todo_mk s t th h d b m : nth_error (threads s) t = Some th -> bad s = b ->
  set_todo (State h (threads s) d b) t m = mk s t (Thread (vars th) m) h d.
Proof. intros E <-. unfold set_todo. cbn [threads]. rewrite E. reflexivity. Qed.
Lemma set_todo_mk0 s t th m : nth_error (threads s) t = Some th -> set_todo s t m = mk s t (Thread (vars th) m) (heap s) (deleted s).
Proof. intros E. destruct s. now apply (set_todo_mk (State _ _ _ _)). Qed.
Lemma set_thread_mk s t th' : set_thread s t th' = mk s t th' (heap s) (deleted s).
Proof. reflexivity. Qed.

(** the counters follow the owners *)
Lemma inv_mk s t th th' h d :
  Inv s -> nth_error (threads s) t = Some th ->
  length h = length (heap s) ->
  (forall o, alive (nth o h dead_object) = alive (the s o)) ->
  (forall o, length (members (nth o h dead_object)) = length (members (the s o))) ->
  d = deleted s ->
  (forall o, deletes1 o (todo th') = deletes1 o (todo th)) ->
  (forall o, alive (the s o) = true -> (cnt (nth o h dead_object) - cnt (the s o) = Z.of_nat (owners (mk s t th' h d) o) - Z.of_nat (owners s o))%Z) ->
  (forall o, owners s o = 0 -> owners (mk s t th' h d) o = 0) ->
  (forall o, owners s o > 0 -> owners (mk s t th' h d) o > 0) ->
  shape (mk s t th' h d) th' ->
  Inv (mk s t th' h d).
Proof.
  intros I E HL HA HM -> HD HC H0 H1 HS.
  assert (D : forall o, deletes (mk s t th' h (deleted s)) o = deletes s o).
  { intros o. pose proof (deletes_mk s t th th' h (deleted s) o E). rewrite HD in H. lia. }
  assert (Th : forall o, the (mk s t th' h (deleted s)) o = nth o h dead_object) by reflexivity.
  constructor.
  - intros o A. rewrite Th, HA in A. rewrite Th. destruct (i_alive s I o A) as [C1 C2]. specialize (HC o A). split; [lia|].
    rewrite D, C2. specialize (H0 o). specialize (H1 o).
    destruct (Nat.eqb_spec (owners s o) 0), (Nat.eqb_spec (owners (mk s t th' h (deleted s)) o) 0); lia.
  - intros o A. rewrite Th, HA in A. rewrite Th. destruct (i_dead s I o A) as (C1 & C2 & C3). split; [auto|]. split; [now rewrite D|].
    specialize (HM o). rewrite C3 in HM. now destruct (members (nth o h dead_object)).
  - destruct (i_log s I) as [L1 L2]. split; [exact L1|]. intros o. rewrite Th. cbn [mk heap]. rewrite HL, HA. apply L2.
  - apply (i_todo_mk s t th th' h (deleted s) I E); auto.
  - exact (i_bad s I).
Qed.

Lemma add_ref_alive s o : alive (the s o) = true ->
  add_ref s o = State (upd (heap s) o (Object (cnt (the s o) + 1) (members (the s o)) (alive (the s o)))) (threads s) (deleted s) (bad s).
Proof. intros A. unfold add_ref. rewrite (touch_alive s o A). reflexivity. Qed.

(** objects changed only in the counter *)
Lemma h_cnt s o c q : alive (the s o) = true ->
  let h := upd (heap s) o (Object c (members (the s o)) (alive (the s o))) in
  length h = length (heap s) /\ alive (nth q h dead_object) = alive (the s q) /\ members (nth q h dead_object) = members (the s q) /\
  cnt (nth q h dead_object) = (if Nat.eqb o q then c else cnt (the s q)) /\
  list_sum (map (hself q) h) = list_sum (map (hself q) (heap s)).
Proof.
  intros A h. unfold h. pose proof (alive_lt s o A) as L. split; [apply upd_length|].
  pose proof (hsum_upd s o (Object c (members (the s o)) (alive (the s o))) q A) as HS. cbn [members] in HS.
  rewrite nth_upd. apply Nat.ltb_lt in L. rewrite L, andb_true_r.
  destruct (Nat.eqb_spec o q) as [->|N]; cbn; repeat split; try lia; reflexivity.
Qed.

Lemma tself_eq o v m : tself o (Thread v m) = refs o v + refs o (flat_map held_by m). Proof. reflexivity. Qed.

Lemma inv_copy s t th to o r : Inv s -> nth_error (threads s) t = Some th -> todo th = MCopy to o :: r ->
  Inv (set_todo (add_ref s o) t (MSet to (Some o) :: r)).
Proof.
  intros I E T. pose proof (i_todo s I t th E) as Sh. unfold shape in Sh. rewrite T in Sh. destruct Sh as (-> & Hv & Hp).
  assert (Ow : 0 < owners s o) by (eapply var_owned; eauto). pose proof (owned_alive s o I Ow) as A.
  rewrite (add_ref_alive s o A), (set_todo_mk s t th _ _ _ _ E eq_refl).
  set (h := upd (heap s) o _). set (th' := Thread _ _).
  assert (F : forall q, owners (mk s t th' h (deleted s)) q = owners s q + one q (Some o)).
  { intros q. pose proof (owners_mk s t th th' h (deleted s) q E) as OM. destruct (h_cnt s o (cnt (the s o) + 1)%Z q A) as (_ & _ & _ & _ & HS).
    fold h in HS. rewrite HS in OM. unfold th' in *. rewrite tself_eq in OM. unfold tself in OM. rewrite T in OM. cbn [flat_map held_by app] in OM.
    rewrite refs_cons, refs_nil in OM. lia. }
  apply (inv_mk s t th th' h (deleted s) I E).
  - apply (h_cnt s o _ 0 A).
  - intros q. apply (h_cnt s o _ q A).
  - intros q. unfold h. destruct (h_cnt s o (cnt (the s o) + 1)%Z q A) as (_ & _ & -> & _ & _). reflexivity.
  - reflexivity.
  - intros q. rewrite T. reflexivity.
  - intros q Aq. rewrite F, one_some. unfold h. destruct (h_cnt s o (cnt (the s o) + 1)%Z q A) as (_ & _ & _ & -> & _).
    rewrite (Nat.eqb_sym q o). destruct (Nat.eqb_spec o q) as [->|N]; lia.
  - intros q Z0. rewrite F, one_some. destruct (Nat.eqb_spec q o) as [->|N]; lia.
  - intros q Z0. rewrite F. lia.
  - unfold shape, th'. cbn [todo vars]. split; [reflexivity|]. destruct to as [i|p f]; cbn [place_ok] in *; [assumption|].
    destruct Hp as [Hp1 Hp2]. split; [assumption|]. unfold the. cbn [mk heap]. unfold h.
    destruct (h_cnt s o (cnt (the s o) + 1)%Z p A) as (_ & _ & -> & _ & _). assumption.
Qed.

Lemma inv_set_var s t th i p r : Inv s -> nth_error (threads s) t = Some th -> todo th = MSet (PVar i) p :: r ->
  Inv (set_thread s t (Thread (upd (vars th) i p) (drop (nth i (vars th) None) ++ r))).
Proof.
  intros I E T. pose proof (i_todo s I t th E) as Sh. unfold shape in Sh. rewrite T in Sh. destruct Sh as (-> & Hp). cbn in Hp.
  rewrite set_thread_mk, app_nil_r. set (th' := Thread _ _).
  assert (F : forall q, owners (mk s t th' (heap s) (deleted s)) q = owners s q).
  { intros q. pose proof (owners_mk s t th th' (heap s) (deleted s) q E) as OM. unfold th' in *. rewrite tself_eq in OM. unfold tself in OM.
    rewrite T in OM. cbn [flat_map held_by app] in OM. rewrite refs_cons, refs_nil, refs_held_drop in OM.
    pose proof (refs_upd q (vars th) i p Hp). lia. }
  apply (inv_mk s t th th' (heap s) (deleted s) I E); auto.
  - intros q. rewrite T. unfold th'. cbn [todo]. now rewrite deletes1_drop.
  - intros q Aq. rewrite F. unfold the. lia.
  - intros q Z0. now rewrite F.
  - intros q Z0. now rewrite F.
  - unfold shape, th'. cbn [todo vars]. destruct (nth i (vars th) None); cbn; [|constructor]. constructor; [exact Logic.I|constructor].
Qed.

Lemma inv_set_member s t th o f p r : Inv s -> nth_error (threads s) t = Some th -> todo th = MSet (PMember o f) p :: r ->
  let s1 := touch s o in
  Inv (set_todo (set_object s1 o (Object (cnt (the s1 o)) (upd (members (the s1 o)) f p) (alive (the s1 o)))) t (drop (nth f (members (the s1 o)) None) ++ r)).
Proof.
  intros I E T. pose proof (i_todo s I t th E) as Sh. unfold shape in Sh. rewrite T in Sh. destruct Sh as (-> & Hp). cbn in Hp. destruct Hp as [Hv Hf].
  assert (Ow : 0 < owners s o) by (eapply var_owned; eauto). pose proof (owned_alive s o I Ow) as A.
  rewrite (touch_alive s o A). cbv zeta. unfold set_object. rewrite (set_todo_mk s t th _ _ _ _ E eq_refl), app_nil_r.
  set (x := Object _ _ _). set (h := upd (heap s) o x). set (th' := Thread _ _).
  pose proof (alive_lt s o A) as L. apply Nat.ltb_lt in L.
  assert (N : forall q, nth q h dead_object = if Nat.eqb o q then x else the s q).
  { intros q. unfold h. rewrite nth_upd, L, andb_true_r. reflexivity. }
  assert (F : forall q, owners (mk s t th' h (deleted s)) q = owners s q).
  { intros q. pose proof (owners_mk s t th th' h (deleted s) q E) as OM. unfold th' in *. rewrite tself_eq in OM. unfold tself in OM.
    rewrite T in OM. cbn [flat_map held_by app] in OM. rewrite refs_cons, refs_nil, refs_held_drop in OM.
    pose proof (hsum_upd s o x q A) as HS. fold h in HS. cbn [members x] in HS.
    pose proof (refs_upd q (members (the s o)) f p Hf). lia. }
  apply (inv_mk s t th th' h (deleted s) I E); auto.
  - apply upd_length.
  - intros q. rewrite N. destruct (Nat.eqb_spec o q) as [->|]; reflexivity.
  - intros q. rewrite N. destruct (Nat.eqb_spec o q) as [->|]; [cbn; apply upd_length|reflexivity].
  - intros q. rewrite T. unfold th'. cbn [todo]. now rewrite deletes1_drop.
  - intros q Aq. rewrite F, N. destruct (Nat.eqb_spec o q) as [->|]; cbn; lia.
  - intros q Z0. now rewrite F.
  - intros q Z0. now rewrite F.
  - unfold shape, th'. cbn [todo vars]. destruct (nth f (members (the s o)) None); cbn; [|constructor]. constructor; [exact Logic.I|constructor].
Qed.

Lemma rel_shape s th l : Forall is_release l -> todo th = l -> shape s th.
Proof. intros F T. unfold shape. rewrite T. destruct l as [|[]]; auto; inversion F; contradiction. Qed.

Lemma inv_dec s t th o r : Inv s -> nth_error (threads s) t = Some th -> todo th = MDec o :: r ->
  let '(s', last) := release_ref s o in Inv (set_todo s' t ((if last then [MDelete o] else []) ++ r)).
Proof.
  intros I E T. pose proof (i_todo s I t th E) as Sh. unfold shape in Sh. rewrite T in Sh.
  assert (Ow : 0 < owners s o).
  { pose proof (tself_le s t th o E) as H. unfold tself in H. rewrite T in H. cbn [flat_map held_by app] in H. rewrite refs_cons, one_same in H. lia. }
  pose proof (owned_alive s o I Ow) as A. unfold release_ref. rewrite (touch_alive s o A). unfold set_object.
  destruct (i_alive s I o A) as [C1 C2].
  set (c := (cnt (the s o) - 1)%Z). rewrite (set_todo_mk s t th _ _ _ _ E eq_refl).
  set (h := upd (heap s) o _). set (th' := Thread _ _).
  assert (F : forall q, owners (mk s t th' h (deleted s)) q + one q (Some o) = owners s q).
  { intros q. pose proof (owners_mk s t th th' h (deleted s) q E) as OM. destruct (h_cnt s o c q A) as (_ & _ & _ & _ & HS).
    fold h in HS. rewrite HS in OM. unfold th' in *. rewrite tself_eq in OM. unfold tself in OM. rewrite T in OM.
    rewrite flat_map_app, refs_app in OM. cbn [flat_map held_by app] in OM. rewrite refs_cons in OM.
    assert (refs q (flat_map held_by (if (c =? 0)%Z then [MDelete o] else [])) = 0) by (destruct (c =? 0)%Z; reflexivity). lia. }
  assert (D : forall q, deletes (mk s t th' h (deleted s)) q = deletes s q + (if (c =? 0)%Z then one q (Some o) else 0)).
  { intros q. pose proof (deletes_mk s t th th' h (deleted s) q E) as DM. unfold th' in *. rewrite T in DM. cbn [todo] in DM.
    rewrite deletes1_app in DM. change (deletes1 q (MDec o :: r)) with (deletes1 q r) in DM.
    assert (deletes1 q (if (c =? 0)%Z then [MDelete o] else []) = if (c =? 0)%Z then one q (Some o) else 0).
    { destruct (c =? 0)%Z; [|reflexivity]. rewrite one_some. unfold deletes1. cbn. now destruct (Nat.eqb q o). }
    lia. }
  assert (Th : forall q, the (mk s t th' h (deleted s)) q = nth q h dead_object) by reflexivity.
  constructor.
  - intros q Aq. rewrite Th in Aq |- *. destruct (h_cnt s o c q A) as (_ & HA & HM & HC & _). fold h in HA, HM, HC. rewrite HA in Aq. rewrite HC.
    destruct (i_alive s I q Aq) as [C1q C2q]. specialize (F q). rewrite D, C2q. rewrite one_some in F |- *. rewrite (Nat.eqb_sym q o) in F |- *.
    destruct (Nat.eqb_spec o q) as [Eq|N]; [subst q|].
    + split; [unfold c; lia|].
      assert (owners s o =? 0 = false) as -> by (apply Nat.eqb_neq; lia).
      destruct (Z.eqb_spec c 0), (Nat.eqb_spec (owners (mk s t th' h (deleted s)) o) 0); unfold c in *; lia.
    + replace (owners (mk s t th' h (deleted s)) q) with (owners s q) by lia. split; [assumption|]. destruct (c =? 0)%Z; lia.
  - intros q Aq. rewrite Th in Aq |- *. destruct (h_cnt s o c q A) as (_ & HA & HM & _ & _). fold h in HA, HM. rewrite HA in Aq. rewrite HM.
    destruct (i_dead s I q Aq) as (E1 & E2 & E3). specialize (F q). split; [lia|]. split; [|assumption].
    rewrite D, E2, one_some. destruct (Nat.eqb_spec q o) as [->|]; [lia|]. now destruct (c =? 0)%Z.
  - destruct (i_log s I) as [L1 L2]. split; [exact L1|]. intros q. rewrite Th. cbn [mk heap].
    destruct (h_cnt s o c q A) as (HL & HA & _). fold h in HL, HA. rewrite HL, HA. apply L2.
  - apply (i_todo_mk s t th th' h (deleted s) I E).
    + intros q t2 th2 _ _. destruct (h_cnt s o c q A) as (_ & _ & HM & _). fold h in HM. now rewrite HM.
    + apply rel_shape with ((if (c =? 0)%Z then [MDelete o] else []) ++ r); [|reflexivity].
      apply Forall_app. split; [destruct (c =? 0)%Z; repeat constructor|]. now inversion Sh.
  - exact (i_bad s I).
Qed.

Lemma inv_delete s t th o r : Inv s -> nth_error (threads s) t = Some th -> todo th = MDelete o :: r ->
  let s1 := touch s o in
  Inv (set_todo (State (upd (heap s1) o (Object (cnt (the s1 o)) [] false)) (threads s1) (deleted s1 ++ [o]) (bad s1)) t
                (flat_map drop (rev (members (the s1 o))) ++ r)).
Proof.
  intros I E T. pose proof (i_todo s I t th E) as Sh. unfold shape in Sh. rewrite T in Sh.
  assert (Dl : 0 < deletes s o).
  { pose proof (sum_in (fun th => deletes1 o (todo th)) _ _ _ E) as H. cbn beta in H. rewrite T in H.
    change (MDelete o :: r) with ([MDelete o] ++ r) in H. rewrite deletes1_app in H.
    replace (deletes1 o [MDelete o]) with 1 in H by (unfold deletes1; cbn; now rewrite Nat.eqb_refl). unfold deletes. lia. }
  assert (A : alive (the s o) = true).
  { destruct (alive (the s o)) eqn:A; [reflexivity|]. destruct (i_dead s I o A) as (_ & E2 & _). lia. }
  destruct (i_alive s I o A) as [C1 C2]. destruct (Nat.eqb_spec (owners s o) 0) as [O0|]; [|lia].
  rewrite (touch_alive s o A). cbv zeta. rewrite (set_todo_mk s t th _ _ _ _ E eq_refl).
  set (x := Object _ _ _). set (h := upd (heap s) o x). set (th' := Thread _ _).
  pose proof (alive_lt s o A) as L. pose proof L as Lb. apply Nat.ltb_lt in Lb.
  assert (N : forall q, nth q h dead_object = if Nat.eqb o q then x else the s q).
  { intros q. unfold h. rewrite nth_upd, Lb, andb_true_r. reflexivity. }
  assert (F : forall q, owners (mk s t th' h (deleted s ++ [o])) q = owners s q).
  { intros q. pose proof (owners_mk s t th th' h (deleted s ++ [o]) q E) as OM. unfold th' in *. rewrite tself_eq in OM. unfold tself in OM.
    rewrite T in OM. rewrite flat_map_app, refs_app, refs_held_drops in OM. cbn [flat_map held_by app] in OM.
    pose proof (hsum_upd s o x q A) as HS. fold h in HS. cbn [members x] in HS. rewrite refs_nil in HS. lia. }
  assert (D : forall q, deletes (mk s t th' h (deleted s ++ [o])) q + one q (Some o) = deletes s q).
  { intros q. pose proof (deletes_mk s t th th' h (deleted s ++ [o]) q E) as DM. unfold th' in *. rewrite T in DM. cbn [todo] in DM.
    rewrite deletes1_app, deletes1_drops in DM. change (MDelete o :: r) with ([MDelete o] ++ r) in DM. rewrite deletes1_app in DM.
    assert (deletes1 q [MDelete o] = one q (Some o)). { rewrite one_some. unfold deletes1. cbn. now destruct (Nat.eqb q o). } lia. }
  assert (Th : forall q, the (mk s t th' h (deleted s ++ [o])) q = nth q h dead_object) by reflexivity.
  constructor.
  - intros q Aq. rewrite Th, N in *. specialize (D q). rewrite F. rewrite one_some in D. rewrite (Nat.eqb_sym q o) in D.
    destruct (Nat.eqb_spec o q) as [->|NE]; [discriminate|]. destruct (i_alive s I q Aq) as [C1q C2q]. split; [assumption|lia].
  - intros q Aq. rewrite Th, N in *. specialize (D q). rewrite F. rewrite one_some in D. rewrite (Nat.eqb_sym q o) in D.
    destruct (Nat.eqb_spec o q) as [Eq|NE]; [subst q|].
    + split; [assumption|]. split; [lia|reflexivity].
    + destruct (i_dead s I q Aq) as (E1 & E2 & E3). split; [assumption|]. split; [lia|assumption].
  - destruct (i_log s I) as [L1 L2]. split.
    + assert (~ In o (deleted s)) by (rewrite L2; intros [_ B]; congruence). clear - L1 H. cbn [mk deleted].
      induction (deleted s) as [|a d IH]; [constructor; [tauto|constructor]|]. cbn. inversion L1; subst. constructor.
      * rewrite in_app_iff. cbn. cbn in H. intros [?|[->|[]]]; tauto.
      * apply IH; [assumption|]. cbn in H. tauto.
    + intros q. rewrite Th, N. cbn [mk deleted heap]. unfold h. rewrite upd_length, in_app_iff, L2. cbn [In].
      destruct (Nat.eqb_spec o q) as [Eq|NE]; [subst q; cbn; tauto|]. split; [intros [?|[?|[]]]; [tauto|congruence]|tauto].
  - apply (i_todo_mk s t th th' h (deleted s ++ [o]) I E).
    + intros q t2 th2 E2 Hq. rewrite N. destruct (Nat.eqb_spec o q) as [Eq|NE]; [subst q|reflexivity].
      pose proof (var_owned s t2 th2 o E2 Hq). lia.
    + apply rel_shape with (flat_map drop (rev (members (the s o))) ++ r); [|reflexivity].
      apply Forall_app. split; [|now inversion Sh]. apply Forall_forall. intros m Hm. apply in_flat_map in Hm. destruct Hm as ([q|] & _ & Hq); [|destruct Hq].
      cbn in Hq. destruct Hq as [<-|[]]. exact Logic.I.
  - exact (i_bad s I).
Qed.

Lemma inv_micro s t s' : Inv s -> micro_step s t = Some s' -> Inv s'.
Proof.
  intros I H. unfold micro_step in H. destruct (nth_error (threads s) t) as [th|] eqn:E; [|discriminate].
  destruct (todo th) as [|[to o|to p|o|o] r] eqn:T; [discriminate|..].
  - injection H as <-. now apply inv_copy with th.
  - destruct to as [i|o f]; injection H as <-.
    + now apply inv_set_var with (p := p).
    + now apply inv_set_member with (p := p) (th := th).
  - pose proof (inv_dec s t th o r I E T) as D. destruct (release_ref s o) as [s1 last]. injection H as <-. exact D.
  - injection H as <-. now apply inv_delete with th.
Qed.

(** a step that only moves pointers inside one thread *)
Lemma inv_local s t th th' : Inv s -> nth_error (threads s) t = Some th -> todo th = [] ->
  (forall q, tself q th' = tself q th) -> (forall q, deletes1 q (todo th') = 0) -> shape s th' ->
  Inv (mk s t th' (heap s) (deleted s)).
Proof.
  intros I E T Ht Hd Sh.
  assert (F : forall q, owners (mk s t th' (heap s) (deleted s)) q = owners s q).
  { intros q. pose proof (owners_mk s t th th' (heap s) (deleted s) q E) as OM. rewrite Ht in OM. lia. }
  apply (inv_mk s t th th' (heap s) (deleted s) I E); auto.
  - intros q. rewrite Hd, T. reflexivity.
  - intros q Aq. rewrite F. unfold the. lia.
  - intros q Z0. now rewrite F.
  - intros q Z0. now rewrite F.
Qed.


Lemma inv_new s t th i n : Inv s -> nth_error (threads s) t = Some th -> todo th = [] -> i < length (vars th) ->
  Inv (mk s t (Thread (vars th) [MSet (PVar i) (Some (length (heap s)))]) (heap s ++ [Object 1 (repeat None n) true]) (deleted s)).
Proof.
  intros I E T Hi. remember (length (heap s)) as o eqn:Ho. set (th' := Thread _ _). set (h := heap s ++ _).
  assert (Dd : alive (the s o) = false) by (unfold the; rewrite nth_overflow by lia; reflexivity).
  destruct (i_dead s I o Dd) as (O0 & D0 & _).
  assert (F : forall q, owners (mk s t th' h (deleted s)) q = owners s q + one q (Some o)).
  { intros q. pose proof (owners_mk s t th th' h (deleted s) q E) as OM. unfold th' in *. rewrite tself_eq in OM. unfold tself in OM. rewrite T in OM.
    assert (HH : list_sum (map (hself q) h) = list_sum (map (hself q) (heap s))).
    { unfold h. rewrite map_app, list_sum_app. cbn [map list_sum fold_right]. unfold hself at 2. cbn [members]. rewrite refs_repeat. lia. }
    rewrite HH in OM. cbn [flat_map held_by app] in OM. rewrite refs_cons, !refs_nil in OM. lia. }
  assert (D : forall q, deletes (mk s t th' h (deleted s)) q = deletes s q).
  { intros q. pose proof (deletes_mk s t th th' h (deleted s) q E) as DM. rewrite T in DM. cbn [todo th' deletes1] in DM. unfold th', deletes1 in DM. cbn [filter length todo] in DM. unfold th', deletes1 in *. lia. }
  assert (N : forall q, the (mk s t th' h (deleted s)) q = if Nat.eqb q o then Object 1 (repeat None n) true else the s q).
  { intros q. unfold the at 1. cbn [mk heap]. unfold h. destruct (Nat.eqb_spec q o) as [Eq|NE]; [subst q|].
    - rewrite Ho, app_nth2, Nat.sub_diag by lia. reflexivity.
    - destruct (Nat.lt_ge_cases q o).
      + rewrite app_nth1 by lia. reflexivity.
      + unfold the. rewrite !nth_overflow; [reflexivity|lia|]. rewrite app_length. cbn. lia. }
  constructor.
  - intros q Aq. rewrite N in Aq |- *. rewrite F, D, one_some. destruct (Nat.eqb_spec q o) as [Eq|NE]; [subst q|].
    + cbn [cnt]. rewrite O0, D0. cbn. auto.
    + rewrite Nat.add_0_r. now apply (i_alive s I).
  - intros q Aq. rewrite N in Aq |- *. rewrite F, D, one_some. destruct (Nat.eqb_spec q o) as [Eq|NE]; [discriminate|].
    rewrite Nat.add_0_r. now apply (i_dead s I).
  - destruct (i_log s I) as [L1 L2]. split; [exact L1|]. intros q. rewrite N. cbn [mk deleted heap]. unfold h. rewrite app_length, L2. cbn [length].
    destruct (Nat.eqb_spec q o) as [Eq|NE]; [subst q|]; cbn [alive].
    + split; [intros [H _]; lia|intros [_ H]; discriminate].
    + split; intros [H1 H2]; (split; [|assumption]); lia.
  - apply (i_todo_mk s t th th' h (deleted s) I E).
    + intros q t2 th2 E2 Hq. pose proof (N q) as Nq. unfold the at 1 in Nq. cbn [mk heap] in Nq. rewrite Nq.
      destruct (Nat.eqb_spec q o) as [Eq|NE]; [subst q|reflexivity]. pose proof (var_owned s t2 th2 o E2 Hq). lia.
    + unfold shape, th'. cbn. auto.
  - exact (i_bad s I).
Qed.

Lemma inv_load s t th i o f q : Inv s -> nth_error (threads s) t = Some th -> todo th = [] -> i < length (vars th) ->
  nth f (members (the s o)) None = Some q ->
  Inv (set_todo (add_ref s q) t [MSet (PVar i) (Some q)]).
Proof.
  intros I E T Hi Hq.
  assert (Ow : 0 < owners s q).
  { apply member_owned with o. destruct (Nat.lt_ge_cases f (length (members (the s o)))) as [L|L].
    - rewrite <- Hq. now apply nth_In.
    - rewrite nth_overflow in Hq by assumption. discriminate. }
  pose proof (owned_alive s q I Ow) as A. rewrite (add_ref_alive s q A), (set_todo_mk s t th _ _ _ _ E eq_refl).
  set (h := upd (heap s) q _). set (th' := Thread _ _).
  assert (F : forall p, owners (mk s t th' h (deleted s)) p = owners s p + one p (Some q)).
  { intros p. pose proof (owners_mk s t th th' h (deleted s) p E) as OM. destruct (h_cnt s q (cnt (the s q) + 1)%Z p A) as (_ & _ & _ & _ & HS).
    fold h in HS. rewrite HS in OM. unfold th' in *. rewrite tself_eq in OM. unfold tself in OM. rewrite T in OM. cbn [flat_map held_by app] in OM.
    rewrite refs_cons, !refs_nil in OM. lia. }
  apply (inv_mk s t th th' h (deleted s) I E).
  - apply (h_cnt s q _ 0 A).
  - intros p. apply (h_cnt s q _ p A).
  - intros p. unfold h. destruct (h_cnt s q (cnt (the s q) + 1)%Z p A) as (_ & _ & -> & _ & _). reflexivity.
  - reflexivity.
  - intros p. rewrite T. reflexivity.
  - intros p Ap. rewrite F, one_some. unfold h. destruct (h_cnt s q (cnt (the s q) + 1)%Z p A) as (_ & _ & _ & -> & _).
    rewrite (Nat.eqb_sym p q). destruct (Nat.eqb_spec q p) as [Eq|N]; [subst p|]; lia.
  - intros p Z0. rewrite F, one_some. destruct (Nat.eqb_spec p q) as [->|N]; lia.
  - intros p Z0. rewrite F. lia.
  - unfold shape, th'. cbn. auto.
Qed.

Lemma inv_send s t th t' th' i j : Inv s -> nth_error (threads s) t = Some th -> todo th = [] -> t <> t' -> nth_error (threads s) t' = Some th' ->
  i < length (vars th) -> j < length (vars th') -> var th' j = None ->
  Inv (set_thread (set_thread s t (Thread (upd (vars th) i None) [])) t' (Thread (upd (vars th') j (var th i)) (todo th'))).
Proof.
  intros I E T NE E' Hi Hj V.
  set (th1 := Thread (upd (vars th) i None) []). set (th2 := Thread _ _). set (s1 := set_thread s t th1).
  assert (E1 : nth_error (threads s1) t' = Some th').
  { unfold s1, set_thread. cbn [threads]. rewrite nth_error_upd. destruct (Nat.eqb_spec t t'); [contradiction|]. exact E'. }
  assert (F : forall q, owners (set_thread s1 t' th2) q = owners s q).
  { intros q. pose proof (owners_mk s t th th1 (heap s) (deleted s) q E) as O1. fold s1 in O1.
    pose proof (owners_mk s1 t' th' th2 (heap s1) (deleted s1) q E1) as O2. rewrite set_thread_mk.
    unfold th1, th2 in *. rewrite tself_eq in O1, O2. unfold tself in O1, O2. rewrite T in O1. cbn [flat_map held_by] in O1. rewrite refs_nil in O1.
    pose proof (refs_upd q (vars th) i None Hi) as R1. pose proof (refs_upd q (vars th') j (var th i) Hj) as R2.
    unfold var in *. rewrite V in R2. rewrite one_none in *.
    change (owners (mk s t {| vars := upd (vars th) i None; todo := [] |} (heap s) (deleted s)) q) with (owners s1 q) in O1.
    change (heap s1) with (heap s) in O2 |- *. change (deleted s1) with (deleted s) in O2 |- *. lia. }
  assert (D : forall q, deletes (set_thread s1 t' th2) q = deletes s q).
  { intros q. pose proof (deletes_mk s t th th1 (heap s) (deleted s) q E) as O1. rewrite T in O1. cbn [todo th1] in O1.
    pose proof (deletes_mk s1 t' th' th2 (heap s1) (deleted s1) q E1) as O2. cbn [todo th2] in O2. rewrite set_thread_mk.
    change (deletes (mk s t th1 (heap s) (deleted s)) q) with (deletes s1 q) in O1. lia. }
  assert (N : forall q, the (set_thread s1 t' th2) q = the s q) by reflexivity.
  constructor.
  - intros q Aq. rewrite N in Aq |- *. rewrite F, D. now apply (i_alive s I).
  - intros q Aq. rewrite N in Aq |- *. rewrite F, D. now apply (i_dead s I).
  - exact (i_log s I).
  - intros k thk Ek. unfold set_thread in Ek. cbn [threads] in Ek. rewrite nth_error_upd in Ek.
    destruct (Nat.eqb t' k && (t' <? length (threads s1))) eqn:B.
    + injection Ek as <-. pose proof (i_todo s I t' th' E') as Sh. unfold shape in *. unfold th2. cbn [todo vars].
      assert (M : forall x, In (Some x) (vars th') -> In (Some x) (upd (vars th') j (var th i))).
      { intros x Hx. apply refs_in. apply refs_in in Hx. pose proof (refs_upd x (vars th') j (var th i) Hj) as R. unfold var in *. rewrite V, one_none in R. lia. }
      assert (P : forall p, place_ok s (vars th') p -> place_ok (set_thread s1 t' th2) (upd (vars th') j (var th i)) p).
      { intros [x|x f]; cbn [place_ok]; [rewrite upd_length; auto|]. intros [H1 H2]. split; [auto|]. exact H2. }
      destruct (todo th') as [|[to o|to p|o|o] r]; auto.
      * destruct Sh as (-> & H1 & H2). auto.
      * destruct Sh as (-> & H2). auto.
    + unfold s1, set_thread in Ek. cbn [threads] in Ek. rewrite nth_error_upd in Ek. destruct (Nat.eqb t k && (t <? length (threads s))).
      * injection Ek as <-. unfold shape. cbn. constructor.
      * apply shape_mono with s; [now apply (i_todo s I k)|]. reflexivity.
  - exact (i_bad s I).
Qed.

Lemma inv_start s t c s' : Inv s -> legal c -> start s t c = Some s' -> Inv s'.
Proof.
  intros I Lg H. unfold start in H. destruct (nth_error (threads s) t) as [th|] eqn:E; [|discriminate].
  destruct (todo th) as [|? ?] eqn:T; [|discriminate].
  destruct c as [i n|i j|i j|i|i j|i k f|k f j|i t' j|i]; [..|destruct Lg].
  - destruct (Nat.ltb_spec i (length (vars th))) as [Hi|]; [|discriminate]. injection H as <-.
    rewrite (set_todo_mk s t th _ _ _ _ E eq_refl). now apply inv_new.
  - destruct (Nat.ltb_spec i (length (vars th))) as [Hi|]; [|discriminate]. injection H as <-. rewrite (set_todo_mk0 s t th _ E).
    apply (inv_local s t th); auto.
    + intros q. rewrite tself_eq. unfold tself. rewrite T. destruct (var th j); cbn [flat_map held_by app]; [reflexivity|]. rewrite refs_cons, one_none. reflexivity.
    + intros q. cbn [todo]. destruct (var th j); reflexivity.
    + unfold shape. cbn [todo vars]. destruct (var th j) eqn:V; cbn; [|auto]. apply var_in in V. auto.
  - destruct (Nat.ltb_spec i (length (vars th))) as [Hi|]; [|discriminate]. destruct (Nat.ltb_spec j (length (vars th))) as [Hj|]; [|discriminate].
    injection H as <-. rewrite set_thread_mk. apply (inv_local s t th); auto.
    + intros q. rewrite tself_eq. unfold tself. rewrite T. cbn [flat_map held_by app]. rewrite refs_cons, !refs_nil.
      pose proof (refs_upd q (vars th) j None Hj) as R. rewrite one_none in R. unfold var. lia.
    + unfold shape. cbn. rewrite upd_length. auto.
  - destruct (Nat.ltb_spec i (length (vars th))) as [Hi|]; [|discriminate]. injection H as <-. rewrite (set_todo_mk0 s t th _ E).
    apply (inv_local s t th); auto.
    + intros q. rewrite tself_eq. unfold tself. rewrite T. cbn [flat_map held_by app]. rewrite refs_cons, one_none. reflexivity.
    + unfold shape. cbn. auto.
  - destruct (Nat.ltb_spec i (length (vars th))) as [Hi|]; [|discriminate]. destruct (Nat.ltb_spec j (length (vars th))) as [Hj|]; [|discriminate].
    injection H as <-. rewrite set_thread_mk. apply (inv_local s t th); auto.
    + intros q. rewrite tself_eq. unfold tself. rewrite T. cbn [flat_map]. rewrite refs_nil, !Nat.add_0_r.
      pose proof (refs_upd q (vars th) i (var th j) Hi) as R1.
      assert (Hj' : j < length (upd (vars th) i (var th j))) by now rewrite upd_length.
      pose proof (refs_upd q (upd (vars th) i (var th j)) j (var th i) Hj') as R2. rewrite nth_upd in R2.
      apply Nat.ltb_lt in Hi. rewrite Hi, andb_true_r in R2. unfold var in *.
      destruct (Nat.eqb_spec i j) as [->|]; lia.
    + unfold shape. cbn. constructor.
  - destruct (Nat.ltb_spec i (length (vars th))) as [Hi|]; [|discriminate]. destruct (var th k) as [o|] eqn:V; [|discriminate].
    assert (A : alive (the s o) = true) by (apply owned_alive; [assumption|]; eapply var_owned; eauto using var_in).
    rewrite (touch_alive s o A) in H.
    destruct (nth f (members (the s o)) None) as [q|] eqn:Q; injection H as <-.
    + now apply inv_load with (th := th) (o := o) (f := f).
    + rewrite (set_todo_mk0 s t th _ E). apply (inv_local s t th); auto.
      * intros q. rewrite tself_eq. unfold tself. rewrite T. cbn [flat_map held_by app]. rewrite refs_cons, one_none. reflexivity.
      * unfold shape. cbn. auto.
  - destruct (var th k) as [o|] eqn:V; [|discriminate]. destruct (Nat.ltb_spec f (length (members (the s o)))) as [Hf|]; [|discriminate].
    assert (A : alive (the s o) = true) by (apply owned_alive; [assumption|]; eapply var_owned; eauto using var_in).
    rewrite (touch_alive s o A) in H. injection H as <-. rewrite (set_todo_mk0 s t th _ E). apply (inv_local s t th); auto.
    + intros q. rewrite tself_eq. unfold tself. rewrite T. destruct (var th j); cbn [flat_map held_by app]; [reflexivity|]. rewrite refs_cons, one_none. reflexivity.
    + intros q. cbn [todo]. destruct (var th j); reflexivity.
    + unfold shape. cbn [todo vars]. apply var_in in V. destruct (var th j) eqn:V2; cbn; [apply var_in in V2|]; auto.
  - destruct (Nat.ltb_spec i (length (vars th))) as [Hi|]; [|discriminate]. destruct (Nat.eqb_spec t t') as [|NE]; [discriminate|]. cbn [andb negb] in H.
    destruct (nth_error (threads s) t') as [th'|] eqn:E'; [|discriminate]. destruct (Nat.ltb_spec j (length (vars th'))) as [Hj|]; [|discriminate].
    destruct (var th' j) eqn:V; [discriminate|]. injection H as <-. now apply inv_send.
Qed.

Lemma inv_reach ns s : reach ns s -> Inv s.
Proof. induction 1; [apply inv_init|eapply inv_start; eauto|eapply inv_micro; eauto]. Qed.

(** ** releases come to an end *)
Definition weight (m : micro) : nat := match m with MCopy _ _ => 4 | MSet _ _ => 3 | MDec _ => 2 | MDelete _ => 1 end.
Definition tweight (th : thread) : nat := list_sum (map weight (todo th)).
Definition oweight (x : object) : nat := if alive x then 2 * length (members x) + 1 else 0.
Definition measure (s : state) : nat := list_sum (map tweight (threads s)) + list_sum (map oweight (heap s)).

Lemma weight_drop p : list_sum (map weight (drop p)) <= 2. Proof. destruct p; cbn; lia. Qed.
Lemma weight_drops l : list_sum (map weight (flat_map drop l)) <= 2 * length l.
Proof.
  induction l as [|p l IH]; [cbn; lia|]. cbn [flat_map]. rewrite map_app, list_sum_app. pose proof (weight_drop p). cbn [length]. lia.
Qed.
Lemma measure_mk s t th th' h d : nth_error (threads s) t = Some th ->
  measure (mk s t th' h d) + tweight th + list_sum (map oweight (heap s)) = measure s + tweight th' + list_sum (map oweight h).
Proof. intros E. unfold measure. cbn [mk threads heap]. pose proof (sum_upd tweight _ _ _ th' E). lia. Qed.
Lemma osum_upd s o x : alive (the s o) = true ->
  list_sum (map oweight (upd (heap s) o x)) + oweight (the s o) = list_sum (map oweight (heap s)) + oweight x.
Proof. intros A. apply alive_lt in A. apply (sum_upd oweight). now apply the_nth_error. Qed.
Lemma tweight_eq v m : tweight (Thread v m) = list_sum (map weight m). Proof. reflexivity. Qed.
Lemma wsum_cons a l : list_sum (map weight (a :: l)) = weight a + list_sum (map weight l). Proof. reflexivity. Qed.

Lemma measure_micro s t s' : Inv s -> micro_step s t = Some s' -> measure s' < measure s.
Proof.
  intros I H. unfold micro_step in H. destruct (nth_error (threads s) t) as [th|] eqn:E; [|discriminate].
  pose proof (i_todo s I t th E) as Sh. unfold shape in Sh.
  destruct (todo th) as [|[to o|to p|o|o] r] eqn:T; [discriminate|..].
  - injection H as <-. destruct Sh as (-> & Hv & Hp).
    assert (A : alive (the s o) = true) by (apply owned_alive; [assumption|]; eapply var_owned; eauto).
    rewrite (add_ref_alive s o A), (set_todo_mk s t th _ _ _ _ E eq_refl).
    match goal with |- measure (mk s t ?th' ?h ?d) < _ => pose proof (measure_mk s t th th' h d E) as M; pose proof (osum_upd s o (Object (cnt (the s o) + 1) (members (the s o)) (alive (the s o))) A) as OS end.
    unfold oweight at 2 4 in OS. cbn [alive members] in OS. rewrite tweight_eq in M. unfold tweight in M. rewrite T in M. rewrite !wsum_cons in M. cbn [weight] in M. lia.
  - destruct to as [i|o f]; injection H as <-; destruct Sh as (-> & Hp).
    + rewrite set_thread_mk. match goal with |- measure (mk s t ?th' ?h ?d) < _ => pose proof (measure_mk s t th th' h d E) as M end.
      rewrite tweight_eq in M. unfold tweight in M. rewrite T in M. rewrite !wsum_cons, map_app, list_sum_app in M. cbn [weight map list_sum fold_right] in M.
      pose proof (weight_drop (nth i (vars th) None)). lia.
    + destruct Hp as [Hv Hf].
      assert (A : alive (the s o) = true) by (apply owned_alive; [assumption|]; eapply var_owned; eauto).
      rewrite (touch_alive s o A). unfold set_object. rewrite (set_todo_mk s t th _ _ _ _ E eq_refl).
      match goal with |- measure (mk s t ?th' ?h ?d) < _ => pose proof (measure_mk s t th th' h d E) as M end.
      pose proof (osum_upd s o (Object (cnt (the s o)) (upd (members (the s o)) f p) (alive (the s o))) A) as OS.
      unfold oweight at 2 4 in OS. cbn [alive members] in OS. rewrite upd_length in OS.
      rewrite tweight_eq in M. unfold tweight in M. rewrite T in M. rewrite !wsum_cons, map_app, list_sum_app in M. cbn [weight map list_sum fold_right] in M.
      pose proof (weight_drop (nth f (members (the s o)) None)). lia.
  - assert (Ow : 0 < owners s o).
    { pose proof (tself_le s t th o E) as H'. unfold tself in H'. rewrite T in H'. cbn [flat_map held_by app] in H'. rewrite refs_cons, one_same in H'. lia. }
    pose proof (owned_alive s o I Ow) as A. unfold release_ref in H. rewrite (touch_alive s o A) in H. unfold set_object in H. injection H as <-.
    rewrite (set_todo_mk s t th _ _ _ _ E eq_refl).
    match goal with |- measure (mk s t ?th' ?h ?d) < _ => pose proof (measure_mk s t th th' h d E) as M end.
    pose proof (osum_upd s o (Object (cnt (the s o) - 1) (members (the s o)) (alive (the s o))) A) as OS.
    unfold oweight at 2 4 in OS. cbn [alive members] in OS.
    rewrite tweight_eq in M. unfold tweight in M. rewrite T in M. rewrite !wsum_cons, map_app, list_sum_app in M. cbn [weight] in M.
    assert (list_sum (map weight (if (cnt (the s o) - 1 =? 0)%Z then [MDelete o] else [])) <= 1) by (destruct (cnt (the s o) - 1 =? 0)%Z; cbn; lia). lia.
  - assert (Dl : 0 < deletes s o).
    { pose proof (sum_in (fun th => deletes1 o (todo th)) _ _ _ E) as H'. cbn beta in H'. rewrite T in H'.
      change (MDelete o :: r) with ([MDelete o] ++ r) in H'. rewrite deletes1_app in H'.
      replace (deletes1 o [MDelete o]) with 1 in H' by (unfold deletes1; cbn; now rewrite Nat.eqb_refl). unfold deletes. lia. }
    assert (A : alive (the s o) = true).
    { destruct (alive (the s o)) eqn:A; [reflexivity|]. destruct (i_dead s I o A) as (_ & E2 & _). lia. }
    rewrite (touch_alive s o A) in H. injection H as <-. rewrite (set_todo_mk s t th _ _ _ _ E eq_refl).
    match goal with |- measure (mk s t ?th' ?h ?d) < _ => pose proof (measure_mk s t th th' h d E) as M end.
    pose proof (osum_upd s o (Object (cnt (the s o)) [] false) A) as OS.
    unfold oweight at 2 4 in OS. cbn [alive members] in OS. rewrite A in OS.
    rewrite tweight_eq in M. unfold tweight in M. rewrite T in M. rewrite !wsum_cons, map_app, list_sum_app in M. cbn [weight] in M.
    pose proof (weight_drops (rev (members (the s o)))) as W. rewrite rev_length in W. lia.
Qed.

Lemma runs_bound n s s' : Inv s -> runs n s s' -> n <= measure s.
Proof.
  intros I R. revert I. induction R as [|n s t s1 s2 H R IH]; intros I; [lia|].
  pose proof (measure_micro s t s1 I H). pose proof (inv_micro s t s1 I H) as I1. specialize (IH I1). lia.
Qed.
(** while something is under way, a step is possible *)
Lemma micro_enabled s t th : nth_error (threads s) t = Some th -> todo th <> [] -> exists s', micro_step s t = Some s'.
Proof.
  intros E T. unfold micro_step. rewrite E. destruct (todo th) as [|[to o|to p|o|o] r]; [contradiction|..]; eauto.
  - destruct to; eauto.
  - destruct (release_ref s o). eauto.
Qed.

(** ** what is alive is held *)
Lemma quiet_owner s o : quiet s -> 0 < owners s o -> (exists t i, is_var s t i o) \/ exists p, In (Some o) (members (the s p)).
Proof.
  intros Q H. rewrite owners_eq in H. destruct (Nat.eq_dec (list_sum (map (tself o) (threads s))) 0) as [Z|Z].
  - right. destruct (sum_pos (hself o) (heap s)) as (x & Hx & P); [lia|]. apply refs_in in P. apply In_nth with (d := dead_object) in Hx.
    destruct Hx as (p & Lp & <-). exists p. exact P.
  - left. destruct (sum_pos (tself o) (threads s)) as (th & Hth & P); [lia|]. unfold tself in P. rewrite (Q th Hth) in P. cbn [flat_map] in P. rewrite refs_nil in P.
    assert (P' : In (Some o) (vars th)) by (apply refs_in; lia). apply In_nth_error in Hth. destruct Hth as [t Et].
    apply In_nth with (d := None) in P'. destruct P' as (i & _ & Ei). exists t, i, th. auto.
Qed.
Lemma bounded_rank (rank : obj -> nat) n : exists b, forall o, o < n -> rank o <= b.
Proof. induction n as [|n [b IH]]; [exists 0; lia|]. exists (Nat.max b (rank n)). intros o H. destruct (Nat.eq_dec o n) as [->|]; [lia|]. specialize (IH o). lia. Qed.
Lemma alive_accessible s o : Inv s -> quiet s -> acyclic s -> alive (the s o) = true -> accessible s o.
Proof.
  intros I Q [rank R] A. destruct (bounded_rank rank (length (heap s))) as [b B].
  assert (G : forall n o, b - rank o < n -> alive (the s o) = true -> accessible s o).
  { induction n as [|n IH]; intros q Hq Aq; [lia|].
    assert (Ow : 0 < owners s q).
    { destruct (i_alive s I q Aq) as [_ D]. destruct (Nat.eqb_spec (owners s q) 0) as [Z|Z]; [|lia].
      assert (D0 : deletes s q = 0). { unfold deletes. apply sum_zero. intros th Hth. now rewrite (Q th Hth). } lia. }
    destruct (quiet_owner s q Q Ow) as [(t & i & V)|(p & P)]; [econstructor; eauto|].
    apply acc_member with p; [|exact P].
    assert (Ap : alive (the s p) = true).
    { destruct (alive (the s p)) eqn:Ap; [reflexivity|]. destruct (i_dead s I p Ap) as (_ & _ & M). rewrite M in P. destruct P. }
    apply IH; [|exact Ap]. pose proof (R p q P). pose proof (B p (alive_lt s p Ap)). lia. }
  apply (G (S (b - rank o))); [lia|exact A].
Qed.

(** ** unique() *)
Lemma sole_owner s t th i o : Inv s -> nth_error (threads s) t = Some th -> var th i = Some o -> cnt (the s o) = 1%Z ->
  owners s o = 1 /\ forall t' th', t' <> t -> nth_error (threads s) t' = Some th' -> tself o th' = 0.
Proof.
  intros I E V C. pose proof (var_in th i o V) as Hv. pose proof (var_owned s t th o E Hv) as Ow. pose proof (owned_alive s o I Ow) as A.
  destruct (i_alive s I o A) as [C1 _]. assert (O1 : owners s o = 1) by lia. split; [exact O1|].
  intros t' th' N E'. pose proof (sum_in2 (tself o) _ _ _ _ _ N E' E) as H. rewrite owners_eq in O1.
  apply refs_in in Hv. unfold tself in H at 2. lia.
Qed.
Lemma sole_member s t th i o p : Inv s -> nth_error (threads s) t = Some th -> var th i = Some o -> cnt (the s o) = 1%Z -> ~ In (Some o) (members (the s p)).
Proof.
  intros I E V C H. pose proof (var_in th i o V) as Hv. pose proof (var_owned s t th o E Hv) as Ow. pose proof (owned_alive s o I Ow) as A.
  destruct (i_alive s I o A) as [C1 _].
  assert (Lp : p < length (heap s)). { destruct (Nat.lt_ge_cases p (length (heap s))); [assumption|]. unfold the in H. rewrite nth_overflow in H by assumption. destruct H. }
  pose proof (sum_in (hself o) _ _ _ (the_nth_error s p Lp)) as H1. pose proof (sum_in (tself o) _ _ _ E) as H2.
  apply refs_in in H, Hv. rewrite owners_eq in C1. unfold hself, tself in *. lia.
Qed.

(** what another thread's step can do to the counter of o and to the variables of t *)
Lemma other_micro s t th i o t' s' : Inv s -> nth_error (threads s) t = Some th -> var th i = Some o -> cnt (the s o) = 1%Z -> t' <> t ->
  micro_step s t' = Some s' -> cnt (the s' o) = 1%Z /\ nth_error (threads s') t = Some th.
Proof.
  intros I E V C N H. destruct (sole_owner s t th i o I E V C) as [O1 S1].
  assert (A : alive (the s o) = true) by (apply owned_alive; [assumption|lia]).
  unfold micro_step in H. destruct (nth_error (threads s) t') as [th'|] eqn:E'; [|discriminate].
  specialize (S1 t' th' N E'). pose proof (i_todo s I t' th' E') as Sh. unfold shape in Sh. unfold tself in S1.
  assert (K : forall h d m, nth_error (threads (mk s t' (Thread (vars th') m) h d)) t = Some th).
  { intros h d m. cbn [mk threads]. rewrite nth_error_upd. destruct (Nat.eqb_spec t' t); [contradiction|]. exact E. }
  destruct (todo th') as [|[to q|to p|q|q] r] eqn:T; [discriminate|..].
  - injection H as <-. destruct Sh as (-> & Hv & Hp).
    assert (NE : q <> o). { intros ->. apply refs_in in Hv. lia. }
    assert (Aq : alive (the s q) = true) by (apply owned_alive; [assumption|]; eapply var_owned; eauto).
    rewrite (add_ref_alive s q Aq), (set_todo_mk s t' th' _ _ _ _ E' eq_refl). split; [|apply K].
    unfold the at 1. cbn [mk heap]. destruct (h_cnt s q (cnt (the s q) + 1)%Z o Aq) as (_ & _ & _ & -> & _). destruct (Nat.eqb_spec q o); [contradiction|exact C].
  - destruct to as [j|q f]; injection H as <-; destruct Sh as (-> & Hp).
    + split; [exact C|]. unfold set_thread. cbn [threads]. rewrite nth_error_upd. destruct (Nat.eqb_spec t' t); [contradiction|]. exact E.
    + destruct Hp as [Hv Hf].
      assert (Aq : alive (the s q) = true) by (apply owned_alive; [assumption|]; eapply var_owned; eauto).
      rewrite (touch_alive s q Aq). unfold set_object. rewrite (set_todo_mk s t' th' _ _ _ _ E' eq_refl). split; [|apply K].
      unfold mk. rewrite the_upd. change (nth o (heap s) dead_object) with (the s o).
      destruct (Nat.eqb_spec q o) as [->|]; cbn [andb]; [|exact C]. destruct (o <? length (heap s)); cbn [cnt]; exact C.
  - cbn [flat_map held_by app] in S1. rewrite refs_cons in S1.
    assert (NE : q <> o). { intros ->. rewrite one_same in S1. lia. }
    assert (Ow : 0 < owners s q).
    { pose proof (tself_le s t' th' q E') as H'. unfold tself in H'. rewrite T in H'. cbn [flat_map held_by app] in H'. rewrite refs_cons, one_same in H'. lia. }
    pose proof (owned_alive s q I Ow) as Aq. unfold release_ref in H. rewrite (touch_alive s q Aq) in H. unfold set_object in H. injection H as <-.
    rewrite (set_todo_mk s t' th' _ _ _ _ E' eq_refl). split; [|apply K].
    unfold the at 1. cbn [mk heap]. destruct (h_cnt s q (cnt (the s q) - 1)%Z o Aq) as (_ & _ & _ & -> & _). destruct (Nat.eqb_spec q o); [contradiction|exact C].
  - assert (Dl : 0 < deletes s q).
    { pose proof (sum_in (fun th => deletes1 q (todo th)) _ _ _ E') as H'. cbn beta in H'. rewrite T in H'.
      change (MDelete q :: r) with ([MDelete q] ++ r) in H'. rewrite deletes1_app in H'.
      replace (deletes1 q [MDelete q]) with 1 in H' by (unfold deletes1; cbn; now rewrite Nat.eqb_refl). unfold deletes. lia. }
    assert (Aq : alive (the s q) = true).
    { destruct (alive (the s q)) eqn:Aq; [reflexivity|]. destruct (i_dead s I q Aq) as (_ & E2 & _). lia. }
    rewrite (touch_alive s q Aq) in H. injection H as <-. rewrite (set_todo_mk s t' th' _ _ _ _ E' eq_refl). split; [|apply K].
    unfold mk. rewrite the_upd. change (nth o (heap s) dead_object) with (the s o).
    destruct (Nat.eqb_spec q o) as [->|]; cbn [andb]; [|exact C]. destruct (o <? length (heap s)); cbn [cnt]; exact C.
Qed.

Lemma other_start s t th i o t' c s' : Inv s -> legal c -> nth_error (threads s) t = Some th -> var th i = Some o -> cnt (the s o) = 1%Z -> t' <> t ->
  start s t' c = Some s' -> cnt (the s' o) = 1%Z /\ exists th2, nth_error (threads s') t = Some th2 /\ var th2 i = Some o.
Proof.
  intros I Lg E V C N H. destruct (sole_owner s t th i o I E V C) as [O1 S1].
  assert (A : alive (the s o) = true) by (apply owned_alive; [assumption|lia]).
  unfold start in H. destruct (nth_error (threads s) t') as [th'|] eqn:E'; [|discriminate].
  assert (K : forall h d x, nth_error (threads (mk s t' x h d)) t = Some th).
  { intros h d x. cbn [mk threads]. rewrite nth_error_upd. destruct (Nat.eqb_spec t' t); [contradiction|]. exact E. }
  assert (K2 : forall h d x, exists th2, nth_error (threads (mk s t' x h d)) t = Some th2 /\ var th2 i = Some o) by eauto.
  destruct (todo th') as [|? ?] eqn:T; [|discriminate].
  destruct c as [j n|j k|j k|j|j k|j k f|k f j|j t2 k|j]; [..|destruct Lg].
  - destruct (j <? length (vars th')); [|discriminate]. injection H as <-. rewrite (set_todo_mk s t' th' _ _ _ _ E' eq_refl). split; [|apply K2].
    unfold the. cbn [mk heap]. rewrite app_nth1 by (now apply alive_lt). exact C.
  - destruct (j <? length (vars th')); [|discriminate]. injection H as <-. rewrite (set_todo_mk0 s t' th' _ E'). split; [exact C|apply K2].
  - destruct ((j <? length (vars th')) && (k <? length (vars th'))); [|discriminate]. injection H as <-. split; [exact C|apply K2].
  - destruct (j <? length (vars th')); [|discriminate]. injection H as <-. rewrite (set_todo_mk0 s t' th' _ E'). split; [exact C|apply K2].
  - destruct ((j <? length (vars th')) && (k <? length (vars th'))); [|discriminate]. injection H as <-. split; [exact C|apply K2].
  - destruct (j <? length (vars th')); [|discriminate]. destruct (var th' k) as [p|] eqn:Vk; [|discriminate].
    assert (Ap : alive (the s p) = true) by (apply owned_alive; [assumption|]; eapply var_owned; eauto using var_in).
    rewrite (touch_alive s p Ap) in H. destruct (nth f (members (the s p)) None) as [q|] eqn:Q; injection H as <-.
    + assert (Hq : In (Some q) (members (the s p))).
      { destruct (Nat.lt_ge_cases f (length (members (the s p)))) as [L|L]; [rewrite <- Q; now apply nth_In|]. rewrite nth_overflow in Q by assumption. discriminate. }
      assert (Aq : alive (the s q) = true) by (apply owned_alive; [assumption|]; eapply member_owned; eauto).
      assert (NE : q <> o). { intros ->. exact (sole_member s t th i o p I E V C Hq). }
      rewrite (add_ref_alive s q Aq), (set_todo_mk s t' th' _ _ _ _ E' eq_refl). split; [|apply K2].
      unfold the at 1. cbn [mk heap]. destruct (h_cnt s q (cnt (the s q) + 1)%Z o Aq) as (_ & _ & _ & -> & _). destruct (Nat.eqb_spec q o); [contradiction|exact C].
    + rewrite (set_todo_mk0 s t' th' _ E'). split; [exact C|apply K2].
  - destruct (var th' k) as [p|] eqn:Vk; [|discriminate]. destruct (f <? length (members (the s p))); [|discriminate].
    assert (Ap : alive (the s p) = true) by (apply owned_alive; [assumption|]; eapply var_owned; eauto using var_in).
    rewrite (touch_alive s p Ap) in H. injection H as <-. rewrite (set_todo_mk0 s t' th' _ E'). split; [exact C|apply K2].
  - destruct ((j <? length (vars th')) && negb (Nat.eqb t' t2)) eqn:B; [|discriminate]. apply andb_prop in B. destruct B as [_ B].
    destruct (Nat.eqb_spec t' t2) as [|NE]; [discriminate|].
    destruct (nth_error (threads s) t2) as [th2|] eqn:E2; [|discriminate]. destruct (Nat.ltb_spec k (length (vars th2))) as [Lk|]; [|discriminate].
    destruct (var th2 k) eqn:V2; [discriminate|]. injection H as <-. split; [exact C|].
    unfold set_thread. cbn [threads]. rewrite nth_error_upd.
    destruct (Nat.eqb_spec t2 t) as [->|NE2]; cbn [andb].
    + rewrite E in E2. injection E2 as <-.
      destruct (t <? length (upd (threads s) t' {| vars := upd (vars th') j None; todo := [] |})) eqn:B2.
      * eexists. split; [reflexivity|]. unfold var. cbn [vars]. rewrite nth_upd. destruct (Nat.eqb_spec k i) as [->|]; cbn [andb]; [congruence|exact V].
      * rewrite nth_error_upd. destruct (Nat.eqb_spec t' t); [contradiction|]. cbn [andb]. eauto.
    + rewrite nth_error_upd. destruct (Nat.eqb_spec t' t); [contradiction|]. cbn [andb]. eauto.
Qed.
