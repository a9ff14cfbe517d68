(** * Proofs about the enumerators *)
From Coq Require Import List Arith Bool ZArith Lia Sorted.
From Verif Require Import EnumModel EnumSpec.
Import ListNotations.

Lemma bisim {A} (m : machine A) (R : st m -> list (option A) -> Prop) :
  (forall s l, R s l -> valid m s = match l with [] => false | _ => true end) ->
  (forall s l, R s l -> fst (get m s) = match l with Some x :: _ => Some x | _ => None end /\ R (snd (get m s)) l) ->
  (forall s l, R s l -> match l with [] => next m s = None | _ :: t => exists s', next m s = Some s' /\ R s' t end) ->
  forall s l, R s l -> enumerates m s l.
Proof.
  intros HV HG HN s l H cs. revert s l H. induction cs as [|c cs IH]; intros s l H; [reflexivity|]. destruct c; cbn [run cursor].
  - rewrite (HV _ _ H). f_equal. auto.
  - destruct (HG _ _ H) as [E1 E2]. destruct (get m s) as [o s']. cbn [fst snd] in *. subst o.
    destruct l as [|[x|] l]; f_equal; auto.
  - specialize (HN _ _ H). destruct l as [|x l].
    + rewrite HN. f_equal. auto.
    + destruct HN as (s' & -> & H'). f_equal. auto.
Qed.

Lemma iterators_at {A} (l : list A) k : k <= length l -> enumerates_all iterators (l, k) (skipn k l).
Proof.
  intros Hk. unfold enumerates_all.
  apply (bisim iterators (fun s m => exists k, k <= length l /\ s = (l, k) /\ m = map Some (skipn k l))); [| | |exists k; auto].
  - intros s m (i & Hi & -> & ->). cbn.
    destruct (Nat.eqb_spec i (length l)) as [->|N]; cbn.
    + now rewrite skipn_all.
    + destruct (skipn i l) eqn:E; [|reflexivity]. apply (f_equal (@length A)) in E. rewrite skipn_length in E. cbn in E. lia.
  - intros s m (i & Hi & -> & ->). cbn. split; [|exists i; auto].
    destruct (Nat.eqb_spec i (length l)) as [->|N]; cbn.
    + now rewrite skipn_all.
    + destruct (nth_error l i) as [a|] eqn:E.
      * apply nth_error_split in E. destruct E as (l1 & l2 & -> & <-).
        replace (skipn (length l1) (l1 ++ a :: l2)) with (a :: l2); [reflexivity|].
        rewrite skipn_app, skipn_all, Nat.sub_diag. reflexivity.
      * apply nth_error_None in E. lia.
  - intros s m (i & Hi & -> & ->). cbn.
    destruct (Nat.eqb_spec i (length l)) as [->|N]; cbn.
    + now rewrite skipn_all.
    + destruct (skipn i l) as [|a t] eqn:E. { apply (f_equal (@length A)) in E. rewrite skipn_length in E. cbn in E. lia. }
      cbn. exists (l, S i). split; [reflexivity|]. exists (S i). split; [lia|]. split; [reflexivity|].
      clear - E. revert l E. induction i; intros [|b l] E; cbn in *; try discriminate; [now injection E as -> ->|].
      destruct l; [now destruct i|]. exact (IHi _ E).
Qed.

Lemma empty_is {A} s : enumerates_all (@empty A) s [].
Proof.
  apply (bisim empty (fun _ l => l = [])); cbn; auto.
  - now intros s0 l ->.
  - now intros s0 l ->.
  - now intros s0 l ->.
Qed.

Lemma one_item_is {A} (x : A) : enumerates_all one_item (true, x) [x].
Proof.
  apply (bisim one_item (fun s l => s = (true, x) /\ l = [Some x] \/ s = (false, x) /\ l = [])); cbn.
  - intros s l [[-> ->]|[-> ->]]; reflexivity.
  - intros s l [[-> ->]|[-> ->]]; cbn; auto.
  - intros s l [[-> ->]|[-> ->]]; cbn; [|reflexivity]. exists (false, x). auto.
  - auto.
Qed.

Lemma join_is {A} (a b : list A) : enumerates_all join (join_init a b) (a ++ b).
Proof.
  apply (bisim join (fun s l => (exists x r b, s = (Some (x :: r), Some b) /\ l = map Some (x :: r ++ b)) \/
                                (exists b, s = (Some b, None) /\ l = map Some b) \/ (s = (None, None) /\ l = []))); cbn.
  - intros s l [(x & r & c & -> & ->)|[(c & -> & ->)|[-> ->]]]; cbn; auto. now destruct c.
  - intros s l H. split; [|exact H]. destruct H as [(x & r & c & -> & ->)|[(c & -> & ->)|[-> ->]]]; cbn; auto. now destruct c.
  - intros s l [(x & r & c & -> & ->)|[(c & -> & ->)|[-> ->]]]; cbn; auto.
    + destruct r as [|y r]; cbn.
      * eexists. split; [reflexivity|]. right. left. eauto.
      * eexists. split; [reflexivity|]. left. eauto 6.
    + destruct c as [|y c]; cbn; [reflexivity|]. destruct c as [|z c]; cbn.
      * eexists. split; [reflexivity|]. right. right. auto.
      * eexists. split; [reflexivity|]. right. left. eauto.
  - unfold join_init. destruct a as [|x a]; cbn; [right; left|left]; eauto 6.
Qed.

Lemma caster_is {S A} (cast : S -> option A) l : enumerates (caster cast) (l, None) (map cast l).
Proof.
  apply (bisim (caster cast) (fun s m => exists l, m = map cast l /\
     (s = (l, None) \/ exists x r c, l = x :: r /\ cast x = Some c /\ s = (l, Some c)))); cbn.
  - intros s m (k & -> & [->|(x & r & c & -> & E & ->)]); cbn; [now destruct k|reflexivity].
  - intros s m (k & -> & [->|(x & r & c & -> & E & ->)]); cbn.
    + destruct k as [|x r]; cbn; [split; [reflexivity|exists []; auto]|].
      destruct (cast x) as [c|] eqn:E; cbn; (split; [reflexivity|exists (x :: r)]); cbn; rewrite E; (split; [reflexivity|]); [right; eauto 6|auto].
    + rewrite E. split; [reflexivity|]. exists (x :: r). cbn. rewrite E. split; [reflexivity|]. right. eauto 6.
  - intros s m (k & -> & [->|(x & r & c & -> & E & ->)]); cbn.
    + destruct k as [|x r]; cbn; [reflexivity|]. eexists. split; [reflexivity|]. eauto.
    + eexists. split; [reflexivity|]. eauto.
  - eauto.
Qed.

Lemma oft_find_split {S A} (cast : S -> option A) l :
  (those_of cast l = [] /\ oft_find cast l = ([], None)) \/
  exists x d r, oft_find cast l = (x :: r, Some d) /\ cast x = Some d /\ those_of cast l = d :: those_of cast r.
Proof.
  induction l as [|x l IH]; cbn; [auto|]. destruct (cast x) as [d|] eqn:E.
  - right. exists x, d, l. auto.
  - exact IH.
Qed.

Lemma of_type_is {S A} (cast : S -> option A) l : enumerates_all (of_type cast) (oft_find cast l) (those_of cast l).
Proof.
  apply (bisim (of_type cast) (fun s m => exists l, s = oft_find cast l /\ m = map Some (those_of cast l))); cbn; eauto;
    intros s m (k & -> & ->); destruct (oft_find_split cast k) as [[E1 E2]|(x & d & r & E1 & E2 & E3)].
  - rewrite E1, E2. reflexivity.
  - rewrite E1, E3. reflexivity.
  - split; [rewrite E1, E2; reflexivity|eauto].
  - split; [rewrite E1, E3; reflexivity|eauto].
  - rewrite E1, E2. reflexivity.
  - rewrite E1, E3. cbn. eauto.
Qed.

Lemma wrap_find_split {S} (p : S -> bool) l :
  (filter p l = [] /\ wrap_find p l = ([], None)) \/
  exists x r, wrap_find p l = (x :: r, Some x) /\ p x = true /\ filter p l = x :: filter p r.
Proof.
  induction l as [|x l IH]; cbn; [auto|]. destruct (p x) eqn:E.
  - right. exists x, l. auto.
  - exact IH.
Qed.

Lemma wrapper_is {S A} (cast : S -> option A) p l : enumerates (wrapper cast p) (wrap_find p l) (map cast (filter p l)).
Proof.
  apply (bisim (wrapper cast p) (fun s m => exists l, s = wrap_find p l /\ m = map cast (filter p l))); cbn; eauto;
    intros s m (k & -> & ->); destruct (wrap_find_split p k) as [[E1 E2]|(x & r & E1 & E2 & E3)].
  - rewrite E1, E2. reflexivity.
  - rewrite E1, E3. reflexivity.
  - split; [rewrite E1, E2; reflexivity|eauto].
  - split; [rewrite E1, E3; cbn; now destruct (cast x)|eauto].
  - rewrite E1, E2. reflexivity.
  - rewrite E1, E3. cbn. eauto.
Qed.

Lemma transformer_is {S A} (f : S -> option A) (l : list S) : enumerates (transformer f) l (map f l).
Proof.
  apply (bisim (transformer f) (fun s m => m = map f s)); cbn; auto; intros s m ->.
  - now destruct s.
  - split; [|reflexivity]. destruct s as [|x s]; cbn; [reflexivity|]. now destruct (f x).
  - destruct s as [|x s]; cbn; eauto.
Qed.

Lemma skip_is {A} n (l : list A) : skip_src n l = skipn n l.
Proof. revert l. induction n; intros [|x l]; cbn; auto. Qed.

Lemma taker_at {A} n i (l : list A) : enumerates_all (taker n) (l, i) (firstn (n - i) l).
Proof.
  apply (bisim (taker n) (fun s m => m = map Some (firstn (n - snd s) (fst s)))); cbn [taker valid get next st src_valid src_get src_next fst snd andb hd_error]; auto; intros [k j] m ->; cbn [taker valid get next st src_valid src_get src_next fst snd andb hd_error].
  - destruct k as [|x k]; cbn [taker valid get next st src_valid src_get src_next fst snd andb hd_error]; [now rewrite firstn_nil|]. destruct (Nat.ltb_spec j n).
    + replace (n - j) with (S (n - S j)) by lia. reflexivity.
    + replace (n - j) with 0 by lia. reflexivity.
  - split; [|reflexivity]. destruct k as [|x k]; cbn [taker valid get next st src_valid src_get src_next fst snd andb hd_error]; [now rewrite firstn_nil|]. destruct (Nat.ltb_spec j n).
    + replace (n - j) with (S (n - S j)) by lia. reflexivity.
    + replace (n - j) with 0 by lia. reflexivity.
  - destruct k as [|x k]; cbn [taker valid get next st src_valid src_get src_next fst snd andb hd_error]; [now rewrite firstn_nil|]. destruct (Nat.ltb_spec j n).
    + replace (n - j) with (S (n - S j)) by lia. cbn. eauto.
    + replace (n - j) with 0 by lia. reflexivity.
Qed.

Lemma flat_find_split {A} (l : list (list A)) :
  (concat l = [] /\ flat_find l = ([], None)) \/
  exists x c r, flat_find l = ((x :: c) :: r, Some (x :: c)) /\ concat l = x :: c ++ concat r.
Proof.
  induction l as [|c l IH]; cbn; [auto|]. destruct c as [|x c]; cbn; [exact IH|].
  right. exists x, c, l. auto.
Qed.

Lemma flattener_is {A} (l : list (list A)) : enumerates_all flattener (flat_find l) (concat l).
Proof.
  apply (bisim flattener (fun s m => (m = [] /\ s = ([], None)) \/
     exists h x c r, s = (h :: r, Some (x :: c)) /\ m = map Some (x :: c ++ concat r))); cbn.
  - intros s m [[-> ->]|(h & x & c & r & -> & ->)]; reflexivity.
  - intros s m H. split; [|exact H]. destruct H as [[-> ->]|(h & x & c & r & -> & ->)]; reflexivity.
  - intros s m [[-> ->]|(h & x & c & r & -> & ->)]; cbn; [reflexivity|].
    destruct c as [|y c]; cbn.
    + destruct (flat_find_split r) as [[E1 E2]|(x' & c' & r' & E1 & E2)].
      * rewrite E2, E1. cbn. eauto.
      * rewrite E1, E2. eexists. split; [reflexivity|]. right. eauto 8.
    + eexists. split; [reflexivity|]. right. eauto 8.
  - destruct (flat_find_split l) as [[E1 E2]|(x' & c' & r' & E1 & E2)].
    + rewrite E2, E1. auto.
    + rewrite E1, E2. right. eauto 8.
Qed.

(** the changes the code reports *)
Inductive chosen {A} (cmp : A -> A -> Z) : list A -> list A -> list (diff_entry A) -> Prop :=
  | ch_done : chosen cmp [] [] []
  | ch_same a b s d e : cmp a b = 0%Z -> chosen cmp s d e -> chosen cmp (a :: s) (b :: d) e
  | ch_less a b s d e : (cmp a b < 0)%Z -> chosen cmp s (b :: d) e -> chosen cmp (a :: s) (b :: d) (Removed a :: e)
  | ch_more a b s d e : (0 < cmp a b)%Z -> chosen cmp (a :: s) d e -> chosen cmp (a :: s) (b :: d) (Added b :: e)
  | ch_rem a s e : chosen cmp s [] e -> chosen cmp (a :: s) [] (Removed a :: e)
  | ch_add b d e : chosen cmp [] d e -> chosen cmp [] (b :: d) (Added b :: e).

Lemma chosen_exists {A} (cmp : A -> A -> Z) n : forall s d, length s + length d <= n -> exists e, chosen cmp s d e.
Proof.
  induction n; intros s d H.
  - destruct s, d; cbn in H; try lia. exists []. constructor.
  - destruct s as [|a s], d as [|b d]; cbn in H.
    + exists []. constructor.
    + destruct (IHn [] d) as [e E]; [cbn; lia|]. eexists. constructor; exact E.
    + destruct (IHn s []) as [e E]; [cbn; lia|]. eexists. constructor; exact E.
    + destruct (Z.lt_trichotomy (cmp a b) 0) as [L|[L|L]].
      * destruct (IHn s (b :: d)) as [e E]; [cbn; lia|]. eexists. apply ch_less; eauto.
      * destruct (IHn s d) as [e E]; [cbn; lia|]. eexists. apply ch_same; eauto.
      * destruct (IHn (a :: s) d) as [e E]; [cbn; lia|]. eexists. apply ch_more; eauto.
Qed.

Lemma chosen_leads {A} (cmp : A -> A -> Z) s d e : chosen cmp s d e -> leads cmp s d e.
Proof. induction 1; [apply leads_done|apply leads_same|apply leads_removed|apply leads_added|apply leads_removed|apply leads_added]; assumption. Qed.

Lemma diff_find_chosen {A} (cmp : A -> A -> Z) s d e : chosen cmp s d e ->
  match e with
  | [] => snd (diff_find cmp s d) = ENone
  | Removed a :: e' => exists s' d', diff_find cmp s d = (a :: s', d', ERemoved) /\ chosen cmp s' d' e'
  | Added b :: e' => exists s' d', diff_find cmp s d = (s', b :: d', EAdded) /\ chosen cmp s' d' e'
  end.
Proof.
  induction 1; cbn [diff_find snd]; auto.
  - rewrite H. cbn. exact IHchosen.
  - apply Z.ltb_lt in H. rewrite H. eauto.
  - replace (cmp a b <? 0)%Z with false by (symmetry; apply Z.ltb_ge; lia). apply Z.ltb_lt in H. rewrite H. eauto.
  - eauto.
  - eauto.
Qed.

Lemma differ_is {A} (cmp : A -> A -> Z) s d e : chosen cmp s d e -> enumerates_all (differ cmp) (diff_find cmp s d) e.
Proof.
  intros H.
  apply (bisim (differ cmp) (fun st m => exists s d e, chosen cmp s d e /\ st = diff_find cmp s d /\ m = map Some e)); cbn; [| | |eauto 6].
  - intros st m (s0 & d0 & e0 & C & -> & ->). pose proof (diff_find_chosen _ _ _ _ C) as F.
    destruct e0 as [|[b|a] e0]; [|destruct F as (s' & d' & F & C')..]; rewrite F; reflexivity.
  - intros st m (s0 & d0 & e0 & C & -> & ->). pose proof (diff_find_chosen _ _ _ _ C) as F.
    destruct (diff_find cmp s0 d0) as [[s1 d1] t] eqn:E. cbn [fst snd].
    split; [|exists s0, d0, e0; auto].
    destruct e0 as [|[b|a] e0]; [|destruct F as (s' & d' & F & C'); injection F as -> -> ->..]; cbn in *; subst; reflexivity.
  - intros st m (s0 & d0 & e0 & C & -> & ->). pose proof (diff_find_chosen _ _ _ _ C) as F.
    destruct (diff_find cmp s0 d0) as [[s1 d1] t] eqn:E.
    destruct e0 as [|[b|a] e0]; [|destruct F as (s' & d' & F & C'); injection F as -> -> ->..]; cbn in *; subst; try reflexivity;
      (eexists; split; [reflexivity|]; eauto 6).
Qed.

(** sorted lists *)
Section Sorted.
  Context {A : Type} (cmp : A -> A -> Z) (O : orders cmp).

  Lemma o_flip0 a b : (cmp a b = 0 -> cmp b a = 0)%Z.
  Proof. destruct O as [O1 _]. pose proof (O1 a b). pose proof (O1 b a). lia. Qed.
  Lemma o_lt_le a b c : (cmp a b < 0 -> cmp b c <= 0 -> cmp a c < 0)%Z.
  Proof.
    destruct O as [O1 O2]. intros H1 H2.
    destruct (Z.lt_ge_cases (cmp a c) 0) as [L|L]; [exact L|exfalso].
    assert (cmp c a <= 0)%Z by (pose proof (O1 c a); pose proof (O1 a c); lia).
    assert (cmp b a <= 0)%Z by eauto. pose proof (O1 a b). lia.
  Qed.
  Lemma o_le_lt a b c : (cmp a b <= 0 -> cmp b c < 0 -> cmp a c < 0)%Z.
  Proof.
    destruct O as [O1 O2]. intros H1 H2.
    destruct (Z.lt_ge_cases (cmp a c) 0) as [L|L]; [exact L|exfalso].
    assert (cmp c a <= 0)%Z by (pose proof (O1 c a); pose proof (O1 a c); lia).
    assert (cmp c b <= 0)%Z by eauto. pose proof (O1 b c). lia.
  Qed.

  Lemma not_in_nil l : not_in cmp [] l = l.
  Proof. unfold not_in. cbn [forallb]. induction l as [|x l IH]; [reflexivity|]. cbn [filter]. now rewrite IH. Qed.
  Lemma not_in_drop b m l : (forall a, In a l -> cmp a b <> 0%Z) -> not_in cmp (b :: m) l = not_in cmp m l.
  Proof.
    intros H. unfold not_in. apply filter_ext_in. intros a Ha. cbn. specialize (H a Ha).
    destruct (Z.eqb_spec (cmp a b) 0); [contradiction|reflexivity].
  Qed.
  Lemma not_in_cons_in m a l : (exists b, In b m /\ cmp a b = 0%Z) -> not_in cmp m (a :: l) = not_in cmp m l.
  Proof.
    intros (b & Hb & E). unfold not_in. cbn.
    replace (forallb (fun b0 => negb (Z.eqb (cmp a b0) 0)) m) with false; [reflexivity|].
    symmetry. apply not_true_is_false. intros F. rewrite forallb_forall in F. specialize (F b Hb). rewrite E in F. discriminate.
  Qed.
  Lemma not_in_cons_out m a l : (forall b, In b m -> cmp a b <> 0%Z) -> not_in cmp m (a :: l) = a :: not_in cmp m l.
  Proof.
    intros H. unfold not_in. cbn.
    replace (forallb (fun b0 => negb (Z.eqb (cmp a b0) 0)) m) with true; [reflexivity|].
    symmetry. apply forallb_forall. intros b Hb. specialize (H b Hb). destruct (Z.eqb_spec (cmp a b) 0); [contradiction|reflexivity].
  Qed.

  Lemma asc_inv a l : ascending cmp (a :: l) -> ascending cmp l /\ forall x, In x l -> (cmp a x < 0)%Z.
  Proof. intros H. inversion H; subst. split; [assumption|]. now apply Forall_forall. Qed.

  Lemma chosen_sorted s d e : chosen cmp s d e -> ascending cmp s -> ascending cmp d ->
    removed_items e = not_in cmp d s /\ added_items e = not_in cmp s d.
  Proof.
    induction 1 as [|a b s d e E C IH|a b s d e E C IH|a b s d e E C IH|a s e C IH|b d e C IH]; intros Hs Hd.
    - auto.
    - destruct (asc_inv _ _ Hs) as [Hs' Ls]. destruct (asc_inv _ _ Hd) as [Hd' Ld]. destruct (IH Hs' Hd') as [I1 I2].
      pose proof (o_flip0 _ _ E) as E'. rewrite I1, I2. split.
      + rewrite not_in_cons_in by (exists b; cbn; auto). symmetry. apply not_in_drop.
        intros x Hx. specialize (Ls x Hx). intros F. 
        assert (cmp a b < 0)%Z by (apply (o_lt_le a x b); [assumption|lia]). lia.
      + rewrite not_in_cons_in by (exists a; cbn; auto). symmetry. apply not_in_drop.
        intros x Hx. specialize (Ld x Hx). intros F.
        assert (cmp b a < 0)%Z by (apply (o_lt_le b x a); [assumption|lia]). lia.
    - destruct (asc_inv _ _ Hs) as [Hs' Ls]. destruct (asc_inv _ _ Hd) as [Hd' Ld]. destruct (IH Hs' Hd) as [I1 I2].
      cbn [removed_items added_items flat_map app] in *. fold (removed_items e). fold (added_items e). rewrite I1, I2.
      assert (La : forall x, In x (b :: d) -> (cmp a x < 0)%Z).
      { intros x [->|Hx]; [assumption|]. apply (o_lt_le a b x); [assumption|]. specialize (Ld x Hx). lia. }
      split.
      + symmetry. apply not_in_cons_out. intros x Hx. specialize (La x Hx). lia.
      + symmetry. apply not_in_drop. intros x Hx F. apply o_flip0 in F. specialize (La x Hx). lia.
    - destruct (asc_inv _ _ Hs) as [Hs' Ls]. destruct (asc_inv _ _ Hd) as [Hd' Ld]. destruct (IH Hs Hd') as [I1 I2].
      cbn [removed_items added_items flat_map app] in *. fold (removed_items e). fold (added_items e). rewrite I1, I2.
      assert (Eb : (cmp b a < 0)%Z) by (destruct O as [O1 _]; pose proof (O1 b a); lia).
      assert (La : forall x, In x (a :: s) -> (cmp b x < 0)%Z).
      { intros x [->|Hx]; [assumption|]. apply (o_lt_le b a x); [assumption|]. specialize (Ls x Hx). lia. }
      split.
      + symmetry. apply not_in_drop. intros x Hx F. apply o_flip0 in F. specialize (La x Hx). lia.
      + symmetry. apply not_in_cons_out. intros x Hx. specialize (La x Hx). lia.
    - destruct (asc_inv _ _ Hs) as [Hs' Ls]. destruct (IH Hs' Hd) as [I1 I2].
      cbn [removed_items added_items flat_map app] in *. fold (removed_items e). fold (added_items e). rewrite I1, I2.
      rewrite !not_in_nil. auto.
    - destruct (asc_inv _ _ Hd) as [Hd' Ld]. destruct (IH Hs Hd') as [I1 I2].
      cbn [removed_items added_items flat_map app] in *. fold (removed_items e). fold (added_items e). rewrite I1, I2.
      rewrite !not_in_nil. auto.
  Qed.

  (** the entries come in the order of their items *)
  Lemma chosen_bound s d e : chosen cmp s d e -> ascending cmp s -> ascending cmp d -> forall z,
    (forall x, In x s -> (cmp z x < 0)%Z) -> (forall x, In x d -> (cmp z x < 0)%Z) -> Forall (fun x => (cmp z (item x) < 0)%Z) e.
  Proof.
    induction 1 as [|a b s d e E C IH|a b s d e E C IH|a b s d e E C IH|a s e C IH|b d e C IH]; intros Hs Hd z Bs Bd.
    - constructor.
    - destruct (asc_inv _ _ Hs) as [Hs' Ls]. destruct (asc_inv _ _ Hd) as [Hd' Ld].
      apply (IH Hs' Hd' z); intros x Hx; [apply Bs|apply Bd]; cbn; auto.
    - destruct (asc_inv _ _ Hs) as [Hs' Ls]. constructor; [cbn; apply Bs; cbn; auto|].
      apply (IH Hs' Hd z); intros x Hx; [apply Bs|apply Bd]; cbn; auto.
    - destruct (asc_inv _ _ Hd) as [Hd' Ld]. constructor; [cbn; apply Bd; cbn; auto|].
      apply (IH Hs Hd' z); intros x Hx; [apply Bs|apply Bd]; cbn; auto.
    - destruct (asc_inv _ _ Hs) as [Hs' Ls]. constructor; [cbn; apply Bs; cbn; auto|].
      apply (IH Hs' Hd z); intros x Hx; [apply Bs|apply Bd]; cbn; auto.
    - destruct (asc_inv _ _ Hd) as [Hd' Ld]. constructor; [cbn; apply Bd; cbn; auto|].
      apply (IH Hs Hd' z); intros x Hx; [apply Bs|apply Bd]; cbn; auto.
  Qed.
  Lemma chosen_ascending s d e : chosen cmp s d e -> ascending cmp s -> ascending cmp d ->
    StronglySorted (fun x y => (cmp (item x) (item y) < 0)%Z) e.
  Proof.
    induction 1 as [|a b s d e E C IH|a b s d e E C IH|a b s d e E C IH|a s e C IH|b d e C IH]; intros Hs Hd.
    - constructor.
    - destruct (asc_inv _ _ Hs) as [Hs' Ls]. destruct (asc_inv _ _ Hd) as [Hd' Ld]. auto.
    - destruct (asc_inv _ _ Hs) as [Hs' Ls]. destruct (asc_inv _ _ Hd) as [Hd' Ld]. constructor; [auto|]. cbn.
      apply (chosen_bound _ _ _ C Hs' Hd); [exact Ls|]. intros x [->|Hx]; [assumption|].
      apply (o_lt_le a b x); [assumption|]. specialize (Ld x Hx). lia.
    - destruct (asc_inv _ _ Hs) as [Hs' Ls]. destruct (asc_inv _ _ Hd) as [Hd' Ld]. constructor; [auto|]. cbn.
      assert (Eb : (cmp b a < 0)%Z) by (destruct O as [O1 _]; pose proof (O1 b a); lia).
      apply (chosen_bound _ _ _ C Hs Hd'); [|exact Ld]. intros x [->|Hx]; [assumption|].
      apply (o_lt_le b a x); [assumption|]. specialize (Ls x Hx). lia.
    - destruct (asc_inv _ _ Hs) as [Hs' Ls]. constructor; [auto|]. cbn.
      apply (chosen_bound _ _ _ C Hs' Hd); [exact Ls|]. intros x [].
    - destruct (asc_inv _ _ Hd) as [Hd' Ld]. constructor; [auto|]. cbn.
      apply (chosen_bound _ _ _ C Hs Hd'); [|exact Ld]. intros x [].
  Qed.
End Sorted.

(** ** walks *)
Lemma enumerates_walk {A} (m : machine A) l : forall s, enumerates_all m s l -> exists s', walk m s l s'.
Proof.
  induction l as [|x l IH]; intros s H.
  - exists s. constructor. specialize (H [Valid]). cbn in H. congruence.
  - pose proof (H [Valid]) as HV. pose proof (H [Get]) as HG. cbn in HV, HG.
    destruct (get m s) as [[y|] s1] eqn:EG; [|discriminate]. injection HG as ->. injection HV as HV.
    pose proof (H [Get; Next]) as HN. cbn in HN. rewrite EG in HN. destruct (next m s1) as [s2|] eqn:EN; [|discriminate].
    destruct (IH s2) as [s3 W].
    + intros cs. specialize (H (Get :: Next :: cs)). cbn in H. rewrite EG, EN in H. now injection H.
    + exists s3. econstructor; eauto.
Qed.

Lemma walk_det {A} (m : machine A) s l s' : walk m s l s' -> forall l2 s2, walk m s l2 s2 -> l2 = l /\ s2 = s'.
Proof.
  induction 1 as [s V|s x s1 s2 l s3 V G N W IH]; intros l0 s0 W0.
  - inversion W0 as [s' V'|s' y t1 t2 l' t3 V' G' N' W']; subst; [auto|congruence].
  - inversion W0 as [s' V'|s' y t1 t2 l' t3 V' G' N' W']; subst; [congruence|].
    rewrite G in G'. injection G' as <- <-. rewrite N in N'. injection N' as <-. destruct (IH _ _ W') as [-> ->]. auto.
Qed.

Lemma taker_walk {A} n (l : list A) i : walk (taker n) (l, i) (firstn (n - i) l) (skipn (n - i) l, Nat.max i (Nat.min n (i + length l))).
Proof.
  revert i. induction l as [|x l IH]; intros i.
  - rewrite firstn_nil, skipn_nil. replace (Nat.max _ _) with i by (cbn; lia). now constructor.
  - destruct (Nat.ltb_spec i n).
    + replace (n - i) with (S (n - S i)) by lia. cbn [firstn skipn].
      apply walk_item with (s1 := (x :: l, i)) (s2 := (l, S i)); cbn [taker valid get next st src_valid src_get src_next fst snd andb hd_error].
      * now apply Nat.ltb_lt.
      * apply Nat.ltb_lt in H. now rewrite H.
      * apply Nat.ltb_lt in H. now rewrite H.
      * replace (Nat.max i (Nat.min n (i + length (x :: l)))) with (Nat.max (S i) (Nat.min n (S i + length l))) by (cbn [length]; lia). apply IH.
    + replace (n - i) with 0 by lia. cbn [firstn skipn]. replace (Nat.max i (Nat.min n (i + length (x :: l)))) with i by (cbn [length]; lia).
      constructor. cbn [taker valid get next st src_valid src_get src_next fst snd andb hd_error]. apply Nat.ltb_ge. lia.
Qed.

Lemma func_walk {A} (f : nat -> A) v n k : k <= n -> (forall i, i < n -> v i = true) -> v n = false ->
  walk (func (fun i => Some (f i)) v) k (map f (seq k (n - k))) n.
Proof.
  intros Hk Hv Hn. remember (n - k) as m eqn:Em. revert k Hk Em. induction m; intros k Hk Em; cbn [seq map].
  - assert (k = n) as -> by lia. constructor. exact Hn.
  - apply walk_item with (s1 := k) (s2 := S k); cbn.
    + apply Hv. lia.
    + reflexivity.
    + rewrite Hv by lia. reflexivity.
    + apply IHm; lia.
Qed.

(** ** consumers *)
Section Consumers.
  Context {A : Type}.
  Implicit Types (l : list A) (p : A -> bool).
  Lemma aggregate_loop_is f l : forall x, aggregate_loop f (Some x) l = (Some (fold_left f l x), []).
  Proof. induction l; intros x; cbn; auto. Qed.
  Lemma aggregate1_is f l : aggregate1 f l = (match l with [] => None | x :: r => Some (fold_left f r x) end, []).
  Proof. destruct l; cbn; auto. apply aggregate_loop_is. Qed.
  Lemma aggregate_is {B} (f : B -> A -> B) l : forall b, aggregate f b l = (fold_left f l b, []).
  Proof. induction l; intros b; cbn; auto. Qed.
  Lemma all_is p l : all p l = (forallb p l, drop_while p l).
  Proof. induction l as [|x l IH]; cbn; [reflexivity|]. destruct (p x); cbn; auto. Qed.
  Lemma any_of_is p l : any_of p l = (existsb p l, drop_while (fun x => negb (p x)) l).
  Proof. induction l as [|x l IH]; cbn; [reflexivity|]. destruct (p x); cbn; auto. Qed.
  Lemma count_is p l : forall n, count n p l = (n + length (filter p l), []).
  Proof. induction l as [|x l IH]; intros n; cbn; [now rewrite Nat.add_0_r|]. rewrite IH. destruct (p x); cbn; f_equal; lia. Qed.
  Lemma for_each_is l : forall c, for_each c l = (c ++ l, []).
  Proof. induction l as [|x l IH]; intros c; cbn; [now rewrite app_nil_r|]. now rewrite IH, <- app_assoc. Qed.
  Lemma to_vector_is l : forall c, to_vector c l = (c ++ l, []).
  Proof. induction l as [|x l IH]; intros c; cbn; [now rewrite app_nil_r|]. now rewrite IH, <- app_assoc. Qed.
  Lemma index_of_is p l : forall n,
    (exists i x, index_of n p l = (Some (n + i), skipn i l) /\ nth_error l i = Some x /\ p x = true /\
       forall j y, j < i -> nth_error l j = Some y -> p y = false) \/
    (index_of n p l = (None, []) /\ forallb (fun x => negb (p x)) l = true).
  Proof.
    induction l as [|x l IH]; intros n; cbn; [auto|]. destruct (p x) eqn:E.
    - left. exists 0, x. cbn. rewrite Nat.add_0_r. repeat split; auto. intros; lia.
    - destruct (IH (S n)) as [(i & y & E1 & E2 & E3 & E4)|[E1 E2]].
      + left. exists (S i), y. rewrite E1. cbn. rewrite Nat.add_succ_r. repeat split; auto.
        intros [|j] z Hj Hz; cbn in Hz; [congruence|]. eapply E4; eauto. lia.
      + right. rewrite E1, E2. auto.
  Qed.
  Lemma element_at_is l : forall i c, c <= i -> element_at i c l = (nth_error l (i - c), skipn (i - c) l).
  Proof.
    induction l as [|x l IH]; intros i c H; cbn.
    - now destruct (i - c).
    - destruct (Nat.eqb_spec i c) as [->|N].
      + now rewrite Nat.sub_diag.
      + rewrite IH by lia. replace (i - c) with (S (i - S c)) by lia. reflexivity.
  Qed.
  Lemma first_of_is p l : first_of p l = (find p l, drop_while (fun x => negb (p x)) l).
  Proof. induction l as [|x l IH]; cbn; [reflexivity|]. destruct (p x); cbn; auto. Qed.
  Lemma first_or_is p l : first_or p l = (find p l, drop_while (fun x => negb (p x)) l).
  Proof. induction l as [|x l IH]; cbn; [reflexivity|]. destruct (p x); cbn; auto. Qed.
  Lemma find_app p l m : find p (l ++ m) = match find p l with Some x => Some x | None => find p m end.
  Proof. induction l as [|x l IH]; cbn; [reflexivity|]. now destruct (p x). Qed.
  Lemma last_of_is p l : forall r, last_of r p l = (match find p (rev l) with Some x => Some x | None => r end, []).
  Proof.
    induction l as [|x l IH]; intros r; cbn; [reflexivity|]. rewrite IH, find_app. cbn.
    destruct (find p (rev l)); [reflexivity|]. now destruct (p x).
  Qed.
  Lemma sequence_equal_is {B} (q : A -> B -> bool) l : forall m, exists k,
    let '(r, l', m') := sequence_equal q l m in
    l' = skipn k l /\ m' = skipn k m /\ Forall2 (fun x y => q x y = true) (firstn k l) (firstn k m) /\
    match l', m' with
    | [], [] => r = true
    | x :: _, y :: _ => r = false /\ q x y = false
    | _, _ => r = false
    end.
  Proof.
    induction l as [|x l IH]; intros m; cbn.
    - exists 0. destruct m; cbn; auto.
    - destruct m as [|y m]; cbn; [exists 0; cbn; auto|]. destruct (q x y) eqn:E; cbn.
      + destruct (IH m) as [k Hk]. exists (S k). destruct (sequence_equal q l m) as [[r l'] m']. cbn.
        destruct Hk as (H1 & H2 & H3 & H4). repeat split; auto.
      + exists 0. cbn. auto.
  Qed.
  Lemma sequence_equal_result {B} (q : A -> B -> bool) l : forall m,
    fst (fst (sequence_equal q l m)) = true <-> Forall2 (fun x y => q x y = true) l m.
  Proof.
    induction l as [|x l IH]; intros [|y m]; cbn.
    - split; auto.
    - split; [discriminate|]. intros H; inversion H.
    - split; [discriminate|]. intros H; inversion H.
    - destruct (q x y) eqn:E; cbn.
      + rewrite IH. split; intros H; [now constructor|now inversion H].
      + split; [discriminate|]. intros H; inversion H; congruence.
  Qed.
  Lemma same_is (eqv : A -> A -> bool) l : forall n, (forall x : A, eqv x x = true) -> length l < n ->
    sequence_equal_same eqv n l = if Nat.even (length l) then Some true else None.
  Proof.
    intros n Hp. revert l. induction n as [n IH] using lt_wf_ind. intros l H. destruct n; [lia|].
    destruct l as [|x [|y l]]; cbn; [reflexivity|now rewrite Hp|]. rewrite Hp. cbn. apply IH; cbn in *; lia.
  Qed.
End Consumers.

(** ** ranges *)
Lemma skipn_S {A} k (l : list A) : match skipn k l with [] => length l <= k | x :: r => k < length l /\ nth_error l k = Some x /\ skipn (S k) l = r end.
Proof.
  revert l. induction k; intros [|x l]; cbn; try (split; [lia|]; auto); try lia.
  specialize (IHk l). destruct (skipn k l); [lia|]. destruct IHk as (? & ? & ?). repeat split; auto. lia.
Qed.
Section Ranges.
  Context {A : Type} (l : list A).
  Lemma r_valid_at k s : at_position l k s -> r_valid s = (k <? length l).
  Proof.
    intros (E1 & E2 & E3). unfold r_valid. rewrite E2. pose proof (skipn_S k l) as H. destruct (skipn k l); cbn.
    - symmetry. apply Nat.ltb_ge. lia.
    - symmetry. apply Nat.ltb_lt. tauto.
  Qed.
  Lemma r_get_at k s : at_position l k s -> r_get s = nth_error l k.
  Proof.
    intros (E1 & E2 & E3). unfold r_get. rewrite E2. pose proof (skipn_S k l) as H. destruct (skipn k l); cbn.
    - symmetry. apply nth_error_None. lia.
    - symmetry. tauto.
  Qed.
  Lemma r_next_at k s : at_position l k s ->
    (k < length l /\ exists s', r_next s = Some s' /\ at_position l (S k) s') \/ (k = length l /\ r_next s = None).
  Proof.
    intros (E1 & E2 & E3). unfold r_next. rewrite E2. pose proof (skipn_S k l) as H. destruct (skipn k l) eqn:E; cbn.
    - right. split; [lia|reflexivity].
    - left. destruct H as (H1 & H2 & H3). split; [assumption|]. eexists. split; [reflexivity|]. split; [cbn; lia|]. split; [symmetry; exact H3|lia].
  Qed.
  Lemma r_first_at : at_position l 0 (r_first l).
  Proof. split; [reflexivity|]. split; [reflexivity|lia]. Qed.
  Lemma at_unique k s s' : at_position l k s -> at_position l k s' -> s = s'.
  Proof. intros (A1 & A2 & _) (B1 & B2 & _). destruct s, s'. cbn in *. congruence. Qed.
  Lemma r_advance_at f : forall k t s, at_position l k s -> k <= t <= length l -> t - k <= f -> exists s', r_advance f t s = Some s' /\ at_position l t s'.
  Proof.
    induction f; intros k t s H Ht Hf; cbn.
    - assert (k = t) as -> by lia. destruct H as [E H]. rewrite E, Nat.eqb_refl. exists s. split; [reflexivity|]. split; auto.
    - destruct (Nat.eqb_spec (snd s) t) as [E|N].
      + exists s. split; [reflexivity|]. destruct H as [E' H]. assert (k = t) as -> by lia. split; auto.
      + destruct (r_next_at _ _ H) as [[L (s' & -> & H')]|[L _]].
        * destruct H as [E' _]. apply (IHf (S k)); auto; lia.
        * destruct H as [E' _]. lia.
  Qed.
  Lemma r_copy_at k s : at_position l k s -> r_copy l s = Some s.
  Proof.
    intros H. unfold r_copy. destruct (H) as (E1 & E2 & E3).
    destruct (r_advance_at (S (length l)) 0 (snd s) (r_first l) r_first_at) as (s' & F & H'); [lia|lia|].
    rewrite F. f_equal. rewrite E1 in H'. eauto using at_unique.
  Qed.
  Lemma r_last_loop_at f : forall k s p, at_position l k s -> at_position l (Nat.min k (Nat.pred (length l))) p -> length l - k < f ->
    exists s', r_last_loop f s p = Some s' /\ at_position l (Nat.pred (length l)) s'.
  Proof.
    induction f; intros k s p Hs Hp Hf; [lia|]. cbn. rewrite (r_valid_at _ _ Hs). destruct (Nat.ltb_spec k (length l)) as [L|L].
    - destruct (r_next_at _ _ Hs) as [[_ (s' & -> & H')]|[? _]]; [|lia]. rewrite (r_valid_at _ _ H').
      destruct (Nat.ltb_spec (S k) (length l)) as [L2|L2].
      + destruct (r_next_at _ _ Hp) as [[_ (p' & -> & Hp')]|[? _]]; [|lia].
        apply (IHf (S k)); auto; [|lia]. replace (Nat.min (S k) (Nat.pred (length l))) with (S (Nat.min k (Nat.pred (length l)))) by lia. exact Hp'.
      + apply (IHf (S k)); auto; [|lia]. replace (Nat.min (S k) (Nat.pred (length l))) with (Nat.min k (Nat.pred (length l))) by lia. exact Hp.
    - exists p. split; [reflexivity|]. destruct Hs as (_ & _ & Hk).
      replace (Nat.pred (length l)) with (Nat.min k (Nat.pred (length l))) by lia. exact Hp.
  Qed.
  Lemma r_last_at : exists s, r_last l = Some s /\ at_position l (Nat.pred (length l)) s.
  Proof.
    unfold r_last. rewrite (r_copy_at _ _ r_first_at).
    apply (r_last_loop_at (S (length l)) 0); [apply r_first_at|apply r_first_at|lia].
  Qed.
End Ranges.

Lemma range_for_is {A S} (body : A -> S -> S) l : forall s, range_for body l s = Some (fold_left (fun s x => body x s) l s).
Proof. induction l as [|x l IH]; intros s; cbn; auto. Qed.

(** ** FOR_EACH *)
Section ForEach.
  Context {A S : Type} (filter : A -> bool) (body : A -> S -> S * outcome).
  Fixpoint fe_spec (l : list A) (s : S) : list A * S :=
    match l with
    | [] => ([], s)
    | x :: r => if filter x then match body x s with (s', Normal) => fe_spec r s' | (s', Break) => (r, s') end else fe_spec r s
    end.
  Lemma fe_middle_is x r s : fe_middle filter body 2 (x :: r) true false s =
    Some (if filter x then match body x s with (s', Normal) => (false, s') | (s', Break) => (true, s') end else (false, s)).
  Proof. cbn. destruct (filter x); cbn; [|reflexivity]. destruct (body x s) as [s' []]; reflexivity. Qed.
  Lemma fe_outer_is f : forall l s, length l < f -> exists b, fe_outer filter body f l false s = Some (fst (fe_spec l s), b, snd (fe_spec l s)).
  Proof.
    induction f; intros l s H; [lia|]. destruct l as [|x r]; [exists false; reflexivity|].
    cbn [fe_outer src_valid negb andb src_next]. rewrite fe_middle_is. cbn in H. cbn [fe_spec].
    destruct (filter x).
    - destruct (body x s) as [s' []].
      + apply IHf. lia.
      + exists true. destruct f; [lia|]. cbn [fe_outer fst snd]. now rewrite andb_false_r.
    - apply IHf. lia.
  Qed.
  Lemma for_each_macro_is l s : for_each_macro filter body l s = Some (fe_spec l s).
  Proof.
    unfold for_each_macro. destruct (fe_outer_is (Datatypes.S (length l)) l s) as [b ->]; [lia|]. now destruct (fe_spec l s).
  Qed.
End ForEach.
