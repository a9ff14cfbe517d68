From Verif Require Import Base SvModel SvSpec SvProofs SuModel SuSpec.
From Coq Require Import Lia.

Lemma skipn_skipn {A} x y (l : list A) : skipn x (skipn y l) = skipn (x + y) l.
Proof.
  revert l. induction y as [|y IH]; intros l; [rewrite Nat.add_0_r; reflexivity|].
  destruct l; [rewrite !skipn_nil; reflexivity|]. rewrite Nat.add_succ_r. cbn [skipn]. apply IH.
Qed.

(** * search *)
Lemma is_prefix_iff v : forall d, is_prefix v d = true <-> exists b, d = v ++ b.
Proof.
  induction v as [|x v IH]; intros d; cbn [is_prefix].
  - split; [exists d; reflexivity|reflexivity].
  - destruct d as [|y d]; [split; [discriminate|intros (b & E); discriminate E]|].
    rewrite andb_true_iff, Z.eqb_eq, IH. split; [intros [-> (b & ->)]; exists b; reflexivity|].
    intros (b & E). injection E as -> ->. split; [reflexivity|exists b; reflexivity].
Qed.
Lemma occurs_0 d v : occurs d v 0 <-> exists b, d = v ++ b.
Proof.
  split; [intros (a & b & -> & L); apply length_zero_iff_nil in L; subst; exists b; reflexivity|].
  intros (b & ->). exists [], b. split; reflexivity.
Qed.
Lemma occurs_S x d v i : occurs (x :: d) v (S i) <-> occurs d v i.
Proof.
  split.
  - intros (a & b & E & L). destruct a as [|y a]; [discriminate L|]. injection E as -> ->. exists a, b. split; [reflexivity|cbn in L; lia].
  - intros (a & b & -> & <-). exists (x :: a), b. split; reflexivity.
Qed.
Lemma search_spec v : forall d, match search d v with
  | Some i => occurs d v i /\ (forall j, (j < i)%nat -> ~ occurs d v j)
  | None => forall j, ~ occurs d v j end.
Proof.
  induction d as [|x d IH]; cbn [search].
  - destruct (is_prefix v []) eqn:E.
    + apply is_prefix_iff in E. split; [apply occurs_0; exact E|lia].
    + intros j Ho. apply occurs_iff in Ho as [Hl Ho]. cbn in Hl. assert (j = 0)%nat by lia. subst. destruct v; [discriminate E|cbn in Hl; lia].
  - destruct (is_prefix v (x :: d)) eqn:E.
    + apply is_prefix_iff in E. split; [apply occurs_0; exact E|lia].
    + assert (N : ~ occurs (x :: d) v 0) by (intros H; apply occurs_0, is_prefix_iff in H; congruence).
      destruct (search d v) as [i|].
      * destruct IH as [A B]. split; [apply occurs_S; exact A|]. intros [|j] Hj; [exact N|]. rewrite occurs_S. apply B. lia.
      * intros [|j]; [exact N|]. rewrite occurs_S. apply IH.
Qed.

Lemma occurs_split d v i : occurs d v i -> d = firstn i d ++ v ++ skipn (i + length v) d /\ length (firstn i d) = i.
Proof.
  intros H. pose proof (proj1 (occurs_iff d v i) H) as [Hl E]. split; [|rewrite firstn_length; lia].
  rewrite <- (firstn_skipn i d) at 1. f_equal. rewrite <- (firstn_skipn (length v) (skipn i d)). rewrite E, skipn_skipn. f_equal. f_equal. lia.
Qed.
Lemma occurs_inside d v i : occurs d v i -> (i + length v <= length d)%nat.
Proof. intros H. apply occurs_iff in H. tauto. Qed.

(** * ReplaceAll *)
Lemma replace_at_exact done a from b to :
  replace_at (done ++ a ++ from ++ b) (length done + length a) (length from) to = done ++ a ++ to ++ b.
Proof.
  unfold replace_at. rewrite (app_assoc done a (from ++ b)), (app_assoc done a (to ++ b)).
  replace (length done + length a)%nat with (length (done ++ a)) by (rewrite app_length; lia).
  generalize (done ++ a) as p. intros p. f_equal.
  - rewrite firstn_app, Nat.sub_diag, firstn_all. cbn [firstn]. apply app_nil_r.
  - f_equal. rewrite skipn_app, skipn_all2 by lia. replace (length p + length from - length p)%nat with (length from) by lia.
    rewrite skipn_app, skipn_all, Nat.sub_diag. reflexivity.
Qed.

Lemma replace_loop_spec from to : from <> [] -> forall fuel done a b,
  (length (a ++ from ++ b) <= fuel)%nat ->
  (forall i, (i < length a)%nat -> ~ occurs (a ++ from ++ b) from i) ->
  exists out, replaced from to (a ++ from ++ b) out /\
    replace_loop fuel from to (done ++ a ++ from ++ b) (length done + length a) = Some (done ++ out).
Proof.
  intros Hf. assert (Lf : (0 < length from)%nat) by (destruct from; [congruence|cbn; lia]).
  induction fuel as [|fuel IH]; intros done a b Hl Hno; [rewrite !app_length in Hl; lia|].
  cbn [replace_loop]. cbv zeta. rewrite replace_at_exact.
  replace (length done + length a + length to)%nat with (length (done ++ a ++ to)) by (rewrite !app_length; lia).
  assert (E : skipn (length (done ++ a ++ to)) (done ++ a ++ to ++ b) = b).
  { replace (done ++ a ++ to ++ b) with ((done ++ a ++ to) ++ b) by (rewrite <- !app_assoc; reflexivity).
    rewrite skipn_app, skipn_all, Nat.sub_diag. reflexivity. }
  rewrite E. pose proof (search_spec from b) as S. destruct (search b from) as [k|].
  - destruct S as [Hk Hmin]. pose proof (occurs_inside _ _ _ Hk) as Hin. destruct (occurs_split _ _ _ Hk) as [Eb La].
    assert (L : (length (done ++ a ++ to) + k <? length (done ++ a ++ to ++ b))%nat = true).
    { apply Nat.ltb_lt. rewrite !app_length in *. lia. }
    rewrite L. set (a' := firstn k b) in *. set (b' := skipn (k + length from) b) in *.
    destruct (IH (done ++ a ++ to) a' b') as (out & R & F).
    + rewrite <- Eb. rewrite !app_length in Hl. lia.
    + rewrite <- Eb, La. exact Hmin.
    + rewrite <- Eb in R, F. rewrite La in F. exists (a ++ to ++ out). split; [apply rep_some; assumption|].
      replace (done ++ a ++ to ++ b) with ((done ++ a ++ to) ++ b) by (rewrite <- !app_assoc; reflexivity).
      rewrite F. rewrite <- !app_assoc. reflexivity.
  - rewrite Nat.ltb_irrefl. exists (a ++ to ++ b). split; [|reflexivity]. apply rep_some; [exact Hno|]. apply rep_none. exact S.
Qed.

Lemma replace_all_spec str from to fuel : from <> [] -> (length str <= fuel)%nat ->
  exists out, replace_all fuel str from to = Some out /\ replaced from to str out.
Proof.
  intros Hf Hl. unfold replace_all. pose proof (find_spec str from 0) as F.
  destruct (find str from 0) as [i| |]; cbn [least] in F; [|exists str; split; [reflexivity|apply rep_none; intros j; apply F; lia]|destruct F].
  destruct F as (_ & Ho & Hmin). destruct (occurs_split _ _ _ Ho) as [E La].
  set (a := firstn i str) in *. set (b := skipn (i + length from) str) in *.
  destruct (replace_loop_spec from to Hf fuel [] a b) as (out & R & G).
  - rewrite <- E. exact Hl.
  - rewrite <- E, La. intros j Hj. apply Hmin. lia.
  - rewrite <- E in R, G. cbn [app length Nat.add] in G. rewrite La in G. exists out. split; assumption.
Qed.

Lemma app_inv_len {A} (a c b d : list A) : a ++ b = c ++ d -> length a = length c -> a = c /\ b = d.
Proof.
  revert c. induction a as [|x a IH]; intros [|y c] E L; cbn in *; try lia; [auto|].
  injection E as -> E. destruct (IH c E ltac:(lia)) as [-> ->]. auto.
Qed.

Lemma replaced_unique from to s out : from <> [] -> replaced from to s out -> forall out', replaced from to s out' -> out' = out.
Proof.
  intros Hf H. induction H as [s Hno|a b out Hno H IH]; intros out' H'.
  - inversion H' as [? Hno'|a b ? Hno' H2]; subst; [reflexivity|]. exfalso. apply (Hno (length a)). exists a, b. auto.
  - inversion H' as [? Hno'|a' b' out2 Hno' H2 E]; subst.
    + exfalso. apply (Hno' (length a)). exists a, b. auto.
    + assert (length a = length a').
      { destruct (Nat.lt_trichotomy (length a) (length a')) as [L|[L|L]]; [|exact L|]; exfalso.
        - apply (Hno' (length a) L). rewrite E. exists a, b. auto.
        - apply (Hno (length a') L). rewrite <- E. exists a', b'. auto. }
      destruct (app_inv_len _ _ _ _ E ltac:(lia)) as [-> E2].
      destruct (app_inv_len _ _ _ _ E2 eq_refl) as [_ ->]. rewrite (IH _ H2). reflexivity.
Qed.

(** An empty pattern: the loop never ends. *)
Lemma search_nil d : search d [] = Some 0%nat.
Proof. destruct d; reflexivity. Qed.
Lemma replace_loop_forever to fuel : forall r index, (index < length r)%nat -> replace_loop fuel [] to r index = None.
Proof.
  induction fuel as [|fuel IH]; intros r index H; [reflexivity|]. cbn [replace_loop]. cbv zeta. rewrite search_nil.
  assert (L : length (replace_at r index (length (@nil Z)) to) = (length r + length to)%nat).
  { unfold replace_at. cbn [length]. rewrite Nat.add_0_r, !app_length, firstn_length, skipn_length. lia. }
  rewrite L. destruct (Nat.ltb_spec (index + length to + 0) (length r + length to)); [|lia]. apply IH. rewrite L. lia.
Qed.

Lemma replace_char_spec s f t : replace_char s f t = map (fun c => if (c =? f)%Z then t else c) s.
Proof.
  unfold replace_char. pose proof (find_spec s [f] 0) as F.
  assert (Aux : forall l, (forall i, (i < length l)%nat -> nth_error l i <> Some f) -> map (fun c => if (c =? f)%Z then t else c) l = l).
  { induction l as [|x l IH]; intros H; [reflexivity|]. cbn [map]. rewrite IH.
    - destruct (Z.eqb_spec x f) as [->|]; [|reflexivity]. exfalso. apply (H 0%nat); [cbn; lia|reflexivity].
    - intros i Hi. apply (H (S i)). cbn. lia. }
  assert (Occ : forall i, nth_error s i = Some f -> occurs s [f] i).
  { intros i Hi. apply nth_error_split in Hi. destruct Hi as (a & b & -> & L). exists a, b. split; [reflexivity|exact L]. }
  destruct (find s [f] 0) as [i| |]; cbn [least] in F; [|symmetry; apply Aux; intros i _ E; apply (F i ltac:(lia)), Occ, E|destruct F].
  destruct F as (_ & _ & Hmin). rewrite <- (firstn_skipn i s) at 3. rewrite map_app. f_equal. symmetry. apply Aux.
  intros j Hj E. rewrite firstn_length in Hj. apply (Hmin j); [lia|]. apply Occ.
  assert (G : nth_error (firstn i s ++ skipn i s) j = nth_error (firstn i s) j) by (apply nth_error_app1; rewrite firstn_length; lia).
  rewrite firstn_skipn in G. congruence.
Qed.

Lemma find_char d c : (find d [c] 0 = Npos <-> ~ In c d).
Proof.
  pose proof (find_spec d [c] 0) as F. split.
  - intros E. rewrite E in F. cbn [least] in F. intros H. apply in_split in H. destruct H as (a & b & ->).
    apply (F (length a)); [lia|]. exists a, b. split; reflexivity.
  - intros N. destruct (find d [c] 0) as [i| |]; cbn [least] in F; [|reflexivity|destruct F].
    exfalso. apply N. destruct F as (_ & (a & b & -> & _) & _). apply in_or_app. right. left. reflexivity.
Qed.
Lemma filter_out_spec s chars : filter_out s chars = filter (fun c => negb (among c chars)) s.
Proof.
  induction s as [|c s IH]; [reflexivity|]. cbn [filter_out filter]. pose proof (find_char chars c) as F. pose proof (among_iff c chars) as A.
  destruct (find chars [c] 0) as [i| |] eqn:E.
  - assert (In c chars) by (destruct (in_dec Z.eq_dec c chars) as [|N]; [assumption|apply F in N; discriminate]).
    apply A in H. rewrite H. exact IH.
  - destruct (among c chars); [exfalso; apply (proj1 F eq_refl), A; reflexivity|]. cbn [negb]. rewrite IH. reflexivity.
  - pose proof (find_spec chars [c] 0) as G. rewrite E in G. destruct G.
Qed.

(** * prefixes and suffixes *)
Lemma eqs_iff a b : eqs a b = true <-> a = b.
Proof. unfold eqs. destruct (list_eq_dec Z.eq_dec a b); split; congruence. Qed.

Lemma remove_prefix_str_spec s p : (forall b, s = p ++ b -> remove_prefix_str s p = b) /\ ((forall b, s <> p ++ b) -> remove_prefix_str s p = s).
Proof.
  unfold remove_prefix_str. destruct (eqs (firstn (length p) s) p) eqn:E.
  - apply eqs_iff in E. split.
    + intros b ->. rewrite skipn_app, skipn_all, Nat.sub_diag. reflexivity.
    + intros H. exfalso. apply (H (skipn (length p) s)). rewrite <- E at 1. symmetry. apply firstn_skipn.
  - split; [|reflexivity]. intros b ->. assert (eqs (firstn (length p) (p ++ b)) p = true); [|congruence].
    apply eqs_iff. rewrite firstn_app, Nat.sub_diag, firstn_all. cbn. apply app_nil_r.
Qed.
Lemma remove_suffix_str_spec s p : (forall a, s = a ++ p -> remove_suffix_str s p = a) /\ ((forall a, s <> a ++ p) -> remove_suffix_str s p = s).
Proof.
  unfold remove_suffix_str. destruct (Nat.ltb_spec (length s) (length p)).
  - split; [intros a ->; rewrite app_length in *; lia|reflexivity].
  - destruct (eqs (skipn (length s - length p) s) p) eqn:E.
    + apply eqs_iff in E. split.
      * intros a ->. rewrite app_length. replace (length a + length p - length p)%nat with (length a) by lia.
        rewrite firstn_app, Nat.sub_diag, firstn_all. cbn. apply app_nil_r.
      * intros H'. exfalso. apply (H' (firstn (length s - length p) s)). rewrite <- E at 2. symmetry. apply firstn_skipn.
    + split; [|reflexivity]. intros a ->. exfalso. assert (eqs (skipn (length (a ++ p) - length p) (a ++ p)) p = true); [|congruence].
      apply eqs_iff. rewrite app_length. replace (length a + length p - length p)%nat with (length a) by lia.
      rewrite skipn_app, skipn_all, Nat.sub_diag. reflexivity.
Qed.
Lemma starts_with_str_spec s p : starts_with_str s p = true <-> exists b, s = p ++ b.
Proof. exact (starts_with_spec s p). Qed.
Lemma ends_with_str_spec s p : ends_with_str s p = true <-> exists a, s = a ++ p.
Proof.
  rewrite <- ends_with_spec. unfold ends_with_str, ends_with, compare_at, substr.
  destruct (Nat.leb_spec (length p) (length s)); cbn [andb]; [|tauto].
  destruct (Nat.ltb_spec (length s - length p) (length s + 1)); [|lia].
  replace (Nat.min (length p) (length s - (length s - length p))) with (length s - (length s - length p))%nat by lia. tauto.
Qed.
Lemma contains_str_spec s p : contains_str s p = true <-> exists i, occurs s p i.
Proof.
  unfold contains_str. pose proof (find_spec s p 0) as F. destruct (find s p 0) as [i| |]; cbn [least] in F.
  - destruct F as (_ & H & _). split; [intros _; exists i; exact H|reflexivity].
  - split; [discriminate|]. intros (i & H). exfalso. apply (F i); [lia|exact H].
  - destruct F.
Qed.

(** * stripping *)
Lemma first_not_among_spec d v : match first_not_among d v with
  | Some i => (i < length d)%nat /\ Forall (fun c => In c v) (firstn i d) /\ (forall c, hd_error (skipn i d) = Some c -> ~ In c v)
  | None => Forall (fun c => In c v) d end.
Proof.
  induction d as [|c d IH]; cbn [first_not_among]; [constructor|].
  pose proof (among_iff c v) as A. destruct (among c v).
  - destruct (first_not_among d v) as [i|].
    + destruct IH as (L & B & C). cbn [length firstn skipn]. split; [lia|]. split; [constructor; [apply A; reflexivity|exact B]|exact C].
    + constructor; [apply A; reflexivity|exact IH].
  - cbn [length firstn skipn hd_error]. split; [lia|]. split; [constructor|]. intros x E. injection E as <-. intros H. apply A in H. discriminate.
Qed.
Lemma last_not_among_spec d v : match last_not_among d v with
  | Some i => (i < length d)%nat /\ Forall (fun c => In c v) (skipn (i + 1) d) /\ (exists c, nth_error d i = Some c /\ ~ In c v)
  | None => Forall (fun c => In c v) d end.
Proof.
  induction d as [|c d IH]; cbn [last_not_among]; [constructor|].
  destruct (last_not_among d v) as [i|].
  - destruct IH as (L & B & C). cbn [length Nat.add skipn nth_error]. split; [lia|]. split; [exact B|exact C].
  - pose proof (among_iff c v) as A. destruct (among c v).
    + constructor; [apply A; reflexivity|exact IH].
    + cbn [length Nat.add skipn nth_error]. split; [lia|]. split; [exact IH|]. exists c. split; [reflexivity|]. intros H. apply A in H. discriminate.
Qed.

Lemma left_strip_spec s v : stripped true false s v (left_strip s v).
Proof.
  unfold left_strip. pose proof (first_not_among_spec s v) as F. destruct (first_not_among s v) as [i|].
  - destruct F as (_ & B & C). exists (firstn i s), []. rewrite app_nil_r, firstn_skipn. repeat split; auto; try discriminate.
  - exists s, []. rewrite !app_nil_r. repeat split; auto; try discriminate.
Qed.
Lemma hd_rev_last {A} (l : list A) i c : nth_error l i = Some c -> hd_error (rev (firstn (i + 1) l)) = Some c.
Proof.
  intros E. apply nth_error_split in E. destruct E as (a & b & -> & <-).
  rewrite firstn_app. rewrite firstn_all2 by lia. replace (length a + 1 - length a)%nat with 1%nat by lia. cbn [firstn].
  rewrite rev_app_distr. reflexivity.
Qed.
Lemma right_strip_spec s v : stripped false true s v (right_strip s v).
Proof.
  unfold right_strip. pose proof (last_not_among_spec s v) as F. destruct (last_not_among s v) as [i|].
  - destruct F as (_ & B & (c & E & N)). exists [], (skipn (i + 1) s). cbn [app]. rewrite firstn_skipn. repeat split; auto; try discriminate.
    intros _ x Hx. rewrite (hd_rev_last s i c E) in Hx. injection Hx as <-. exact N.
  - exists [], s. cbn [app]. repeat split; auto; try discriminate.
Qed.
Lemma strip_spec s v : stripped true true s v (strip s v).
Proof.
  unfold strip. destruct (right_strip_spec s v) as (a & b & E & A & B & Ha & _ & _ & R). rewrite (Ha eq_refl) in E. cbn [app] in E. clear a A Ha.
  set (m := right_strip s v) in *. destruct (left_strip_spec m v) as (a' & b' & E' & A' & _ & _ & Hb' & L & _).
  rewrite (Hb' eq_refl), app_nil_r in E'. exists a', b. split; [rewrite E, E' at 1; rewrite <- app_assoc; reflexivity|].
  repeat split; auto; try discriminate.
  intros _ c Hc. apply (R eq_refl). rewrite E'. rewrite rev_app_distr.
  destruct (rev (left_strip m v)); [discriminate Hc|exact Hc].
Qed.
(** ... and there is only one such text when something is left *)
Lemma stripped_unique s v m m' : stripped true true s v m -> stripped true true s v m' -> m = m'.
Proof.
  intros (a & b & E & A & B & _ & _ & L & R) (a' & b' & E' & A' & B' & _ & _ & L' & R').
  assert (Emp : forall a b m a' b' m', s = a ++ m ++ b -> s = a' ++ m' ++ b' -> Forall (fun c => In c v) a -> Forall (fun c => In c v) b ->
            m = [] -> (forall c, hd_error m' = Some c -> ~ In c v) -> m' = []).
  { clear. intros a b m a' b' m' E E' A B -> L'. destruct m' as [|c m']; [reflexivity|]. exfalso. apply (L' c eq_refl).
    assert (F : Forall (fun c => In c v) s) by (rewrite E; apply Forall_app; split; assumption).
    rewrite E' in F. rewrite Forall_forall in F. apply F. apply in_or_app. right. left. reflexivity. }
  destruct m as [|x m]; [symmetry; eapply Emp; eauto|]. destruct m' as [|y m']; [eapply (Emp a' b' [] a b); eauto|].
  assert (length a = length a').
  { assert (Aux : forall a b m x a' b' m' y, s = a ++ (x :: m) ++ b -> s = a' ++ (y :: m') ++ b' -> Forall (fun c => In c v) a' -> ~ In x v -> ~ (length a < length a')%nat).
    { clear. intros a b m x a' b' m' y E E' A' N Hl. rewrite E in E'.
      assert (H : nth_error a' (length a) = Some x).
      { rewrite <- (nth_error_app1 a' ((y :: m') ++ b') Hl). rewrite <- E'. rewrite nth_error_app2, Nat.sub_diag by lia. reflexivity. }
      apply nth_error_In in H. rewrite Forall_forall in A'. apply N. apply A'. exact H. }
    pose proof (Aux a b m x a' b' m' y E E' A' (L eq_refl x eq_refl)).
    pose proof (Aux a' b' m' y a b m x E' E A (L' eq_refl y eq_refl)). lia. }
  rewrite E in E'. destruct (app_inv_len _ _ _ _ E' H) as [-> E2].
  assert (length b = length b').
  { apply (f_equal (@rev Z)) in E2. rewrite !rev_app_distr in E2.
    destruct (rev (x :: m)) as [|u um] eqn:U; [apply (f_equal (@length Z)) in U; rewrite rev_length in U; discriminate U|].
    destruct (rev (y :: m')) as [|w wm] eqn:W; [apply (f_equal (@length Z)) in W; rewrite rev_length in W; discriminate W|].
    pose proof (R eq_refl u) as Ru. rewrite ?U in Ru. specialize (Ru eq_refl).
    pose proof (R' eq_refl w) as Rw. rewrite ?W in Rw. specialize (Rw eq_refl).
    assert (Aux : forall b um (u : Z) b' wm w, rev b ++ u :: um = rev b' ++ w :: wm -> Forall (fun c => In c v) b' -> ~ In u v -> ~ (length b < length b')%nat).
    { clear. intros b um u b' wm w E B' N Hl.
      assert (H : nth_error (rev b') (length b) = Some u).
      { rewrite <- (nth_error_app1 (rev b') (w :: wm)) by (rewrite rev_length; lia). rewrite <- E. rewrite nth_error_app2, rev_length, Nat.sub_diag by (rewrite rev_length; lia). reflexivity. }
      apply nth_error_In, in_rev in H. rewrite Forall_forall in B'. apply N, B', H. }
    pose proof (Aux b um u b' wm w E2 B' Ru). pose proof (Aux b' wm w b um u (eq_sym E2) B Rw). lia. }
  apply app_inv_len in E2; [tauto|]. apply (f_equal (@length Z)) in E2. rewrite !app_length in E2. lia.
Qed.
