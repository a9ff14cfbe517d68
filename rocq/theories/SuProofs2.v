From Verif Require Import Base SvModel SvSpec SvProofs SuModel SuSpec SuProofs.
From Coq Require Import Lia.

(** * splitting *)
Section Split.
  Variable delim : view -> view -> view -> view -> Prop.
  Variable find_delim : view -> nat -> option (nat * nat).
  Variable s : view.
  Hypothesis delim_parts : forall s a d b, delim s a d b -> s = a ++ d ++ b /\ d <> [].
  Hypothesis find_some : forall start p n, (start <= length s)%nat -> find_delim s start = Some (p, n) ->
    exists a d b, delim (skipn start s) a d b /\ p = (start + length a)%nat /\ n = length d.
  Hypothesis find_none : forall start, (start <= length s)%nat -> find_delim s start = None -> forall a d b, ~ delim (skipn start s) a d b.
  Variable limit : nat.

  (** the splits left *)
  Definition left_splits (results : nat) : option nat := if (limit =? 0)%nat then None else Some (limit - results)%nat.
  Definition coherent (b : nat) (r : srange) : Prop :=
    s_start r = Some b /\ (b <= length s)%nat /\
    ((limit = 0%nat \/ (s_results r < limit)%nat) -> s_next r = find_delim s b) /\
    (limit <> 0%nat -> (s_results r <= limit)%nat /\ (s_results r = limit -> s_next r = None)).

  Lemma piece_at b a d c : delim (skipn b s) a d c -> (b <= length s)%nat ->
    ref_str (make_ref s b (Some (b + length a)%nat)) = a /\ skipn (b + length a + length d) s = c /\ (b + length a + length d <= length s)%nat /\ (0 < length d)%nat.
  Proof.
    intros D Hb. destruct (delim_parts _ _ _ _ D) as [E N].
    assert (L : length (skipn b s) = (length s - b)%nat) by apply skipn_length.
    rewrite E in L. rewrite !app_length in L.
    split; [|split; [|split; [lia|destruct d; [congruence|cbn; lia]]]].
    - unfold ref_str, make_ref, ref_size. cbn [r_begin r_end r_owner].
      replace (b + length a - b)%nat with (length a) by lia. rewrite E.
      destruct (Nat.ltb_spec 0 (length a)).
      + rewrite firstn_app, Nat.sub_diag, firstn_all. cbn. apply app_nil_r.
      + destruct a; [reflexivity|cbn in *; lia].
    - replace (b + length a + length d)%nat with ((length a + length d) + b)%nat by lia. rewrite <- skipn_skipn, E.
      rewrite app_assoc. replace (length a + length d)%nat with (length (a ++ d)) by apply app_length.
      rewrite skipn_app, skipn_all, Nat.sub_diag. reflexivity.
  Qed.
  Lemma piece_rest b : (b <= length s)%nat -> ref_str (make_ref s b None) = skipn b s.
  Proof.
    intros Hb. unfold ref_str, make_ref, ref_size. cbn [r_begin r_end r_owner].
    destruct (Nat.ltb_spec 0 (length s - b)); [rewrite firstn_all2; [reflexivity|rewrite skipn_length; lia]|].
    symmetry. apply skipn_all2. lia.
  Qed.

  Lemma split_all_spec fuel : forall b r, coherent b r -> (length s - b + 2 <= fuel)%nat ->
    exists l, split_all find_delim s limit fuel r = Some l /\ split_as delim (left_splits (s_results r)) (skipn b s) l.
  Proof.
    induction fuel as [|fuel IH]; intros b r (Hs & Hb & Hn & Hl) Hf; [lia|].
    cbn [split_all]. unfold split_get. rewrite Hs.
    destruct (s_next r) as [[p n]|] eqn:En.
    - assert (Hgo : limit = 0%nat \/ (s_results r < limit)%nat).
      { destruct (Nat.eq_dec limit 0) as [|N]; [auto|]. right. destruct (Hl N) as [A B].
        destruct (Nat.eq_dec (s_results r) limit) as [X|]; [specialize (B X); discriminate B|lia]. }
      specialize (Hn Hgo). symmetry in Hn. destruct (find_some b p n Hb Hn) as (a & d & c & D & -> & ->).
      destruct (piece_at b a d c D Hb) as (P1 & P2 & P3 & P4). rewrite P1.
      set (b' := (b + length a + length d)%nat) in *.
      assert (C : coherent b' (split_next find_delim s limit r) /\
              left_splits (s_results (split_next find_delim s limit r)) = option_map pred (left_splits (s_results r))).
      { unfold split_next. rewrite En. fold b'. unfold coherent, left_splits. destruct (Nat.eqb_spec limit 0) as [Z0|N0].
        - cbn [s_start s_next s_results]. split; [|reflexivity]. repeat split; auto; congruence.
        - destruct Hgo as [|Hgo]; [congruence|]. cbn [s_start s_next s_results option_map].
          destruct (Nat.ltb_spec (S (s_results r)) limit); (split; [|f_equal; lia]); (split; [reflexivity|]); (split; [exact P3|]);
            split; intros; try reflexivity; try (split; [lia|intros; try reflexivity; lia]); lia. }
      destruct C as [C1 C2]. destruct (IH b' _ C1 ltac:(lia)) as (l & E & S). rewrite E.
      exists (a :: l). split; [reflexivity|]. rewrite C2, P2 in S. eapply split_more; [exact D|exact S|].
      unfold left_splits. destruct (Nat.eqb_spec limit 0); [discriminate|]. destruct Hgo; [congruence|]. intros X. injection X. lia.
    - rewrite piece_rest by exact Hb. destruct fuel as [|fuel]; [lia|].
      assert (E : split_all find_delim s limit (S fuel) (split_next find_delim s limit r) = Some []).
      { cbn [split_all]. unfold split_next. rewrite En. unfold split_get. cbn [s_start]. reflexivity. }
      rewrite E. exists [skipn b s]. split; [reflexivity|].
      destruct (Nat.eq_dec limit 0) as [Z0|N0].
      + apply split_end. apply find_none; [exact Hb|]. rewrite <- Hn by auto. reflexivity.
      + destruct (Nat.eq_dec (s_results r) limit) as [X|X].
        * unfold left_splits. destruct (Nat.eqb_spec limit 0); [congruence|]. rewrite X, Nat.sub_diag. apply split_stop.
        * apply split_end. apply find_none; [exact Hb|]. rewrite <- Hn; [reflexivity|]. right. destruct (Hl N0). lia.
  Qed.

  Lemma split_whole fuel : (length s + 2 <= fuel)%nat ->
    exists l, split_all find_delim s limit fuel (split_init find_delim s) = Some l /\
      split_as delim (if (limit =? 0)%nat then None else Some limit) s l.
  Proof.
    intros Hf. destruct (split_all_spec fuel 0 (split_init find_delim s)) as (l & E & S); [|lia|].
    - unfold coherent, split_init. cbn [s_start s_next s_results]. repeat split; auto; try lia.
    - exists l. split; [exact E|]. cbn [skipn] in S. unfold left_splits in S. cbn [split_init s_results] in S. rewrite Nat.sub_0_r in S. exact S.
  Qed.
End Split.

Lemma std_find_spec d v pos : (pos <= length d)%nat -> match std_find d v pos with
  | Some p => exists i, p = (pos + i)%nat /\ occurs (skipn pos d) v i /\ (forall j, (j < i)%nat -> ~ occurs (skipn pos d) v j)
  | None => forall j, ~ occurs (skipn pos d) v j end.
Proof.
  intros H. unfold std_find. destruct (Nat.leb_spec pos (length d)); [|lia].
  pose proof (search_spec v (skipn pos d)) as S. destruct (search (skipn pos d) v) as [i|]; [exists i; split; [reflexivity|exact S]|exact S].
Qed.

Lemma leftmost_parts del : del <> [] -> forall s a d b, leftmost del s a d b -> s = a ++ d ++ b /\ d <> [].
Proof. intros N s a d b (-> & E & _). auto. Qed.
Lemma leftmost_any_parts set : forall s a d b, leftmost_any set s a d b -> s = a ++ d ++ b /\ d <> [].
Proof. intros s a d b (c & -> & _ & E & _). split; [exact E|discriminate]. Qed.

Lemma split_static_spec s del limit fuel : del <> [] -> (length s + 2 <= fuel)%nat ->
  exists l, split_static fuel s del limit = Some l /\ split_as (leftmost del) (if (limit =? 0)%nat then None else Some limit) s l.
Proof.
  intros N Hf. unfold split_static. apply split_whole; [apply leftmost_parts; exact N| | |exact Hf].
  - intros start p n Hs E. unfold static_search in E. pose proof (std_find_spec s del start Hs) as F.
    destruct (std_find s del start) as [q|]; [|discriminate E]. injection E as -> <-. destruct F as (i & -> & O & M).
    destruct (occurs_split _ _ _ O) as [Eq L]. exists (firstn i (skipn start s)), del, (skipn (i + length del) (skipn start s)).
    rewrite L. split; [|auto]. split; [reflexivity|]. split; [exact Eq|]. rewrite L. exact M.
  - intros start Hs E a d b (-> & Eq & _). unfold static_search in E. pose proof (std_find_spec s del start Hs) as F.
    destruct (std_find s del start); [discriminate E|]. apply (F (length a)). exists a, b. auto.
Qed.

Lemma first_among_spec d v : match first_among d v with
  | Some i => exists a c b, d = a ++ [c] ++ b /\ length a = i /\ In c v /\ (forall x, In x a -> ~ In x v)
  | None => forall x, In x d -> ~ In x v end.
Proof.
  induction d as [|c d IH]; cbn [first_among]; [intros x []|]. pose proof (among_iff c v) as A. destruct (among c v).
  - exists [], c, d. repeat split; auto. apply A; reflexivity.
  - assert (N : ~ In c v) by (intros H; apply A in H; discriminate). destruct (first_among d v) as [i|].
    + destruct IH as (a & c' & b & -> & <- & I & M). exists (c :: a), c', b. repeat split; auto. intros x [->|H]; [exact N|apply M; exact H].
    + intros x [->|H]; [exact N|apply IH; exact H].
Qed.
Lemma split_any_spec s set limit fuel : (length s + 2 <= fuel)%nat ->
  exists l, split_any fuel s set limit = Some l /\ split_as (leftmost_any set) (if (limit =? 0)%nat then None else Some limit) s l.
Proof.
  intros Hf. unfold split_any. apply split_whole; [apply leftmost_any_parts| | |exact Hf].
  - intros start p n Hs E. unfold any_search, std_find_first_of in E. pose proof (first_among_spec (skipn start s) set) as F.
    destruct (first_among (skipn start s) set) as [q|]; [|discriminate E]. injection E as <- <-. destruct F as (a & c & b & Eq & <- & I & M).
    exists a, [c], b. split; [|auto]. exists c. auto.
  - intros start Hs E a d b (c & -> & I & Eq & _). unfold any_search, std_find_first_of in E. pose proof (first_among_spec (skipn start s) set) as F.
    destruct (first_among (skipn start s) set) as [q|]; [discriminate E|]. apply (F c); [|exact I]. rewrite Eq. apply in_or_app. right. left. reflexivity.
Qed.

(** Consequences of the specification. *)
Lemma split_nonempty delim k s l : split_as delim k s l -> l <> [].
Proof. intros H. destruct H; discriminate. Qed.
Lemma join_cons sep x l : l <> [] -> join sep (x :: l) = x ++ sep ++ join sep l.
Proof. intros H. destruct l as [|y l]; [congruence|]. cbn [join join_rest]. reflexivity. Qed.
Lemma split_join del k s l : split_as (leftmost del) k s l -> join del l = s.
Proof.
  intros H. induction H as [s _ k|s|k s a d b l (-> & E & _) H IH Hk]; [cbn; apply app_nil_r|cbn; apply app_nil_r|].
  rewrite join_cons by (eapply split_nonempty; exact H). rewrite IH. symmetry. exact E.
Qed.
Lemma split_count delim k s l : split_as delim (Some k) s l -> (length l <= k + 1)%nat.
Proof.
  remember (Some k) as o eqn:E. intros H. revert k E. induction H as [s _ o|s|o s a d b l _ H IH Hk]; intros k' E; cbn [length]; [lia|lia|].
  subst o. cbn [option_map] in IH. specialize (IH (pred k') eq_refl). assert (k' <> 0)%nat by congruence. lia.
Qed.
Lemma split_pieces del k s l : del <> [] -> split_as (leftmost del) k s l -> forall p, In p (removelast l) -> forall i, ~ occurs p del i.
Proof.
  intros N H. induction H as [s _ k|s|k s a d b l (-> & E & M) H IH Hk]; [intros p []|intros p []|].
  intros p Hp i O. pose proof (split_nonempty _ _ _ _ H) as Nl. destruct l as [|y l]; [congruence|]. destruct Hp as [<-|Hp].
  - pose proof (occurs_inside _ _ _ O). assert (0 < length del)%nat by (destruct del; [congruence|cbn; lia]).
    apply (M i); [lia|]. destruct O as (u & w & Ea & L). exists u, (w ++ del ++ b). split; [|exact L]. rewrite E, Ea. rewrite <- !app_assoc. reflexivity.
  - exact (IH p Hp i O).
Qed.
Lemma split_last del s l : split_as (leftmost del) None s l -> forall i, ~ occurs (last l []) del i.
Proof.
  remember None as o eqn:Eo. intros H. induction H as [s No k|s|k s a d b l (-> & E & M) H IH Hk]; [|discriminate Eo|].
  - cbn [last]. intros i O. pose proof (search_spec del s) as S. destruct (search s del) as [j|]; [|exact (S i O)].
    destruct S as [Oj Mj]. destruct (occurs_split _ _ _ Oj) as [E L].
    apply (No (firstn j s) del (skipn (j + length del) s)). split; [reflexivity|]. split; [exact E|]. rewrite L. exact Mj.
  - subst k. pose proof (split_nonempty _ _ _ _ H). destruct l as [|y l]; [congruence|]. exact (IH eq_refl).
Qed.
Lemma leftmost_fun del s a d b a' d' b' : leftmost del s a d b -> leftmost del s a' d' b' -> a = a' /\ d = d' /\ b = b'.
Proof.
  intros (-> & E & M) (-> & E' & M').
  assert (length a = length a').
  { destruct (Nat.lt_trichotomy (length a) (length a')) as [L|[L|L]]; [|exact L|]; exfalso.
    - apply (M' (length a) L). exists a, b. auto.
    - apply (M (length a') L). exists a', b'. auto. }
  rewrite E in E'. destruct (app_inv_len _ _ _ _ E' H) as [-> E2]. apply app_inv_head in E2. auto.
Qed.
Lemma split_fun del s k l : split_as (leftmost del) k s l -> forall l', split_as (leftmost del) k s l' -> l' = l.
Proof.
  intros H. induction H as [s No k|s|k s a d b l D H IH Hk]; intros l' H'.
  - inversion H' as [? No'|?|? ? a d b l2 D' H2 Hk']; subst; try reflexivity. exfalso. eapply No. exact D'.
  - inversion H' as [? No'|?|? ? a d b l2 D' H2 Hk']; subst; try reflexivity. congruence.
  - inversion H' as [? No'|?|? ? a' d' b' l2 D' H2 Hk']; subst; [exfalso; eapply No'; exact D|congruence|].
    destruct (leftmost_fun _ _ _ _ _ _ _ _ D D') as (-> & -> & ->). rewrite (IH _ H2). reflexivity.
Qed.
Lemma occurs_one c s i : occurs s [c] i -> In c s.
Proof. intros (a & b & -> & _). apply in_or_app. right. left. reflexivity. Qed.
Lemma join_splits c l : l <> [] -> Forall (fun p => ~ In c p) l -> split_as (leftmost [c]) None (join [c] l) l.
Proof.
  induction l as [|x l IH]; intros N F; [congruence|]. inversion F as [|? ? Hx Hl]; subst. destruct l as [|y l].
  - cbn [join join_rest]. rewrite app_nil_r. apply split_end. intros a d b (-> & E & _). apply Hx. rewrite E. apply in_or_app. right. left. reflexivity.
  - rewrite join_cons by discriminate. eapply split_more; [|apply IH; [discriminate|exact Hl]|discriminate].
    split; [reflexivity|]. split; [reflexivity|]. intros i Hi O. apply occurs_iff in O as [_ O]. cbn [length] in O.
    rewrite skipn_app in O. replace (i - length x)%nat with 0%nat in O by lia. cbn [skipn] in O.
    destruct (skipn i x) as [|z r] eqn:Ez; [apply (f_equal (@length Z)) in Ez; rewrite skipn_length in Ez; cbn in Ez; lia|].
    cbn [app firstn] in O. injection O as ->. apply Hx. rewrite <- (firstn_skipn i x), Ez. apply in_or_app. right. left. reflexivity.
Qed.

(** * StringJoiner: items joined, if nothing is written while the builder is empty *)
Lemma joiner_append_nonempty sep prefix b x : b <> [] -> joiner_append sep prefix b (true, x) = b ++ sep ++ x.
Proof. intros N. unfold joiner_append. cbn [fst snd]. destruct b; [congruence|]. rewrite <- app_assoc. reflexivity. Qed.
Lemma joiner_fold sep prefix : forall l b, b <> [] ->
  fold_left (joiner_append sep prefix) (map (pair true) l) b = b ++ join_rest sep l.
Proof.
  induction l as [|x l IH]; intros b N; cbn [map fold_left join_rest]; [symmetry; apply app_nil_r|].
  rewrite joiner_append_nonempty by exact N. rewrite IH by (destruct b; [congruence|discriminate]).
  rewrite <- !app_assoc. reflexivity.
Qed.
Lemma joiner_spec sep prefix suffix l : prefix <> [] \/ (forall x, hd_error l = Some x -> x <> []) ->
  joiner sep prefix suffix (map (pair true) l) = prefix ++ join sep l ++ suffix.
Proof.
  intros H. unfold joiner. destruct l as [|x l]; [cbn; reflexivity|]. cbn [map fold_left join].
  assert (E : joiner_append sep prefix [] (true, x) = prefix ++ x) by reflexivity. rewrite E.
  assert (N : prefix ++ x <> []). { destruct H as [H|H]; [destruct prefix; [congruence|discriminate]|]. specialize (H x eq_refl). destruct prefix, x; try congruence; discriminate. }
  rewrite joiner_fold by exact N. rewrite <- !app_assoc.
  destruct (prefix ++ x ++ join_rest sep l) eqn:Q; [exfalso; apply N; destruct prefix, x; try discriminate Q; reflexivity|].
  rewrite <- Q. rewrite <- !app_assoc. reflexivity.
Qed.

(** * edit distance *)
Definition cost (x y : Z) : nat := if (x =? y)%Z then 0 else 1.
Inductive al : nat -> view -> view -> Prop :=
| al_nil : al 0 [] []
| al_del n x a b : al n a b -> al (S n) (x :: a) b
| al_ins n y a b : al n a b -> al (S n) a (y :: b)
| al_sub n x y a b : al n a b -> al (n + cost x y) (x :: a) (y :: b).

Lemma cost_le x y : (cost x y <= 1)%nat.
Proof. unfold cost. destruct (x =? y)%Z; lia. Qed.
Lemma cost_refl x : cost x x = 0%nat.
Proof. unfold cost. rewrite Z.eqb_refl. reflexivity. Qed.

Definition isd (a b : view) (n : nat) : Prop := al n a b /\ forall m, al m a b -> (n <= m)%nat.

Lemma isd_nil_l b : isd [] b (length b).
Proof.
  split.
  - induction b as [|y b IH]; [constructor|]. cbn [length]. constructor. exact IH.
  - intros m H. remember [] as e eqn:E. induction H; try discriminate E; cbn [length]; [lia|]. specialize (IHal E). lia.
Qed.
Lemma isd_nil_r a : isd a [] (length a).
Proof.
  split.
  - induction a as [|y a IH]; [constructor|]. cbn [length]. constructor. exact IH.
  - intros m H. remember [] as e eqn:E. induction H; try discriminate E; cbn [length]; [lia|]. specialize (IHal E). lia.
Qed.
Lemma isd_step x y a b l u d : isd (x :: a) b l -> isd a (y :: b) u -> isd a b d ->
  isd (x :: a) (y :: b) (Nat.min (Nat.min (l + 1) (u + 1)) (d + cost x y)).
Proof.
  intros [L1 L2] [U1 U2] [D1 D2]. split.
  - destruct (Nat.min_spec (Nat.min (l + 1) (u + 1)) (d + cost x y)) as [[_ ->]|[_ ->]]; [|apply al_sub; exact D1].
    destruct (Nat.min_spec (l + 1) (u + 1)) as [[_ ->]|[_ ->]].
    + replace (l + 1)%nat with (S l) by lia. apply al_ins. exact L1.
    + replace (u + 1)%nat with (S u) by lia. apply al_del. exact U1.
  - intros m H. inversion H; subst.
    + match goal with H : al _ a (y :: b) |- _ => apply U2 in H end. lia.
    + match goal with H : al _ (x :: a) b |- _ => apply L2 in H end. lia.
    + match goal with H : al _ a b |- _ => apply D2 in H end. lia.
Qed.

Fixpoint rowok (p q l : view) (row : list nat) {struct row} : Prop :=
  match row with
  | [] => False
  | n :: row' => isd p q n /\ match l with [] => row' = [] | y :: l' => rowok p (y :: q) l' row' end
  end.
Lemma ed_row_ok c p : forall s2 q left diag v0, isd (c :: p) q left -> rowok p q s2 (diag :: v0) ->
  rowok (c :: p) q s2 (left :: ed_row c s2 left diag v0).
Proof.
  induction s2 as [|y s2 IH]; intros q left diag v0 Hl Hr; cbn [rowok ed_row] in *; (split; [exact Hl|]); [reflexivity|].
  destruct Hr as [Hd Hr]. destruct v0 as [|up v0]; [cbn in Hr; destruct Hr|]. cbv zeta.
  apply IH; [|exact Hr]. cbn [rowok] in Hr; destruct Hr as [Hu _]. exact (isd_step c y p q left up diag Hl Hu Hd).
Qed.
Lemma ed_rows_ok s2 : forall s1 p v0, rowok p [] s2 v0 -> rowok (rev s1 ++ p) [] s2 (ed_rows s1 s2 (length p) v0).
Proof.
  induction s1 as [|c s1 IH]; intros p v0 H; [exact H|]. cbn [ed_rows rev]. rewrite <- app_assoc. cbn [app].
  change (S (length p)) with (length (c :: p)). apply IH. destruct v0 as [|d v0]; [cbn in H; destruct H|]. cbn [nth tl].
  apply ed_row_ok; [|exact H]. replace (length p + 1)%nat with (length (c :: p)) by (cbn; lia). apply isd_nil_r.
Qed.
Lemma init_row_ok : forall s2 q, rowok [] q s2 (seq (length q) (length s2 + 1)).
Proof.
  induction s2 as [|y s2 IH]; intros q; cbn [length Nat.add seq rowok]; (split; [apply isd_nil_l|]); [reflexivity|].
  exact (IH (y :: q)).
Qed.
Lemma rowok_last p : forall l q row, rowok p q l row -> isd p (rev l ++ q) (nth (length l) row 0%nat).
Proof.
  induction l as [|y l IH]; intros q row H; (destruct row as [|n row]; [cbn in H; destruct H|]); cbn [rowok length nth rev app] in *.
  - apply H.
  - rewrite <- app_assoc. cbn [app]. apply IH. apply H.
Qed.

(** alignments and scripts *)
Lemma edit1_cons x a b : edit1 a b -> edit1 (x :: a) (x :: b).
Proof. intros H. destruct H as [a y b|a y b|a y z b]; [exact (e_ins (x :: a) y b)|exact (e_del (x :: a) y b)|exact (e_sub (x :: a) y z b)]. Qed.
Lemma edits_cons x n a b : edits n a b -> edits n (x :: a) (x :: b).
Proof. intros H. induction H; [constructor|]. econstructor; [apply edit1_cons; eassumption|assumption]. Qed.
Lemma edits_snoc n a b c : edits n a b -> edit1 b c -> edits (S n) a c.
Proof. intros H. induction H; intros E; [econstructor; [exact E|constructor]|]. econstructor; [eassumption|auto]. Qed.
Lemma al_edits n a b : al n a b -> edits n a b.
Proof.
  intros H. induction H as [|n x a b _ IH|n y a b _ IH|n x y a b _ IH].
  - constructor.
  - econstructor; [exact (e_del [] x a)|exact IH].
  - eapply edits_snoc; [exact IH|exact (e_ins [] y b)].
  - unfold cost. destruct (Z.eqb_spec x y) as [->|N].
    + rewrite Nat.add_0_r. apply edits_cons. exact IH.
    + rewrite Nat.add_1_r. eapply edits_snoc; [apply edits_cons; exact IH|exact (e_sub [] x y b)].
Qed.
Lemma al_refl a : al 0 a a.
Proof. induction a as [|x a IH]; [constructor|]. pose proof (al_sub 0 x x a a IH) as H. rewrite cost_refl in H. exact H. Qed.

Lemma al_drop m s c : al m s c -> forall p x q, s = p ++ x :: q -> exists m', (m' <= S m)%nat /\ al m' (p ++ q) c.
Proof.
  intros H. induction H as [|n z a b H IH|n y a b H IH|n z y a b H IH]; intros p x q E.
  - destruct p; discriminate E.
  - destruct p as [|z' p]; cbn [app] in *; injection E as -> E.
    + subst a. exists n. split; [lia|exact H].
    + destruct (IH p x q E) as (m' & L & A). exists (S m'). split; [lia|]. constructor. exact A.
  - destruct (IH p x q E) as (m' & L & A). exists (S m'). split; [lia|]. constructor. exact A.
  - destruct p as [|z' p]; cbn [app] in *; injection E as -> E.
    + subst a. exists (S n). split; [lia|]. constructor. exact H.
    + destruct (IH p x q E) as (m' & L & A). exists (m' + cost z' y)%nat. split; [lia|]. constructor. exact A.
Qed.
Lemma al_grow m s c : al m s c -> forall p x q, s = p ++ q -> exists m', (m' <= S m)%nat /\ al m' (p ++ x :: q) c.
Proof.
  intros H. induction H as [|n z a b H IH|n y a b H IH|n z y a b H IH]; intros p x q E.
  - destruct p; [|discriminate E]. cbn in E. subst q. exists 1%nat. split; [lia|]. cbn. repeat constructor.
  - destruct p as [|z' p]; cbn [app] in *.
    + subst q. exists (S (S n)). split; [lia|]. constructor. constructor. exact H.
    + injection E as -> E. destruct (IH p x q E) as (m' & L & A). exists (S m'). split; [lia|]. constructor. exact A.
  - destruct (IH p x q E) as (m' & L & A). exists (S m'). split; [lia|]. constructor. exact A.
  - destruct p as [|z' p]; cbn [app] in *.
    + subst q. exists (S (n + cost z y)). split; [lia|]. constructor. constructor. exact H.
    + injection E as -> E. destruct (IH p x q E) as (m' & L & A). exists (m' + cost z' y)%nat. split; [lia|]. constructor. exact A.
Qed.
Lemma al_swap m s c : al m s c -> forall p x w q, s = p ++ x :: q -> exists m', (m' <= S m)%nat /\ al m' (p ++ w :: q) c.
Proof.
  intros H. induction H as [|n z a b H IH|n y a b H IH|n z y a b H IH]; intros p x w q E.
  - destruct p; discriminate E.
  - destruct p as [|z' p]; cbn [app] in *; injection E as -> E.
    + subst a. exists (S n). split; [lia|]. constructor. exact H.
    + destruct (IH p x w q E) as (m' & L & A). exists (S m'). split; [lia|]. constructor. exact A.
  - destruct (IH p x w q E) as (m' & L & A). exists (S m'). split; [lia|]. constructor. exact A.
  - destruct p as [|z' p]; cbn [app] in *; injection E as -> E.
    + subst a. exists (n + cost w y)%nat. split; [pose proof (cost_le w y); lia|]. constructor. exact H.
    + destruct (IH p x w q E) as (m' & L & A). exists (m' + cost z' y)%nat. split; [lia|]. constructor. exact A.
Qed.
Lemma edits_al n a b : edits n a b -> exists m, (m <= n)%nat /\ al m a b.
Proof.
  intros H. induction H as [a|n a b c E _ (m & L & A)]; [exists 0%nat; split; [lia|apply al_refl]|].
  destruct E as [a x b|a x b|a x y b].
  - destruct (al_drop _ _ _ A a x b eq_refl) as (m' & L' & A'). exists m'. split; [lia|exact A'].
  - destruct (al_grow _ _ _ A a x b eq_refl) as (m' & L' & A'). exists m'. split; [lia|exact A'].
  - destruct (al_swap _ _ _ A a y x b eq_refl) as (m' & L' & A'). exists m'. split; [lia|exact A'].
Qed.
Lemma edit1_rev a b : edit1 a b -> edit1 (rev a) (rev b).
Proof.
  intros H. destruct H as [a x b|a x b|a x y b]; rewrite !rev_app_distr; cbn [rev]; rewrite <- ?app_assoc; cbn [app]; constructor.
Qed.
Lemma edits_rev n a b : edits n a b -> edits n (rev a) (rev b).
Proof. intros H. induction H; [constructor|]. econstructor; [apply edit1_rev; eassumption|assumption]. Qed.

Lemma edit_distance_spec s1 s2 : short s1 -> short s2 ->
  edits (edit_distance s1 s2) s1 s2 /\ (forall n, edits n s1 s2 -> (edit_distance s1 s2 <= n)%nat).
Proof.
  intros H1 H2. unfold edit_distance. destruct (Z.eqb_spec (compare s1 s2) 0) as [E|_].
  - apply compare_zero in E; [|assumption|assumption]. subst. split; [constructor|lia].
  - assert (G : forall n, isd s1 s2 n \/ isd (rev s1) (rev s2) n -> edits n s1 s2 /\ (forall m, edits m s1 s2 -> (n <= m)%nat)).
    { intros n [[A M]|[A M]].
      - split; [apply al_edits; exact A|]. intros m Hm. destruct (edits_al _ _ _ Hm) as (k & L & B). apply M in B. lia.
      - split; [apply al_edits, edits_rev in A; rewrite !rev_involutive in A; exact A|].
        intros m Hm. apply edits_rev in Hm. destruct (edits_al _ _ _ Hm) as (k & L & B). apply M in B. lia. }
    apply G. destruct s1 as [|c1 t1]; [left; apply isd_nil_l|]. destruct s2 as [|c2 t2]; [left; apply isd_nil_r|]. right.
    set (s1 := c1 :: t1) in *. set (s2 := c2 :: t2) in *.
    pose proof (ed_rows_ok s2 s1 [] (seq 0 (length s2 + 1)) (init_row_ok s2 [])) as R. rewrite app_nil_r in R.
    apply rowok_last in R. rewrite app_nil_r in R. exact R.
Qed.
