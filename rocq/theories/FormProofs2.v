(** Proofs for C67: StringParse *)
From Verif Require Import Base ITextModel ITextSpec ITextProofs FormModel FormSpec FormProofs.
Local Open Scope Z_scope.

(* ---------------------------------------------------------------- tokens *)
Definition tok (i : item) : token := match i with Text s => TText s | Arg _ n => TIndex (Z.of_nat n) | _ => TIndex size_max end.
Definition idx (i : item) : Z := match i with Arg _ n => Z.of_nat n | _ => size_max end.
Definition hole_text (i : item) : list Z := match i with Arg t _ => t | _ => [95] end.
Lemma hole_shape : forall i, parse_item i -> is_text i = false -> item_text i = 37 :: hole_text i ++ [37] /\ hole_text i <> [] /\ ~ In 37 (hole_text i) /\
  match hole_text i with [] => None | _ => if same (hole_text i) [95] then Some size_max else read_size (hole_text i) end = Some (idx i) /\
  tok i = TIndex (idx i).
Proof.
  intros [s| |t n|t n tw w|] H T; cbn [parse_item is_text hole_text item_text tok idx] in *; try discriminate T; try contradiction.
  - destruct H as [Hn [L B]]. split; [reflexivity|]. split; [exact (number_nonempty _ _ _ Hn)|]. split; [apply (number_no 64 t n (or_introl Hn))|]. split; [|reflexivity].
    pose proof (number_nonempty _ _ _ Hn). destruct t as [|c t]; [congruence|]. unfold same. destruct (list_eq_dec Z.eq_dec (c :: t) [95]) as [E|E].
    + exfalso. assert (In 95 (c :: t)) by (rewrite E; left; reflexivity). destruct (number_chars _ _ _ _ Hn H0); lia.
    + apply read_size_number. exact Hn.
  - split; [reflexivity|]. split; [discriminate|]. split; [intros [X|[]]; discriminate X|]. split; reflexivity.
Qed.
Lemma token_end : forall n lit rest, ~ In 37 rest -> token_loop (S n) lit rest = Some (match lit ++ rest with [] => [] | s => [TText s] end).
Proof. intros n lit rest H. cbn [token_loop]. rewrite (proj2 (cut_at_none 37 rest) H). reflexivity. Qed.
Lemma token_hole : forall n s i r, parse_item i -> is_text i = false -> ~ In 37 s -> token_loop (S n) [] (s ++ item_text i ++ r) =
  match token_loop n [] r with Some ts => Some (match s with [] => tok i :: ts | _ => TText s :: tok i :: ts end) | None => None end.
Proof.
  intros n s i r H T Ns. destruct (hole_shape i H T) as [E [Ne [N37 [X Y]]]]. cbn [token_loop]. rewrite E. cbn [app].
  rewrite cut_at_app by exact Ns. rewrite <- app_assoc. cbn [app]. rewrite cut_at_app by exact N37. rewrite X, Y. destruct (token_loop n [] r); [|reflexivity]. destruct s; reflexivity.
Qed.
Lemma item_text_nonempty : forall i, parse_item i -> (0 < length (item_text i))%nat.
Proof. intros [s| |t n|t n tw w|] H; cbn in *; try contradiction; try lia. destruct H as [_ H]. destruct s; [congruence|cbn; lia]. Qed.
Lemma tokens_exact : forall n l, parse_format l -> (length (format_text l) < n)%nat -> token_loop n [] (format_text l) = Some (map tok l).
Proof.
  induction n as [|n IH]; intros l [H A] L; [lia|]. destruct l as [|i l].
  - rewrite token_end by (intros []). reflexivity.
  - inversion H as [|? ? Hi Hl]; subst. pose proof (item_text_nonempty i Hi) as Li. destruct (is_text i) eqn:T.
    + destruct i as [s| |t k|t k tw w|]; try discriminate T. destruct Hi as [Np Ne]. destruct l as [|j l].
      * unfold format_text. cbn [flat_map item_text]. rewrite app_nil_r. rewrite token_end by (apply no_percent_in; exact Np). cbn [app map tok]. destruct s; [congruence|reflexivity].
      * inversion Hl as [|? ? Hj Hl']; subst. destruct A as [A1 A2]. cbn [is_text] in A1. assert (Tj : is_text j = false) by (destruct (is_text j); congruence).
        unfold format_text in *. cbn [flat_map item_text] in *. rewrite token_hole; [|exact Hj|exact Tj|apply no_percent_in; exact Np].
        rewrite !app_length in L. rewrite IH; [|split; [exact Hl'|destruct l; [exact I|exact (proj2 A2)]]|lia]. destruct s; [congruence|]. reflexivity.
    + unfold format_text in *. cbn [flat_map] in *. rewrite app_length in L. pose proof (token_hole n [] i (flat_map item_text l) Hi T ltac:(intros [])) as X. cbn [app] in X. rewrite X.
      rewrite IH; [reflexivity|split; [exact Hl|destruct l; [exact I|exact (proj2 A)]]|lia].
Qed.

(* ---------------------------------------------------------------- string::find *)
Lemma starts_with_iff : forall s l r, starts_with s l = Some r <-> l = s ++ r.
Proof.
  induction s as [|x s IH]; intros l r; cbn [starts_with app]; [split; intros H; inversion H; reflexivity|]. destruct l as [|y l]; [split; intros H; discriminate H|].
  destruct (Z.eqb_spec x y) as [->|N]; [rewrite IH; split; intros H; [rewrite H; reflexivity|inversion H; reflexivity]|]. split; intros H; [discriminate H|inversion H; congruence].
Qed.
Lemma cut_text_some : forall s l a b, cut_text s l = Some (a, b) -> l = a ++ s ++ b /\ first_seen s l a.
Proof.
  intros s l. induction l as [|c l IH]; intros a b H.
  - cbn [cut_text] in H. destruct (starts_with s []) as [r|] eqn:S; [|discriminate H]. inversion H; subst. apply starts_with_iff in S. split; [exact S|]. split; [exists b; exact S|]. cbn; lia.
  - cbn [cut_text] in H. destruct (starts_with s (c :: l)) as [r|] eqn:S.
    + inversion H; subst. apply starts_with_iff in S. split; [exact S|]. split; [exists b; exact S|]. cbn; lia.
    + destruct (cut_text s l) as [[a' b']|]; [|discriminate H]. inversion H; subst. destruct (IH a' b eq_refl) as [E [_ M]]. split; [cbn; rewrite <- E; reflexivity|]. split; [exists b; cbn; rewrite <- E; reflexivity|].
      intros w' r' X. destruct w' as [|c' w']; [cbn [app] in X; apply starts_with_iff in X; congruence|]. inversion X. cbn [length]. specialize (M w' r'). apply le_n_S. apply M. assumption.
Qed.
Lemma cut_text_none : forall s l, cut_text s l = None -> forall a b, l <> a ++ s ++ b.
Proof.
  intros s l. induction l as [|c l IH]; intros H a b E.
  - cbn [cut_text] in H. destruct a; [|discriminate E]. cbn [app] in E. symmetry in E. destruct (app_eq_nil _ _ E) as [-> _]. discriminate H.
  - cbn [cut_text] in H. destruct (starts_with s (c :: l)) eqn:S; [discriminate H|]. destruct (cut_text s l) as [[a' b']|] eqn:C; [discriminate H|].
    destruct a as [|x a]; [cbn [app] in E; apply starts_with_iff in E; congruence|]. inversion E. apply (IH eq_refl a b). assumption.
Qed.
Lemma cut_text_first : forall s w r, first_seen s (w ++ s ++ r) w -> cut_text s (w ++ s ++ r) = Some (w, r).
Proof.
  intros s w r [_ M]. destruct (cut_text s (w ++ s ++ r)) as [[a b]|] eqn:C.
  - destruct (cut_text_some _ _ _ _ C) as [E [_ M']]. specialize (M a b E). specialize (M' w r eq_refl). assert (L : length w = length a) by lia.
    pose proof (f_equal (firstn (length w)) E) as E1. rewrite firstn_app, Nat.sub_diag, firstn_all, firstn_O, app_nil_r in E1. rewrite L, firstn_app, Nat.sub_diag, firstn_all, firstn_O, app_nil_r in E1. subst a.
    apply app_inv_head in E. apply app_inv_head in E. subst b. reflexivity.
  - exfalso. exact (cut_text_none _ _ C w r eq_refl).
Qed.

(* ---------------------------------------------------------------- matching *)
Section Match.
  Variable V : Type.
  Variable readers : list (list Z -> option V).
  Lemma set_nth_length : forall n (x : V) l, length (set_nth n x l) = length l.
  Proof.
    intros n x l. unfold set_nth. rewrite app_length, firstn_length. pose proof (skipn_length n l) as S. destruct (skipn n l); cbn [length] in *; lia.
  Qed.
  Lemma try_read_spec : forall (rs : list (list Z -> option V)) (vs : list V) n w, length rs = length vs -> (n < length rs)%nat -> Z.of_nat n < size_max - 1 ->
    exists f, nth_error rs n = Some f /\ try_read w (Z.of_nat n) rs vs = match f w with Some x => Parsed true (set_nth n x vs) | None => Parsed false vs end.
  Proof.
    induction rs as [|g rs IH]; intros vs n w Hl Hn B; [cbn in Hn; lia|]. destruct vs as [|v vs]; [discriminate Hl|]. cbn [length] in *. cbn [try_read].
    destruct (Z.eqb_spec (Z.of_nat n) (size_max - 1)); [lia|]. destruct n as [|n].
    - exists g. split; [reflexivity|]. cbn [Z.of_nat Z.eqb negb]. destruct (g w); reflexivity.
    - destruct (Z.eqb_spec (Z.of_nat (S n)) 0); [lia|]. cbn [negb nth_error]. replace (Z.of_nat (S n) - 1) with (Z.of_nat n) by lia.
      destruct (IH vs n w ltac:(lia) ltac:(lia) ltac:(lia)) as [f [E R]]. exists f. split; [exact E|]. rewrite R. destruct (f w); reflexivity.
  Qed.
  Lemma try_read_skip : forall (rs : list (list Z -> option V)) (vs : list V) w, try_read w (size_max - 1) rs vs = Parsed true vs.
  Proof. intros rs vs w. destruct rs; reflexivity. Qed.
  (** one argument *)
  Lemma read_one : forall i w vs, parse_item i -> is_text i = false -> (forall n, argument_of i n -> (n <= length readers)%nat) -> length readers = length vs ->
    idx i <> 0 /\ try_read w (idx i - 1) readers vs = match take readers [(i, w)] vs with Some vs' => Parsed true vs' | None => Parsed false vs end /\
    (forall vs', take readers [(i, w)] vs = Some vs' -> length readers = length vs').
  Proof.
    intros i w vs H T A Hl. destruct i as [s| |t n|t n tw x|]; try discriminate T; try contradiction; cbn [idx].
    - destruct H as [_ [L B]]. specialize (A n eq_refl). split; [lia|]. replace (Z.of_nat n - 1) with (Z.of_nat (n - 1)) by lia.
      destruct (try_read_spec readers vs (n - 1) w Hl ltac:(lia) ltac:(unfold size_max; lia)) as [f [E R]]. rewrite R. cbn [take]. rewrite E. split; [destruct (f w); reflexivity|].
      intros vs'. destruct (f w); [|discriminate]. intros X. inversion X. rewrite set_nth_length. exact Hl.
    - split; [discriminate|]. rewrite try_read_skip. split; [reflexivity|]. intros vs' X. inversion X. subst. exact Hl.
  Qed.
  Lemma take_cons : forall p ps vs, take readers (p :: ps) vs = match take readers [p] vs with Some vs' => take readers ps vs' | None => None end.
  Proof. intros [i w] ps vs. destruct i; cbn [take]; try reflexivity. destruct (nth_error readers (n - 1)) as [f|]; [|reflexivity]. destruct (f w); reflexivity. Qed.

  Lemma match_arg_text : forall i s l rest vs, parse_item i -> is_text i = false -> rest <> [] ->
    match_loop (map tok (i :: Text s :: l)) 0 rest readers vs =
    match cut_text s rest with
    | None => Parsed false vs
    | Some ([], _) => Parsed false vs
    | Some (before, after) => match try_read before ((idx i) - 1) readers vs with
                              | Parsed true vs' => match_loop (map tok l) 0 after readers vs' | r => r end
    end.
  Proof.
    intros i s l rest vs H T Ne. destruct (hole_shape i H T) as [_ [_ [_ [_ Y]]]]. cbn [map tok]. rewrite Y. destruct rest as [|c rest]; [congruence|]. cbn [match_loop].
    assert (K : (idx i =? 0) = false).
    { apply Z.eqb_neq. destruct i as [s'| |t n|t n tw x|]; try discriminate T; try contradiction; cbn [idx]; [cbn in H; lia|discriminate]. }
    rewrite K. cbn [negb]. destruct (cut_text s (c :: rest)) as [[[|b0 before] after]|]; reflexivity.
  Qed.
  Definition starts_ok (l : list item) : Prop := match l with [] => True | i :: _ => is_text i = false end.
  Lemma filled_nonempty : forall l s ps, filled l s ps -> parse_format l -> l <> [] -> s <> [].
  Proof.
    intros l s ps H [F _] N. inversion H; subst; [congruence|assumption| |].
    - destruct w; [congruence|discriminate].
    - inversion F as [|? ? Fi]; subst. destruct Fi as [_ Fi]. destruct s0; [congruence|discriminate].
  Qed.
  Theorem match_exact : forall l rest vs vs', parse_format l -> starts_ok l -> arguments_exist l (length readers) -> length readers = length vs ->
    (match_loop (map tok l) 0 rest readers vs = Parsed true vs' <-> exists ps, filled l rest ps /\ take readers ps vs = Some vs').
  Proof.
    intros l. induction l as [l IH] using (induction_ltof1 _ (@length item)). unfold ltof in IH. intros rest vs vs' F S A Hl. destruct l as [|i [|j l]].
    - cbn [map match_loop Z.eqb negb]. split.
      + destruct rest; intros H; inversion H. subst. exists []. split; [constructor|reflexivity].
      + intros [ps [H T]]. inversion H; subst. inversion T. reflexivity.
    - destruct F as [F _]. inversion F as [|? ? Hi _]; subst. cbn [starts_ok] in S.
      assert (Ai : forall n, argument_of i n -> (n <= length readers)%nat) by (intros n; apply A; left; reflexivity).
      destruct (read_one i rest vs Hi S Ai Hl) as [K [R _]]. destruct (hole_shape i Hi S) as [_ [_ [_ [_ Y]]]]. cbn [map]. rewrite Y. split.
      + intros H. destruct rest as [|c rest]; [discriminate H|]. cbn [match_loop] in H. apply Z.eqb_neq in K. rewrite K in H. cbn [negb] in H. rewrite R in H.
        exists [(i, c :: rest)]. split; [constructor; [exact S|discriminate]|]. destruct (take readers [(i, c :: rest)] vs); inversion H; reflexivity.
      + intros [ps [H T]]. inversion H; subst; [|discriminate S]. destruct rest as [|c rest]; [congruence|]. cbn [match_loop]. apply Z.eqb_neq in K. rewrite K. cbn [negb]. rewrite R, T. reflexivity.
    - destruct F as [F [Alt AltR]]. inversion F as [|? ? Hi F']; subst. inversion F' as [|? ? Hj F'']; subst. cbn [starts_ok] in S.
      assert (Tj : is_text j = true) by (rewrite S in Alt; destruct (is_text j); congruence). destruct j as [s| | | |]; try discriminate Tj. destruct Hj as [Np Ns].
      assert (Ai : forall n, argument_of i n -> (n <= length readers)%nat) by (intros n; apply A; left; reflexivity).
      assert (Fl : parse_format l) by (split; [exact F''|destruct l; [exact I|exact (proj2 AltR)]]).
      assert (Sl : starts_ok l) by (destruct l as [|k l]; [exact I|cbn; destruct AltR as [X _]; cbn [is_text] in X; destruct (is_text k); congruence]).
      assert (Al : arguments_exist l (length readers)) by (intros x n Ix; apply A; right; right; exact Ix).
      split.
      + intros H. destruct rest as [|c0 rest0] eqn:ER; [cbn [map] in H; destruct (tok i); discriminate H|]. rewrite <- ER in *. rewrite match_arg_text in H by (try assumption; rewrite ER; discriminate).
        destruct (cut_text s rest) as [[before after]|] eqn:C; [|discriminate H]. destruct (cut_text_some _ _ _ _ C) as [E FS]. destruct before as [|b0 before]; [discriminate H|].
        destruct (read_one i (b0 :: before) vs Hi S Ai Hl) as [K [R L2]]. rewrite R in H. destruct (take readers [(i, b0 :: before)] vs) as [vs1|] eqn:T1; [|discriminate H].
        apply IH in H; [|cbn; lia|exact Fl|exact Sl|exact Al|apply L2; reflexivity]. destruct H as [ps [Hf Ht]].
        exists ((i, b0 :: before) :: ps). split; [|rewrite take_cons, T1; exact Ht]. rewrite E in FS |- *. apply filled_arg; [exact S|discriminate|exact FS|exact Hf].
      + intros [ps [H T]]. inversion H; subst; [|discriminate S].
        rewrite match_arg_text; [|exact Hi|exact S|destruct w; [congruence|discriminate]]. rewrite cut_text_first by assumption. destruct w as [|w0 w]; [congruence|].
        destruct (read_one i (w0 :: w) vs Hi S Ai Hl) as [K [R L2]]. rewrite R. rewrite take_cons in T. destruct (take readers [(i, w0 :: w)] vs) as [vs1|] eqn:T1; [|discriminate T].
        apply IH; [cbn; lia|exact Fl|exact Sl|exact Al|apply L2; reflexivity|]. exists ps0. split; assumption.
  Qed.
  Theorem match_no_throw : forall l rest vs, parse_format l -> starts_ok l -> arguments_exist l (length readers) -> length readers = length vs ->
    exists b vs', match_loop (map tok l) 0 rest readers vs = Parsed b vs'.
  Proof.
    intros l. induction l as [l IH] using (induction_ltof1 _ (@length item)). unfold ltof in IH. intros rest vs F S A Hl. destruct l as [|i [|j l]].
    - cbn. eauto.
    - destruct F as [F _]. inversion F as [|? ? Hi _]; subst. cbn [starts_ok] in S.
      assert (Ai : forall n, argument_of i n -> (n <= length readers)%nat) by (intros n; apply A; left; reflexivity).
      destruct (read_one i rest vs Hi S Ai Hl) as [K [R _]]. destruct (hole_shape i Hi S) as [_ [_ [_ [_ Y]]]]. cbn [map]. rewrite Y. destruct rest as [|c rest]; [cbn; eauto|]. cbn [match_loop]. apply Z.eqb_neq in K. rewrite K. cbn [negb]. rewrite R.
      destruct (take readers [(i, c :: rest)] vs); eauto.
    - destruct F as [F [Alt AltR]]. inversion F as [|? ? Hi F']; subst. inversion F' as [|? ? Hj F'']; subst. cbn [starts_ok] in S.
      assert (Tj : is_text j = true) by (rewrite S in Alt; destruct (is_text j); congruence). destruct j as [s| | | |]; try discriminate Tj. destruct Hj as [Np Ns].
      assert (Ai : forall n, argument_of i n -> (n <= length readers)%nat) by (intros n; apply A; left; reflexivity).
      assert (Fl : parse_format l) by (split; [exact F''|destruct l; [exact I|exact (proj2 AltR)]]).
      assert (Sl : starts_ok l) by (destruct l as [|k l]; [exact I|cbn; destruct AltR as [X _]; cbn [is_text] in X; destruct (is_text k); congruence]).
      assert (Al : arguments_exist l (length readers)) by (intros x n Ix; apply A; right; right; exact Ix).
      destruct rest as [|c0 rest0] eqn:ER; [cbn [map]; destruct (tok i); cbn; eauto|]. rewrite <- ER in *. rewrite match_arg_text by (try assumption; rewrite ER; discriminate).
      destruct (cut_text s rest) as [[[|b0 before] after]|]; eauto. destruct (read_one i (b0 :: before) vs Hi S Ai Hl) as [K [R L2]]. rewrite R. destruct (take readers [(i, b0 :: before)] vs) as [vs1|]; [|eauto].
      apply IH; [cbn; lia|exact Fl|exact Sl|exact Al|apply L2; reflexivity].
  Qed.
  Lemma match_text_first : forall s l rest vs, rest <> [] -> match_loop (map tok (Text s :: l)) 0 rest readers vs =
    match cut_text s rest with None => Parsed false vs | Some (_, after) => match_loop (map tok l) 0 after readers vs end.
  Proof. intros s l rest vs Ne. cbn [map tok]. destruct rest as [|c rest]; [congruence|]. cbn [match_loop Z.eqb negb]. destruct (cut_text s (c :: rest)) as [[a b]|]; reflexivity. Qed.
End Match.
