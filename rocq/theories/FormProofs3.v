(** Proofs for C67: formatting and parsing back; versions *)
From Verif Require Import Base ITextModel ITextSpec ITextProofs FormModel FormSpec FormProofs FormProofs2.
Local Open Scope Z_scope.

Lemma separated_first : forall s w r, s <> [] -> ~ In (hd 0 s) w -> first_seen s (w ++ s ++ r) w.
Proof.
  intros s w r Ns Ni. split; [exists r; reflexivity|]. intros w' r' E. destruct (Nat.le_gt_cases (length w) (length w')) as [L|L]; [exact L|]. exfalso. apply Ni.
  destruct s as [|c s]; [congruence|]. cbn [hd]. pose proof (f_equal (fun l => nth_error l (length w')) E) as X. cbn beta in X.
  rewrite nth_error_app1 in X by exact L. rewrite nth_error_app2 in X by lia. rewrite Nat.sub_diag in X. cbn in X. apply nth_error_In in X. exact X.
Qed.
Lemma nth_set_nth : forall A n (x : A) l k, (n < length l)%nat -> nth_error (set_nth n x l) k = if Nat.eqb k n then Some x else nth_error l k.
Proof.
  intros A n x l. revert n. induction l as [|y l IH]; intros n k H; [cbn in H; lia|]. destruct n as [|n].
  - destruct k; reflexivity.
  - cbn [length] in H. specialize (IH n). destruct k as [|k]; [reflexivity|]. cbn [nth_error Nat.eqb]. rewrite <- IH by lia. reflexivity.
Qed.
Lemma nth_error_ext : forall A (a b : list A), (forall k, nth_error a k = nth_error b k) -> a = b.
Proof.
  induction a as [|x a IH]; intros b H; destruct b as [|y b]; try reflexivity; try discriminate (H 0%nat). pose proof (H 0%nat) as H0. inversion H0. f_equal. apply IH. intros k. exact (H (S k)).
Qed.
Section Back.
  Variable V : Type.
  Variable readers : list (list Z -> option V).
  Variable args : list (list Z).
  Variable xs : list V.
  Hypothesis lengths : length readers = length xs /\ length args = length xs.
  (** every text is read as the value *)
  Hypothesis reads : forall k f w x, nth_error readers k = Some f -> nth_error args k = Some w -> nth_error xs k = Some x -> f w = Some x.
  Definition known (k : nat) (ps : list (item * list Z)) : Prop := exists t w, In (Arg t (S k), w) ps.
  Lemma take_all : forall ps vs, length vs = length xs ->
    (forall i w, In (i, w) ps -> exists t n, i = Arg t n /\ (1 <= n <= length xs)%nat /\ nth_error args (n - 1) = Some w) ->
    (forall k, nth_error vs k = nth_error xs k \/ known k ps) -> take readers ps vs = Some xs.
  Proof.
    induction ps as [|[i w] ps IH]; intros vs Hl Hp Hk.
    - cbn [take]. f_equal. apply nth_error_ext. intros k. destruct (Hk k) as [H|[t [w []]]]. exact H.
    - destruct (Hp i w (or_introl eq_refl)) as [t [n [-> [Hn Hw]]]]. cbn [take].
      destruct (nth_error readers (n - 1)) as [f|] eqn:Ef; [|apply nth_error_None in Ef; lia]. destruct (nth_error xs (n - 1)) as [x|] eqn:Ex; [|apply nth_error_None in Ex; lia].
      rewrite (reads _ _ _ _ Ef Hw Ex). apply IH.
      + rewrite set_nth_length. exact Hl.
      + intros j v I. apply Hp. right. exact I.
      + intros k. rewrite nth_set_nth by lia. destruct (Nat.eqb_spec k (n - 1)) as [->|N]; [left; symmetry; exact Ex|]. destruct (Hk k) as [H|[t' [w' [H|H]]]]; [left; exact H| |right; exists t', w'; exact H].
        inversion H. lia.
  Qed.
  Definition pairs (l : list item) : list (item * list Z) := flat_map (fun i => match i with Arg _ n => match nth_error args (n - 1) with Some w => [(i, w)] | None => [] end | _ => [] end) l.
  Lemma pairs_in : forall l i w, In (i, w) (pairs l) -> exists t n, i = Arg t n /\ In i l /\ nth_error args (n - 1) = Some w.
  Proof.
    intros l i w H. apply in_flat_map in H. destruct H as [j [Ij H]]. destruct j; try destruct H. destruct (nth_error args (n - 1)) eqn:E; [|destruct H]. destruct H as [H|[]]. inversion H. subst. eauto 6.
  Qed.
  Definition split_well (l : list item) : Prop := forall a t n s b w, l = a ++ Arg t n :: Text s :: b -> nth_error args (n - 1) = Some w -> ~ In (hd 0 s) w.
  Lemma split_well_tail : forall i l, split_well (i :: l) -> split_well l.
  Proof. intros i l H a t n s b w E. apply (H (i :: a) t n s b w). rewrite E. reflexivity. Qed.
  Lemma shown_filled : forall l str, parse_format l -> starts_ok l -> ~ In Skip l -> split_well l -> (forall w, In w args -> w <> []) -> show_all args l = Some str -> filled l str (pairs l).
  Proof.
    intros l. induction l as [l IH] using (induction_ltof1 _ (@length item)). unfold ltof in IH. intros str F S Nk W Ne H. destruct l as [|i l]; [inversion H; constructor|].
    pose proof F as [F1 Alt]. inversion F1 as [|? ? Hi Fl]; subst. cbn [starts_ok] in S.
    destruct i as [s| |t n|t n tw w|]; try discriminate S; try contradiction; [|exfalso; apply Nk; left; reflexivity].
    cbn [show_all show] in H. destruct (nth_error args (n - 1)) as [w|] eqn:E; [|discriminate H]. assert (Nw : w <> []) by (apply Ne; eapply nth_error_In; exact E).
    assert (P1 : pairs (Arg t n :: l) = (Arg t n, w) :: pairs l) by (unfold pairs; cbn [flat_map]; rewrite E; reflexivity). rewrite P1.
    destruct l as [|j l].
    - inversion H. rewrite app_nil_r. apply filled_last; [reflexivity|exact Nw].
    - destruct Alt as [A1 A2]. inversion Fl as [|? ? Hj Fl']; subst. assert (Tj : is_text j = true) by (cbn [is_text] in A1; destruct (is_text j); congruence). destruct j as [s| | | |]; try discriminate Tj.
      destruct (show_all args (Text s :: l)) as [r0|] eqn:R0; [|discriminate H]. cbn [show_all show] in R0. destruct (show_all args l) as [r|] eqn:R; [|discriminate R0]. inversion R0. subst r0. inversion H. subst str.
      change (pairs (Text s :: l)) with (pairs l). destruct Hj as [Np Ns]. apply filled_arg; [reflexivity|exact Nw| |].
      + apply separated_first; [exact Ns|]. apply (W [] t n s l w eq_refl E).
      + apply IH; [cbn; lia| | | | |exact Ne|exact R].
        * split; [exact Fl'|]. destruct l; [exact I|exact (proj2 A2)].
        * destruct l as [|k l]; [exact I|]. cbn. destruct A2 as [X _]. cbn [is_text] in X. destruct (is_text k); congruence.
        * intros X. apply Nk. right; right. exact X.
        * apply split_well_tail in W. apply split_well_tail in W. exact W.
  Qed.
  Theorem back : forall l str vs, parse_format l -> ~ In Skip l -> split_well l -> (forall w, In w args -> w <> []) -> arguments_exist l (length xs) ->
    (forall k, (k < length xs)%nat -> exists t, In (Arg t (S k)) l) -> show_all args l = Some str -> length vs = length xs ->
    string_parse str (format_text l) readers vs = Parsed true xs.
  Proof.
    intros l str vs F Nk W Ne A Cov H Hl. unfold string_parse, tokens_of. rewrite tokens_exact by (try exact F; lia). destruct lengths as [L1 L2].
    assert (G : forall l' str', parse_format l' -> starts_ok l' -> ~ In Skip l' -> split_well l' -> show_all args l' = Some str' -> arguments_exist l' (length readers) -> (forall k, (k < length xs)%nat -> exists t, In (Arg t (S k)) l') -> match_loop (map tok l') 0 str' readers vs = Parsed true xs).
    { intros l' str' F' S' Nk' W' H' A' C'. apply match_exact; [exact F'|exact S'|exact A'|congruence|]. exists (pairs l'). split; [apply shown_filled; assumption|]. apply take_all; [exact Hl| |].
      - intros i w I. destruct (pairs_in _ _ _ I) as [t [n [-> [Il Ew]]]]. exists t, n. split; [reflexivity|]. split; [|exact Ew]. split; [|rewrite <- L1; apply (A' _ n Il); reflexivity].
        destruct F' as [F' _]. rewrite Forall_forall in F'. apply F' in Il. cbn in Il. lia.
      - intros k. destruct (Nat.lt_ge_cases k (length xs)) as [Lk|Lk].
        + right. destruct (C' k Lk) as [t It]. destruct (nth_error args k) as [w|] eqn:Ew; [|apply nth_error_None in Ew; lia]. exists t, w. unfold pairs. apply in_flat_map. exists (Arg t (S k)). split; [exact It|].
          cbn [Nat.sub]. rewrite Nat.sub_0_r, Ew. left. reflexivity.
        + left. rewrite (proj2 (nth_error_None vs k)) by lia. symmetry. apply nth_error_None. exact Lk. }
    destruct l as [|i l]; [apply G; try assumption; [exact I|rewrite L1; exact A]|]. destruct (is_text i) eqn:T; [|apply G; try assumption; rewrite L1; exact A].
    destruct i as [s| | | |]; try discriminate T. destruct F as [F1 Alt]. inversion F1 as [|? ? Hi Fl]; subst. destruct Hi as [Np Ns]. cbn [show_all show] in H. destruct (show_all args l) as [r|] eqn:R; [|discriminate H]. inversion H. subst str.
    rewrite match_text_first by (destruct s; [congruence|discriminate]).
    assert (C : cut_text s (s ++ r) = Some ([], r)). { apply (cut_text_first s [] r). split; [exists r; reflexivity|]. intros; cbn; lia. } rewrite C.
    apply G.
    - split; [exact Fl|]. destruct l; [exact I|exact (proj2 Alt)].
    - destruct l as [|k l]; [exact I|]. cbn. destruct Alt as [X _]. cbn [is_text] in X. destruct (is_text k); congruence.
    - intros X. apply Nk. right. exact X.
    - apply split_well_tail in W. exact W.
    - exact R.
    - rewrite L1. intros i n Ii. apply A. right. exact Ii.
    - intros k Lk. destruct (Cov k Lk) as [t [X|X]]; [discriminate X|]. exists t. exact X.
  Qed.
End Back.

(* ---------------------------------------------------------------- versions *)
Lemma cut_text_one : forall c l, cut_text [c] l = cut_at c l.
Proof.
  intros c l. induction l as [|x l IH]; [reflexivity|]. cbn [cut_text cut_at starts_with]. rewrite (Z.eqb_sym c x). destruct (x =? c); [reflexivity|]. rewrite IH. reflexivity.
Qed.
Definition read32 (t : list Z) : option Z := match from_string (unsigned_t 32) t with IOk v => Some v | _ => None end.
Lemma read_unsigned_eq : forall t, read_unsigned t = option_map Some (read32 t).
Proof. intros t. unfold read_unsigned, read32. destruct (from_string (unsigned_t 32) t); reflexivity. Qed.
Lemma read32_iff : forall t v, read32 t = Some v <-> 0 <= v /\ number_or_sign 32 t (Z.to_nat v).
Proof.
  intros t v. unfold read32. rewrite <- (read_unsigned_iff 32 t v ltac:(lia)). destruct (from_string (unsigned_t 32) t); split; intros H; try discriminate H; inversion H; reflexivity.
Qed.
Lemma read32_no_point : forall t, In 46 t -> read32 t = None.
Proof.
  intros t H. destruct (read32 t) as [v|] eqn:E; [|reflexivity]. exfalso. apply read32_iff in E. destruct E as [_ E]. destruct (number_or_sign_chars _ _ _ _ E H) as [X|[X|X]]; lia.
Qed.
Lemma read32_nil : read32 [] = None. Proof. reflexivity. Qed.
Definition shape (s : list Z) : option version :=
  match cut_at 46 s with
  | None => None
  | Some (a, r) =>
      match cut_at 46 r with
      | None => match read32 a, read32 r with Some x, Some y => Some (Ver x y None) | _, _ => None end
      | Some (b, c) => match read32 a, read32 b, read32 c with Some x, Some y, Some z => Some (Ver x y (Some z)) | _, _, _ => None end
      end
  end.
Lemma parse3 : forall s vs, string_parse s format3 [read_unsigned; read_unsigned; read_unsigned] vs =
  match_loop [TIndex 1; TText [46]; TIndex 2; TText [46]; TIndex 3] 0 s [read_unsigned; read_unsigned; read_unsigned] vs.
Proof. reflexivity. Qed.
Lemma parse2 : forall s vs, string_parse s format2 [read_unsigned; read_unsigned] vs = match_loop [TIndex 1; TText [46]; TIndex 2] 0 s [read_unsigned; read_unsigned] vs.
Proof. reflexivity. Qed.
Lemma version_shape : forall s, version_from_string s = shape s.
Proof.
  intros s. unfold version_from_string. rewrite parse3. unfold shape. destruct s as [|s0 s]; [reflexivity|]. cbn [match_loop]. rewrite cut_text_one.
  assert (P2 : forall v1 v2, string_parse (s0 :: s) format2 [read_unsigned; read_unsigned] [v1; v2] =
    match cut_at 46 (s0 :: s) with
    | None => Parsed false [v1; v2]
    | Some ([], _) => Parsed false [v1; v2]
    | Some (a, r) => match read32 a with None => Parsed false [v1; v2] | Some x =>
        match r with [] => Parsed false [Some x; v2] | _ => match read32 r with None => Parsed false [Some x; v2] | Some y => Parsed true [Some x; Some y] end end end
    end).
  { intros v1 v2. rewrite parse2. cbn [match_loop]. rewrite cut_text_one. destruct (cut_at 46 (s0 :: s)) as [[[|a0 a] r]|]; try reflexivity.
    cbn. rewrite read_unsigned_eq. destruct (read32 (a0 :: a)) as [x|]; [|reflexivity]. cbn. destruct r as [|r0 r]; [reflexivity|]. rewrite read_unsigned_eq. destruct (read32 (r0 :: r)); reflexivity. }
  destruct (cut_at 46 (s0 :: s)) as [[[|a0 a] r]|] eqn:C.
  - cbn [Z.eqb negb firstn]. rewrite P2. rewrite read32_nil. destruct (cut_at 46 r) as [[b c]|]; reflexivity.
  - cbn -[read_unsigned string_parse format2 cut_at read32 cut_text]. rewrite read_unsigned_eq. destruct (read32 (a0 :: a)) as [x|] eqn:Ra; cbn -[read_unsigned string_parse format2 cut_at read32 cut_text].
    2: { rewrite P2. destruct (cut_at 46 r) as [[b c]|]; reflexivity. }
    destruct r as [|r0 r].
    { rewrite P2. cbn [cut_at]. rewrite read32_nil. reflexivity. }
    rewrite cut_text_one. destruct (cut_at 46 (r0 :: r)) as [[b c]|] eqn:C2.
    + assert (Rr : read32 (r0 :: r) = None). { apply read32_no_point. apply cut_at_some in C2. destruct C2 as [-> _]. apply in_or_app. right. left. reflexivity. }
      destruct b as [|b0 b]; [rewrite P2, ?Rr, read32_nil; reflexivity|]. rewrite read_unsigned_eq. destruct (read32 (b0 :: b)) as [y|]; cbn -[read_unsigned string_parse format2 cut_at read32 cut_text]; [|rewrite P2, ?Rr; reflexivity].
      destruct c as [|c0 c]; [rewrite P2, ?Rr, read32_nil; reflexivity|]. rewrite read_unsigned_eq. destruct (read32 (c0 :: c)) as [z|]; cbn -[read_unsigned string_parse format2 cut_at read32 cut_text]; [reflexivity|rewrite P2, ?Rr; reflexivity].
    + rewrite P2. destruct (read32 (r0 :: r)); reflexivity.
  - cbn [firstn]. rewrite P2. reflexivity.
Qed.
Theorem version_accepts : forall s v, version_from_string s = Some v <->
  0 <= major v /\ 0 <= minor v /\
  match build v with
  | None => exists a b, s = a ++ 46 :: b /\ number_or_sign 32 a (Z.to_nat (major v)) /\ number_or_sign 32 b (Z.to_nat (minor v))
  | Some n => 0 <= n /\ exists a b c, s = a ++ 46 :: b ++ 46 :: c /\ number_or_sign 32 a (Z.to_nat (major v)) /\ number_or_sign 32 b (Z.to_nat (minor v)) /\ number_or_sign 32 c (Z.to_nat n)
  end.
Proof.
  intros s v. rewrite version_shape. unfold shape.
  assert (NP : forall t n, number_or_sign 32 t n -> ~ In 46 t) by (intros t n H I; destruct (number_or_sign_chars _ _ _ _ H I) as [X|[X|X]]; lia). split.
  - destruct (cut_at 46 s) as [[a r]|] eqn:C; [|discriminate]. apply cut_at_some in C. destruct C as [-> _]. destruct (cut_at 46 r) as [[b c]|] eqn:C2.
    + apply cut_at_some in C2. destruct C2 as [-> _]. destruct (read32 a) as [x|] eqn:Ra; [|discriminate]. destruct (read32 b) as [y|] eqn:Rb; [|discriminate]. destruct (read32 c) as [z|] eqn:Rc; [|discriminate].
      intros H. inversion H. cbn [major minor build]. apply read32_iff in Ra, Rb, Rc. destruct Ra, Rb, Rc. repeat split; try assumption. exists a, b, c. auto.
    + destruct (read32 a) as [x|] eqn:Ra; [|discriminate]. destruct (read32 r) as [y|] eqn:Rb; [|discriminate]. intros H. inversion H. cbn [major minor build]. apply read32_iff in Ra, Rb. destruct Ra, Rb. repeat split; try assumption. exists a, r. auto.
  - intros [H1 [H2 H3]]. destruct v as [x y [z|]]; cbn [major minor build] in *.
    + destruct H3 as [H3 [a [b [c [-> [Ha [Hb Hc]]]]]]]. rewrite cut_at_app by (eapply NP; exact Ha). rewrite cut_at_app by (eapply NP; exact Hb).
      rewrite (proj2 (read32_iff a x) (conj H1 Ha)), (proj2 (read32_iff b y) (conj H2 Hb)), (proj2 (read32_iff c z) (conj H3 Hc)). reflexivity.
    + destruct H3 as [a [b [-> [Ha Hb]]]]. rewrite cut_at_app by (eapply NP; exact Ha). rewrite (proj2 (cut_at_none 46 b)) by (eapply NP; exact Hb).
      rewrite (proj2 (read32_iff a x) (conj H1 Ha)), (proj2 (read32_iff b y) (conj H2 Hb)). reflexivity.
Qed.
Lemma print32 : forall n, 0 <= n < 2 ^ 32 -> exists d, to_string 32 n = Some d /\ number_or_sign 32 d (Z.to_nat n) /\ d <> [] /\ Forall digit_char d /\ (hd 0 d = 48 -> length d = 1%nat).
Proof.
  intros n Hn. destruct (to_string_canonical 32 n) as [s [T [g [d [E [Ne [D [Vv [G1 [G2 G3]]]]]]]]]]; [lia|left; unfold fits, unsigned_t; cbn [t_min t_max]; lia|].
  pose proof (num_bounds d D). assert (g = NoSign). { destruct g; [congruence| |reflexivity]. cbn [signed_num] in Vv. exfalso. apply G2; [reflexivity|lia]. } subst g. cbn [sign_text app signed_num] in *. subst s.
  exists d. split; [exact T|]. split; [|auto]. left. exists NoSign, d. repeat split; auto; try discriminate; lia.
Qed.
Theorem version_round_trip : forall v, proper_version v -> exists s, version_to_string v = Some s /\ version_from_string s = Some v.
Proof.
  intros [x y z] [Hx [Hy Hz]]. cbn [major minor build] in *. unfold version_to_string. cbn [major minor build]. destruct (print32 x Hx) as [a [-> [Na _]]]. destruct (print32 y Hy) as [b [-> [Nb _]]]. destruct z as [z|].
  - specialize (Hz z eq_refl). destruct (print32 z Hz) as [c [-> [Nc _]]]. eexists. split; [reflexivity|]. apply version_accepts. cbn [major minor build]. repeat split; try lia. exists a, b, c. auto.
  - eexists. split; [reflexivity|]. apply version_accepts. cbn [major minor build]. repeat split; try lia. exists a, b. auto.
Qed.
Lemma cmp_unsigned_spec : forall a b, cmp_unsigned a b = Z.sgn (a - b).
Proof. intros a b. unfold cmp_unsigned. destruct (Z.ltb_spec a b), (Z.ltb_spec b a); lia. Qed.
Theorem version_order : forall a b, version_lt a b = true <-> version_before a b.
Proof.
  intros [a1 a2 a3] [b1 b2 b3]. unfold version_lt, version_cmp, version_before. cbn [major minor build]. rewrite !cmp_unsigned_spec, Z.ltb_lt.
  destruct (Z.eqb_spec (Z.sgn (a1 - b1)) 0) as [E1|E1]; cbn [negb]; [|split; intros H; lia].
  destruct (Z.eqb_spec (Z.sgn (a2 - b2)) 0) as [E2|E2]; cbn [negb]; [|split; intros H; lia].
  assert (a1 = b1) by lia. assert (a2 = b2) by lia. subst.
  assert (X : cmp_build a3 b3 < 0 <-> build_before a3 b3).
  { unfold cmp_build, build_before. destruct a3, b3; rewrite ?cmp_unsigned_spec; lia. }
  rewrite X. split; [intros H; right; split; [reflexivity|right; auto]|]. intros [H|[_ [H|[_ H]]]]; [lia|lia|exact H].
Qed.
Lemma before_total : forall a b, version_before a b \/ a = b \/ version_before b a.
Proof.
  intros [a1 a2 a3] [b1 b2 b3]. unfold version_before. cbn [major minor build].
  destruct (Z.lt_trichotomy a1 b1) as [H|[->|H]]; [auto| |auto]. destruct (Z.lt_trichotomy a2 b2) as [H|[->|H]]; [auto| |auto 6].
  destruct a3 as [x|], b3 as [y|]; cbn [build_before]; try auto 8. destruct (Z.lt_trichotomy x y) as [H|[->|H]]; auto 8.
Qed.
Lemma before_irrefl : forall a, ~ version_before a a.
Proof. intros [a1 a2 [x|]]; unfold version_before; cbn; lia. Qed.
Lemma before_trans : forall a b c, version_before a b -> version_before b c -> version_before a c.
Proof. intros [a1 a2 a3] [b1 b2 b3] [c1 c2 c3]. unfold version_before. cbn [major minor build]. destruct a3, b3, c3; cbn [build_before]; lia. Qed.
Theorem version_operators : forall a b, (version_gt a b = true <-> version_before b a) /\ (version_le a b = true <-> version_before a b \/ a = b) /\
  (version_ge a b = true <-> version_before b a \/ a = b) /\ (version_eq a b = true <-> a = b) /\ (version_ne a b = true <-> a <> b).
Proof.
  intros a b. unfold version_gt, version_le, version_ge, version_eq, version_ne. pose proof (before_total a b) as T. pose proof (before_irrefl a) as Ia. pose proof (before_irrefl b) as Ib.
  assert (As : version_before a b -> version_before b a -> False) by (intros H1 H2; exact (Ia (before_trans _ _ _ H1 H2))).
  pose proof (version_order a b) as Oab. pose proof (version_order b a) as Oba.
  destruct (version_lt a b); destruct (version_lt b a); cbn [negb orb].
  - exfalso. apply As; [apply Oab|apply Oba]; reflexivity.
  - assert (B : version_before a b) by (apply Oab; reflexivity). assert (a <> b) by (intros ->; contradiction). assert (~ version_before b a) by auto. repeat split; intros; try discriminate; tauto.
  - assert (B : version_before b a) by (apply Oba; reflexivity). assert (a <> b) by (intros ->; contradiction). assert (~ version_before a b) by auto. repeat split; intros; try discriminate; tauto.
  - assert (N1 : ~ version_before a b) by (intros X; apply Oab in X; discriminate X). assert (N2 : ~ version_before b a) by (intros X; apply Oba in X; discriminate X). assert (a = b) by tauto. repeat split; intros; try discriminate; try tauto.
Qed.
