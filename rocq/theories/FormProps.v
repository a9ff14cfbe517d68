(** C67: format strings and versions. *)
From Verif Require Import Base ITextModel ITextSpec ITextProofs FormModel FormSpec FormProofs FormProofs2 FormProofs3.
Local Open Scope Z_scope.

(* ---------------------------------------------------------------- StringFormat *)
(** a well formed format gives its text with the arguments put in, or throws if one of them does not exist *)
Theorem C67_format_exact : forall l args, Forall format_item l ->
  string_format (format_text l) args = match show_all args l with Some s => FmtOk s | None => FmtThrow end.
Proof. intros l args H. exact (format_exact l args [] H). Qed.
(** every other format throws *)
Theorem C67_format_refuses : forall f args s, string_format f args = FmtOk s -> exists l, f = format_text l /\ Forall format_item l /\ show_all args l = Some s.
Proof. intros f args s H. destruct (format_only _ _ _ _ _ H) as [l [E [F [r [R ->]]]]]. exists l. auto. Qed.

(* ---------------------------------------------------------------- StringParse *)
(** the parts the format is cut into are the format again; a part is an argument exactly if it is a number or '_' between percents *)
Theorem C67_parse_parts : forall f ts, tokens_of f = Some ts -> exists parts, concat parts = f /\
  Forall2 (fun part t => match t with
                         | TText s => part = s
                         | TIndex i => exists name, part = 37 :: name ++ [37] /\ ~ In 37 name /\
                                         ((name = [95] /\ i = size_max) \/ (0 <= i /\ number_or_sign 64 name (Z.to_nat i)))
                         end) parts ts.
Proof.
  assert (G : forall fuel f ts lit, token_loop fuel lit f = Some ts -> exists parts, concat parts = lit ++ f /\ Forall2 (fun part t => match t with TText s => part = s | TIndex i => exists name, part = 37 :: name ++ [37] /\ ~ In 37 name /\
                                ((name = [95] /\ i = size_max) \/ (0 <= i /\ number_or_sign 64 name (Z.to_nat i))) end) parts ts); [|intros f ts; exact (G _ f ts [])].
  induction fuel as [|fuel IH]; intros f ts lit H; [discriminate H|]. cbn [token_loop] in H.
  destruct (cut_at 37 f) as [[a b]|] eqn:C1.
  - apply cut_at_some in C1. destruct C1 as (-> & Na). destruct (cut_at 37 b) as [[name r]|] eqn:C2; [|discriminate H].
    apply cut_at_some in C2. destruct C2 as (-> & Nn). cbn zeta in H.
    destruct (match name with [] => None | _ :: _ => if same name [95] then Some size_max else read_size name end) as [i|] eqn:Ei.
    + destruct (token_loop fuel [] r) as [ts'|] eqn:El; [|discriminate H]. destruct (IH r ts' [] El) as (parts & Ep & F). cbn [app] in Ep.
      assert (Hi : (name = [95] /\ i = size_max) \/ (0 <= i /\ number_or_sign 64 name (Z.to_nat i))).
      { destruct name as [|x name]; [discriminate Ei|]. destruct (same (x :: name) [95]) eqn:Es.
        - left. injection Ei as <-. split; [|reflexivity]. unfold same in Es. destruct (list_eq_dec Z.eq_dec (x :: name) [95]); [assumption|discriminate Es].
        - right. apply read_size_iff. exact Ei. }
      assert (Hl : exists parts', concat parts' = (lit ++ a) ++ 37 :: name ++ 37 :: concat parts /\
                     Forall2 (fun part t => match t with TText s => part = s | TIndex i => exists name, part = 37 :: name ++ [37] /\ ~ In 37 name /\
                                ((name = [95] /\ i = size_max) \/ (0 <= i /\ number_or_sign 64 name (Z.to_nat i))) end) parts'
                       (match lit ++ a with [] => TIndex i :: ts' | s => TText s :: TIndex i :: ts' end)).
      { destruct (lit ++ a) as [|x la].
        - exists ((37 :: name ++ [37]) :: parts). split; [cbn; rewrite <- app_assoc; reflexivity|]. constructor; [exists name; auto|exact F].
        - exists ((x :: la) :: (37 :: name ++ [37]) :: parts). split; [cbn; rewrite <- app_assoc; reflexivity|]. constructor; [reflexivity|]. constructor; [exists name; auto|exact F]. }
      destruct Hl as (parts' & E' & F'). exists parts'. rewrite E', Ep, <- app_assoc. split; [reflexivity|]. injection H as <-. exact F'.
    + destruct (IH r ts _ H) as (parts & Ep & F). exists parts. split; [|exact F]. rewrite Ep. rewrite <- !app_assoc. cbn. rewrite <- app_assoc. reflexivity.
  - injection H as <-. destruct (lit ++ f) as [|x lf] eqn:E; [exists []; split; [reflexivity|constructor]|]. exists [x :: lf]. split; [apply app_nil_r|]. constructor; [reflexivity|constructor].
Qed.
(** a format whose percents are not in pairs matches nothing, and the arguments stay *)
Theorem C67_parse_unpaired : forall V string f (readers : list (list Z -> option V)) values, Nat.odd (count_occ Z.eq_dec f 37) = true ->
  string_parse string f readers values = Parsed false values.
Proof.
  intros V string f readers values H. unfold string_parse. replace (tokens_of f) with (@None (list token)); [reflexivity|]. symmetry.
  unfold tokens_of. generalize (@nil Z) as lit. assert (L : (length f < S (length f))%nat) by lia. revert L. generalize (S (length f)) as fuel. intros fuel. revert f H.
  induction fuel as [|fuel IH]; intros f H L lit; [reflexivity|]. cbn [token_loop]. destruct (cut_at 37 f) as [[a b]|] eqn:C1.
  - apply cut_at_some in C1. destruct C1 as (-> & Na). destruct (cut_at 37 b) as [[name r]|] eqn:C2; [|reflexivity].
    apply cut_at_some in C2. destruct C2 as (-> & Nn).
    assert (Hr : Nat.odd (count_occ Z.eq_dec r 37) = true).
    { rewrite count_occ_app in H. cbn [count_occ] in H. destruct (Z.eq_dec 37 37); [|congruence]. rewrite count_occ_app in H. cbn [count_occ] in H. destruct (Z.eq_dec 37 37); [|congruence].
      rewrite (proj1 (count_occ_not_In Z.eq_dec a 37) Na), (proj1 (count_occ_not_In Z.eq_dec name 37) Nn) in H. cbn in H. exact H. }
    assert (Lr : (length r < fuel)%nat) by (rewrite app_length in L; cbn in L; rewrite app_length in L; cbn in L; lia).
    cbn zeta. destruct (match name with [] => None | _ :: _ => _ end); rewrite IH by assumption; reflexivity.
  - apply cut_at_none in C1. rewrite (proj1 (count_occ_not_In Z.eq_dec f 37) C1) in H. discriminate H.
Qed.
Print Assumptions C67_parse_parts. Print Assumptions C67_parse_unpaired.
(** a format that begins with an argument: true exactly for the strings that are the format with texts put in that the arguments accept, and then the arguments have these values *)
Theorem C67_parse_exact : forall V l string (readers : list (list Z -> option V)) values values', parse_format l -> begins_with_argument l ->
  arguments_exist l (length readers) -> length readers = length values ->
  (string_parse string (format_text l) readers values = Parsed true values' <-> exists ps, filled l string ps /\ take readers ps values = Some values').
Proof.
  intros V l string readers values values' F B A L. unfold string_parse, tokens_of. rewrite tokens_exact by (try exact F; lia). apply match_exact; try assumption. destruct l; [exact I|exact B].
Qed.
Theorem C67_parse_no_throw : forall V l string (readers : list (list Z -> option V)) values, parse_format l -> begins_with_argument l ->
  arguments_exist l (length readers) -> length readers = length values -> exists b values', string_parse string (format_text l) readers values = Parsed b values'.
Proof.
  intros V l string readers values F B A L. unfold string_parse, tokens_of. rewrite tokens_exact by (try exact F; lia). apply match_no_throw; try assumption. destruct l; [exact I|exact B].
Qed.
(** a format that begins with text: the string may begin with anything in front of the text *)
Theorem C67_parse_leading_text : forall V s l string (readers : list (list Z -> option V)) values values', parse_format (Text s :: l) ->
  arguments_exist l (length readers) -> length readers = length values ->
  (string_parse string (format_text (Text s :: l)) readers values = Parsed true values' <->
   exists g r ps, string = g ++ s ++ r /\ first_seen s string g /\ filled l r ps /\ take readers ps values = Some values').
Proof.
  intros V s l string readers values values' F A L. unfold string_parse, tokens_of. rewrite tokens_exact by (try exact F; lia). destruct F as [F Alt]. inversion F as [|? ? Hi Fl]; subst. destruct Hi as [Np Ns].
  assert (Pl : parse_format l) by (split; [exact Fl|destruct l; [exact I|exact (proj2 Alt)]]).
  assert (Sl : starts_ok l) by (destruct l as [|k l']; [exact I|cbn; destruct Alt as [X _]; cbn [is_text] in X; destruct (is_text k); congruence]).
  destruct string as [|c string].
  - split; [intros H; discriminate H|]. intros [g [r [ps [E _]]]]. destruct g; [|discriminate E]. destruct s; [congruence|discriminate E].
  - rewrite match_text_first by discriminate. split.
    + destruct (cut_text s (c :: string)) as [[g r]|] eqn:C; [|discriminate]. destruct (cut_text_some _ _ _ _ C) as [E FS]. intros H. apply match_exact in H; try assumption. destruct H as [ps [H1 H2]]. exists g, r, ps. auto.
    + intros [g [r [ps [E [FS [H1 H2]]]]]]. rewrite E in FS |- *. rewrite cut_text_first by exact FS. apply match_exact; try assumption. exists ps. auto.
Qed.
(** so: whatever is the format with the texts put in is accepted ... *)
Theorem C67_parse_complete : forall V l string ps (readers : list (list Z -> option V)) values values', parse_format l -> l <> [] ->
  arguments_exist l (length readers) -> length readers = length values ->
  filled l string ps -> take readers ps values = Some values' -> string_parse string (format_text l) readers values = Parsed true values'.
Proof.
  intros V l string ps readers values values' F Ne A L H T. destruct l as [|i l]; [congruence|]. destruct (is_text i) eqn:Ti.
  - destruct i as [s| | | |]; try discriminate Ti. inversion H; subst; try discriminate; try (cbn in *; discriminate).
    apply C67_parse_leading_text; try assumption; [intros x n Ix; apply A; right; exact Ix|]. exists [], r, ps. split; [reflexivity|]. split; [|split; assumption]. split; [exists r; reflexivity|intros; cbn; lia].
  - apply C67_parse_exact; try assumption. exists ps. auto.
Qed.
(** ... but not only that: a string with anything in front of the first text is accepted too *)
Theorem C67_parse_garbage_refuted : forall V s g r ps l (readers : list (list Z -> option V)) values values', parse_format (Text s :: l) -> arguments_exist l (length readers) -> length readers = length values ->
  ~ In (hd 0 s) g -> g <> [] -> filled l r ps -> take readers ps values = Some values' ->
  string_parse (g ++ s ++ r) (format_text (Text s :: l)) readers values = Parsed true values' /\ ~ exists ps', filled (Text s :: l) (g ++ s ++ r) ps'.
Proof.
  intros V s g r ps l readers values values' F A L Ng Ne H T. pose proof F as [F1 _]. inversion F1 as [|? ? Hi Fl]; subst. destruct Hi as [Np Ns]. split.
  - apply C67_parse_leading_text; try assumption. exists g, r, ps. split; [reflexivity|]. split; [apply separated_first; assumption|auto].
  - intros [ps' X]. inversion X; subst; try (cbn in *; discriminate). destruct g as [|c g]; [congruence|]. destruct s as [|c' s]; [congruence|]. cbn [app hd] in *. match goal with E : c' :: _ = c :: _ |- _ => injection E as E0 _; apply Ng; left; symmetry; exact E0 end.
Qed.

(** what StringFormat writes StringParse reads back, when no argument contains the first character of the text that follows it *)
Theorem C67_format_parse_back : forall V (readers : list (list Z -> option V)) args xs l vs, parse_format l -> ~ In Skip l ->
  length readers = length xs -> length args = length xs -> length vs = length xs ->
  (forall k f w x, nth_error readers k = Some f -> nth_error args k = Some w -> nth_error xs k = Some x -> f w = Some x) ->
  (forall w, In w args -> w <> []) -> arguments_exist l (length xs) -> (forall k, (k < length xs)%nat -> exists t, In (Arg t (S k)) l) ->
  (forall a t n s b w, l = a ++ Arg t n :: Text s :: b -> nth_error args (n - 1) = Some w -> ~ In (hd 0 s) w) ->
  exists str, string_format (format_text l) args = FmtOk str /\ string_parse str (format_text l) readers vs = Parsed true xs.
Proof.
  intros V readers args xs l vs F Nk L1 L2 L3 R Ne A Cov W.
  assert (Fi : Forall format_item l). { destruct F as [F _]. rewrite Forall_forall in *. intros i Ii. pose proof (F i Ii) as H. destruct i; cbn in *; try contradiction; try tauto. }
  assert (S : exists str, show_all args l = Some str).
  { clear W Cov Fi. assert (Al : forall i, In i l -> exists s, show args i = Some s).
    { intros i Ii. destruct F as [F _]. rewrite Forall_forall in F. pose proof (F i Ii) as H. destruct i as [s| |t n|t n tw w|]; cbn in *; try contradiction; eauto.
      - specialize (A _ n Ii eq_refl). destruct (nth_error args (n - 1)) eqn:E; [eauto|]. apply nth_error_None in E. lia. }
    clear - Al. induction l as [|i l IH]; [cbn; eauto|]. destruct (Al i (or_introl eq_refl)) as [s Hs]. destruct IH as [r Hr]; [intros j Ij; apply Al; right; exact Ij|]. cbn [show_all]. rewrite Hs, Hr. eauto. }
  destruct S as [str S]. exists str. rewrite C67_format_exact by exact Fi. rewrite S. split; [reflexivity|].
  apply (back V readers args xs (conj L1 L2) R l str vs); assumption.
Qed.

(* ---------------------------------------------------------------- Version *)
Theorem C67_version_round_trip : forall v, proper_version v -> exists s, version_to_string v = Some s /\ version_from_string s = Some v.
Proof. exact version_round_trip. Qed.
(** the texts that are versions: two or three numbers with points between them (a sign alone counts as 0) *)
Theorem C67_version_texts : forall s v, version_from_string s = Some v <->
  0 <= major v /\ 0 <= minor v /\
  match build v with
  | None => exists a b, s = a ++ 46 :: b /\ number_or_sign 32 a (Z.to_nat (major v)) /\ number_or_sign 32 b (Z.to_nat (minor v))
  | Some n => 0 <= n /\ exists a b c, s = a ++ 46 :: b ++ 46 :: c /\ number_or_sign 32 a (Z.to_nat (major v)) /\ number_or_sign 32 b (Z.to_nat (minor v)) /\ number_or_sign 32 c (Z.to_nat n)
  end.
Proof. exact version_accepts. Qed.
Theorem C67_version_order : forall a b, (version_lt a b = true <-> version_before a b) /\ (version_gt a b = true <-> version_before b a) /\ (version_le a b = true <-> version_before a b \/ a = b) /\
  (version_ge a b = true <-> version_before b a \/ a = b) /\ (version_eq a b = true <-> a = b) /\ (version_ne a b = true <-> a <> b).
Proof. intros a b. split; [apply version_order|apply version_operators]. Qed.
Theorem C67_version_total_order : forall a b c, ~ version_before a a /\ (version_before a b -> version_before b c -> version_before a c) /\ (version_before a b \/ a = b \/ version_before b a).
Proof. intros a b c. split; [apply before_irrefl|]. split; [apply before_trans|apply before_total]. Qed.
(** a sign without digits is a number *)
Theorem C67_version_sign_refuted : version_from_string [45; 46; 43] = Some (Ver 0 0 None).
Proof. vm_compute. reflexivity. Qed.

Print Assumptions C67_format_exact. Print Assumptions C67_format_refuses. Print Assumptions C67_parse_exact. Print Assumptions C67_parse_no_throw. Print Assumptions C67_parse_leading_text.
Print Assumptions C67_parse_complete. Print Assumptions C67_parse_garbage_refuted. Print Assumptions C67_format_parse_back. Print Assumptions C67_version_round_trip.
Print Assumptions C67_version_texts. Print Assumptions C67_version_order. Print Assumptions C67_version_total_order. Print Assumptions C67_version_sign_refuted.

(* ---------------------------------------------------------------- the hypotheses are met *)
(** "%1% of %2%" *)
Definition sample : list item := [Arg [49] 1; Text [32; 111; 102; 32]; Arg [50] 2].
Lemma one_digit : forall c n, 49 <= c <= 57 -> Z.of_nat n = c - 48 -> number_text 64 [c] n.
Proof. intros c n H E. exists NoSign, [c]. repeat split; try discriminate; [repeat constructor; lia|rewrite num_one; lia|rewrite num_one; assert (100 < 2 ^ 64) by reflexivity; lia]. Qed.
Example ex_sample : parse_format sample /\ begins_with_argument sample /\ arguments_exist sample 2 /\ format_text sample = [37; 49; 37; 32; 111; 102; 32; 37; 50; 37].
Proof.
  split; [split|].
  - repeat constructor; try (apply one_digit; lia); try lia; try discriminate.
  - cbn. repeat split; discriminate.
  - split; [reflexivity|]. split; [|reflexivity]. intros i n [<-|[<-|[<-|[]]]]; cbn; intros; subst; try contradiction; lia.
Qed.
Definition rd (t : list Z) : option Z := match from_string (signed_t 32) t with IOk v => Some v | _ => None end.
Example ex_run : string_format (format_text sample) [[51]; [45; 52; 50]] = FmtOk [51; 32; 111; 102; 32; 45; 52; 50] /\
  string_parse [51; 32; 111; 102; 32; 45; 52; 50] (format_text sample) [rd; rd] [0; 0] = Parsed true [3; -42].
Proof. vm_compute. auto. Qed.
(** "x%1%" finds 5 in "garbage x5" *)
Example ex_garbage : string_parse [103; 32; 120; 53] [120; 37; 49; 37] [rd] [0] = Parsed true [5]. Proof. vm_compute. reflexivity. Qed.
Example ex_width : string_format [37; 49; 36; 51; 37; 37; 37] [[55]] = FmtOk [48; 48; 55; 37]. Proof. vm_compute. reflexivity. Qed.
Example ex_version : version_from_string [49; 46; 50; 46; 51] = Some (Ver 1 2 (Some 3)) /\ version_from_string [49; 46; 50] = Some (Ver 1 2 None) /\ version_from_string [49; 46; 50; 46] = None /\
  version_lt (Ver 1 2 None) (Ver 1 2 (Some 0)) = true.
Proof. vm_compute. auto. Qed.
