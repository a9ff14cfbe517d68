(* C86: the names of enumerations *)
From Coq Require Import List Bool ZArith Lia.
From Verif Require Import EnumStrModel EnumStrSpec EnumStrProofs.
Import ListNotations.
Open Scope Z_scope.

(* what STINGRAYKIT_ENUM_VALUES makes of a definition d written as s *)
Definition define (d : definition) (s : str) : option enum := Init (init_values 0 (holders [] d)) s.

(* The values of begin() .. end() are those of the C++ enumeration, if initializers use only enumerators that have initializers *)
Theorem C86_values_partial : forall d vs, cpp d vs -> all_explicit d -> Forall int vs -> init_values 0 (holders [] d) = vs.
Proof. intros d vs H1 H2 H3. apply values_agree; auto. Qed.
Print Assumptions C86_values_partial.
(* Not true without that. enum { A, B, C = A }: C is 0 for the compiler and 2 here; enum { A, B, C = B + 5 }: 6 and 5. *)
Theorem C86_values_refuted : ~ (forall d vs, cpp d vs -> Forall int vs -> init_values 0 (holders [] d) = vs).
Proof.
  intros H. assert (C : cpp [None; None; Some (Name 0)] [0; 1; 0]).
  { apply (cpp_init [None; None] [0; 1] (Name 0)). apply (cpp_next [None] [0]). apply (cpp_next [] []). constructor. }
  specialize (H _ _ C). assert (K : [0; 1; 2] = [0; 1; 0]). { rewrite <- H; [reflexivity|]. repeat constructor; unfold int; lia. } discriminate.
Qed.
Print Assumptions C86_values_refuted.
Theorem C86_values_sum_refuted : ~ (forall d vs, cpp d vs -> Forall int vs -> (forall pre i post, d = pre ++ Some (Name i) :: post -> False) -> init_values 0 (holders [] d) = vs).
Proof.
  intros H. assert (C : cpp [None; None; Some (Plus (Name 1) (Lit 5))] [0; 1; 6]).
  { apply (cpp_init [None; None] [0; 1] (Plus (Name 1) (Lit 5))). apply (cpp_next [None] [0]). apply (cpp_next [] []). constructor. }
  specialize (H _ _ C). assert (K : [0; 1; 5] = [0; 1; 6]).
  { rewrite <- H; [reflexivity| |]. { repeat constructor; unfold int; lia. }
    intros pre i post E. do 3 (destruct pre as [|? pre]; try discriminate). destruct pre; discriminate. }
  discriminate.
Qed.
Print Assumptions C86_values_sum_refuted.

Lemma combine_snd (vs : list Z) : forall (ns : list str), length vs = length ns -> map snd (combine vs ns) = ns.
Proof. induction vs as [|v l IH]; intros [|n r] H; try discriminate; auto. cbn in *. f_equal. apply IH. lia. Qed.
Lemma combine_fst (vs : list Z) : forall (ns : list str), length vs = length ns -> map fst (combine vs ns) = vs.
Proof. induction vs as [|v l IH]; intros [|n r] H; try discriminate; auto. cbn in *. f_equal. apply IH. lia. Qed.
Section Defined.
(* an enumeration whose n-th name has the n-th value *)
Context (vs : list Z) (ns : list str) (s : str).
Context (Htext : text ns s) (Hlen : length vs = length ns) (Hdistinct : NoDup ns).

Lemma Init_defined : exists e, Init vs s = Some e /\ values e = vs /\
  strToEnum e = map (fun p => (snd p, fst p)) (combine vs ns) /\ enumToStr e = fold_left (fun m p => insert_val (fst p) (snd p) m) (combine vs ns) [].
Proof. unfold Init. rewrite (init_names_text _ _ Htext _ Hlen). eexists. split; [reflexivity|]. repeat split. Qed.
Lemma combine_name v n : In (v, n) (combine vs ns) -> name n.
Proof. intros H. apply (in_map snd) in H. rewrite (combine_snd vs ns Hlen) in H. pose proof (text_names _ _ Htext) as T. rewrite Forall_forall in T. auto. Qed.
Lemma sorted_nil : sorted [].
Proof. intros [|? ?] p0 mid q0 post K; discriminate. Qed.

Lemma name_head n : name n -> exists c r, n = c :: r /\ ws c = false /\ digit c = false.
Proof.
  intros (c & r & -> & Hd & Hp). exists c, r. inversion Hp; subst. split; auto. split; [now apply plain_ws|].
  unfold digit. destruct (Z.leb_spec 48 c), (Z.leb_spec c 57); auto. exfalso. apply Hd. lia.
Qed.
Lemma from_nondigit e t : (exists c r, skip ws t = c :: r /\ digit c = false) -> EnumFromString e t =
  match find_str t (strToEnum e) with Some v => Some v | None => match parse_flags (length t) (strToEnum e) t false 0 with Some (true, r) => Some r | _ => None end end.
Proof. intros (c & r & E & D). unfold EnumFromString. rewrite E, D. reflexivity. Qed.
Lemma joined_head l t : joined l t -> exists c r, skip ws t = c :: r /\ digit c = false.
Proof.
  intros [a n b Ha Hn Hb|a n b ns' t' Ha Hn Hb _]; rewrite skip_blank, skip_name by auto; destruct (name_head n Hn) as (c & r & -> & _ & D); cbn; eauto.
Qed.

(* A name, and names joined with | and white space, are read as their values and the union of the bits of their values *)
Lemma from_joined e l t us : strToEnum e = map (fun p => (snd p, fst p)) (combine vs ns) -> joined l t ->
  Forall2 (fun n v => In (v, n) (combine vs ns)) l us -> EnumFromString e t = Some (or_all us).
Proof.
  intros E J F. rewrite from_nondigit by (eapply joined_head; eauto). rewrite E.
  assert (FS : forall n v, In (v, n) (combine vs ns) -> find_str n (map (fun p : Z * str => (snd p, fst p)) (combine vs ns)) = Some v).
  { intros n v. apply find_str_unique. rewrite (combine_snd vs ns Hlen). auto. }
  destruct (find_str t (map (fun p : Z * str => (snd p, fst p)) (combine vs ns))) as [w|] eqn:Ef.
  - apply find_str_In in Ef. pose proof (combine_name _ _ Ef) as Nt. f_equal.
    destruct J as [a n b Ha Hn Hb|a n b ns' t' Ha Hn Hb J'].
    + inversion F as [|? v ? ? Hv F']; subst. inversion F'; subst. cbn. rewrite Z.lor_0_r.
      assert (En : a ++ n ++ b = n).
      { destruct Nt as (c & r & Et & _ & Hp). destruct a as [|x a].
        - cbn in *. destruct b as [|y b]; [now rewrite app_nil_r|]. exfalso. rewrite Forall_app in Hp. destruct Hp as (_ & Hp). inversion Hp as [|? ? P1 P2]; subst.
          inversion Hb as [|? ? B1 B2]; subst. apply P1. cbn in *. intuition.
        - exfalso. cbn in Hp. inversion Hp as [|? ? P1 P2]; subst. inversion Ha as [|? ? A1 A2]; subst. apply P1. cbn in A1 |- *. intuition. }
      rewrite En in Ef. pose proof (FS _ _ Ef) as F1. pose proof (FS _ _ Hv) as F2. congruence.
    + exfalso. destruct Nt as (c & r & _ & _ & Hp). rewrite !Forall_app in Hp. destruct Hp as (_ & _ & _ & Hp). inversion Hp as [|? ? P1 P2]; subst.
      apply P1. cbn. auto 8.
  - rewrite (parse_flags_joined _ l t J us); [reflexivity| |lia]. revert F. clear -FS. induction 1; constructor; auto.
Qed.
End Defined.

(* A definition of distinct names makes a map; its values are in the order of the definition, and every name is read as its value *)
Theorem C86_names : forall vs ns s, text ns s -> length vs = length ns -> NoDup ns ->
  exists e, Init vs s = Some e /\ values e = vs /\ forall i v n, nth_error vs i = Some v -> nth_error ns i = Some n -> EnumFromString e n = Some v.
Proof.
  intros vs ns s Ht Hl Hd. destruct (Init_defined vs ns s Ht Hl) as (e & E1 & E2 & E3 & E4). exists e. split; auto. split; auto.
  intros i v n Hv Hn. assert (In (v, n) (combine vs ns)).
  { clear -Hv Hn. revert ns i Hv Hn. induction vs as [|w l IH]; intros [|m r] [|i] Hv Hn; try discriminate; cbn in *; [left; congruence|eauto]. }
  assert (Nn : name n) by (eapply combine_name; eauto).
  pose proof (joined_one [] n [] (Forall_nil _) Nn (Forall_nil _)) as J. cbn in J. rewrite app_nil_r in J.
  rewrite (from_joined vs ns s Ht Hl Hd e [n] n [v] E3 J); [cbn; now rewrite Z.lor_0_r|repeat constructor; auto].
Qed.
Print Assumptions C86_names.

(* Names joined with | , with white space around them, are read as the union of their bits *)
Theorem C86_flags : forall vs ns s e, text ns s -> length vs = length ns -> NoDup ns -> Init vs s = Some e ->
  forall l t us, joined l t -> Forall2 (fun n v => In (v, n) (combine vs ns)) l us -> EnumFromString e t = Some (or_all us).
Proof.
  intros vs ns s e Ht Hl Hd He l t us J F. destruct (Init_defined vs ns s Ht Hl) as (e' & E1 & E2 & E3 & E4). rewrite E1 in He. injection He as <-.
  eapply from_joined; eauto.
Qed.
Print Assumptions C86_flags.

(* What ToString gives: the first name with the value; else, if the value is a union of values of the enumeration, names joined with |
   whose values' union it is; else the value as an unsigned number. *)
Theorem C86_to_string : forall vs ns s e v, text ns s -> length vs = length ns -> NoDup ns -> Init vs s = Some e ->
  match find (fun p => fst p =? v) (combine vs ns) with
  | Some p => EnumToString e v = snd p
  | None =>
      ((exists us, incl us vs /\ or_all us = v) ->
       exists l us, EnumToString e v = join l /\ Forall2 (fun n u => In (u, n) (combine vs ns)) l us /\ or_all us = v) /\
      (~ (exists us, incl us vs /\ or_all us = v) -> EnumToString e v = print_unsigned (v mod 2 ^ 32))
  end.
Proof.
  intros vs ns s e v Ht Hl Hd He. destruct (Init_defined vs ns s Ht Hl) as (e' & E1 & E2 & E3 & E4). rewrite E1 in He. injection He as <-.
  unfold EnumToString. rewrite E4. destruct (build_find (combine vs ns) v [] sorted_nil) as (_ & B). rewrite B.
  unfold find_val at 1. cbn [find option_map]. unfold find_val.
  destruct (find (fun p => fst p =? v) (combine vs ns)) as [p|] eqn:Ef; cbn [option_map]; [reflexivity|].
  set (m := fold_left _ (combine vs ns) []) in *.
  assert (Mi : forall p, In p m -> In p (combine vs ns)). { intros p Hp. apply build_In in Hp. destruct Hp as [[]|Hp]; auto. }
  assert (Mn : Forall (fun p => name (snd p)) m). { apply Forall_forall. intros (a, b) Hp. cbn. eapply combine_name; eauto. }
  destruct (flags_spec v m 0 [] Mn (Forall_nil _) eq_refl) as (tk & F1 & F2 & F3 & F4 & _). { unfold sub. now rewrite Z.land_0_l. }
  cbn [map join] in F1. rewrite F1.
  assert (T2 : Forall2 (fun n u => In (u, n) (combine vs ns)) (map snd tk) (map fst tk)).
  { assert (T : forall p, In p tk -> In p (combine vs ns)). { intros p Hp. destruct (F2 p Hp) as [[]|H]; auto. }
    clear -T. induction tk as [|(a, b) tk IH]; constructor; [apply T; now left|]. apply IH. intros p Hp. apply T. now right. }
  destruct (Z.eqb_spec (or_all (map fst tk)) v) as [E|E]; cbn [negb].
  - split; [intros _; exists (map snd tk), (map fst tk); auto|]. intros H. exfalso. apply H. exists (map fst tk). split; auto.
    intros u Hu. apply in_map_iff in Hu. destruct Hu as ((a, b) & <- & Hp). destruct (F2 _ Hp) as [[]|Hm]. apply Mi, (in_map fst) in Hm. now rewrite combine_fst in Hm by auto.
  - split; [|reflexivity]. intros (us & Hi & Ho). exfalso. destruct F4 as [F4|F4]; [auto|]. apply E. apply sub_antisym; auto. rewrite <- Ho at 1. apply or_all_sub. apply Forall_forall.
    intros u Hu. assert (Hs : sub u v). { assert (S : sub (or_all us) v) by (rewrite Ho; apply sub_refl). rewrite or_all_sub, Forall_forall in S. auto. }
    specialize (Hi u Hu). rewrite <- (combine_fst vs ns Hl) in Hi. apply in_map_iff in Hi. destruct Hi as ((a, b) & <- & Hp).
    destruct (build_complete _ _ _ Hp) as (n' & Hn'). apply (F4 _ Hn'). exact Hs.
Qed.
Print Assumptions C86_to_string.

(* FromString (ToString v) = v for every int, but for 0 where no enumerator is 0 *)
Theorem C86_roundtrip_partial : forall vs ns s e v, text ns s -> length vs = length ns -> NoDup ns -> Init vs s = Some e -> int v ->
  v <> 0 \/ In 0 vs -> EnumFromString e (EnumToString e v) = Some v.
Proof.
  intros vs ns s e v Ht Hl Hd He Hv Hz. pose proof (C86_to_string vs ns s e v Ht Hl Hd He) as T.
  destruct (Init_defined vs ns s Ht Hl) as (e' & E1 & E2 & E3 & E4). rewrite E1 in He. injection He as <-.
  destruct (find (fun p => fst p =? v) (combine vs ns)) as [(w, n)|] eqn:Ef.
  - rewrite T. apply find_some in Ef. destruct Ef as (Hi & Hw). cbn in Hw. apply Z.eqb_eq in Hw. subst w. cbn [snd].
    assert (Nn : name n) by (eapply combine_name; eauto).
    pose proof (joined_one [] n [] (Forall_nil _) Nn (Forall_nil _)) as J. cbn in J. rewrite app_nil_r in J.
    rewrite (from_joined vs ns s Ht Hl Hd e' [n] n [v] E3 J); [cbn; now rewrite Z.lor_0_r|repeat constructor; auto].
  - assert (V0 : v <> 0).
    { destruct Hz as [Hz|Hz]; auto. intros ->. rewrite <- (combine_fst vs ns Hl) in Hz. apply in_map_iff in Hz. destruct Hz as (p & Hp & Hi).
      apply (find_none _ _ Ef) in Hi. rewrite Hp in Hi. discriminate. }
    destruct T as (T1 & T2).
    assert (Dec : (exists us, incl us vs /\ or_all us = v) \/ ~ (exists us, incl us vs /\ or_all us = v)).
    { set (us := filter (fun u => Z.land u (Z.lnot v) =? 0) vs). destruct (Z.eq_dec (or_all us) v) as [E|E].
      - left. exists us. split; auto. intros u Hu. apply filter_In in Hu. tauto.
      - right. intros (us' & Hi & Ho). apply E. apply sub_antisym.
        + apply or_all_sub, Forall_forall. intros u Hu. apply filter_In in Hu. destruct Hu as (_ & Hu). now apply Z.eqb_eq in Hu.
        + rewrite <- Ho at 1. apply or_all_sub, Forall_forall. intros u Hu.
          assert (S : sub (or_all us') v) by (rewrite Ho; apply sub_refl). rewrite or_all_sub, Forall_forall in S. specialize (S u Hu).
          assert (U : In u us). { apply filter_In. split; [auto|]. apply Z.eqb_eq. exact S. }
          assert (S2 : sub (or_all us) (or_all us)) by apply sub_refl. rewrite or_all_sub, Forall_forall in S2. auto. }
    destruct Dec as [D|D].
    + destruct (T1 D) as (l & us & -> & F & O). rewrite <- O at 1.
      assert (Nl : l <> []). { intros ->. inversion F; subst. cbn in V0. contradiction. }
      rewrite O. rewrite (from_joined vs ns s Ht Hl Hd e' l (join l) us E3); [now rewrite O| |auto]. apply join_joined; auto.
      clear -F Ht Hl. induction F; constructor; auto. eapply combine_name; eauto.
    + rewrite (T2 D). destruct (parse_print (v mod 2 ^ 32)) as (c & r & P1 & P2 & P3 & P4). { apply Z.mod_pos_bound. lia. }
      unfold EnumFromString. rewrite P1 in *. cbn [skip]. rewrite P3, P2, P4. f_equal. rewrite <- (s32_int v Hv) at 2. apply s32_cong.
      pose proof (Z.div_mod v (2 ^ 32) ltac:(lia)). apply Z.mod_divide; [lia|]. exists (- (v / 2 ^ 32)). lia.
Qed.
Print Assumptions C86_roundtrip_partial.

Definition AB : enum := mk_enum [1; 2] [(1, [65]); (2, [66])] [([65], 1); ([66], 2)].       (* enum { A = 1, B } *)
Lemma AB_defined : Init [1; 2] [65; 32; 61; 32; 49; 44; 32; 66] = Some AB.
Proof. reflexivity. Qed.
Lemma nameA c : 58 <= c < 124 -> c <> 61 -> name [c].
Proof. intros H1 H2. exists c, []. repeat split; [lia|]. repeat constructor. unfold plain. cbn. lia. Qed.
Lemma AB_text : text [[65]; [66]] [65; 32; 61; 32; 49; 44; 32; 66].
Proof.
  apply (text_more [65] [65; 32; 61; 32; 49] [[66]] [32; 66]).
  - apply (item_init [] [65] [32] [32; 49]); [constructor|apply nameA; lia| |].
    + repeat constructor; cbn; auto.
    + cbn. intuition discriminate.
  - apply text_one. apply (item_name [32] [66] []); [repeat constructor; cbn; auto|apply nameA; lia|constructor].
Qed.
(* Not true for 0: with no enumerator that is 0 it becomes the empty string, which is not read back *)
Theorem C86_zero_refuted : ~ (forall vs ns s e v, text ns s -> length vs = length ns -> NoDup ns -> Init vs s = Some e -> int v ->
  EnumFromString e (EnumToString e v) = Some v).
Proof.
  intros H. specialize (H [1; 2] _ _ AB 0 AB_text eq_refl). assert (K : None = Some 0).
  { change (EnumFromString AB (EnumToString AB 0) = Some 0). apply H; [|reflexivity|unfold int; lia].
    repeat constructor; cbn; intuition discriminate. }
  discriminate.
Qed.
Print Assumptions C86_zero_refuted.
(* Not true: a text that is read is made of names, | and white space. Where white space stands for the |, the character after it is lost:
   "A ?B" is read as "A|B". *)
Theorem C86_junk_refuted : ~ (forall vs ns s e t v, text ns s -> length vs = length ns -> NoDup ns -> Init vs s = Some e -> EnumFromString e t = Some v ->
  forall c, In c t -> ~ digit c = true -> ws c = true \/ c = bar \/ exists n, In n ns /\ In c n).
Proof.
  intros H. specialize (H [1; 2] _ _ AB [65; 32; 63; 66] 3 AB_text eq_refl). destruct H with (c := 63) as [K|[K|(n & K1 & K2)]]; try discriminate.
  - repeat constructor; cbn; intuition discriminate.
  - reflexivity.
  - reflexivity.
  - cbn. auto.
  - cbn in K1, K2. destruct K1 as [<-|[<-|[]]]; cbn in K2; intuition discriminate.
Qed.
Print Assumptions C86_junk_refuted.
(* Not true of every definition that compiles: an initializer with a comma in it shifts the names. enum { A = F(1, 2), B }: B is not known,
   "2)" is a name. *)
Theorem C86_comma_refuted : ~ (forall e, Init [7; 8] [65; 61; 70; 40; 49; 44; 32; 50; 41; 44; 32; 66] = Some e -> EnumToString e 8 = [66] \/ EnumFromString e [66] = Some 8).
Proof. intros H. destruct (H _ eq_refl); discriminate. Qed.
Print Assumptions C86_comma_refuted.

Example C86_example : EnumToString AB 3 = [65; 124; 66] /\ EnumFromString AB [32; 66; 32; 124; 65] = Some 3 /\ EnumToString AB 5 = [53] /\
  EnumFromString AB [32; 53] = Some 5 /\ EnumFromString AB [67] = None /\ EnumToString AB (-1) = [52; 50; 57; 52; 57; 54; 55; 50; 57; 53] /\
  EnumFromString AB (EnumToString AB (-1)) = Some (-1) /\ define [Some (Lit 1); None] [65; 32; 61; 32; 49; 44; 32; 66] = Some AB.
Proof. vm_compute. repeat split. Qed.
Example C86_values_example : cpp [Some (Lit 3); None; Some (Minus (Name 0) (Lit 5))] [3; 4; -2] /\ all_explicit [Some (Lit 3); None; Some (Minus (Name 0) (Lit 5))].
Proof.
  split.
  - apply (cpp_init [Some (Lit 3); None] [3; 4] (Minus (Name 0) (Lit 5))). apply (cpp_next [Some (Lit 3)] [3]). apply (cpp_init [] [] (Lit 3)). constructor.
  - intros pre e post E. destruct pre as [|? [|? [|? pre]]]; cbn in E; try discriminate; injection E; intros; subst; cbn; unfold int; try lia.
    + split; [eauto|lia].
    + destruct pre; discriminate.
Qed.
