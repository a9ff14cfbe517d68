(** Proofs for C67: format strings *)
From Verif Require Import Base ITextModel ITextSpec ITextProofs FormModel FormSpec.
Local Open Scope Z_scope.

(* ---------------------------------------------------------------- reading numbers *)
Lemma unsigned_std : forall w, 8 <= w <= 64 -> std_type (unsigned_t w). Proof. intros. constructor. assumption. Qed.
Lemma unsigned_not_signed : forall w, is_signed (unsigned_t w) = false. Proof. reflexivity. Qed.
Lemma read_unsigned_iff : forall w t v, 8 <= w <= 64 -> (from_string (unsigned_t w) t = IOk v <-> 0 <= v /\ number_or_sign w t (Z.to_nat v)).
Proof.
  intros w t v Hw. pose proof (unsigned_std w Hw) as St. pose proof (pow2_ge w ltac:(lia)) as P. split.
  - intros H. destruct (sign_cases t) as [->|[[g [d [E [Ne D]]]]|[Ne X]]]; [discriminate H| |rewrite (from_string_format _ _ Ne X) in H; discriminate H].
    pose proof (num_bounds d D) as B. destruct g.
    + subst t. destruct d as [|c d].
      * change (from_string (unsigned_t w) (sign_text Plus ++ [])) with (IOk (conv (unsigned_t w) 0)) in H. rewrite conv_zero in H by exact St. inversion H. split; [lia|]. right. split; [reflexivity|left; reflexivity].
      * rewrite from_string_value in H; [|exact St|exact D|exact Ne|discriminate]. cbn [signed_num] in H. destruct (fitsb (unsigned_t w) (num (c :: d))) eqn:F; [|discriminate H]. inversion H. subst v. split; [lia|].
        left. exists Plus, (c :: d). apply fitsb_spec in F. unfold fits, unsigned_t in F. cbn [t_min t_max] in F. repeat split; auto; try discriminate; lia.
    + subst t. cbn [sign_text app] in H. rewrite from_string_minus_unsigned in H; [|reflexivity|exact D]. destruct d; [|discriminate H]. inversion H. rewrite conv_zero by exact St. split; [lia|]. right. split; [reflexivity|right; reflexivity].
    + subst t. rewrite from_string_value in H; [|exact St|exact D|exact Ne|discriminate]. cbn [signed_num] in H. destruct (fitsb (unsigned_t w) (num d)) eqn:F; [|discriminate H]. inversion H. subst v. split; [lia|].
      left. exists NoSign, d. apply fitsb_spec in F. unfold fits, unsigned_t in F. cbn [t_min t_max] in F. repeat split; auto; try discriminate; try lia.
  - intros [Hv [[g [d [-> [G [Ne [D [N L]]]]]]]|[Z0 T]]].
    + pose proof (num_bounds d D) as B. rewrite from_string_value; [|exact St|exact D|destruct g, d; try discriminate; congruence|congruence].
      replace (signed_num g d) with (num d) by (destruct g; cbn [signed_num]; congruence). rewrite Z2Nat.id in N by lia. rewrite N in *.
      replace (fitsb (unsigned_t w) v) with true; [reflexivity|]. symmetry. apply fitsb_spec. unfold fits, unsigned_t. cbn [t_min t_max]. lia.
    + assert (v = 0) by lia. subst v. destruct T as [->| ->]; [change (from_string (unsigned_t w) [43]) with (IOk (conv (unsigned_t w) 0))|change (from_string (unsigned_t w) [45]) with (IOk (conv (unsigned_t w) 0))]; rewrite conv_zero by exact St; reflexivity.
Qed.
Lemma read_size_iff : forall t v, read_size t = Some v <-> 0 <= v /\ number_or_sign 64 t (Z.to_nat v).
Proof.
  intros t v. unfold read_size. rewrite <- (read_unsigned_iff 64 t v ltac:(lia)). destruct (from_string (unsigned_t 64) t); split; intros H; try discriminate H; inversion H; reflexivity.
Qed.
Lemma read_size_number : forall t n, number_text 64 t n -> read_size t = Some (Z.of_nat n).
Proof. intros t n H. apply read_size_iff. split; [lia|]. rewrite Nat2Z.id. left. exact H. Qed.
Lemma read_size_or_sign : forall t n, number_or_sign 64 t n -> read_size t = Some (Z.of_nat n).
Proof. intros t n H. apply read_size_iff. split; [lia|]. rewrite Nat2Z.id. exact H. Qed.
Lemma number_chars : forall w t n c, number_text w t n -> In c t -> c = 43 \/ 48 <= c <= 57.
Proof.
  intros w t n c [g [d [-> [G [_ [D _]]]]]] H. apply in_app_or in H. destruct H as [H|H].
  - destruct g; cbn in H; [destruct H as [<-|[]]; left; reflexivity|congruence|destruct H].
  - right. rewrite Forall_forall in D. apply D in H. exact H.
Qed.
Lemma number_or_sign_chars : forall w t n c, number_or_sign w t n -> In c t -> c = 43 \/ c = 45 \/ 48 <= c <= 57.
Proof. intros w t n c [H|[_ [->| ->]]] I; [destruct (number_chars _ _ _ _ H I); auto|destruct I as [<-|[]]; auto|destruct I as [<-|[]]; auto]. Qed.
Lemma number_nonempty : forall w t n, number_text w t n -> t <> [].
Proof. intros w t n [g [d [-> [_ [Ne _]]]]]. destruct g, d; try discriminate; congruence. Qed.

(* ---------------------------------------------------------------- cutting *)
Lemma cut_at_app : forall c a b, ~ In c a -> cut_at c (a ++ c :: b) = Some (a, b).
Proof.
  intros c a b. induction a as [|x a IH]; intros H; cbn [app cut_at]; [rewrite Z.eqb_refl; reflexivity|].
  destruct (Z.eqb_spec x c) as [->|N]; [exfalso; apply H; left; reflexivity|]. rewrite IH by (intros I; apply H; right; exact I). reflexivity.
Qed.
Lemma cut_at_none : forall c l, cut_at c l = None <-> ~ In c l.
Proof.
  intros c l. induction l as [|x l IH]; cbn [cut_at]; [split; [intros _ []|reflexivity]|]. destruct (Z.eqb_spec x c) as [->|N].
  - split; [discriminate|intros H; exfalso; apply H; left; reflexivity].
  - destruct (cut_at c l) as [[a b]|]; split; intros H; try discriminate H; try reflexivity.
    + exfalso. apply H. right. destruct (in_dec Z.eq_dec c l) as [I|I]; [exact I|]. apply IH in I. discriminate I.
    + intros [I|I]; [contradiction|]. apply IH in I; [exact I|reflexivity].
Qed.
Lemma cut_at_some : forall c l a b, cut_at c l = Some (a, b) -> l = a ++ c :: b /\ ~ In c a.
Proof.
  intros c l. induction l as [|x l IH]; intros a b H; cbn [cut_at] in H; [discriminate H|]. destruct (Z.eqb_spec x c) as [->|N].
  - inversion H. subst. split; [reflexivity|intros []].
  - destruct (cut_at c l) as [[a' b']|]; [|discriminate H]. inversion H. subst. destruct (IH a' b eq_refl) as [-> NI]. split; [reflexivity|]. intros [I|I]; [contradiction|auto].
Qed.
Lemma no_percent_in : forall s, no_percent s <-> ~ In 37 s.
Proof.
  intros s. unfold no_percent. rewrite Forall_forall. split; [intros H I; exact (H 37 I eq_refl)|intros H x I E; subst; auto].
Qed.
Lemma number_no : forall w t n, number_or_sign w t n -> ~ In 37 t /\ ~ In 36 t.
Proof. intros w t n H. split; intros I; destruct (number_or_sign_chars _ _ _ _ H I) as [X|[X|X]]; lia. Qed.

(* ---------------------------------------------------------------- StringFormat *)
Lemma argument_spec : forall args k w, argument_to_string (Z.of_nat k) (Z.of_nat w) args = option_map (padded w) (nth_error args k).
Proof.
  induction args as [|p args IH]; intros k w; [destruct k; reflexivity|]. cbn [argument_to_string]. destruct k as [|k].
  - cbn [Z.of_nat Z.eqb negb nth_error option_map]. unfold padded. destruct w as [|w]; [reflexivity|]. destruct (Z.eqb_spec (Z.of_nat (S w)) 0) as [E|E]; [lia|].
    unfold zlen. destruct (Z.ltb_spec (Z.of_nat (length p)) (Z.of_nat (S w))) as [L|L].
    + replace (Z.to_nat (Z.of_nat (S w) - Z.of_nat (length p))) with (S w - length p)%nat by lia. reflexivity.
    + replace (S w - length p)%nat with O by lia. reflexivity.
  - destruct (Z.eqb_spec (Z.of_nat (S k)) 0) as [E|E]; [lia|]. cbn [negb nth_error]. replace (Z.of_nat (S k) - 1) with (Z.of_nat k) by lia. apply IH.
Qed.
Lemma padded_zero : forall s, padded 0 s = s. Proof. reflexivity. Qed.
Lemma arg_text_spec : forall t n args, number_text 64 t n -> (1 <= n)%nat -> one_argument t args = show args (Arg t n).
Proof.
  intros t n args H L. unfold one_argument. assert (X : cut_at 36 t = None) by (apply cut_at_none; apply (number_no 64 t n (or_introl H))). rewrite X.
  pose proof (number_nonempty _ _ _ H). destruct t as [|c t]; [congruence|]. rewrite (read_size_number _ _ H). destruct (Z.gtb_spec (Z.of_nat n) 0); [|lia].
  replace (Z.of_nat n - 1) with (Z.of_nat (n - 1)) by lia. pose proof (argument_spec args (n - 1) 0) as A. cbn [Z.of_nat] in A. rewrite A. cbn [show]. destruct (nth_error args (n - 1)); reflexivity.
Qed.
Lemma wide_text_spec : forall t n tw w args, number_text 64 t n -> (1 <= n)%nat -> number_or_sign 64 tw w -> one_argument (t ++ 36 :: tw) args = show args (Wide t n tw w).
Proof.
  intros t n tw w args H L W. unfold one_argument. rewrite cut_at_app by (apply (number_no 64 t n (or_introl H))).
  pose proof (number_nonempty _ _ _ H). destruct t as [|c t]; [congruence|]. rewrite (read_size_number _ _ H). destruct (Z.gtb_spec (Z.of_nat n) 0); [|lia].
  assert (tw <> []) by (destruct W as [W|[_ [->| ->]]]; [exact (number_nonempty _ _ _ W)|discriminate|discriminate]).
  destruct tw as [|c' tw]; [congruence|]. rewrite (read_size_or_sign _ _ W). replace (Z.of_nat n - 1) with (Z.of_nat (n - 1)) by lia. apply argument_spec.
Qed.
Lemma format_text_chars : forall s n r args acc, no_percent s -> format_loop (length s + n) (s ++ r) args acc = format_loop n r args (acc ++ s).
Proof.
  induction s as [|c s IH]; intros n r args acc H; [rewrite app_nil_r; reflexivity|]. inversion H; subst. cbn [length app Nat.add format_loop]. destruct (Z.eqb_spec c 37); [contradiction|].
  rewrite IH by assumption. rewrite <- app_assoc. reflexivity.
Qed.
Lemma format_fuel : forall n m r args acc, (length r < n)%nat -> (length r < m)%nat -> format_loop n r args acc = format_loop m r args acc.
Proof.
  induction n as [|n IH]; intros m r args acc Hn Hm; [lia|]. destruct m as [|m]; [lia|]. cbn [format_loop]. destruct r as [|c r]; [reflexivity|]. cbn [length] in *.
  destruct (c =? 37); [|apply IH; lia]. destruct (cut_at 37 r) as [[a b]|] eqn:C; [|reflexivity]. apply cut_at_some in C. destruct C as [-> _]. rewrite app_length in *. cbn [length] in *.
  destruct a as [|x a]; [apply IH; lia|]. destruct (one_argument (x :: a) args); [apply IH; cbn [length] in *; lia|reflexivity].
Qed.
Definition loop_on (r : list Z) (args : list (list Z)) (acc : list Z) := format_loop (S (length r)) r args acc.
Lemma loop_text : forall s r args acc, no_percent s -> loop_on (s ++ r) args acc = loop_on r args (acc ++ s).
Proof.
  intros s r args acc H. unfold loop_on. rewrite <- (format_text_chars s (S (length r)) r args acc H). apply format_fuel; rewrite app_length; lia.
Qed.
Lemma loop_percent : forall r args acc, loop_on (37 :: 37 :: r) args acc = loop_on r args (acc ++ [37]).
Proof.
  intros. unfold loop_on. cbn [length]. transitivity (format_loop (S (S (length r))) r args (acc ++ [37])); [reflexivity|]. apply format_fuel; lia.
Qed.
Lemma loop_step : forall n r args acc, format_loop (S n) (37 :: r) args acc = match cut_at 37 r with
  | None => FmtThrow | Some ([], r') => format_loop n r' args (acc ++ [37])
  | Some (arg, r') => match one_argument arg args with Some t => format_loop n r' args (acc ++ t) | None => FmtThrow end end.
Proof. reflexivity. Qed.
Lemma loop_arg : forall a r args acc, a <> [] -> ~ In 37 a -> loop_on (37 :: a ++ 37 :: r) args acc = match one_argument a args with Some t => loop_on r args (acc ++ t) | None => FmtThrow end.
Proof.
  intros a r args acc Ne Na. unfold loop_on. rewrite loop_step. rewrite cut_at_app by exact Na. destruct a as [|x a]; [congruence|].
  destruct (one_argument (x :: a) args); [|reflexivity]. apply format_fuel; cbn [length]; rewrite ?app_length; cbn [length]; lia.
Qed.
Theorem format_exact : forall l args acc, Forall format_item l -> loop_on (format_text l) args acc = match show_all args l with Some s => FmtOk (acc ++ s) | None => FmtThrow end.
Proof.
  induction l as [|i l IH]; intros args acc H; [cbn; rewrite app_nil_r; reflexivity|]. inversion H as [|? ? Hi Hl]; subst. unfold format_text in *. cbn [flat_map show_all].
  destruct i as [s| |t n|t n tw w|]; cbn [item_text format_item show] in *.
  - rewrite loop_text by exact Hi. rewrite IH by exact Hl. destruct (show_all args l); [rewrite app_assoc; reflexivity|reflexivity].
  - cbn [app]. rewrite loop_percent, IH by exact Hl. destruct (show_all args l); [rewrite <- app_assoc; reflexivity|reflexivity].
  - destruct Hi as [Hn L]. replace ((37 :: t ++ [37]) ++ flat_map item_text l) with (37 :: t ++ 37 :: flat_map item_text l) by (cbn [app]; rewrite <- app_assoc; reflexivity).
    rewrite loop_arg by (first [exact (number_nonempty _ _ _ Hn)|apply (number_no 64 t n (or_introl Hn))]). rewrite (arg_text_spec t n args Hn L). cbn [show].
    destruct (nth_error args (n - 1)) as [x|]; [|reflexivity]. rewrite IH by exact Hl. destruct (show_all args l); [rewrite app_assoc; reflexivity|reflexivity].
  - destruct Hi as [Hn [L W]]. replace ((37 :: t ++ 36 :: tw ++ [37]) ++ flat_map item_text l) with (37 :: (t ++ 36 :: tw) ++ 37 :: flat_map item_text l) by (cbn [app]; rewrite <- !app_assoc; cbn [app]; rewrite <- app_assoc; reflexivity).
    rewrite loop_arg; [|destruct t; discriminate|intros I; apply in_app_or in I; destruct I as [I|[I|I]]; [exact (proj1 (number_no 64 t n (or_introl Hn)) I)|discriminate I|exact (proj1 (number_no 64 tw w W) I)]].
    rewrite (wide_text_spec t n tw w args Hn L W). cbn [show]. destruct (nth_error args (n - 1)) as [x|]; cbn [option_map]; [|reflexivity]. rewrite IH by exact Hl. destruct (show_all args l); [rewrite app_assoc; reflexivity|reflexivity].
  - contradiction.
Qed.
Lemma one_argument_items : forall a args t, one_argument a args = Some t -> exists i, item_text i = 37 :: a ++ [37] /\ format_item i /\ show args i = Some t.
Proof.
  intros a args t H. pose proof H as H0. unfold one_argument in H. destruct (cut_at 36 a) as [[i w]|] eqn:C.
  - apply cut_at_some in C. destruct C as [E NI]. destruct i as [|c i]; [discriminate H|]. destruct (read_size (c :: i)) as [n|] eqn:R; [|discriminate H]. destruct (Z.gtb_spec n 0); [|discriminate H].
    destruct w as [|cw w]; [discriminate H|]. destruct (read_size (cw :: w)) as [m|] eqn:Rw; [|discriminate H].
    apply read_size_iff in R. destruct R as [Rn R]. destruct R as [R|[R _]]; [|lia]. apply read_size_iff in Rw. destruct Rw as [Rm Rw].
    exists (Wide (c :: i) (Z.to_nat n) (cw :: w) (Z.to_nat m)). split; [|split].
    + cbn [item_text]. rewrite E. cbn [app]. rewrite <- app_assoc. reflexivity.
    + cbn [format_item]. repeat split; [exact R|lia|exact Rw].
    + rewrite <- (wide_text_spec _ _ _ _ args R ltac:(lia) Rw). rewrite <- E. exact H0.
  - destruct a as [|c a]; [discriminate H|]. destruct (read_size (c :: a)) as [n|] eqn:R; [|discriminate H]. destruct (Z.gtb_spec n 0); [|discriminate H].
    apply read_size_iff in R. destruct R as [Rn R]. destruct R as [R|[R _]]; [|lia]. exists (Arg (c :: a) (Z.to_nat n)). split; [reflexivity|]. split; [cbn [format_item]; split; [exact R|lia]|].
    rewrite <- (arg_text_spec _ _ args R ltac:(lia)). exact H0.
Qed.
Theorem format_only : forall n f args acc s, format_loop n f args acc = FmtOk s -> exists l, f = format_text l /\ Forall format_item l /\ (exists r, show_all args l = Some r /\ s = acc ++ r).
Proof.
  induction n as [|n IH]; intros f args acc s H; [discriminate H|]. cbn [format_loop] in H. destruct f as [|c f].
  - inversion H. exists []. split; [reflexivity|]. split; [constructor|]. exists []. split; [reflexivity|rewrite app_nil_r; reflexivity].
  - destruct (Z.eqb_spec c 37) as [->|Nc].
    + destruct (cut_at 37 f) as [[a b]|] eqn:C; [|discriminate H]. apply cut_at_some in C. destruct C as [-> NI]. destruct a as [|x a].
      * destruct (IH _ _ _ _ H) as [l [E [F [r [R ->]]]]]. exists (Percent :: l). split; [cbn; rewrite E; reflexivity|]. split; [constructor; [exact I|exact F]|]. exists (37 :: r). cbn [show_all show]. rewrite R. split; [reflexivity|]. rewrite <- app_assoc. reflexivity.
      * destruct (one_argument (x :: a) args) as [t|] eqn:O; [|discriminate H]. destruct (one_argument_items _ _ _ O) as [i [Ti [Fi Si]]]. destruct (IH _ _ _ _ H) as [l [E [F [r [R ->]]]]].
        exists (i :: l). split; [unfold format_text in *; cbn [flat_map]; rewrite Ti, E; cbn [app]; rewrite <- app_assoc; reflexivity|]. split; [constructor; assumption|]. exists (t ++ r). cbn [show_all]. rewrite Si, R. split; [reflexivity|]. rewrite app_assoc. reflexivity.
    + destruct (IH _ _ _ _ H) as [l [E [F [r [R ->]]]]]. exists (Text [c] :: l). split; [unfold format_text in *; cbn [flat_map item_text]; rewrite E; reflexivity|]. split; [constructor; [cbn; repeat constructor; exact Nc|exact F]|].
      exists (c :: r). cbn [show_all show]. rewrite R. split; [reflexivity|]. rewrite <- app_assoc. reflexivity.
Qed.
