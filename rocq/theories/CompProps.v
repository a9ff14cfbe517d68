(** * C68: comparers built from comparers are again good orders, and all forms agree *)

From Coq Require Import ZArith List Bool Arith Lia.
From Verif Require Import CompModel CompSpec CompProofs.
Import ListNotations.
Local Open Scope Z_scope.

(** What a class must offer: a member Compare that is a three-way comparison, or a strict weak
    operator < with an operator == that holds exactly when neither is less. *)
Definition good_class {A} (k : cls A) : Prop :=
  match k with HasCompare c => three_way c | HasLess lt eq => strict_weak lt /\ agrees lt eq end.

(** Values of static type shared_ptr<..shared_ptr<A>..> with [d] layers (0: plain references). *)
Definition ptr (d : nat) : Type := {p : pval | depth_ok d p}.
Definition pv {d} (p : ptr d) : pval := proj1_sig p.

(** Cmp is a three-way comparison of references and of shared_ptrs of any depth; null comes first;
    Less, Equals and Greater say the same as Cmp. *)
Theorem C68_cmp_is_an_order :
  forall A (h : nat -> A) (k : cls A) (d : nat), good_class k ->
    three_way (fun x y : ptr d => Cmp h k (pv x) (pv y)) /\
    forall x y : ptr d,
      Less h k (pv x) (pv y) = (Cmp h k (pv x) (pv y) <? 0) /\
      Equals h k (pv x) (pv y) = (Cmp h k (pv x) (pv y) =? 0) /\
      Greater h k (pv x) (pv y) = (Cmp h k (pv x) (pv y) >? 0).
Proof.
  intros A h k d K. destruct (base_tw h k K d) as [F T]. split.
  - split; intros [x Hx] [y Hy]; cbn; [apply F; assumption|]. intros [z Hz]; cbn. now apply T.
  - intros [x Hx] [y Hy]. cbn. split; [now apply less_cmp|]. split; [now apply (equals_cmp h k K d)|now apply greater_cmp].
Qed.

(** What Cmp compares: the objects pointed to, through all layers; a null pointer is before any
    other pointer and equal to null. *)
Theorem C68_cmp_looks_through_pointers :
  forall A (h : nat -> A) (k : cls A), good_class k ->
    (forall a b, Cmp h k (Obj a) (Obj b) = match k with
        | HasCompare c => c (h a) (h b)
        | HasLess lt _ => if lt (h a) (h b) then -1 else if lt (h b) (h a) then 1 else 0 end) /\
    (forall p q, Cmp h k (PTo p) (PTo q) = Cmp h k p q) /\
    (forall p, Cmp h k PNull (PTo p) < 0 /\ Cmp h k (PTo p) PNull > 0) /\
    Cmp h k PNull PNull = 0.
Proof.
  intros A h k K. repeat split; cbn; try lia.
  intros a b. rewrite (cmp_do_eq h k K). now destruct k.
Qed.

(** Any three-way comparison gives a strict weak Less, a Greater that is its mirror image, and an
    Equals that is an equivalence and holds exactly when neither is less. *)
Theorem C68_cmp_adapters :
  forall A (c : A -> A -> Z), three_way c ->
    strict_weak (CmpToLess c) /\ equivalence (CmpToEquals c) /\ agrees (CmpToLess c) (CmpToEquals c) /\
    (forall x y, CmpToGreater c x y = CmpToLess c y x).
Proof.
  intros A c H. split; [apply (cmp_to_less_sw H)|]. split; [apply (cmp_to_equals_eqv H)|].
  split; [apply (cmp_agrees H)|apply (cmp_greater H)].
Qed.

(** A strict weak Less gives a three-way comparison whose Less it is, and an equivalence. *)
Theorem C68_less_adapters :
  forall A (lt : A -> A -> bool), strict_weak lt ->
    three_way (LessToCmp lt) /\ (forall x y, CmpToLess (LessToCmp lt) x y = lt x y) /\
    equivalence (LessToEquals lt) /\ agrees lt (LessToEquals lt) /\
    (forall x y, CmpToEquals (LessToCmp lt) x y = LessToEquals lt x y).
Proof.
  intros A lt H. split; [apply (less_to_cmp_tw H)|]. split; [apply less_of_less_to_cmp|].
  split; [apply (less_to_equals_eqv H)|]. split; [apply less_to_equals_agrees|].
  intros. symmetry. apply less_to_equals_cmp.
Qed.

(** Tuples of any length and element types: TupleCmp is a three-way comparison when every element
    comparison is; TupleEquals (which uses operator != of the elements) says the same as TupleCmp
    when != says the same as the element comparison. *)
Theorem C68_tuples :
  forall (code : Type) (el : code -> Type) (cf : forall t, el t -> el t -> Z) (ne : forall t, el t -> el t -> bool),
    (forall t, three_way (cf t)) ->
    forall ts,
      three_way (TupleCmp el cf ts) /\
      ((forall t x y, ne t x y = negb (cf t x y =? 0)) ->
       forall l r, TupleEquals el ne ts l r = CmpToEquals (TupleCmp el cf ts) l r).
Proof.
  intros code el cf ne H ts. split; [now apply tuple_tw|]. intros N l r. now apply tuple_equals_cmp.
Qed.

(** Collections: a three-way comparison, negative exactly for the lexicographically smaller one (a
    proper prefix is smaller), zero exactly when the items are pairwise equal and equally many. *)
Theorem C68_collections :
  forall A (item : A -> A -> Z) (h : nat -> list A), three_way item ->
    three_way (CollectionCmp h item) /\
    forall l r, (CollectionCmp h item l r < 0 <-> lex_less item (h l) (h r)) /\
                (CollectionCmp h item l r = 0 <-> lex_equal item (h l) (h r)) /\
                (CollectionCmp h item l r > 0 <-> lex_less item (h r) (h l)).
Proof.
  intros A item h H. split.
  - apply (tw_ext (fun l r => DoCompareRanges item (h l) (h r))); [intros; symmetry; now apply collection_tw|].
    apply (tw_image _ h). now apply ranges_tw.
  - intros l r. rewrite (collection_tw h item H). split; [apply ranges_neg|]. split; [apply ranges_zero|].
    rewrite <- ranges_neg. pose proof (tw_pos (ranges_tw item H) (h l) (h r)). lia.
Qed.

(** Member lists: a three-way comparison; equal exactly when all listed members are equal; otherwise
    the first listed member that differs decides, whatever comes after it. *)
Theorem C68_member_lists :
  forall C (ms : list (member C)),
    (forall m, In m ms -> match m with Member T _ c => three_way c end) ->
    three_way (MemberListCmp ms) /\
    forall l r, (MemberListCmp ms l r = 0 <-> (forall m, In m ms -> CompareMember m l r = 0)) /\
                (forall ms1 m ms2, ms = ms1 ++ m :: ms2 -> (forall m', In m' ms1 -> CompareMember m' l r = 0) ->
                   CompareMember m l r <> 0 -> MemberListCmp ms l r = CompareMember m l r).
Proof.
  intros C ms H. split.
  - apply members_tw. apply Forall_forall. intros m I. specialize (H m I). now destruct m.
  - intros l r. split; [rewrite members_zero; apply Forall_forall|].
    intros ms1 m ms2 -> F N. apply members_first; [now apply Forall_forall|exact N].
Qed.

(** Comparable: objects of many classes, compared through the base interface, are totally ordered,
    provided std::type_info::before is a strict total order of the types and every class's own
    DoCompare is a three-way comparison of its objects; objects of different classes are never equal;
    objects of the same class compare by DoCompare. *)
Theorem C68_comparable :
  forall (el : nat -> Type) (before : nat -> nat -> bool) (do_cmp : forall t, el t -> el t -> Z)
         (h : nat -> {t : nat & el t}),
    (forall t, before t t = false) ->
    (forall a b d, before a b = true -> before b d = true -> before a d = true) ->
    (forall a b, a <> b -> before a b = true \/ before b a = true) ->
    (forall t, three_way (do_cmp t)) ->
    three_way (ComparableCompare before do_cmp h) /\
    (forall i j, projT1 (h i) <> projT1 (h j) -> ComparableCompare before do_cmp h i j <> 0) /\
    (forall i j t a b, h i = existT _ t a -> h j = existT _ t b -> ComparableCompare before do_cmp h i j = do_cmp t a b).
Proof.
  intros el before do_cmp h B1 B2 B3 D.
  pose proof (obj_tw before do_cmp B1 B2 B3 D) as T. split; [|split].
  - apply (tw_ext (fun i j => obj_cmp before do_cmp (h i) (h j))); [intros; symmetry; now apply comparable_eq|].
    now apply (tw_image _ h).
  - intros i j N. rewrite comparable_eq by assumption. destruct (h i) as [t a], (h j) as [u b]; cbn in N.
    rewrite obj_diff by assumption. destruct (before t u); lia.
  - intros i j t a b Hi Hj. rewrite comparable_eq by assumption. rewrite Hi, Hj. apply obj_same.
Qed.

(** optional: Compare and OptionalCmp are the same three-way comparison, null first; operator < is a
    strict weak order and with == agrees with Compare whenever that is so for the contents. *)
Theorem C68_optional_order :
  forall A (c : A -> A -> Z) (lt eq : A -> A -> bool), three_way c ->
    (forall x y, lt x y = (c x y <? 0)) -> (forall x y, eq x y = (c x y =? 0)) ->
    three_way (opt_Compare c) /\ strict_weak (opt_lt lt) /\ agrees (opt_lt lt) (opt_eq eq) /\
    (forall l r, OptionalCmp c l r = opt_Compare c l r) /\
    (forall l r, opt_lt lt l r = (opt_Compare c l r <? 0) /\ opt_eq eq l r = (opt_Compare c l r =? 0)) /\
    (forall x, opt_Compare c None (Some x) < 0) /\ (forall x y, opt_Compare c (Some x) (Some y) = c x y).
Proof.
  intros A c lt eq H L E. split; [now apply opt_tw|].
  pose proof (cmp_to_less_sw (opt_tw c H)) as S. split; [|split; [|split; [|split; [|split]]]].
  - destruct S as [S1 S2 S3]. unfold CmpToLess in *.
    split; intros; rewrite !(opt_lt_compare c lt L) in *; eauto.
  - intros x y. rewrite (opt_eq_compare c eq E), !(opt_lt_compare c lt L). apply (cmp_agrees (opt_tw c H)).
  - apply optcmp_compare.
  - intros l r. split; [now apply opt_lt_compare|now apply opt_eq_compare].
  - intros x. cbn. lia.
  - reflexivity.
Qed.

(** null as an operand: the value of type NullPtrType *)
Definition null_lt_opt' {A} (_ : unit) (o : option A) : bool := null_lt_opt o.
Definition opt_lt_null' {A} (o : option A) (_ : unit) : bool := opt_lt_null o.

(** Mixed comparisons of an optional with null or with a plain value are those of the optionals
    [None] and [Some value], in all six operators and both orders of operands. *)
Theorem C68_optional_mixed :
  forall A (lt eq : A -> A -> bool) (o : option A) (v : A),
    (* with null *)
    (opt_eq_null o = opt_eq eq o None /\ opt_lt_null o = opt_lt lt o None /\ null_lt_opt o = opt_lt lt None o) /\
    (nm_gt null_lt_opt' o tt = opt_lt lt None o /\ nm_le null_lt_opt' o tt = negb (opt_lt lt None o) /\
     nm_ge opt_lt_null' o tt = negb (opt_lt lt o None)) /\
    (nm_gt opt_lt_null' tt o = opt_lt lt o None /\ nm_le opt_lt_null' tt o = negb (opt_lt lt o None) /\
     nm_ge null_lt_opt' tt o = negb (opt_lt lt None o)) /\
    (* with a value *)
    (opt_eq_value eq o v = opt_eq eq o (Some v) /\ opt_lt_value lt o v = opt_lt lt o (Some v) /\
     value_lt_opt lt v o = opt_lt lt (Some v) o) /\
    (nm_gt (value_lt_opt lt) o v = opt_lt lt (Some v) o /\ nm_le (value_lt_opt lt) o v = negb (opt_lt lt (Some v) o) /\
     nm_ge (opt_lt_value lt) o v = negb (opt_lt lt o (Some v))) /\
    (nm_gt (opt_lt_value lt) v o = opt_lt lt o (Some v) /\ nm_le (opt_lt_value lt) v o = negb (opt_lt lt o (Some v)) /\
     nm_ge (value_lt_opt lt) v o = negb (opt_lt lt (Some v) o)).
Proof. intros A lt eq [x|] v; cbn; repeat split. Qed.

(** OptionalCmp with a value or null on the left is the mirror image of the comparison with it on
    the right, for every item comparison that never returns the smallest int ... *)
Theorem C68_optional_cmp_mirrored :
  forall A (c : A -> A -> Z) (v : A) (r : option A), three_way c ->
    (forall x y, c x y <> - 2 ^ 31) ->
    exists z, value_OptionalCmp c v r = Some z /\ Z.sgn z = Z.sgn (opt_Compare c (Some v) r) /\
    exists n, null_OptionalCmp r = Some n /\ Z.sgn n = Z.sgn (opt_Compare c None r).
Proof.
  intros A c v r H N. destruct r as [x|].
  - exists (- c x v). unfold value_OptionalCmp, null_OptionalCmp, int_neg. cbn.
    destruct (c x v =? -2147483648) eqn:E; [apply Z.eqb_eq in E; destruct (N x v E)|].
    split; [reflexivity|]. split.
    + rewrite Z.sgn_opp. symmetry. apply (tw_flip _ H).
    + exists (-1). split; reflexivity.
  - exists 1. cbn. repeat split. exists 0. split; reflexivity.
Qed.

(** ... which is needed: a three-way comparison of ints that does return it makes the mirrored call
    overflow. *)
Theorem C68_optional_cmp_mirrored_refuted :
  exists (c : Z -> Z -> Z), three_way c /\
    (forall x y, - 2 ^ 31 <= c x y <= 2 ^ 31 - 1) /\
    exists (v : Z) (r : option Z), value_OptionalCmp c v r = None.
Proof.
  exists (fun x y => if x <? y then - 2 ^ 31 else if y <? x then 1 else 0). split; [split|split].
  - intros x y. destruct (Z.ltb_spec x y), (Z.ltb_spec y x); cbn; lia.
  - intros x y z. destruct (Z.ltb_spec x y), (Z.ltb_spec y x), (Z.ltb_spec y z), (Z.ltb_spec z y),
      (Z.ltb_spec x z), (Z.ltb_spec z x); lia.
  - intros x y. destruct (x <? y), (y <? x); lia.
  - exists 5, (Some 3). reflexivity.
Qed.

(** variant: ordered by the alternative held, then by the contents; < is a strict weak order, ==
    holds exactly when neither is less, and never between different alternatives. *)
Theorem C68_variant :
  forall (el : nat -> Type) (lt eq : forall t, el t -> el t -> bool),
    (forall t, strict_weak (lt t)) -> (forall t, agrees (lt t) (eq t)) ->
    strict_weak (var_lt lt) /\ agrees (var_lt lt) (var_eq eq) /\ equivalence (var_eq eq) /\
    (forall t a b, var_lt lt (existT _ t a) (existT _ t b) = lt t a b) /\
    (forall t a b, var_eq eq (existT _ t a) (existT _ t b) = eq t a b) /\
    (forall t u a b, (t < u)%nat -> var_lt lt (existT _ t a) (existT _ u b) = true /\
                                    var_eq eq (existT _ t a) (existT _ u b) = false).
Proof.
  intros el lt eq S G. pose proof (var_sw lt S) as VS. pose proof (var_agrees lt eq G) as VA.
  split; [exact VS|]. split; [exact VA|]. split; [now apply agrees_eqv with (var_lt lt)|].
  split; [apply var_lt_same|]. split; [apply var_eq_same|].
  intros t u a b L. rewrite var_lt_diff, var_eq_diff by lia. rewrite Nat.ltb_lt. auto.
Qed.

(** The operators generated from operator <: one strict weak order, one equivalence, all consistent. *)
Theorem C68_operators_from_less :
  forall A (lt : A -> A -> bool), strict_weak lt ->
    equivalence (fl_eq lt) /\
    forall x y,
      (fl_eq lt x y = true <-> lt x y = false /\ lt y x = false) /\
      fl_ne lt x y = negb (fl_eq lt x y) /\ fl_gt lt x y = lt y x /\
      fl_le lt x y = (lt x y || fl_eq lt x y) /\ fl_ge lt x y = (fl_gt lt x y || fl_eq lt x y) /\
      (* exactly one of x < y, x == y, x > y *)
      ((if lt x y then 1 else 0) + (if fl_eq lt x y then 1 else 0) + (if fl_gt lt x y then 1 else 0) = 1)%nat.
Proof.
  intros A lt S. assert (G : agrees lt (fl_eq lt)).
  { intros x y. unfold fl_eq, fl_ne. rewrite negb_true_iff, orb_false_iff. tauto. }
  split; [now apply agrees_eqv with lt|].
  intros x y. split; [apply G|]. unfold fl_eq, fl_ne, fl_gt, fl_le, fl_ge.
  pose proof (sw_asym S x y). pose proof (sw_asym S y x).
  destruct (lt x y) eqn:E, (lt y x) eqn:F; cbn; repeat split; try reflexivity;
    try (specialize (H eq_refl); discriminate).
Qed.

(** The operators generated from Compare: the same. *)
Theorem C68_operators_from_compare :
  forall A (c : A -> A -> Z), three_way c ->
    strict_weak (fc_lt c) /\ equivalence (fc_eq c) /\
    forall x y,
      (fc_eq c x y = true <-> fc_lt c x y = false /\ fc_lt c y x = false) /\
      fc_ne c x y = negb (fc_eq c x y) /\ fc_gt c x y = fc_lt c y x /\
      fc_le c x y = (fc_lt c x y || fc_eq c x y) /\ fc_ge c x y = (fc_gt c x y || fc_eq c x y) /\
      ((if fc_lt c x y then 1 else 0) + (if fc_eq c x y then 1 else 0) + (if fc_gt c x y then 1 else 0) = 1)%nat.
Proof.
  intros A c H. split; [apply (cmp_to_less_sw H)|]. split; [apply (cmp_to_equals_eqv H)|].
  intros x y. split; [apply (cmp_agrees H)|]. split; [reflexivity|]. split; [apply (cmp_greater H)|].
  unfold fc_lt, fc_eq, fc_gt, fc_le, fc_ge.
  destruct (c x y) as [|p|p]; cbn; repeat split; reflexivity.
Qed.

(** Case insensitive strings: CaseInsensitiveLess is a strict weak order, and CaseInsensitiveEquals
    holds exactly when neither is less, exactly when the strings have equal length and the same
    letters up to case. *)
Theorem C68_case_insensitive :
  strict_weak CaseInsensitiveLess /\ equivalence CaseInsensitiveEquals /\
  agrees CaseInsensitiveLess CaseInsensitiveEquals /\
  forall l r, Forall (fun c => -128 <= c <= 127) l -> Forall (fun c => -128 <= c <= 127) r ->
    (CaseInsensitiveEquals l r = true <-> Forall2 same_letter l r).
Proof.
  pose proof (ranges_tw _ (less_to_cmp_tw ci_sw)) as T.
  assert (L : forall l r, CaseInsensitiveLess l r = CmpToLess (DoCompareRanges (LessToCmp ci_less)) l r)
    by (intros; now apply lexico_tw, ci_sw).
  assert (E : forall l r, CaseInsensitiveEquals l r = CmpToEquals (DoCompareRanges (LessToCmp ci_less)) l r)
    by (intros; apply ci_equals_ranges).
  pose proof (cmp_to_less_sw T) as S.
  assert (SL : strict_weak CaseInsensitiveLess).
  { destruct S as [S1 S2 S3]. split; intros; rewrite !L in *; eauto. }
  assert (AG : agrees CaseInsensitiveLess CaseInsensitiveEquals).
  { intros x y. rewrite E, !L. apply (cmp_agrees T). }
  split; [exact SL|]. split; [now apply agrees_eqv with CaseInsensitiveLess|]. split; [exact AG|].
  intros l r Rl Rr. rewrite E. unfold CmpToEquals. rewrite Z.eqb_eq, ranges_zero. unfold lex_equal.
  clear - Rl Rr. revert r Rr. induction Rl as [|a l Ra Rl IH]; intros r Rr.
  - split; intros F; inversion F; constructor.
  - assert (Q : forall b, -128 <= b <= 127 -> (LessToCmp ci_less a b = 0 <-> same_letter a b)).
    { intros b Rb. rewrite <- tolower_same by assumption. unfold LessToCmp, ci_less.
      destruct (Z.ltb_spec (tolower a) (tolower b)), (Z.ltb_spec (tolower b) (tolower a)); lia. }
    destruct Rr as [|b r Rb Rr]; [split; intros F; inversion F|].
    split; intros F; inversion F; subst; constructor; try (apply Q; assumption); try (apply IH; assumption).
Qed.

(** ** Non-vacuity *)
Definition int_class : cls Z := HasLess Z.ltb Z.eqb.
Example ex_int_class : good_class int_class.
Proof.
  cbn. split; [split|].
  - apply Z.ltb_irrefl.
  - intros x y z; rewrite !Z.ltb_lt; lia.
  - intros x y z; rewrite !Z.ltb_ge; lia.
  - intros x y. rewrite Z.eqb_eq, !Z.ltb_ge. lia.
Qed.
Example ex_ptr_order :
  let h := fun a => nth a [7; 3; 7] 0 in
  Cmp h int_class (PTo (PTo (Obj 1))) (PTo (PTo (Obj 0))) = -1 /\
  Cmp h int_class (PTo (PTo (Obj 2))) (PTo (PTo (Obj 0))) = 0 /\
  Cmp h int_class (PTo PNull) (PTo (PTo (Obj 0))) = -1 /\
  Cmp h int_class (PTo PNull) PNull = 1.
Proof. repeat split. Qed.
Example ex_z_three_way : three_way Z.sub.
Proof. split; intros; [|lia]. rewrite <- Z.sgn_opp. f_equal. lia. Qed.
Example ex_collections :
  DoCompareRanges Z.sub [1; 2; 3] [1; 2] = 1 /\ DoCompareRanges Z.sub [1; 2] [1; 5; 0] = -3 /\
  lex_less Z.sub [1; 2] [1; 5; 0] /\ lex_less Z.sub [1] [1; 5].
Proof.
  split; [reflexivity|]. split; [reflexivity|]. split; apply ranges_neg; reflexivity.
Qed.
Example ex_members :
  let ms := [Member Z (fst : Z * Z -> Z) Z.sub; Member Z (snd : Z * Z -> Z) (fun a b => b - a)] in
  MemberListCmp ms (1, 5) (1, 3) = -2 /\ MemberListCmp ms (0, 9) (1, 3) = -1.
Proof. split; reflexivity. Qed.
Example ex_ci : CaseInsensitiveLess [72; 101] [104; 70] = true /\ CaseInsensitiveEquals [72; 101] [104; 69] = true.
Proof. split; reflexivity. Qed.
Example ex_variant :
  var_lt (el := fun t => match t with O => Z | _ => bool end) (fun t => match t with O => Z.ltb | _ => fun a b => negb a && b end)
    (existT _ 0%nat 100) (existT _ 1%nat false) = true.
Proof. reflexivity. Qed.

Print Assumptions C68_cmp_is_an_order.
Print Assumptions C68_cmp_looks_through_pointers.
Print Assumptions C68_cmp_adapters.
Print Assumptions C68_less_adapters.
Print Assumptions C68_tuples.
Print Assumptions C68_collections.
Print Assumptions C68_member_lists.
Print Assumptions C68_comparable.
Print Assumptions C68_optional_order.
Print Assumptions C68_optional_mixed.
Print Assumptions C68_optional_cmp_mirrored.
Print Assumptions C68_optional_cmp_mirrored_refuted.
Print Assumptions C68_variant.
Print Assumptions C68_operators_from_less.
Print Assumptions C68_operators_from_compare.
Print Assumptions C68_case_insensitive.
