(** C64: what ObjectOStream::Serialize writes, ObjectIStream::Deserialize reads back.
    See SerSpec for the sink, the types and their values. *)
From Verif Require Import Base SerModel SerSpec SerProofs SerProofs2 SerProofs3.
Local Open Scope Z_scope.

(** Round trip: for every type without the combinations below, and every value of it, the calls made on the output stream are a well
    formed document, and reading that document into any object whose Composites' optional members are not set gives the value back *)
Theorem C64_roundtrip : forall less fresh t v, constructs fresh -> readable t -> typed less t v ->
  exists tr, document (ser None t v) = Some tr /\ forall old, clean t old -> deser less fresh t old tr = Some v.
Proof. exact roundtrip. Qed.
Print Assumptions C64_roundtrip.

(** Different values of a type give different documents *)
Theorem C64_injective : forall less t v w, readable t -> typed less t v -> typed less t w ->
  document (ser None t v) = document (ser None t w) -> v = w.
Proof.
  intros less t v w Hr Hv Hw E.
  destruct (roundtrip less default t v default_constructs Hr Hv) as [a [A1 A2]]. destruct (roundtrip less default t w default_constructs Hr Hw) as [b [B1 B2]].
  assert (a = b) by congruence. subst b. pose proof (proj1 (proj2 default_constructs) t) as C.
  specialize (A2 _ C). specialize (B2 _ C). congruence.
Qed.
Print Assumptions C64_injective.

(** A property written by Serialize(name, value) adds at most that one property to the open object, and nothing for an optional that is not set *)
Theorem C64_property : forall less n t v l s, readable t -> typed less t v ->
  run (ser (Some n) t v) (FObj l None :: s) =
  Some (FObj (match v with VNone => l | _ => match document (ser None t v) with Some x => (n, x) :: l | None => l end end) None :: s).
Proof.
  intros less n t v l s Hr Ht. rewrite (document_ser less) by assumption. rewrite (run_prop _ _ _ _ _ (proj2 (Q_all less t v Ht Hr) n)).
  destruct (present t v) eqn:E.
  - destruct Ht; try reflexivity. discriminate.
  - destruct (not_present less t v Hr Ht E) as [_ ->]. reflexivity.
Qed.
Print Assumptions C64_property.

(** The trees themselves: InjectionSerializer writes any tree so that it comes back unchanged *)
Theorem C64_injection : forall tr, document (inject tr) = Some tr.
Proof. intros tr. unfold document. rewrite run_inject. reflexivity. Qed.
Print Assumptions C64_injection.

(** Human readable maps: an object is read as a map from its names *)
Theorem C64_object_map : forall less fresh t, constructs fresh -> readable t -> forall (kvs : list (name * value)) trs old,
  Forall2 (fun kv tr => document (ser None t (snd kv)) = Some tr) kvs trs -> Forall (fun kv => typed less t (snd kv)) kvs ->
  increasing less (map (fun kv => VStr (fst kv)) kvs) ->
  deser less fresh (TMap TStr t) old (TrObj (combine (map fst kvs) trs)) = Some (VList (map (fun kv => VPair (VStr (fst kv)) (snd kv)) kvs)).
Proof. exact object_map. Qed.
Print Assumptions C64_object_map.

(** Any list that is read into a set, under a strict weak order: the set is in order without equivalent elements, everything in the list is
    there or has an equivalent there, and nothing else is *)
Theorem C64_set_of_list : forall less fresh t old l out,
  (forall a, less a a = false) -> (forall a b c, less a b = true -> less b c = true -> less a c = true) ->
  deser less fresh (TSet t) old (TrList l) = Some (VList out) ->
  increasing less out /\
  (forall y, In y out -> exists tr, In tr l /\ deser less fresh t (fresh t) tr = Some y) /\
  (forall tr, In tr l -> exists v y, deser less fresh t (fresh t) tr = Some v /\ In y out /\ less v y = false /\ less y v = false).
Proof.
  intros less fresh t old l out Hi Ht H. cbn [deser] in H.
  destruct (read_all _ _ l []) as [o|] eqn:E; [|discriminate]. cbn [option_map] in H. injection H as ->.
  destruct (read_ins less Hi Ht (fun v => v) (set_insert less) ltac:(reflexivity) ltac:(reflexivity) _ _ _ _ E) as [A [_ [C D]]]; [constructor|].
  split; [exact A|]. split; [|exact D]. intros y Hy. destruct (C y Hy) as [[]|?]; assumption.
Qed.
Print Assumptions C64_set_of_list.
(** The same for maps and their keys *)
Theorem C64_map_of_list : forall less fresh k t old l out,
  (forall a, less a a = false) -> (forall a b c, less a b = true -> less b c = true -> less a c = true) ->
  deser less fresh (TMap k t) old (TrList l) = Some (VList out) ->
  increasing less (map key out) /\
  (forall y, In y out -> exists tr, In tr l /\ deser less fresh (TPair k t) (VPair (fresh k) (fresh t)) tr = Some y) /\
  (forall tr, In tr l -> exists v y, deser less fresh (TPair k t) (VPair (fresh k) (fresh t)) tr = Some v /\ In y out /\ less (key v) (key y) = false /\ less (key y) (key v) = false).
Proof.
  intros less fresh k t old l out Hi Ht H. cbn [deser] in H.
  destruct (read_all _ _ l []) as [o|] eqn:E; [|discriminate]. cbn [option_map] in H. injection H as ->.
  destruct (read_ins less Hi Ht key (map_insert less) ltac:(reflexivity) ltac:(reflexivity) _ _ _ _ E) as [A [_ [C D]]]; [constructor|].
  split; [|split].
  - clear -A. unfold sorted_by, increasing in *. induction A as [|x l Hx A IH]; cbn [map]; constructor; [|exact IH]. rewrite Forall_map. exact Hx.
  - intros y Hy. destruct (C y Hy) as [[]|?]; assumption.
  - exact D.
Qed.
Print Assumptions C64_map_of_list.

(** ... and of several entries with equivalent keys the first is kept *)
Theorem C64_map_first : forall less fresh k t old a tr b out v,
  (forall a, less a a = false) -> (forall a b c, less a b = true -> less b c = true -> less a c = true) ->
  deser less fresh (TMap k t) old (TrList (a ++ tr :: b)) = Some (VList out) ->
  deser less fresh (TPair k t) (VPair (fresh k) (fresh t)) tr = Some v ->
  (forall tr' v', In tr' a -> deser less fresh (TPair k t) (VPair (fresh k) (fresh t)) tr' = Some v' -> ~ (less (key v) (key v') = false /\ less (key v') (key v) = false)) ->
  In v out.
Proof.
  intros less fresh k t old a tr b out v Hi Ht H Hv Hn. cbn [deser] in H.
  destruct (read_all _ _ _ []) as [o|] eqn:E; [|discriminate]. cbn [option_map] in H. injection H as ->.
  exact (read_ins_first less Hi Ht key (map_insert less) ltac:(reflexivity) ltac:(reflexivity) _ _ _ _ _ _ E Hv Hn).
Qed.
Print Assumptions C64_map_first.

(** Binary data as text: "hex=" and two digits per byte.  Anything accepted has an even number of digits, and is bytes *)
Theorem C64_hex : forall less fresh old l, Forall (fun b => 0 <= b < 256) l ->
  deser less fresh TBytes old (TrStr ([104; 101; 120; 61] ++ hex_text l)) = Some (VBytes l).
Proof. intros less fresh old l H. cbn [deser app unpack]. rewrite unpack_hex by exact H. reflexivity. Qed.
Print Assumptions C64_hex.
Theorem C64_hex_accepted : forall less fresh old s v, deser less fresh TBytes old (TrStr s) = Some v ->
  exists d l, s = [104; 101; 120; 61] ++ d /\ v = VBytes l /\ length d = (2 * length l)%nat /\ Forall (fun b => 0 <= b < 256) l.
Proof.
  intros less fresh old s v H. cbn [deser] in H. unfold unpack in H.
  destruct s as [|c1 s]; [discriminate|]. destruct (Z.eq_dec c1 104) as [->|N]; [|exfalso; repeat (match goal with H : context [match ?x with _ => _ end] |- _ => destruct x; try discriminate end); congruence].
  destruct s as [|c2 s]; [discriminate|]. destruct (Z.eq_dec c2 101) as [->|N]; [|exfalso; repeat (match goal with H : context [match ?x with _ => _ end] |- _ => destruct x; try discriminate end); congruence].
  destruct s as [|c3 s]; [discriminate|]. destruct (Z.eq_dec c3 120) as [->|N]; [|exfalso; repeat (match goal with H : context [match ?x with _ => _ end] |- _ => destruct x; try discriminate end); congruence].
  destruct s as [|c4 s]; [discriminate|]. destruct (Z.eq_dec c4 61) as [->|N]; [|exfalso; repeat (match goal with H : context [match ?x with _ => _ end] |- _ => destruct x; try discriminate end); congruence].
  destruct (unpack_pairs s) as [l|] eqn:E; [|discriminate]. injection H as <-.
  exists s, l. split; [reflexivity|]. split; [reflexivity|]. apply (unpack_length (length s)); [lia|exact E].
Qed.
Print Assumptions C64_hex_accepted.

(** MakeIntegerDeserializer: a number is accepted exactly if the type can represent it, and then it is that number *)
Theorem C64_checked_integer : forall n z, 1 <= n <= 32 -> - 2 ^ 63 <= z < 2 ^ 63 ->
  (checked_cast true n z = if (- 2 ^ (n - 1) <=? z) && (z <? 2 ^ (n - 1)) then Some z else None) /\
  (checked_cast false n z = if (0 <=? z) && (z <? 2 ^ n) then Some z else None).
Proof.
  intros n z Hn Hz. rewrite !checked_exact by assumption. cbn [int_min int_max].
  replace (z <=? 2 ^ (n - 1) - 1) with (z <? 2 ^ (n - 1)) by lia. replace (z <=? 2 ^ n - 1) with (z <? 2 ^ n) by lia. split; reflexivity.
Qed.
Print Assumptions C64_checked_integer.
(** A plain integer is not checked: 300 is read into a u8 as 44 *)
Theorem C64_integer_range_refuted : ~ (forall less fresh old z v, deser less fresh (TInt false 8) old (TrInt z) = Some (VInt v) -> v = z).
Proof. intros H. specialize (H (fun _ _ => false) default VEmpty 300 44 eq_refl). discriminate. Qed.
Print Assumptions C64_integer_range_refuted.

(** Doubles are written with six digits: whole numbers below a million survive, others change by at most five millionths *)
Theorem C64_double_whole : forall n, - 10 ^ 6 < n < 10 ^ 6 -> six_digits n = n.
Proof. exact six_exact. Qed.
Print Assumptions C64_double_whole.
Theorem C64_double_near : forall n, 2 * 10 ^ 5 * Z.abs (six_digits n - n) <= Z.abs n.
Proof. exact six_near. Qed.
Print Assumptions C64_double_near.
Theorem C64_double_roundtrip_refuted : ~ (forall n, six_digits n = n).
Proof. intros H. specialize (H 1234567). discriminate. Qed.
Print Assumptions C64_double_roundtrip_refuted.

(** The combinations that are not read back: an optional that holds an empty optional, or a null pointer, comes back empty *)
Theorem C64_nested_optional_refuted : ~ (forall less fresh t v, constructs fresh -> typed less t v ->
  exists tr, document (ser None t v) = Some tr /\ deser less fresh t (fresh t) tr = Some v).
Proof.
  intros H. destruct (H (fun _ _ => false) default (TOpt (TOpt TBool)) (VSome VNone) default_constructs) as [tr [E D]].
  - repeat constructor.
  - injection E as <-. discriminate.
Qed.
Print Assumptions C64_nested_optional_refuted.
Theorem C64_optional_pointer_refuted : forall fs, exists tr, document (ser None (TOpt (TPtr fs)) (VSome VNull)) = Some tr /\
  forall less fresh old, deser less fresh (TOpt (TPtr fs)) old tr = Some VNone.
Proof. intros fs. exists TrNull. split; reflexivity. Qed.
Print Assumptions C64_optional_pointer_refuted.

(** Reading into a used object: a Composite keeps the optional member it had when the document has none; a class with a Deserialize of
    its own resets it *)
Definition one_optional : list (name * ty) := [([120], TOpt TBool)].
Theorem C64_stale_member_refuted : ~ (forall less fresh t v old, constructs fresh -> readable t -> typed less t v -> typed less t old ->
  exists tr, document (ser None t v) = Some tr /\ deser less fresh t old tr = Some v).
Proof.
  intros H. destruct (H (fun _ _ => false) default (TComposite one_optional) (VStruct [VNone]) (VStruct [VSome (VBool true)]) default_constructs) as [tr [E D]].
  - apply rd_composite; [repeat constructor|repeat constructor; intros []].
  - repeat constructor.
  - repeat constructor.
  - injection E as <-. discriminate.
Qed.
Print Assumptions C64_stale_member_refuted.
(** ... and without Composites, and pairs or members that contain them, the old contents never matter *)
Fixpoint no_composite (t : ty) : Prop :=
  match t with
  | TPair a b => no_composite a /\ no_composite b
  | TStruct fs => (fix go (l : list (name * ty)) : Prop := match l with [] => True | (_, t') :: r => no_composite t' /\ go r end) fs
  | TComposite _ => False
  | _ => True
  end.
Lemma no_composite_clean : forall t, no_composite t -> forall old, clean t old.
Proof.
  apply (ty_ind2 (fun t => no_composite t -> forall old, clean t old)); try (intros; exact I).
  - intros a b Ha Hb [A B] old. split; auto.
  - intros fs IH H old. rewrite clean_struct. generalize (items old). induction IH as [|[n t] fs Ht IH IH2]; intros l; [exact I|].
    cbn [clean_fields]. destruct H as [H1 H2]. split; [apply Ht; exact H1|apply IH2; exact H2].
  - intros fs _ [].
Qed.
Theorem C64_roundtrip_into_anything : forall less fresh t v, constructs fresh -> readable t -> no_composite t -> typed less t v ->
  exists tr, document (ser None t v) = Some tr /\ forall old, deser less fresh t old tr = Some v.
Proof.
  intros less fresh t v Hf Hr Hn Ht. destruct (roundtrip less fresh t v Hf Hr Ht) as [tr [D H]]. exists tr. split; [exact D|].
  intros old. apply H, no_composite_clean, Hn.
Qed.
Print Assumptions C64_roundtrip_into_anything.

(** Documents nobody wrote: a pair of one element is accepted and keeps its old second part *)
Theorem C64_short_pair_refuted : ~ (forall less fresh a b old l v, deser less fresh (TPair a b) old (TrList l) = Some v -> length l = 2%nat).
Proof. intros H. specialize (H (fun _ _ => false) default TBool TBool (VPair (VBool false) (VBool true)) [TrBool true] (VPair (VBool true) (VBool true)) eq_refl). discriminate. Qed.
Print Assumptions C64_short_pair_refuted.
(** ... exactly so: an empty list changes nothing, one element is the first part *)
Theorem C64_short_pair : forall less fresh a b x y tr, deser less fresh (TPair a b) (VPair x y) (TrList []) = Some (VPair x y) /\
  (forall v, deser less fresh (TPair a b) (VPair x y) (TrList [tr]) = Some v <-> exists x', deser less fresh a x tr = Some x' /\ v = VPair x' y).
Proof.
  intros. split; [reflexivity|]. intros v. cbn [deser read_pair part]. destruct (deser less fresh a x tr) as [x'|]; split.
  - intros [= <-]. eauto.
  - intros (z & [= <-] & ->). reflexivity.
  - discriminate.
  - intros (z & K & _). discriminate K.
Qed.
Print Assumptions C64_short_pair.
(** A longer one is refused *)
Theorem C64_long_pair : forall less fresh a b old x y z l, deser less fresh (TPair a b) old (TrList (x :: y :: z :: l)) = None.
Proof. reflexivity. Qed.
Print Assumptions C64_long_pair.
(** An unknown index leaves the variant's alternative as it was, and reads into it *)
Theorem C64_variant_index_refuted : ~ (forall less fresh ts old z i w l, deser less fresh (TVariant ts) old (TrObj ((s_index, TrInt z) :: l)) = Some (VVariant i w) -> Z.of_nat i = z).
Proof.
  intros H. specialize (H (fun _ _ => false) default [TBool; TStr] (VVariant 1 (VStr [])) 7 1%nat (VStr [65]) [(s_obj, TrStr [65])] eq_refl). discriminate.
Qed.
Print Assumptions C64_variant_index_refuted.
(** A pair with an EmptyType writes one element: it cannot be told from the document which *)
Theorem C64_pair_of_empty_refuted : exists tr, document (ser None (TPair TEmpty TBool) (VPair VEmpty (VBool true))) = Some tr /\
  deser (fun _ _ => false) default (TPair TEmpty TBool) (default (TPair TEmpty TBool)) tr = Some (VPair VEmpty (VBool false)).
Proof. exists (TrList [TrBool true]). split; reflexivity. Qed.
Print Assumptions C64_pair_of_empty_refuted.

(* ------------------------------------------------------------------ non-vacuity *)
Definition int_less (a b : value) : bool := match a, b with VInt x, VInt y => x <? y | _, _ => false end.
Definition ex_t : ty :=
  TStruct [([97], TMap (TInt true 32) (TVec (TOpt (TInt false 64)))); ([98], TVariant [TEmpty; TComposite [([99], TOpt TStr); ([100], TPtr one_optional)]]); ([101], TOpt (TSet (TInt false 8)))].
Definition ex_v : value :=
  VStruct [VList [VPair (VInt (-7)) (VList [VNone; VSome (VInt (2 ^ 64 - 1))]); VPair (VInt 3) (VList [])];
           VVariant 1 (VStruct [VNone; VPtr [VSome (VBool true)]]); VSome (VList [VInt 1; VInt 255])].
Example ex_readable : readable ex_t.
Proof.
  repeat (match goal with |- readable _ => constructor | |- Forall _ _ => constructor | |- NoDup _ => constructor | |- _ = TEmpty \/ _ => first [left; reflexivity|right] | |- _ => progress cbn [snd fst map] end); try lia; try reflexivity;
    try (cbn; intros C; repeat (destruct C as [C|C]; [discriminate|]); exact C); try (intros []).
Qed.
Example ex_typed : typed int_less ex_t ex_v.
Proof.
  apply ty_struct. constructor; [|constructor; [|constructor; [|constructor]]]; cbn [snd].
  - apply (ty_map int_less (TInt true 32) (TVec (TOpt (TInt false 64))) [VInt (-7); VInt 3] [VList [VNone; VSome (VInt (2 ^ 64 - 1))]; VList []]).
    + repeat constructor; lia.
    + repeat constructor; lia.
    + reflexivity.
    + repeat constructor.
  - eapply (ty_variant int_less _ 1); [reflexivity|]. apply ty_composite. constructor; [constructor|]. constructor; [|constructor]. cbn [snd]. repeat constructor.
  - repeat constructor; lia.
Qed.
Example ex_result : exists tr, document (ser None ex_t ex_v) = Some tr /\ deser int_less default ex_t (default ex_t) tr = Some ex_v.
Proof.
  destruct (C64_roundtrip int_less default ex_t ex_v default_constructs ex_readable ex_typed) as [tr [D H]]. exists tr. split; [exact D|]. apply H, default_constructs.
Qed.

(** A document of another kind is refused: a bool, an integer and a string are read from nothing else. *)
Theorem C64_wrong_kind : forall less fresh old tr v,
  (deser less fresh TBool old tr = Some v -> exists b, tr = TrBool b /\ v = VBool b) /\
  (forall sg n, deser less fresh (TInt sg n) old tr = Some v -> exists z, tr = TrInt z) /\
  (deser less fresh TStr old tr = Some v -> exists s, tr = TrStr s /\ v = VStr s) /\
  (forall t, deser less fresh (TVec t) old tr = Some v -> exists l, tr = TrList l) /\
  (forall t, deser less fresh (TSet t) old tr = Some v -> exists l, tr = TrList l).
Proof.
  intros less fresh old tr v. repeat split; intros; destruct tr; cbn in *; try discriminate; eauto.
  - injection H as <-. eauto.
  - injection H as <-. eauto.
Qed.
Print Assumptions C64_wrong_kind.
