(** Proofs about the command line. *)
From Coq Require Import ZArith List Bool Lia Arith.
From Verif Require Import CmdModel CmdSpec.
Import ListNotations.
Open Scope Z_scope.

Lemma str_eqb_eq : forall a b, str_eqb a b = true <-> a = b.
Proof. intros; unfold str_eqb. destruct (list_eq_dec Z.eq_dec a b); split; congruence. Qed.

Lemma str_eqb_refl : forall a, str_eqb a a = true.
Proof. intros; now apply str_eqb_eq. Qed.

Lemma str_eqb_neq : forall a b, a <> b -> str_eqb a b = false.
Proof. intros a b H; destruct (str_eqb a b) eqn:E; [apply str_eqb_eq in E; congruence | reflexivity]. Qed.

Lemma firstn_len : forall {A} (a b : list A), firstn (length a) (a ++ b) = a.
Proof. induction a; intros; cbn; [reflexivity | now rewrite IHa]. Qed.
Lemma skipn_len : forall {A} (a b : list A), skipn (length a) (a ++ b) = b.
Proof. induction a; intros; cbn; auto. Qed.

(** * Strings *)

Definition stops (rest : list Z) : Prop :=
  match rest with [] => True | c :: _ => delimiter c = true end.

Lemma special_cases : forall c, existsb (Z.eqb c) [32; 44; 93; 92] = delimiter c || (c =? backslash).
Proof.
  intros c; unfold delimiter, space, comma, endbracket, backslash; cbn [existsb].
  destruct (c =? 32), (c =? 44), (c =? 93), (c =? 92); reflexivity.
Qed.

Lemma quote_cons : forall c s, quote (c :: s) = (if delimiter c || (c =? backslash) then [92; c] else [c]) ++ quote s.
Proof. intros; unfold quote; cbn [flat_map]. now rewrite special_cases. Qed.

Lemma read_quote : forall s rest, stops rest -> read_loop false (quote s ++ rest) = (s, length (quote s)).
Proof.
  induction s as [|c s IH]; intros rest H.
  - cbn [quote flat_map app length]. destruct rest as [|c r]; [reflexivity|]. cbn [stops] in H.
    cbn [read_loop]. rewrite H. reflexivity.
  - rewrite quote_cons, <- app_assoc. destruct (delimiter c || (c =? backslash)) eqn:E.
    + cbn [app read_loop]. change (delimiter 92) with false. change (92 =? backslash) with true. cbn [andb negb].
      rewrite !andb_false_r. rewrite IH by assumption. reflexivity.
    + apply orb_false_iff in E as [E1 E2]. cbn [app read_loop]. rewrite E1, E2. cbn [andb negb].
      rewrite IH by assumption. reflexivity.
Qed.

Lemma quote_head : forall s, match quote s with [] => s = [] | c :: _ => delimiter c = false end.
Proof.
  intros [|c s]; [reflexivity|]. rewrite quote_cons. destruct (delimiter c || (c =? backslash)) eqn:E; cbn [app]; [reflexivity|].
  now apply orb_false_iff in E.
Qed.

(** A text that is the quotation of a string. *)
Lemma scalar_quoted : forall t v x, scalar t -> Writes t v x -> exists s, x = quote s /\ s <> [] /\
  (forall n, match t with
   | TStr => v = VStr s
   | TBool => (if str_eqb s s_on || str_eqb s s_true then (VBool true, n)
               else if str_eqb s s_off || str_eqb s s_false then (VBool false, n) else (VNone, 0%nat)) = (v, n)
   | TFrom f => exists z, f s = Some z /\ v = VNum z
   | _ => False
   end).
Proof.
  intros t v x Hs H; destruct H; try (now destruct Hs).
  - exists s. repeat split; assumption || reflexivity.
  - exists s_on. repeat split; discriminate || reflexivity.
  - exists s_true. repeat split; discriminate || reflexivity.
  - exists s_off. repeat split; discriminate || reflexivity.
  - exists s_false. repeat split; discriminate || reflexivity.
  - exists s. repeat split; try assumption. eauto.
Qed.

Lemma read_scalar : forall t v x rest, scalar t -> Writes t v x -> stops rest -> read t (x ++ rest) = (v, length x).
Proof.
  intros t v x rest Hs H St. destruct (scalar_quoted t v x Hs H) as (s & -> & Ns & P).
  pose proof (read_quote s rest St) as R.
  destruct t; try (now destruct Hs); cbn [read]; unfold read_string; rewrite R.
  - specialize (P 0%nat). now subst.
  - apply P.
  - destruct (P 0%nat) as (z & E & ->). now rewrite E.
Qed.

Definition good_head (x : list Z) : Prop := match x with [] => False | c :: _ => delimiter c = false end.

Lemma skip_repeat : forall k s, skip_spaces (repeat 32 k ++ s) = skip_spaces s.
Proof. induction k; intros; cbn [repeat app skip_spaces]; [reflexivity|]. change (32 =? space) with true. apply IHk. Qed.

Lemma delimiter_false : forall c, delimiter c = false -> c <> 32 /\ c <> 44 /\ c <> 93.
Proof.
  intros c H; unfold delimiter, space, comma, endbracket in H.
  apply orb_false_iff in H as [H H3]. apply orb_false_iff in H as [H1 H2].
  apply Z.eqb_neq in H1, H2, H3. tauto.
Qed.

Lemma skip_good : forall x s, good_head x -> skip_spaces (x ++ s) = x ++ s.
Proof.
  intros [|c x] s H; [destruct H|]. cbn [good_head] in H. apply delimiter_false in H as (H & _ & _).
  cbn [app skip_spaces]. unfold space. apply Z.eqb_neq in H. now rewrite H.
Qed.

Scheme Writes_ind2 := Induction for Writes Sort Prop
  with Items_ind2 := Induction for Items Sort Prop.

Definition reads_back (t : ty) (v : value) (x : list Z) : Prop :=
  good_head x /\ forall rest, stops rest -> read t (x ++ rest) = (v, length x).

Definition items_back (t : ty) (vs : list value) (x : list Z) : Prop :=
  good_head x /\ forall fuel acc k rest, (length x < fuel)%nat ->
  vec_loop fuel (read t) (repeat 32 k ++ x ++ 93 :: rest) acc = Some (acc ++ vs, 93 :: rest).

Lemma stops_repeat : forall k c r, delimiter c = true -> stops (repeat 32 k ++ c :: r).
Proof. intros [|k] c r H; cbn; [exact H | reflexivity]. Qed.

Lemma good_app : forall x y, good_head x -> good_head (x ++ y).
Proof. intros [|c x] y H; [destruct H | exact H]. Qed.

Lemma good_len : forall x, good_head x -> length x <> 0%nat.
Proof. intros [|c x] H; [destruct H | discriminate]. Qed.

(** One turn of the loop up to the skipping of spaces after the item. *)
Lemma vec_turn : forall fuel rd x v k tail acc, good_head x -> rd (x ++ tail) = (v, length x) ->
  vec_loop (S fuel) rd (repeat 32 k ++ x ++ tail) acc =
  match skip_spaces tail with
  | [] => Some (acc ++ [v], [])
  | c2 :: r2 => if c2 =? endbracket then Some (acc ++ [v], c2 :: r2)
                else if negb (c2 =? comma) then None
                else vec_loop fuel rd (skip_spaces r2) (acc ++ [v])
  end.
Proof.
  intros fuel rd x v k tail acc G R.
  assert (E : match repeat 32 k ++ x ++ tail with [] => False | c :: _ => (c =? endbracket) = false end).
  { destruct k as [|k]; cbn [repeat app]; [|reflexivity]. destruct x as [|c x]; [destruct G|]. cbn [good_head] in G.
    cbn [app]. apply delimiter_false in G as (_ & _ & G). now apply Z.eqb_neq. }
  assert (S1 : skip_spaces (repeat 32 k ++ x ++ tail) = x ++ tail) by (rewrite skip_repeat; now apply skip_good).
  cbn [vec_loop]. destruct (repeat 32 k ++ x ++ tail) as [|c s] eqn:Es; [destruct E|].
  rewrite E, S1, R. destruct (Nat.eqb_spec (length x) 0) as [Z0|_]; [now apply good_len in Z0|].
  rewrite skipn_len. destruct (skip_spaces tail); reflexivity.
Qed.

Lemma writes_read : forall t v x, Writes t v x -> reads_back t v x.
Proof.
  intros t v x HW.
  revert t v x HW.
  apply (Writes_ind2 (fun t v x _ => reads_back t v x) (fun t vs x _ => items_back t vs x)); intros.
  - split; [pose proof (quote_head s) as H; destruct (quote s); [congruence | exact H]|].
    intros; now apply (read_scalar TStr); [|constructor|].
  - split; [reflexivity|]. intros; now apply (read_scalar TBool); [|constructor|].
  - split; [reflexivity|]. intros; now apply (read_scalar TBool); [|constructor|].
  - split; [reflexivity|]. intros; now apply (read_scalar TBool); [|constructor|].
  - split; [reflexivity|]. intros; now apply (read_scalar TBool); [|constructor|].
  - split; [pose proof (quote_head s) as H; destruct (quote s); [congruence | exact H]|].
    intros; now apply (read_scalar (TFrom f)); [|constructor|].
  - split; [reflexivity|]. intros rest St. cbn [read]. unfold read_string.
    pose proof (read_quote s_none rest St) as R. change (quote s_none) with s_none in R.
    change [110; 111; 110; 101] with s_none. now rewrite R, str_eqb_refl.
  - destruct H as [G R]. split; [exact G|]. intros rest St.
    destruct (scalar_quoted t v x s w) as (q & -> & Nq & _).
    cbn [read]. unfold read_string. rewrite (read_quote q rest St).
    rewrite str_eqb_neq.
    2:{ intros ->. apply n. reflexivity. }
    rewrite firstn_len. specialize (R [] I). rewrite app_nil_r in R. rewrite R, Nat.eqb_refl. reflexivity.
  - split; [reflexivity|]. intros rest St. cbn [app read]. change (91 =? bracket) with true.
    cbn [vec_loop length]. change (93 =? endbracket) with true. cbn iota beta. f_equal. lia.
  - destruct H as [G R]. split; [reflexivity|]. intros rest St.
    replace ((91 :: repeat 32 k ++ x ++ [93]) ++ rest) with (91 :: repeat 32 k ++ x ++ 93 :: rest)
      by (cbn [app]; now rewrite <- !app_assoc).
    cbn [read]. change (91 =? bracket) with true. cbn iota.
    rewrite (R _ [] k rest) by (rewrite !app_length; cbn [length]; lia).
    cbn iota beta. cbn [app]. f_equal. cbn [length]. rewrite !app_length. cbn [length]. lia.
  - destruct H as [G R]. split; [now apply good_app|]. intros fuel acc j0 rest L.
    destruct fuel as [|fuel]; [lia|]. rewrite <- app_assoc.
    rewrite (vec_turn fuel (read t) x v j0) by (try assumption; apply R; now apply stops_repeat).
    rewrite skip_repeat. cbn [skip_spaces]. change (93 =? space) with false. cbn iota.
    change (93 =? endbracket) with true. reflexivity.
  - destruct H as [G R], H0 as [G' R']. split; [now apply good_app|]. intros fuel acc i0 rest L.
    destruct fuel as [|fuel]; [lia|].
    replace ((x ++ repeat 32 k ++ 44 :: repeat 32 j ++ y) ++ 93 :: rest)
      with (x ++ (repeat 32 k ++ 44 :: repeat 32 j ++ y ++ 93 :: rest)) by (now rewrite <- !app_assoc; cbn [app]; rewrite <- !app_assoc).
    rewrite (vec_turn fuel (read t) x v i0) by (try assumption; apply R; now apply stops_repeat).
    rewrite skip_repeat. cbn [skip_spaces]. change (44 =? space) with false. cbn iota.
    change (44 =? endbracket) with false. change (44 =? comma) with true. cbn iota. cbn [negb].
    rewrite skip_repeat, skip_good by assumption.
    specialize (R' fuel (acc ++ [v]) 0%nat rest). cbn [repeat app] in R'. rewrite R'.
    + now rewrite <- app_assoc.
    + rewrite !app_length in L. cbn [length] in L. rewrite app_length in L. pose proof (good_len x G). lia.
Qed.

(** * Execution *)

Lemma next_join : forall p r, skipn (length p) (join (p :: r)) = match r with [] => [] | _ => 32 :: join r end.
Proof.
  intros p [|q r].
  - cbn [join]. apply skipn_all.
  - change (join (p :: q :: r)) with (p ++ 32 :: join (q :: r)). apply skipn_len.
Qed.

Lemma next_part_join : forall r, next_part (match r with [] => [] | _ => 32 :: join r end) = Some (join r).
Proof. intros [|q r]; reflexivity. Qed.

Lemma join_cons : forall p r, exists tail, join (p :: r) = p ++ tail /\ stops tail.
Proof.
  intros p [|q r].
  - exists []. cbn [join]. now rewrite app_nil_r.
  - exists (32 :: join (q :: r)). now split.
Qed.

Lemma words_join : forall ws xs, parse_words ws (join (ws ++ xs)) = Some (join xs).
Proof.
  induction ws as [|w ws IH]; intros xs; cbn [app parse_words]; [reflexivity|].
  rewrite next_join, next_part_join, IH.
  destruct (join_cons w (ws ++ xs)) as (tail & E & _). rewrite E.
  rewrite firstn_len, str_eqb_refl.
  destruct (Nat.ltb_spec (length (w ++ tail)) (length w)) as [L|_]; [rewrite app_length in L; lia | reflexivity].
Qed.

Lemma args_join : forall ts vs xs, All_written ts vs xs -> parse_args ts (join xs) = Some (vs, []).
Proof.
  intros ts vs xs H; induction H as [|t ts v vs x xs HW HA IH]; cbn [parse_args]; [reflexivity|].
  destruct (writes_read t v x HW) as [G R].
  destruct (join_cons x xs) as (tail & E & St). rewrite E, (R tail St), <- E.
  destruct (Nat.eqb_spec (length x) 0) as [Z0|_]; [now apply good_len in Z0|].
  now rewrite next_join, next_part_join, IH.
Qed.

Lemma parse_words_prefix : forall ws s r, Forall (fun w => w <> []) ws -> ws <> [] ->
  parse_words ws s = Some r ->
  exists rest, s = join ws ++ rest /\ (rest = [] \/ exists u, rest = 32 :: u).
Proof.
  induction ws as [|w ws IH]; intros s r F N H; [congruence|]. inversion F as [|? ? Hw F']; subst.
  cbn [parse_words] in H.
  destruct (length s <? length w)%nat; [discriminate|].
  destruct (str_eqb w (firstn (length w) s)) eqn:E; [|discriminate]. apply str_eqb_eq in E.
  pose proof (firstn_skipn (length w) s) as D. rewrite <- E in D. rewrite <- D.
  destruct (skipn (length w) s) as [|c u]; cbn [next_part] in H.
  - destruct ws as [|w' ws]; [exists []; cbn [join]; now split; [|left]|].
    inversion F' as [|? ? Hw' _]; subst. cbn [parse_words] in H.
    destruct w' as [|c' w']; [congruence|]. cbn in H. discriminate.
  - destruct (Z.eqb_spec c space) as [->|]; [|discriminate].
    destruct ws as [|w' ws].
    + exists (32 :: u). cbn [join]. split; [reflexivity | right; eauto].
    + destruct (IH u r F' ltac:(discriminate) H) as (rest & -> & R).
      exists rest. split; [|exact R]. change (join (w :: w' :: ws)) with (w ++ 32 :: join (w' :: ws)).
      now rewrite <- app_assoc.
Qed.

(** * Empty strings *)

Lemma read_escaped_nonempty : forall s n, read_loop true s = ([], n) -> s = [].
Proof.
  intros [|c s] n H; [reflexivity|]. cbn [read_loop] in H. cbn [negb] in H. rewrite !andb_false_r in H.
  destruct (read_loop false s); discriminate.
Qed.

Lemma read_empty : forall s n, read_string s = ([], n) -> n = 0%nat \/ skipn n s = [].
Proof.
  intros [|c s] n H; unfold read_string in H; cbn [read_loop] in H; cbn [negb] in H.
  - injection H as <-. now left.
  - rewrite !andb_true_r in H. destruct (delimiter c); [injection H as <-; now left|].
    destruct (c =? backslash).
    + destruct (read_loop true s) as [v m] eqn:E. injection H as -> <-.
      apply read_escaped_nonempty in E as Es. subst. cbn in E. injection E as <-. right. reflexivity.
    + destruct (read_loop false s); discriminate.
Qed.

(** * Completion *)

Lemma complete_words_spec : forall ws input r, complete_words ws input = Some r <->
  exists a p q b, ws = a ++ (p ++ q) :: b /\ input = flat_map (fun w => w ++ [32]) a ++ p /\ r = q ++ [32].
Proof.
  induction ws as [|w ws IH]; intros input r; cbn [complete_words].
  - split; [discriminate|]. intros (a & p & q & b & E & _). destruct a; discriminate.
  - split.
    + destruct (str_eqb _ _) eqn:E; cbn [negb]; [|discriminate]. apply str_eqb_eq in E.
      destruct (Nat.leb_spec (length input) (length w)) as [L|L].
      * rewrite Nat.min_r in * by assumption. intros [= <-].
        exists [], input, (skipn (length input) w), ws. cbn [app flat_map].
        rewrite firstn_all in E. split; [|now split].
        f_equal. rewrite <- E at 1. symmetry. apply firstn_skipn.
      * rewrite Nat.min_l in * by lia. rewrite firstn_all in E.
        pose proof (firstn_skipn (length w) input) as D. rewrite <- E in D.
        destruct (skipn (length w) input) as [|c u]; [discriminate|].
        destruct (Z.eqb_spec c space) as [->|]; [|discriminate].
        intros H. apply IH in H as (a & p & q & b & -> & -> & ->).
        exists (w :: a), p, q, b. split; [reflexivity|]. split; [|reflexivity].
        rewrite <- D. cbn [flat_map]. now rewrite <- !app_assoc.
    + intros (a & p & q & b & E & -> & ->). destruct a as [|w' a]; cbn [app flat_map] in *.
      * injection E as -> ->. rewrite Nat.min_r by (rewrite app_length; lia).
        rewrite firstn_len, firstn_all, str_eqb_refl. cbn [negb].
        destruct (Nat.leb_spec (length p) (length (p ++ q))) as [_|L]; [|rewrite app_length in L; lia].
        now rewrite skipn_len.
      * injection E as <- ->. rewrite <- !app_assoc.
        rewrite Nat.min_l by (rewrite app_length; lia).
        rewrite firstn_all, firstn_len, str_eqb_refl. cbn [negb].
        destruct (Nat.leb_spec (length (w ++ [32] ++ flat_map (fun w0 => w0 ++ [32]) a ++ p)) (length w)) as [L|_];
          [rewrite !app_length in L; cbn [length] in L; lia|].
        rewrite skipn_len. cbn [app]. change (32 =? space) with true. cbn iota.
        apply IH. now exists a, p, q, b.
Qed.

Lemma escape_quote : forall q, ~ In 92 q ->
  replace_char comma (replace_char endbracket (replace_char space q)) = quote q.
Proof.
  induction q as [|c q IH]; intros H; [reflexivity|].
  assert (Hc : c <> 92) by (intros ->; apply H; now left).
  assert (Hq : ~ In 92 q) by (intros X; apply H; now right).
  rewrite quote_cons, <- (IH Hq). unfold replace_char at 3; cbn [flat_map]. fold (replace_char space q).
  unfold delimiter, space, comma, endbracket, backslash in *.
  destruct (Z.eqb_spec c 92) as [|_]; [congruence|].
  destruct (Z.eqb_spec c 32) as [->|N1]; cbn [orb app]; [reflexivity|].
  unfold replace_char at 2; cbn [flat_map].
  destruct (Z.eqb_spec c 93) as [->|N3].
  - rewrite orb_true_r. cbn [orb app]. reflexivity.
  - cbn [app]. unfold replace_char at 1; cbn [flat_map].
    destruct (Z.eqb_spec c 44) as [->|N2]; cbn [orb app]; reflexivity.
Qed.

Lemma quote_app : forall a b, quote (a ++ b) = quote a ++ quote b.
Proof. intros; unfold quote. now rewrite flat_map_app. Qed.

(** * Registration *)

Fixpoint increasing (d : list (nat * nat)) : Prop :=
  match d with
  | [] => True
  | (k, _) :: r => (forall k' h', In (k', h') r -> (k < k')%nat) /\ increasing r
  end.

Lemma dict_add_last : forall k h d, (forall k' h', In (k', h') d -> (k' < k)%nat) -> dict_add k h d = Some (d ++ [(k, h)]).
Proof.
  induction d as [|[k' h'] d IH]; intros H; cbn [dict_add app]; [reflexivity|].
  assert (k' < k)%nat by (apply (H k' h'); now left).
  destruct (Nat.ltb_spec k k'); [lia|]. destruct (Nat.eqb_spec k k'); [lia|].
  rewrite IH; [reflexivity|]. intros; eapply H; right; eassumption.
Qed.

Lemma increasing_snoc : forall d k h, increasing d -> (forall k' h', In (k', h') d -> (k' < k)%nat) -> increasing (d ++ [(k, h)]).
Proof.
  induction d as [|[k' h'] d IH]; intros k h I H; cbn [app increasing] in *.
  - split; [intros ? ? []|exact Logic.I].
  - destruct I as [I1 I2]. split.
    + intros k2 h2 X. apply in_app_or in X as [X|[[= <- <-]|[]]]; [eapply I1; eassumption | apply (H k' h'); now left].
    + apply IH; [assumption|]. intros; eapply H; right; eassumption.
Qed.

Lemma increasing_filter : forall f d, increasing d -> increasing (filter f d).
Proof.
  induction d as [|[k h] d IH]; intros I; cbn [filter]; [exact Logic.I|]. destruct I as [I1 I2].
  destruct (f (k, h)); [|now apply IH]. cbn [increasing]. split; [|now apply IH].
  intros k' h' X. apply filter_In in X as [X _]. eapply I1; eassumption.
Qed.

Lemma increasing_last : forall d k h r, increasing d -> rev d = (k, h) :: r ->
  forall k' h', In (k', h') d -> (k' <= k)%nat.
Proof.
  intros d k h r I E k' h' X.
  assert (D : d = rev r ++ [(k, h)]) by (rewrite <- (rev_involutive d), E; reflexivity).
  subst d. clear E. revert I X. generalize (rev r). clear r.
  intros l I X. apply in_app_or in X as [X|[[= <- <-]|[]]]; [|lia].
  induction l as [|[k2 h2] l IH]; [destruct X|]. cbn [app increasing] in I. destruct I as [I1 I2].
  destruct X as [[= <- <-]|X]; [|now apply IH].
  apply Nat.lt_le_incl, (I1 k h). apply in_or_app; right; now left.
Qed.

Lemma key_unique : forall d k h h', increasing d -> In (k, h) d -> In (k, h') d -> h = h'.
Proof.
  induction d as [|[k2 h2] d IH]; intros k h h' I X Y; [destruct X|]. destruct I as [I1 I2].
  destruct X as [[= -> ->]|X], Y as [[= E]|Y]; try congruence.
  - apply I1 in Y. lia.
  - subst. apply I1 in X. lia.
  - eapply IH; eassumption.
Qed.

Definition reg_inv (c : cmdline) (os : list rop) : Prop :=
  increasing (cl_commands c) /\
  map snd (cl_commands c) = filter (fun h => negb (existsb (Nat.eqb h) (released os))) (registered os) /\
  (forall h k, cl_tokens c h = Some k <-> In (k, h) (cl_commands c)).

Definition releases_follow (os : list rop) : Prop :=
  forall p h q, os = p ++ RRelease h :: q -> In h (registered p).

Lemma existsb_eqb : forall h l, existsb (Nat.eqb h) l = true <-> In h l.
Proof.
  intros; rewrite existsb_exists. split; [intros (x & X & E); apply Nat.eqb_eq in E; now subst|].
  intros X; exists h. now rewrite Nat.eqb_refl.
Qed.

Lemma rrun_app : forall a c b, rrun c (a ++ b) = match rrun c a with Some c' => rrun c' b | None => None end.
Proof. induction a as [|o a IH]; intros; cbn [app rrun]; [reflexivity|]. destruct (rstep c o); [apply IH | reflexivity]. Qed.

Lemma filter_nothing : forall {A} (f : A -> bool) l, (forall x, In x l -> f x = true) -> filter f l = l.
Proof.
  induction l as [|x l IH]; intros H; cbn [filter]; [reflexivity|]. rewrite (H x) by now left.
  f_equal. apply IH. intros; apply H; now right.
Qed.

Lemma filter_filter_and : forall {A} (f g : A -> bool) l, filter f (filter g l) = filter (fun x => g x && f x) l.
Proof.
  induction l as [|x l IH]; cbn [filter]; [reflexivity|].
  destruct (g x); cbn [andb filter]; [|exact IH]. destruct (f x); now rewrite IH.
Qed.

Lemma map_filter_snd : forall (f : nat -> bool) (d : list (nat * nat)),
  map snd (filter (fun p => f (snd p)) d) = filter f (map snd d).
Proof. induction d as [|[k h] d IH]; cbn [filter map snd]; [reflexivity|]. destruct (f h); cbn [map snd]; now rewrite IH. Qed.

Lemma NoDup_app_l : forall {A} (a b : list A), NoDup (a ++ b) -> NoDup a.
Proof.
  induction a as [|x a IH]; intros b H; [constructor|]. inversion H; subst. constructor; [|eapply IH; eassumption].
  intros X; apply H2, in_or_app; now left.
Qed.

Lemma rrun_inv : forall os, NoDup (registered os) -> releases_follow os ->
  exists c, rrun cmdline0 os = Some c /\ reg_inv c os.
Proof.
  intros os; induction os as [|o os IH] using rev_ind; intros ND RF.
  - exists cmdline0. split; [reflexivity|]. split; [exact I|]. split; [reflexivity|].
    intros h k; split; [discriminate | intros []].
  - assert (ER : registered (os ++ [o]) = registered os ++ match o with RRegister h => [h] | _ => [] end).
    { unfold registered; rewrite flat_map_app. cbn. now rewrite app_nil_r. }
    assert (EL : released (os ++ [o]) = released os ++ match o with RRelease h => [h] | _ => [] end).
    { unfold released; rewrite flat_map_app. cbn. now rewrite app_nil_r. }
    assert (RF' : releases_follow os).
    { intros p h q ->. apply (RF p h (q ++ [o])). now rewrite <- app_assoc. }
    rewrite ER in ND. destruct (IH (NoDup_app_l _ _ ND) RF') as (c & E & I1 & I2 & I3).
    rewrite rrun_app, E. cbn [rrun]. destruct o as [h|h]; cbn [rstep].
    + assert (NR : ~ In h (registered os)) by (apply NoDup_remove_2 in ND; now rewrite app_nil_r in ND).
      assert (NL : ~ In h (released os)).
      { intros X. unfold released in X. apply in_flat_map in X as ([h'|h'] & X & Y); cbn in Y; [destruct Y|].
        destruct Y as [->|[]]. apply in_split in X as (p & q & ->). apply NR.
        specialize (RF' p h q eq_refl). unfold registered; rewrite flat_map_app; apply in_or_app; now left. }
      set (key := match rev (cl_commands c) with (k, _) :: _ => (k + 1)%nat | [] => 0%nat end).
      assert (K : forall k' h', In (k', h') (cl_commands c) -> (k' < key)%nat).
      { intros k' h' X. unfold key. destruct (rev (cl_commands c)) as [|[k0 h0] r] eqn:Er.
        - assert (D : cl_commands c = []) by (rewrite <- (rev_involutive (cl_commands c)), Er; reflexivity).
          rewrite D in X. destruct X.
        - pose proof (increasing_last _ _ _ _ I1 Er k' h' X). lia. }
      rewrite (dict_add_last key h _ K). eexists. split; [reflexivity|].
      unfold reg_inv; cbn [cl_commands cl_tokens]. split; [now apply increasing_snoc|]. split.
      * rewrite map_app, I2, ER, EL, app_nil_r, filter_app. cbn [map snd filter].
        destruct (existsb (Nat.eqb h) (released os)) eqn:X; [apply existsb_eqb in X; tauto | reflexivity].
      * intros h' k. destruct (Nat.eqb_spec h' h) as [->|N]; split; intros X.
        -- injection X as <-. apply in_or_app; right; now left.
        -- apply in_app_or in X as [X|[[= ->]|[]]]; [|reflexivity].
           exfalso. apply NR. apply (in_map snd) in X. rewrite I2 in X. cbn [snd] in X. now apply filter_In in X.
        -- apply in_or_app; left. now apply I3.
        -- apply in_app_or in X as [X|[[= -> ->]|[]]]; [now apply I3 | congruence].
    + destruct (cl_tokens c h) as [key|] eqn:T; eexists; (split; [reflexivity|]); unfold reg_inv; cbn [cl_commands cl_tokens].
      * apply I3 in T as Tin.
        assert (FE : filter (fun p => negb (Nat.eqb (fst p) key)) (cl_commands c)
                     = filter (fun p => negb (Nat.eqb (snd p) h)) (cl_commands c)).
        { apply filter_ext_in. intros [k' h'] X. cbn [fst snd]. f_equal.
          destruct (Nat.eqb_spec k' key) as [->|N], (Nat.eqb_spec h' h) as [->|N']; try reflexivity.
          - exfalso; apply N'. eapply key_unique; eassumption.
          - exfalso; apply N. apply I3 in X. congruence. }
        rewrite FE. split; [now apply increasing_filter|]. split.
        -- rewrite (map_filter_snd (fun x => negb (Nat.eqb x h))), I2, ER, EL, app_nil_r, filter_filter_and.
           apply filter_ext. intros x. rewrite existsb_app. cbn [existsb]. rewrite orb_false_r. now rewrite negb_orb.
        -- intros h' k. destruct (Nat.eqb_spec h' h) as [->|N]; split; intros X.
           ++ discriminate.
           ++ apply filter_In in X as [_ X]. cbn [snd] in X. rewrite Nat.eqb_refl in X. discriminate.
           ++ apply filter_In. split; [now apply I3|]. cbn [snd]. apply Nat.eqb_neq in N. now rewrite N.
           ++ apply filter_In in X as [X _]. now apply I3.
      * split; [exact I1|]. split; [|exact I3].
        rewrite I2, ER, EL, app_nil_r. apply filter_ext_in. intros x X.
        rewrite existsb_app. cbn [existsb]. rewrite orb_false_r, negb_orb.
        destruct (Nat.eqb_spec x h) as [->|]; cbn [negb]; [|now rewrite andb_true_r].
        rewrite andb_false_r. apply negb_false_iff.
        destruct (existsb (Nat.eqb h) (released os)) eqn:Y; [reflexivity|]. exfalso.
        assert (Q : In h (map snd (cl_commands c))) by (rewrite I2; apply filter_In; now rewrite Y).
        apply in_map_iff in Q as ([k' h'] & <- & Q). cbn [snd] in *. apply I3 in Q. congruence.
Qed.
