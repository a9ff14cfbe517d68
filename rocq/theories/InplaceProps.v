(** C40: inplace_vector is a sequence, whatever is stored where, and its raw storage is used correctly. *)
From Coq Require Import List Arith Bool Lia.
From Verif Require Import Conc InplaceModel.
Import ListNotations.
Set Implicit Arguments.

Section Spec.
Variable T : Type.
Variable N : nat.
(** [v] is observed as the sequence [l]: size() and at() *)
Definition Is (v : iv T) (l : list T) : Prop := size v = length l /\ forall i, at_ v i = Some (nth_error l i).
(** what each call must do to the sequences, given whether it returned or threw *)
Definition spec (L : nat -> list T) (o : op T) (ok : bool) (L' : nat -> list T) : Prop :=
  match o with
  | OPush d x _ => L' d = (if ok then L d ++ [x] else L d) /\ forall u, u <> d -> L' u = L u
  | OClear _ d => ok = true /\ L' d = [] /\ forall u, u <> d -> L' u = L u
  | OCopy _ d s _ => d <> s -> L' d = (if ok then L s else []) /\ forall u, u <> d -> L' u = L u
  | OCopyCtor _ d s _ => d <> s -> L' d = (if ok then L s else []) /\ forall u, u <> d -> L' u = L u
  | OMove _ d s _ => d <> s -> L' d = (if ok then L s else []) /\ (if ok then L' s = [] else length (L' s) = length (L s)) /\ forall u, u <> d -> u <> s -> L' u = L u
  end.
(** how many constructions a call needs: it throws only if one of them does *)
Definition needs (L : nat -> list T) (o : op T) : nat :=
  match o with OPush _ _ _ => 1 | OClear _ _ => 0 | OCopy _ d s _ | OCopyCtor _ d s _ => if d =? s then 0 else length (L s) | OMove _ d s _ => if d =? s then 0 else min N (length (L s)) end.
Definition self (o : op T) : bool := match o with OCopyCtor _ d s _ => d =? s | _ => false end.
Definition fails (o : op T) : option nat := match o with OPush _ _ k | OCopy _ _ _ k | OCopyCtor _ _ _ k | OMove _ _ _ k => k | OClear _ _ => None end.
(** raw storage: exactly the first [n] of the N slots hold a live object *)
Definition live (v : iv T) (n : nat) : Prop := length (slots v) = N /\ forall i, i < N -> (exists x, nth_error (slots v) i = Some (Some x)) <-> i < n.
End Spec.

Section P.
Variable T : Type.
Variable moved : T.
Variable N : nat.
Notation iv := (iv T).

Definition mk (st : list T) (d : list T) : iv := {| ss := length st; dyn := d; slots := map Some st ++ repeat None (N - length st) |}.
Definition Rep (v : iv) (l : list T) : Prop := exists st d, v = mk st d /\ length st <= N /\ (d <> [] -> length st = N) /\ l = st ++ d.

Lemma nth_slots (st : list T) m i : nth_error (map Some st ++ repeat None m) i =
  if i <? length st then option_map Some (nth_error st i) else if i <? length st + m then Some None else None.
Proof.
  destruct (Nat.ltb_spec i (length st)).
  - rewrite nth_error_app1 by (rewrite map_length; auto). now rewrite nth_error_map.
  - rewrite nth_error_app2 by (rewrite map_length; lia). rewrite map_length.
    destruct (Nat.ltb_spec i (length st + m)).
    + rewrite nth_error_repeat by lia. auto.
    + apply nth_error_None. rewrite repeat_length. lia.
Qed.
Lemma set_slot_mid (a b : list (option T)) x v : set_slot (a ++ x :: b) (length a) v = a ++ v :: b.
Proof. induction a; cbn; auto. now rewrite IHa. Qed.
Lemma repeat_snoc (x : option T) n : repeat x n ++ [x] = repeat x (S n).
Proof. induction n; cbn; auto. now rewrite IHn. Qed.

Lemma Rep_Is v l : Rep v l -> Is v l.
Proof.
  intros [st [d [-> [H1 [H2 ->]]]]]. unfold Is, size, at_, mk, ref. cbn [ss dyn slots]. split; [now rewrite app_length|]. intros i.
  unfold size. cbn [ss dyn]. rewrite nth_slots. destruct (Nat.leb_spec (length st + length d) i).
  - f_equal. symmetry. apply nth_error_None. rewrite app_length. lia.
  - destruct (Nat.ltb_spec i (length st)).
    + rewrite nth_error_app1 by auto. destruct (nth_error st i) eqn:E; cbn; auto. apply nth_error_None in E. lia.
    + rewrite nth_error_app2 by auto. destruct (nth_error d (i - length st)) eqn:E; auto. apply nth_error_None in E. lia.
Qed.
Lemma Rep_empty : Rep (empty_iv T N) [].
Proof. exists [], []. unfold mk, empty_iv. cbn. rewrite Nat.sub_0_r. repeat split; auto; try lia. congruence. Qed.
Lemma Rep_len v l : Rep v l -> ss v = min N (length l).
Proof. intros [st [d [-> [H1 [H2 ->]]]]]. cbn. rewrite app_length. destruct d; [cbn; lia|]. specialize (H2 ltac:(discriminate)). lia. Qed.
Lemma Rep_live v l : Rep v l -> live N v (min N (length l)).
Proof.
  intros H. rewrite <- (Rep_len H). destruct H as [st [d [-> [H1 [H2 ->]]]]]. unfold live, mk. cbn [slots ss]. split.
  - rewrite app_length, map_length, repeat_length. lia.
  - intros i Hi. rewrite nth_slots. destruct (Nat.ltb_spec i (length st)).
    + split; auto. intros _. destruct (nth_error st i) eqn:E; cbn; eauto. apply nth_error_None in E. lia.
    + split; [|lia]. intros [x Hx]. destruct (i <? length st + (N - length st)); discriminate.
Qed.

Lemma dtor_from_eq (st : list T) : forall i m (d : list T) s, dtor_from (length st) i {| ss := s; dyn := d; slots := repeat None i ++ map Some st ++ repeat None m |} =
  Some {| ss := 0; dyn := d; slots := repeat None (i + length st + m) |}.
Proof.
  induction st as [|x st IH]; intros i m d s; cbn [length dtor_from map].
  - unfold with_ss. cbn. rewrite <- repeat_app. do 3 f_equal. lia.
  - unfold dtor. cbn [ss dyn slots]. rewrite nth_error_app2 by (rewrite repeat_length; lia). rewrite repeat_length, Nat.sub_diag. cbn [app nth_error].
    replace (set_slot (repeat None i ++ Some x :: map Some st ++ repeat None m) i None) with (repeat None (S i) ++ map Some st ++ repeat None m).
    + rewrite IH. do 3 f_equal. lia.
    + pose proof (@set_slot_mid (repeat None i) (map Some st ++ repeat None m) (Some x) None) as E. rewrite repeat_length in E. rewrite E.
      rewrite <- repeat_snoc, <- app_assoc. reflexivity.
Qed.
Lemma Dtor_mk (st d : list T) : length st <= N -> Dtor (mk st d) = Some (mk [] d).
Proof.
  intros H. unfold Dtor, mk. cbn [ss]. pose proof (@dtor_from_eq st 0 (N - length st) d (length st)) as E. cbn [repeat app] in E. rewrite E.
  cbn. do 3 f_equal. lia.
Qed.
Lemma clear_mk (st d : list T) : length st <= N -> clear (mk st d) = Some (mk [] []).
Proof. intros H. unfold clear. change (with_dyn (mk st d) []) with (mk st []). now apply Dtor_mk. Qed.

Lemma ctor_mk (st d : list T) x : length st < N -> ctor (mk st d) (length st) x = Some {| ss := length st; dyn := d; slots := slots (mk (st ++ [x]) d) |}.
Proof.
  intros H. unfold ctor, mk. cbn [slots ss dyn]. rewrite nth_slots. destruct (Nat.ltb_spec (length st) (length st)); [lia|].
  destruct (Nat.ltb_spec (length st) (length st + (N - length st))); [|lia]. f_equal. f_equal.
  destruct (N - length st) as [|m] eqn:E; [lia|]. cbn [repeat].
  pose proof (@set_slot_mid (map Some st) (repeat None m) None (Some x)) as X. rewrite map_length in X. rewrite X.
  rewrite map_app, <- app_assoc. cbn [map app]. rewrite app_length. cbn [length]. do 3 f_equal. lia.
Qed.
Lemma ref_mk (st d : list T) i x : nth_error st i = Some x -> ref (mk st d) i = Some x.
Proof.
  intros H. unfold ref, mk. cbn [slots]. rewrite nth_slots. assert (i < length st) by (apply nth_error_Some; congruence).
  apply Nat.ltb_lt in H0. now rewrite H0, H.
Qed.

Lemma push_rep v l x k : Rep v l -> exists r, push_back N v x k = Some r /\
  match r with Ok v' => budget k 1 = true /\ Rep v' (l ++ [x]) | Thrown v' => budget k 1 = false /\ v' = v end.
Proof.
  intros [st [d [-> [H1 [H2 ->]]]]].
  assert (G : exists v', (if ss (mk st d) <? N then match ctor (mk st d) (ss (mk st d)) x with Some v' => Some (Ok (with_ss v' (S (ss (mk st d))))) | None => None end
                          else Some (Ok (with_dyn (mk st d) (dyn (mk st d) ++ [x])))) = Some (Ok v') /\ Rep v' ((st ++ d) ++ [x])).
  { change (ss (mk st d)) with (length st). destruct (Nat.ltb_spec (length st) N) as [Hl|Hl].
    - rewrite ctor_mk by auto. eexists. split; [reflexivity|]. assert (d = []) as ->.
      { destruct d; auto. assert (length st = N) by (apply H2; discriminate). lia. }
      exists (st ++ [x]), []. split; [unfold with_ss, mk; cbn [ss dyn slots]; f_equal; rewrite app_length; cbn; lia|]. split; [rewrite app_length; cbn; lia|]. split; [congruence|now rewrite !app_nil_r].
    - eexists. split; [reflexivity|]. exists st, (d ++ [x]). split; [reflexivity|]. split; [auto|]. split; [intros _; lia|now rewrite app_assoc]. }
  destruct G as [v' [G1 G2]]. unfold push_back. rewrite G1. destruct k as [[|k]|]; cbn [next_k].
  - exists (Thrown (mk st d)). auto.
  - exists (Ok v'). auto.
  - exists (Ok v'). auto.
Qed.

Lemma copy_static_spec (st dd : list T) d s : d <> s -> length st <= N -> forall n h j k, h s = mk st dd -> h d = mk (firstn j st) [] -> j <= length st -> length st - j <= n ->
  exists h' ok j' k', copy_static n h d s k = Some (h', ok, k') /\ h' d = mk (firstn j' st) [] /\ j' <= length st /\ (forall u, u <> d -> h' u = h u) /\
    (ok = true -> j' = length st /\ forall m, budget k' m = budget k (length st - j + m)) /\ (ok = false -> budget k (length st - j) = false).
Proof.
  intros Hds HN. induction n as [|n IH]; intros h j k Hs Hd Hj Hn; cbn [copy_static].
  - exists h, true, j, k. split; [reflexivity|]. split; [exact Hd|]. split; [exact Hj|]. split; [auto|]. split; [|discriminate]. intros _. split; [lia|].
    intros m. now replace (length st - j + m) with m by lia.
  - rewrite Hs, Hd. cbn [ss mk]. rewrite firstn_length, Nat.min_l by lia. destruct (Nat.ltb_spec j (length st)) as [Hl|Hl].
    + destruct (nth_error st j) as [x|] eqn:Ex; [|apply nth_error_None in Ex; lia].
      assert (Hfs : firstn (S j) st = firstn j st ++ [x]).
      { clear -Ex. revert st Ex. induction j as [|j IH]; intros [|y st] Ex; cbn in *; try discriminate; [injection Ex as ->; reflexivity|]. now rewrite <- IH. }
      assert (Hbody : exists v', ctor (mk (firstn j st) []) j x = Some v' /\ with_ss v' (S (ss v')) = mk (firstn (S j) st) []).
      { pose proof (@ctor_mk (firstn j st) [] x) as E. rewrite firstn_length, Nat.min_l in E by lia. rewrite E by lia. eexists. split; [reflexivity|].
        unfold with_ss. cbn [ss dyn slots]. rewrite Hfs. unfold mk. cbn [ss slots]. f_equal. rewrite app_length, firstn_length. cbn. lia. }
      rewrite (ref_mk _ _ _ Ex). destruct Hbody as [v' [-> Hv]].
      assert (Hrec : forall k1, exists h' ok j' k', copy_static n (fupd h d (with_ss v' (S (ss v')))) d s k1 = Some (h', ok, k') /\ h' d = mk (firstn j' st) [] /\ j' <= length st /\ (forall u, u <> d -> h' u = h u) /\
        (ok = true -> j' = length st /\ forall m, budget k' m = budget k1 (length st - S j + m)) /\ (ok = false -> budget k1 (length st - S j) = false)).
      { intros k1. rewrite Hv. destruct (IH (fupd h d (mk (firstn (S j) st) [])) (S j) k1) as [h' [ok [j' [k' [A [C [D [E F]]]]]]]].
        - rewrite fupd_other; auto.
        - now rewrite fupd_same.
        - lia.
        - lia.
        - exists h', ok, j', k'. split; [exact A|]. split; [exact C|]. split; [exact D|]. split; [|exact F]. intros u Hu. rewrite E by auto. now apply fupd_other. }
      destruct k as [[|k]|]; cbn [next_k].
      * exists h, false, j, (Some 0). split; [reflexivity|]. split; [exact Hd|]. split; [exact Hj|]. split; [auto|]. split; [discriminate|]. intros _. unfold budget. apply Nat.leb_gt. lia.
      * destruct (Hrec (Some k)) as [h' [ok [j' [k' [A [C [D [E [F G]]]]]]]]]. exists h', ok, j', k'. split; [exact A|]. split; [exact C|]. split; [exact D|]. split; [exact E|]. split.
        -- intros Hok. destruct (F Hok) as [F1 F2]. split; auto. intros m. rewrite F2. cbn [budget]. replace (length st - j + m) with (S (length st - S j + m)) by lia. reflexivity.
        -- intros Hok. specialize (G Hok). cbn [budget] in *. replace (length st - j) with (S (length st - S j)) by lia. exact G.
      * destruct (Hrec None) as [h' [ok [j' [k' [A [C [D [E [F G]]]]]]]]]. exists h', ok, j', k'. split; [exact A|]. split; [exact C|]. split; [exact D|]. split; [exact E|]. split.
        -- intros Hok. destruct (F Hok) as [F1 F2]. split; auto.
        -- intros Hok. specialize (G Hok). discriminate.
    + exists h, true, j, k. split; [reflexivity|]. split; [exact Hd|]. split; [exact Hj|]. split; [auto|]. split; [|discriminate]. intros _. split; [lia|].
      intros m. now replace (length st - j + m) with m by lia.
Qed.

Lemma copy_spec h d s k l : d <> s -> h d = mk [] [] -> Rep (h s) l ->
  exists h', copy_ N h d s k = Some (h', budget k (length l)) /\ (forall u, u <> d -> h' u = h u) /\ Rep (h' d) (if budget k (length l) then l else []).
Proof.
  intros Hds Hd [st [dd [Hs [H1 [H2 ->]]]]]. unfold copy_.
  destruct (@copy_static_spec st dd d s Hds H1 (S N) h 0 k Hs Hd ltac:(lia) ltac:(lia)) as [h' [ok [j' [k' [-> [C [D [E [F G]]]]]]]]].
  rewrite (E s) by auto. rewrite Hs. cbn [dyn mk]. rewrite app_length. destruct ok; cbn [andb].
  - destruct (F eq_refl) as [-> F2]. rewrite F2. rewrite Nat.sub_0_r. destruct (budget k (length st + length dd)).
    + eexists. split; [reflexivity|]. split; [intros u Hu; rewrite fupd_other by auto; auto|]. rewrite fupd_same, C, firstn_all. exists st, dd. repeat split; auto.
    + rewrite C, Dtor_mk by (rewrite firstn_all; auto). eexists. split; [reflexivity|]. split; [intros u Hu; rewrite fupd_other by auto; auto|]. rewrite fupd_same.
      exists [], []. cbn. repeat split; auto; try lia. congruence.
  - specialize (G eq_refl). rewrite Nat.sub_0_r in G. assert (budget k (length st + length dd) = false) as ->.
    { destruct k; [|discriminate]. cbn in *. apply Nat.leb_gt in G. apply Nat.leb_gt. lia. }
    rewrite C, Dtor_mk by (rewrite firstn_length; lia). eexists. split; [reflexivity|]. split; [intros u Hu; rewrite fupd_other by auto; auto|]. rewrite fupd_same.
    exists [], []. cbn. repeat split; auto; try lia. congruence.
Qed.

Lemma set_slot_map (st : list T) m i x : i < length st -> exists st', set_slot (map Some st ++ repeat None m) i (Some x) = map Some st' ++ repeat None m /\ length st' = length st /\ (forall j, j <> i -> nth_error st' j = nth_error st j).
Proof.
  revert i. induction st as [|y st IH]; intros i H; cbn [length] in H; [lia|]. destruct i as [|i]; cbn [map app set_slot].
  - exists (x :: st). split; auto. split; auto. intros [|j] Hj; [congruence|reflexivity].
  - destruct (IH i ltac:(lia)) as [st' [-> [L E]]]. exists (y :: st'). split; auto. split; [cbn; lia|]. intros [|j] Hj; cbn; auto.
Qed.

Lemma move_static_spec (st dd : list T) d s : d <> s -> length st <= N -> forall n h j k st2, h s = mk st2 dd -> length st2 = length st -> (forall i, j <= i -> nth_error st2 i = nth_error st i) ->
  h d = mk (firstn j st) [] -> j <= length st -> length st - j <= n ->
  exists h' ok j' st', move_static moved n h d s k = Some (h', ok) /\ h' d = mk (firstn j' st) [] /\ j' <= length st /\ h' s = mk st' dd /\ length st' = length st /\ (forall u, u <> d -> u <> s -> h' u = h u) /\
    (ok = true -> j' = length st) /\ ok = budget k (length st - j).
Proof.
  intros Hds HN. induction n as [|n IH]; intros h j k st2 Hs Hl2 He Hd Hj Hn; cbn [move_static].
  - exists h, true, j, st2. repeat split; auto; try lia. replace (length st - j) with 0 by lia. destruct k; auto.
  - rewrite Hs, Hd. cbn [ss mk dyn]. rewrite firstn_length, Nat.min_l by lia. rewrite Hl2. destruct (Nat.ltb_spec j (length st)) as [Hl|Hl].
    + destruct (nth_error st j) as [x|] eqn:Ex; [|apply nth_error_None in Ex; lia].
      assert (Hfs : firstn (S j) st = firstn j st ++ [x]).
      { clear -Ex. revert st Ex. induction j as [|j IH]; intros [|y st] Ex; cbn in *; try discriminate; [injection Ex as ->; reflexivity|]. now rewrite <- IH. }
      assert (Hbody : exists v', ctor (mk (firstn j st) []) j x = Some v' /\ with_ss v' (S (ss v')) = mk (firstn (S j) st) []).
      { pose proof (@ctor_mk (firstn j st) [] x) as E. rewrite firstn_length, Nat.min_l in E by lia. rewrite E by lia. eexists. split; [reflexivity|].
        unfold with_ss. cbn [ss dyn slots]. rewrite Hfs. unfold mk. cbn [ss slots]. f_equal. rewrite app_length, firstn_length. cbn. lia. }
      assert (Ex2 : nth_error st2 j = Some x) by (rewrite He; auto).
      rewrite (ref_mk _ _ _ Ex2). rewrite fupd_other by auto. rewrite Hd. cbn [ss mk]. rewrite firstn_length, (Nat.min_l j) by lia.
      destruct Hbody as [v' [-> Hv]]. cbn [slots mk].
      destruct (@set_slot_map st2 (N - length st2) j moved ltac:(lia)) as [st3 [Hst3 [L3 E3]]]. unfold mk at 1. cbn [slots]. rewrite Hst3.
      assert (Hrec : forall k1, exists h' ok j' st', move_static moved n (fupd (fupd h s {| ss := length st; dyn := dd; slots := map Some st3 ++ repeat None (N - length st2) |}) d (with_ss v' (S (ss v')))) d s k1 = Some (h', ok) /\ h' d = mk (firstn j' st) [] /\ j' <= length st /\ h' s = mk st' dd /\ length st' = length st /\ (forall u, u <> d -> u <> s -> h' u = h u) /\
        (ok = true -> j' = length st) /\ ok = budget k1 (length st - S j)).
      { intros k1. rewrite Hv. edestruct (IH (fupd (fupd h s {| ss := length st; dyn := dd; slots := map Some st3 ++ repeat None (N - length st2) |}) d (mk (firstn (S j) st) [])) (S j) k1 st3) as [h' [ok [j' [st' [A [C [D [E [F [G [I J]]]]]]]]]]].
        - rewrite fupd_other by auto. rewrite fupd_same. unfold mk. rewrite L3, Hl2. reflexivity.
        - lia.
        - intros i Hi. rewrite E3 by lia. apply He. lia.
        - now rewrite fupd_same.
        - lia.
        - lia.
        - exists h', ok, j', st'. split; [exact A|]. split; [exact C|]. split; [exact D|]. split; [exact E|]. split; [exact F|]. split; [|split; [exact I|exact J]].
          intros u Hu Hu'. rewrite G by auto. rewrite !fupd_other by auto. reflexivity. }
      destruct k as [[|k]|]; cbn [next_k].
      * exists h, false, j, st2. repeat split; auto; try lia; try congruence. unfold budget. symmetry. apply Nat.leb_gt. lia.
      * destruct (Hrec (Some k)) as [h' [ok [j' [st' [A [C [D [E [F [G [I J]]]]]]]]]]]. exists h', ok, j', st'. split; [exact A|]. split; [exact C|]. split; [exact D|]. split; [exact E|]. split; [exact F|]. split; [exact G|]. split; [exact I|].
        rewrite J. cbn [budget]. now replace (length st - j) with (S (length st - S j)) by lia.
      * destruct (Hrec None) as [h' [ok [j' [st' [A [C [D [E [F [G [I J]]]]]]]]]]]. exists h', ok, j', st'. split; [exact A|]. split; [exact C|]. split; [exact D|]. split; [exact E|]. split; [exact F|]. split; [exact G|]. split; [exact I|exact J].
    + exists h, true, j, st2. repeat split; auto; try lia. replace (length st - j) with 0 by lia. destruct k; auto.
Qed.

Lemma move_spec h d s k l : d <> s -> h d = mk [] [] -> Rep (h s) l ->
  exists h' ok, move_ moved N h d s k = Some (h', ok) /\ ok = budget k (min N (length l)) /\ (forall u, u <> d -> u <> s -> h' u = h u) /\ Rep (h' d) (if ok then l else []) /\
    exists ls, Rep (h' s) ls /\ if ok then ls = [] else length ls = length l.
Proof.
  intros Hds Hd HR. pose proof (Rep_len HR) as HL. destruct HR as [st [dd [Hs [H1 [H2 ->]]]]]. rewrite Hs in HL. cbn [ss mk] in HL. rewrite <- HL. unfold move_.
  destruct (@move_static_spec st dd d s Hds H1 (S N) h 0 k st Hs eq_refl ltac:(auto) Hd ltac:(lia) ltac:(lia)) as [h' [ok [j' [st' [-> [C [D [E [F [G [I J]]]]]]]]]]].
  rewrite Nat.sub_0_r in J. destruct ok.
  - rewrite (I eq_refl) in C. rewrite firstn_all in C. rewrite E, Dtor_mk by lia. eexists _, true. split; [reflexivity|]. split; [exact J|]. split; [|split].
    + intros u Hu Hu'. rewrite !fupd_other by auto. auto.
    + rewrite fupd_same. rewrite !fupd_same. rewrite fupd_other by auto. rewrite fupd_other by auto. rewrite C. exists st, dd. repeat split; auto.
    + exists []. split; [|reflexivity]. rewrite fupd_other by auto. rewrite !fupd_same. exists [], []. cbn. repeat split; auto; try lia. congruence.
  - rewrite C, Dtor_mk by (rewrite firstn_length; lia). eexists _, false. split; [reflexivity|]. split; [exact J|]. split; [|split].
    + intros u Hu Hu'. rewrite fupd_other by auto. auto.
    + rewrite fupd_same. exists [], []. cbn. repeat split; auto; try lia. congruence.
    + exists (st' ++ dd). split; [|rewrite !app_length; lia]. rewrite fupd_other by auto. rewrite E. exists st', dd. repeat split; auto; try lia. intros X. specialize (H2 X). lia.
Qed.

Definition RepH (h : heap T) (L : nat -> list T) : Prop := forall u, Rep (h u) (L u).

Lemma clear_rep v l : Rep v l -> clear v = Some (mk [] []).
Proof. intros [st [d [-> [H1 _]]]]. now apply clear_mk. Qed.
Lemma Rep_nil : Rep (mk [] []) [].
Proof. exists [], []. cbn. repeat split; auto; try lia. congruence. Qed.

Lemma self_copy h d k : h d = mk [] [] -> exists h' ok, copy_ N h d d k = Some (h', ok) /\ ok = true /\ (forall u, u <> d -> h' u = h u) /\ h' d = mk [] [].
Proof.
  intros H. unfold copy_. cbn [copy_static]. rewrite Nat.ltb_irrefl. rewrite H. cbn [dyn mk length]. replace (budget k 0) with true by (destruct k; auto). cbn [andb].
  eexists _, true. split; [reflexivity|]. split; auto. split; [intros u Hu; now apply fupd_other|]. rewrite fupd_same. reflexivity.
Qed.
Lemma self_move h d k : h d = mk [] [] -> exists h' ok, move_ moved N h d d k = Some (h', ok) /\ ok = true /\ (forall u, u <> d -> h' u = h u) /\ h' d = mk [] [].
Proof.
  intros H. unfold move_. cbn [move_static]. rewrite Nat.ltb_irrefl. rewrite H, Dtor_mk by (cbn; lia).
  eexists _, true. split; [reflexivity|]. split; auto. split; [intros u Hu; now rewrite !fupd_other by auto|]. rewrite !fupd_same. reflexivity.
Qed.

Lemma step_rep h L o : RepH h L -> self o = false -> exists h' ok L', step moved N h o = Some (h', ok) /\ RepH h' L' /\ spec L o ok L' /\ ok = budget (fails o) (needs N L o).
Proof.
  intros H Hsf. destruct o as [d x k|d|d s k|d s k|d s k]; cbn [step].
  - destruct (push_rep x k (H d)) as [r [-> Hr]]. destruct r as [v|v]; destruct Hr as [Hb Hr].
    + exists (fupd h d v), true, (fupd L d (L d ++ [x])). split; auto. split; [|split].
      * intros u. destruct (Nat.eq_dec u d) as [->|Hu]; [rewrite !fupd_same; auto|rewrite !fupd_other by auto; apply H].
      * cbn. rewrite fupd_same. split; auto. intros u Hu. now apply fupd_other.
      * cbn [fails needs]. auto.
    + subst v. exists (fupd h d (h d)), false, L. split; auto. split; [|split].
      * intros u. destruct (Nat.eq_dec u d) as [->|Hu]; [rewrite !fupd_same; auto|rewrite !fupd_other by auto; apply H].
      * cbn. auto.
      * cbn [fails needs]. auto.
  - rewrite (clear_rep (H d)). exists (fupd h d (mk [] [])), true, (fupd L d []). split; auto. split; [|split].
    + intros u. destruct (Nat.eq_dec u d) as [->|Hu]; [rewrite !fupd_same; apply Rep_nil|rewrite !fupd_other by auto; apply H].
    + cbn. rewrite fupd_same. split; auto. split; auto. intros u Hu. now apply fupd_other.
    + reflexivity.
  - unfold copy_assign. rewrite (clear_rep (H d)). destruct (Nat.eq_dec d s) as [<-|Hds].
    + destruct (@self_copy (fupd h d (mk [] [])) d k) as [h' [ok [-> [-> [E1 E2]]]]]; [apply fupd_same|].
      exists h', true, (fupd L d []). split; auto. split; [|split].
      * intros u. destruct (Nat.eq_dec u d) as [->|Hu]; [rewrite fupd_same, E2; apply Rep_nil|]. rewrite E1, !fupd_other by auto. apply H.
      * cbn. congruence.
      * cbn. rewrite Nat.eqb_refl. destruct k; auto.
    + destruct (@copy_spec (fupd h d (mk [] [])) d s k (L s) Hds) as [h' [-> [E1 E2]]]; [apply fupd_same|rewrite fupd_other by auto; apply H|].
      exists h', (budget k (length (L s))), (fupd L d (if budget k (length (L s)) then L s else [])). split; auto. split; [|split].
      * intros u. destruct (Nat.eq_dec u d) as [->|Hu]; [rewrite fupd_same; apply E2|]. rewrite E1, !fupd_other by auto. apply H.
      * cbn. intros _. rewrite fupd_same. split; auto. intros u Hu. now apply fupd_other.
      * cbn. apply Nat.eqb_neq in Hds. now rewrite Hds.
  - cbn [self] in Hsf. rewrite Hsf. apply Nat.eqb_neq in Hsf. rename Hsf into Hds. rewrite (clear_rep (H d)). unfold copy_ctor.
    assert (Ee : empty_iv T N = mk [] []) by (unfold empty_iv, mk; cbn; now rewrite Nat.sub_0_r).
    destruct (@copy_spec (fupd (fupd h d (mk [] [])) d (empty_iv T N)) d s k (L s) Hds) as [h' [-> [E1 E2]]]; [rewrite fupd_same; auto|rewrite !fupd_other by auto; apply H|].
    exists h', (budget k (length (L s))), (fupd L d (if budget k (length (L s)) then L s else [])). split; auto. split; [|split].
    + intros u. destruct (Nat.eq_dec u d) as [->|Hu]; [rewrite fupd_same; apply E2|]. rewrite E1, !fupd_other by auto. apply H.
    + cbn. intros _. rewrite fupd_same. split; auto. intros u Hu. now apply fupd_other.
    + cbn. apply Nat.eqb_neq in Hds. now rewrite Hds.
  - unfold move_assign. rewrite (clear_rep (H d)). destruct (Nat.eq_dec d s) as [<-|Hds].
    + destruct (@self_move (fupd h d (mk [] [])) d k) as [h' [ok [-> [-> [E1 E2]]]]]; [apply fupd_same|].
      exists h', true, (fupd L d []). split; auto. split; [|split].
      * intros u. destruct (Nat.eq_dec u d) as [->|Hu]; [rewrite fupd_same, E2; apply Rep_nil|]. rewrite E1, !fupd_other by auto. apply H.
      * cbn. congruence.
      * cbn. rewrite Nat.eqb_refl. destruct k; auto.
    + destruct (@move_spec (fupd h d (mk [] [])) d s k (L s) Hds) as [h' [ok [-> [Eok [E1 [E2 [ls [E3 E4]]]]]]]]; [apply fupd_same|rewrite fupd_other by auto; apply H|].
      exists h', ok, (fupd (fupd L d (if ok then L s else [])) s ls). split; auto. split; [|split].
      * intros u. destruct (Nat.eq_dec u s) as [->|Hu]; [rewrite fupd_same; auto|]. rewrite fupd_other by auto.
        destruct (Nat.eq_dec u d) as [->|Hu']; [rewrite fupd_same; apply E2|]. rewrite E1, !fupd_other by auto. apply H.
      * cbn. intros _. rewrite fupd_same, fupd_other, fupd_same by auto. split; auto. split; auto. intros u Hu Hu'. now rewrite !fupd_other by auto.
      * cbn. apply Nat.eqb_neq in Hds. now rewrite Hds.
Qed.

(** a program: a list of calls, started with all vectors empty *)
Inductive runs : heap T -> list (op T) -> heap T -> Prop :=
| runs_nil h : runs h [] h
| runs_cons h o h1 ok os h2 : self o = false -> step moved N h o = Some (h1, ok) -> runs h1 os h2 -> runs h (o :: os) h2.
Definition start : heap T := fun _ => empty_iv T N.
Lemma runs_rep h os h' : runs h os h' -> forall L, RepH h L -> exists L', RepH h' L'.
Proof.
  induction 1; eauto. intros L HL. destruct (step_rep o HL H) as [h' [ok' [L' [E [HR _]]]]]. rewrite H0 in E. injection E as <- <-. eauto.
Qed.
Theorem C40_observation_determines_the_sequence (v : iv) l l' : Is v l -> Is v l' -> l = l'.
Proof.
  intros [_ H] [_ H']. revert l' H'. assert (G : forall i, at_ v i = Some (nth_error l i)) by auto. intros l' H'.
  assert (E : forall i, nth_error l i = nth_error l' i) by (intros i; specialize (G i); rewrite H' in G; congruence). clear -E. revert l' E.
  induction l as [|x l IH]; intros [|y l'] E; auto; try (specialize (E 0); discriminate).
  pose proof (E 0) as E0. cbn in E0. injection E0 as ->. f_equal. apply IH. intros i. exact (E (S i)).
Qed.

(** Whatever was done before: the next call is defined (no slot constructed twice or destroyed twice), every vector
    is some sequence before and after, the call does what it must to them, and it throws only if a constructor did. *)
Theorem C40_inplace_vector_is_a_sequence os h o : runs start os h -> self o = false ->
  exists h' ok L L', step moved N h o = Some (h', ok) /\ (forall u, Is (h u) (L u)) /\ (forall u, Is (h' u) (L' u)) /\ spec L o ok L' /\ ok = budget (fails o) (needs N L o).
Proof.
  intros H Hs. destruct (@runs_rep _ _ _ H (fun _ => [])) as [L HL]; [intros u; apply Rep_empty|].
  destruct (step_rep o HL Hs) as [h' [ok [L' [A [C [D E]]]]]]. exists h', ok, L, L'. split; auto. split; [intros u; apply Rep_Is, HL|]. split; [intros u; apply Rep_Is, C|]. auto.
Qed.
(** In every state exactly the in-place slots in use hold a live object: nothing leaks, nothing is destroyed twice;
    the dynamic storage is used only for what does not fit in place. *)
Theorem C40_inplace_vector_storage os h u : runs start os h -> exists l, Is (h u) l /\ live N (h u) (min N (length l)) /\ ss (h u) = min N (length l).
Proof.
  intros H. destruct (@runs_rep _ _ _ H (fun _ => [])) as [L HL]; [intros v; apply Rep_empty|]. exists (L u). split; [apply Rep_Is, HL|]. split; [apply Rep_live, HL|apply Rep_len, HL].
Qed.
(** Assigning a vector to itself, by copy or by move, is expected to keep it; it empties it. *)
Theorem C40_self_assignment_empties os h d k : runs start os h ->
  (exists h', step moved N h (OCopy T d d k) = Some (h', true) /\ Is (h' d) []) /\ (exists h', step moved N h (OMove T d d k) = Some (h', true) /\ Is (h' d) []).
Proof.
  intros H. destruct (@runs_rep _ _ _ H (fun _ => [])) as [L HL]; [intros v; apply Rep_empty|]. cbn [step]. unfold copy_assign, move_assign. rewrite (clear_rep (HL d)). split.
  - destruct (@self_copy (fupd h d (mk [] [])) d k (fupd_same _ _ _)) as [h' [ok [-> [-> [_ E]]]]]. exists h'. split; auto. rewrite E. apply Rep_Is, Rep_nil.
  - destruct (@self_move (fupd h d (mk [] [])) d k (fupd_same _ _ _)) as [h' [ok [-> [-> [_ E]]]]]. exists h'. split; auto. rewrite E. apply Rep_Is, Rep_nil.
Qed.
End P.

Fixpoint xruns (T : Type) (moved : T) N (h : heap T) (os : list (op T)) : option (heap T) :=
  match os with [] => Some h | o :: os => if self o then None else match step moved N h o with Some (h, _) => xruns moved N h os | None => None end end.
Lemma xruns_runs (T : Type) (moved : T) N os : forall h h', xruns moved N h os = Some h' -> runs moved N h os h'.
Proof.
  induction os as [|o os IH]; intros h h' H; cbn in H; [injection H as <-; constructor|]. destruct (self o) eqn:Es; [discriminate|].
  destruct (step moved N h o) as [[h1 ok]|] eqn:E; [|discriminate]. econstructor; eauto.
Qed.

Theorem C40_self_assignment_keeps_the_vector_refuted : exists os h h', runs 0 2 (start nat 2) os h /\ step 0 2 h (OCopy nat 0 0 None) = Some (h', true) /\
  Is (h 0) [1;2;3] /\ Is (h' 0) [].
Proof.
  set (os := [OPush 0 1 None; OPush 0 2 None; OPush 0 3 None]).
  destruct (xruns 0 2 (start nat 2) os) as [h|] eqn:E; [|discriminate]. exists os, h.
  pose proof (@xruns_runs _ _ _ _ _ _ E) as R. destruct (C40_self_assignment_empties 0 None R) as [[h' [S I]] _]. exists h'. split; [exact R|]. split; [exact S|]. split; [|exact I].
  vm_compute in E. injection E as <-. split; [reflexivity|]. intros [|[|[|[|i]]]]; reflexivity.
Qed.

(** The hypotheses are met: pushes past the in-place capacity, a copy that throws half way, a move. *)
Example C40_nonvacuous : exists h, runs 0 2 (start nat 2) [OPush 0 1 None; OPush 0 2 None; OPush 0 3 None; OCopy nat 1 0 (Some 1); OCopyCtor nat 2 0 None; OMove nat 3 0 (Some 2); OPush 3 4 None] h /\
  Is (h 0) [] /\ Is (h 1) [] /\ Is (h 2) [1;2;3] /\ Is (h 3) [1;2;3;4].
Proof.
  eexists. split; [apply xruns_runs; vm_compute; reflexivity|]. repeat split; try reflexivity; intros [|[|[|[|[|i]]]]]; reflexivity.
Qed.

Print Assumptions C40_inplace_vector_is_a_sequence.
Print Assumptions C40_inplace_vector_storage.
Print Assumptions C40_self_assignment_empties.
Print Assumptions C40_self_assignment_keeps_the_vector_refuted.
