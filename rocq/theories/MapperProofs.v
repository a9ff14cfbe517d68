From Coq Require Import List Bool ZArith Lia.
From Verif Require Import MapperModel MapperSpec.
Import ListNotations.
Open Scope Z_scope.

Lemma multi_fits_In l x : multi_fits l x = true <-> In x l.
Proof.
  induction l as [|v l IH]; cbn; [split; [discriminate|contradiction]|]. rewrite orb_true_iff, Z.eqb_eq, IH. intuition.
Qed.
Lemma fits_sensible m x : (exists b, fits m x = Some b) <-> sensible m.
Proof.
  destruct m as [s e b|p o|p a b|p a b c|p l|v|]; cbn; try (split; eauto; fail).
  - destruct (Z.ltb_spec s e); split; eauto; try lia. intros (? & ?); discriminate.
  - destruct (Z.eqb_spec p o); cbn; split; eauto; try contradiction. intros (? & ?); discriminate.
  - split; [intros (? & ?); discriminate|contradiction].
Qed.
Lemma fits_spec m x b : fits m x = Some b -> (b = true <-> stands_for m x).
Proof.
  destruct m as [s e k|p o|p a k|p a k c|p l|v|]; cbn; intros H; try discriminate.
  - destruct (s <? e); inversion H; subst. rewrite andb_true_iff, Z.leb_le, Z.ltb_lt. reflexivity.
  - destruct (negb _); inversion H; subst. rewrite orb_true_iff, !Z.eqb_eq. intuition.
  - inversion H; subst. rewrite !orb_true_iff, !Z.eqb_eq. intuition.
  - inversion H; subst. rewrite !orb_true_iff, !Z.eqb_eq. intuition.
  - inversion H; subst. rewrite orb_true_iff, Z.eqb_eq, multi_fits_In. intuition.
  - inversion H; subst. apply Z.eqb_eq.
Qed.
Lemma get_value_spec m x : get_value m = Some x <-> gives m x.
Proof. destruct m; cbn; try (split; [intros [= ->]; reflexivity|intros ->; reflexivity]). split; [discriminate|contradiction]. Qed.
Lemma has_value_spec m : has_value m = true <-> exists x, gives m x.
Proof. destruct m; cbn; split; eauto; try discriminate. intros (? & []). Qed.

Lemma all_fits_sensible l : all_fits l = true <-> Forall sensible l.
Proof.
  unfold all_fits. rewrite forallb_forall, Forall_forall. split; intros H m Hm; specialize (H m Hm).
  - apply (fits_sensible m 0). destruct (fits m 0); eauto. discriminate.
  - apply (fits_sensible m 0) in H. destruct H as (b & ->). reflexivity.
Qed.

Lemma do_map_chosen l d x : Forall sensible (map fst l) ->
  exists m, chosen l fst snd d x m /\ do_map l d x = value_or_throw (get_value m) /\ do_has l d x = Some (has_value m).
Proof.
  induction l as [|[f t] l IH]; cbn; intros H.
  - exists d. repeat split. right. split; auto.
  - inversion H as [|? ? H1 H2]; subst. apply (fits_sensible f x) in H1. destruct H1 as (b & Hb). rewrite Hb. pose proof (fits_spec f x b Hb) as Hf.
    destruct b.
    + exists t. repeat split. left. exists [], (f, t), l. repeat split; auto. cbn. tauto.
    + destruct (IH H2) as (m & Hc & E1 & E2). exists m. split; [|auto]. destruct Hc as [(pre & p & post & -> & Hp & Hs & Hm)|(Hn & Hm)].
      * left. exists ((f, t) :: pre), p, post. repeat split; auto. intros q [<-|Hq]; auto. cbn. intros K. apply Hf in K. discriminate.
      * right. split; auto. intros q [<-|Hq]; auto. cbn. intros K. apply Hf in K. discriminate.
Qed.

Lemma chosen_unique {P} (l : list P) f g d x m m' : chosen l f g d x m -> chosen l f g d x m' -> m = m'.
Proof.
  revert m m'. induction l as [|a l IH]; intros m m' H H'.
  - destruct H as [([|] & ? & ? & E & _)|(_ & ->)]; try discriminate. destruct H' as [([|] & ? & ? & E & _)|(_ & ->)]; try discriminate. reflexivity.
  - assert (G : forall n, chosen (a :: l) f g d x n -> (stands_for (f a) x /\ n = g a) \/ (~ stands_for (f a) x /\ chosen l f g d x n)).
    { intros n [([|b pre] & p & post & E & Hp & Hs & ->)|(Hn & ->)].
      - injection E as <- <-. left; auto.
      - injection E as <- ->. right. split; [apply Hp; now left|]. left. exists pre, p, post. repeat split; auto. intros q Hq. apply Hp; now right.
      - right. split; [apply Hn; now left|]. right. split; auto. intros q Hq. apply Hn; now right. }
    destruct (G _ H) as [(H1 & ->)|(H1 & H2)]; destruct (G _ H') as [(H3 & ->)|(H3 & H4)]; auto; try contradiction.
Qed.
Lemma chosen_swap l d x m : chosen (map swap l) fst snd d x m <-> chosen l snd fst d x m.
Proof.
  split; intros [(pre & p & post & E & Hp & Hs & Hm)|(Hn & Hm)].
  - left. apply map_eq_app in E. destruct E as (l1 & l2 & -> & <- & E). destruct l2 as [|q l2]; [discriminate|]. cbn in E. injection E as <- <-.
    exists l1, q, l2. repeat split; auto. intros r Hr. apply (Hp (swap r)). now apply in_map.
  - right. split; auto. intros q Hq. apply (Hn (swap q)). now apply in_map.
  - left. subst l. exists (map swap pre), (swap p), (map swap post). rewrite map_app. repeat split; auto.
    intros q Hq. apply in_map_iff in Hq. destruct Hq as (r & <- & Hr). cbn. auto.
  - right. split; auto. intros q Hq. apply in_map_iff in Hq. destruct Hq as (r & <- & Hr). cbn. auto.
Qed.

Lemma Map_chosen m x : Forall sensible (map fst (table m)) ->
  exists n, chosen (table m) fst snd (default_dst m) x n /\ Map m x = value_or_throw (get_value n) /\ HasMapping m x = Some (has_value n).
Proof.
  intros H. unfold Map, HasMapping. rewrite (proj2 (all_fits_sensible _) H). apply do_map_chosen; auto.
Qed.
Lemma Unmap_chosen m x : Forall sensible (map snd (table m)) ->
  exists n, chosen (table m) snd fst (default_src m) x n /\ Unmap m x = value_or_throw (get_value n) /\ HasBackMapping m x = Some (has_value n).
Proof.
  intros H. unfold Unmap, HasBackMapping. rewrite (proj2 (all_fits_sensible _) H). destruct (do_map_chosen (map swap (table m)) (default_src m) x) as (n & Hn & E).
  { rewrite map_map. exact H. } exists n. split; auto. apply chosen_swap; auto.
Qed.
Lemma value_Is o v : value_or_throw o = Is v <-> o = Some v.
Proof. destruct o; cbn; split; intros [=]; subst; auto. Qed.

Lemma disjoint_chosen {P} (l : list P) f g d p x : disjoint l f -> In p l -> stands_for (f p) x -> chosen l f g d x (g p).
Proof.
  intros Hd Hi Hs. apply in_split in Hi. destruct Hi as (pre & post & ->). left. exists pre, p, post. repeat split; auto.
  intros q Hq K. apply in_split in Hq. destruct Hq as (a & b & ->). rewrite <- app_assoc in Hd. cbn in Hd.
  apply (Hd a q b p post x eq_refl); auto.
Qed.

Lemma disjoint_pairs {P} (l : list P) f : ForallOrdPairs (fun p q => forall x, stands_for (f p) x -> ~ stands_for (f q) x) l -> disjoint l f.
Proof.
  intros H pre. revert l H. induction pre as [|a pre IH]; intros l H p mid q post x ->; inversion H as [|? ? H1 H2]; subst.
  - rewrite Forall_forall in H1. apply H1. apply in_app_iff. right. now left.
  - eapply IH; eauto.
Qed.
