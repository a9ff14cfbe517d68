(** * Singleton: construction and destruction order; the store loop *)
From Coq Require Import List Arith Bool ZArith Lia.
From Verif Require Import Conc SingletonModel SingletonSpec SingletonProofs.
Import ListNotations.

Section Order.
Variable deps : nat -> list nat.
Variable ends : nat -> outcome.
Variable rank : nat -> nat.
Hypothesis acyc : acyclic deps rank.

(** [d] is deeper in the list than [n] *)
Definition deeper (n d : nat) (l : list nat) : Prop := exists a b, l = a ++ n :: b /\ In d b.
Lemma deeper_app n d p l : deeper n d l -> deeper n d (p ++ l).
Proof. intros (a & b & -> & H). exists (p ++ a), b. now rewrite app_assoc. Qed.

Definition has (w : world) (n : nat) : Prop := exists h, whold w n = Some h /\ hinst h = true.

Record WInv (w : world) : Prop := {
  W_nodup : NoDup (wstack w);
  W_stack : forall n, In n (wstack w) <-> whold w n <> None;
  W_once : forall n, wonce w n = Over <-> whold w n <> None;
  W_same : forall n h, whold w n = Some h -> hcreated h = hinst h;
  W_log : forall n, times (SCtor n) (wlog w) = (match whold w n with Some h => if hinst h then 1 else 0 | None => 0 end) /\
                    times (SFailed n) (wlog w) = (match whold w n with Some h => if hinst h then 0 else 1 | None => 0 end) /\
                    times (SDtor n) (wlog w) = 0;
  W_deps : forall n d, has w n -> In d (deps n) -> has w d /\ deeper n d (wstack w) }.

Lemma winv0 : WInv world0.
Proof.
  constructor; cbn; try discriminate.
  - constructor.
  - intros n. split; [tauto|congruence].
  - intros n. split; congruence.
  - intros n. auto.
  - intros n d (h & H & _). discriminate.
Qed.

Definition grows (w w' : world) : Prop :=
  (forall m h, whold w m = Some h -> whold w' m = Some h) /\
  (forall m u, wonce w' m = Busy u <-> wonce w m = Busy u).
Lemma grows_refl w : grows w w.
Proof. split; auto. tauto. Qed.
Lemma grows_trans a b c : grows a b -> grows b c -> grows a c.
Proof. intros [A B] [C D]. split; auto. intros m u. rewrite D. apply B. Qed.
Lemma grows_has a b n : grows a b -> has a n -> has b n.
Proof. intros [A _] (h & H & I). exists h. auto. Qed.

Definition fine (a : ans) : Prop := a = Ref \/ a = NotCreated \/ a = Foreign.
(** an answer tells the truth *)
Definition truth (w : world) (n : nat) (a : ans) : Prop :=
  match a with
  | Ref => has w n
  | NotCreated => exists h, whold w n = Some h /\ hinst h = false
  | _ => True
  end.

Lemma has_put w n o m : has (put_once w n o) m <-> has w m.
Proof. reflexivity. Qed.

(** a flag that is not over changes to another one that is not *)
Lemma winv_put w n o : WInv w -> wonce w n <> Over -> o <> Over -> WInv (put_once w n o).
Proof.
  intros I H K. destruct I. constructor; cbn; auto.
  intros m. unfold fupd. destruct (Nat.eqb_spec m n) as [->|N]; [|apply W_once0]. rewrite <- W_once0. tauto.
Qed.

Lemma count_snoc e l x : times x (l ++ [e]) = times x l + (if sev_eq_dec e x then 1 else 0).
Proof. unfold times. rewrite count_occ_app. cbn. destruct (sev_eq_dec e x); reflexivity. Qed.

(** the end of InitInstance: flag over, static built, event told *)
Lemma winv_store w n ok : WInv w -> wonce w n <> Over ->
  (ok = true -> forall d, In d (deps n) -> has w d) ->
  let e := if ok then SCtor n else SFailed n in
  let w' := put_once (store_inst (wsay w e) n ok) n Over in
  WInv w' /\ whold w' n = Some (Hold ok ok) /\ (forall m h, whold w m = Some h -> whold w' m = Some h) /\
  (forall m, m <> n -> wonce w' m = wonce w m) /\ wonce w' n = Over.
Proof.
  intros I H D e w'. assert (Nh : whold w n = None).
  { destruct (whold w n) eqn:E; [|reflexivity]. exfalso. apply H, (W_once _ I). congruence. }
  assert (Es : w' = World (fupd (wonce w) n Over) (fupd (fupd (whold w) n (Some (Hold false false))) n (Some (Hold ok ok))) (n :: wstack w) (wlog w ++ [e])).
  { unfold w', store_inst, get_holder. cbn. rewrite Nh. reflexivity. }
  assert (F : forall m, whold w' m = if Nat.eqb m n then Some (Hold ok ok) else whold w m).
  { intros m. rewrite Es. cbn. unfold fupd. destruct (Nat.eqb m n); reflexivity. }
  assert (Fn : whold w' n = Some (Hold ok ok)) by (rewrite F, Nat.eqb_refl; reflexivity).
  assert (Gr : forall m h, whold w m = Some h -> whold w' m = Some h).
  { intros m h X. rewrite F. destruct (Nat.eqb_spec m n) as [->|]; [congruence|assumption]. }
  split; [|split; [assumption|split; [assumption|split]]].
  - pose proof I as J. destruct I. constructor.
    + rewrite Es. cbn. constructor; [|assumption]. rewrite W_stack0. congruence.
    + intros m. rewrite F. rewrite Es. cbn. rewrite W_stack0. destruct (Nat.eqb_spec m n) as [->|N].
      * split; [discriminate|now left].
      * split; [intros [X|X]; [congruence|assumption]|now right].
    + intros m. rewrite F. rewrite Es. cbn. unfold fupd. destruct (Nat.eqb_spec m n) as [->|N]; [split; [discriminate|reflexivity]|apply W_once0].
    + intros m h. rewrite F. destruct (Nat.eqb m n); [intros X; now injection X as <-|apply W_same0].
    + intros m. rewrite F. rewrite Es. cbn [wlog]. rewrite !count_snoc. destruct (W_log0 m) as (A & B & C). rewrite A, B, C.
      destruct (Nat.eqb_spec m n) as [->|N].
      * rewrite Nh. subst e. destruct ok; cbn [hinst]; repeat split;
          repeat match goal with |- context [sev_eq_dec ?a ?b] => destruct (sev_eq_dec a b); try congruence end; try reflexivity; lia.
      * subst e. destruct ok; repeat split;
          repeat match goal with |- context [sev_eq_dec ?a ?b] => destruct (sev_eq_dec a b); try congruence end; lia.
    + intros m d (h & Hm & Hi) Id. rewrite F in Hm. destruct (Nat.eqb_spec m n) as [->|N].
      * injection Hm as <-. cbn in Hi. subst ok. destruct (D eq_refl d Id) as (hd & X & Y). split; [exists hd; auto|].
        exists [], (wstack w). split; [now rewrite Es|]. apply W_stack0. congruence.
      * destruct (W_deps0 m d) as [(hd & X & Y) Z]; [now exists h|assumption|]. split; [exists hd; auto|]. rewrite Es. cbn.
        now apply (deeper_app _ _ [n]).
  - intros m N. rewrite Es. cbn. now rewrite fupd_other.
  - rewrite Es. cbn. now rewrite fupd_same.
Qed.

(** answering does not change a world where the static is built *)
Lemma answer_ok w n h : WInv w -> whold w n = Some h -> answer w n = (w, if hinst h then Ref else NotCreated).
Proof.
  intros I H. unfold answer, get_holder. rewrite H. cbn. rewrite H. rewrite (W_same _ I _ _ H). destruct (hinst h); reflexivity.
Qed.

Definition good_call (f : world -> nat -> world * ans) (n : nat) : Prop :=
  forall w, WInv w -> (forall m u, wonce w m = Busy u -> rank n < rank m) ->
  let '(w', a) := f w n in WInv w' /\ grows w w' /\ fine a /\ truth w' n a.

Lemma each_ok f l : forall w, (forall d, In d l -> good_call f d) -> WInv w ->
  (forall m u d, In d l -> wonce w m = Busy u -> rank d < rank m) ->
  let '(w', a) := each f w l in WInv w' /\ grows w w' /\ fine a /\ (a = Ref -> forall d, In d l -> has w' d).
Proof.
  induction l as [|d l IH]; intros w G I B; cbn.
  - split; [assumption|]. split; [apply grows_refl|]. split; [now left|]. intros _ d [].
  - pose proof (G d (or_introl eq_refl) w I (fun m u => B m u d (or_introl eq_refl))) as K. destruct (f w d) as [w1 a] eqn:E.
    destruct K as (I1 & G1 & F1 & T1). destruct a; try (unfold fine in F1; intuition discriminate).
    + specialize (IH w1). destruct (each f w1 l) as [w2 a2]. destruct IH as (I2 & G2 & F2 & T2); auto.
      * intros d' X. apply G. now right.
      * intros m u d' X Y. apply G1 in Y. apply (B m u); [now right|assumption].
      * split; [assumption|]. split; [eapply grows_trans; eauto|]. split; [assumption|].
        intros X d' [<-|Y]; [|auto]. eapply grows_has; [exact G2|]. exact T1.
    + split; [assumption|]. split; [assumption|]. split; [assumption|discriminate].
    + split; [assumption|]. split; [assumption|]. split; [assumption|discriminate].
Qed.

Lemma instance_ok fuel : forall n, rank n < fuel -> good_call (instance deps ends fuel) n.
Proof.
  induction fuel as [|fuel IH]; intros n L w I B; [lia|]. cbn [instance].
  destruct (wonce w n) as [|u|] eqn:O.
  - assert (Nh : wonce w n <> Over) by congruence.
    pose proof (winv_put w n (Busy 0) I Nh ltac:(discriminate)) as I0.
    pose proof (each_ok (instance deps ends fuel) (deps n) (put_once w n (Busy 0))) as K.
    destruct (each (instance deps ends fuel) (put_once w n (Busy 0)) (deps n)) as [w1 a].
    destruct K as (I1 & G1 & F1 & T1).
    { intros d X. apply IH. apply acyc in X. lia. }
    { assumption. }
    { intros m u d X Y. apply acyc in X. cbn in Y. unfold fupd in Y. destruct (Nat.eqb_spec m n) as [->|N]; [assumption|]. apply B in Y. lia. }
    assert (Bn : wonce w1 n = Busy 0) by (apply G1; cbn; apply fupd_same).
    assert (No : wonce w1 n <> Over) by congruence.
    assert (Fin : forall ok, (ok = true -> forall d, In d (deps n) -> has w1 d) ->
      let '(w', a) := answer (put_once (store_inst (wsay w1 (if ok then SCtor n else SFailed n)) n ok) n Over) n in
      WInv w' /\ grows w w' /\ fine a /\ truth w' n a).
    { intros ok D. destruct (winv_store w1 n ok I1 No D) as (A1 & A2 & A3 & A4 & A5). cbv zeta in *.
      rewrite (answer_ok _ n _ A1 A2). cbn [hinst]. split; [assumption|]. split; [|split].
      - split.
        + intros m h X. apply A3, G1. exact X.
        + intros m u. destruct (Nat.eq_dec m n) as [->|N].
          * rewrite A5, O. split; discriminate.
          * rewrite A4 by assumption. destruct G1 as [_ G1]. rewrite G1. cbn. now rewrite fupd_other.
      - destruct ok; [now left|right; now left].
      - destruct ok; [exists (Hold true true)|exists (Hold false false)]; auto. }
    assert (Back : WInv (put_once w1 n Fresh) /\ grows w (put_once w1 n Fresh)).
    { split; [now apply winv_put; [| |discriminate]|]. split; [intros m h X; apply G1; exact X|].
      intros m u. cbn. unfold fupd. destruct (Nat.eqb_spec m n) as [->|N]; [rewrite O; split; discriminate|].
      destruct G1 as [_ G1]. rewrite G1. cbn. now rewrite fupd_other. }
    destruct a; try (unfold fine in F1; intuition discriminate).
    + destruct (ends n).
      * apply (Fin true). intros _. now apply T1.
      * apply (Fin false). discriminate.
      * destruct Back. split; [assumption|]. split; [assumption|]. split; [right; now right|exact Logic.I].
    + apply (Fin false). discriminate.
    + destruct Back. split; [assumption|]. split; [assumption|]. split; [right; now right|exact Logic.I].
  - exfalso. apply B in O. lia.
  - assert (X : whold w n <> None) by now apply (W_once _ I). destruct (whold w n) as [h|] eqn:E; [|congruence].
    rewrite (answer_ok _ n h I E). split; [assumption|]. split; [apply grows_refl|].
    destruct (hinst h) eqn:Hi; (split; [unfold fine; tauto|exists h; auto]).
Qed.

(** between the calls of one thread no flag is busy *)
Definition calm (w : world) : Prop := forall m u, wonce w m <> Busy u.

Lemma instances_ok fuel ns : forall w, (forall n, In n ns -> rank n < fuel) -> WInv w -> calm w ->
  WInv (calls deps ends fuel w (map CInstance ns)) /\ calm (calls deps ends fuel w (map CInstance ns)) /\
  forall m h, whold w m = Some h -> whold (calls deps ends fuel w (map CInstance ns)) m = Some h.
Proof.
  induction ns as [|n ns IH]; intros w L I C; cbn; [auto|].
  pose proof (instance_ok fuel n (L n (or_introl eq_refl)) w I) as K. destruct (instance deps ends fuel w n) as [w1 a].
  destruct K as (I1 & G1 & _); [intros m u X; now apply C in X|]. cbn.
  assert (C1 : calm w1) by (intros m u X; apply G1 in X; now apply C in X).
  destruct (IH w1) as (A & B & D); auto. { intros m X. apply L. now right. }
  split; [assumption|]. split; [assumption|]. intros m h X. apply D, G1, X.
Qed.

(** ** the exit *)
Definition dtors (w : world) (l : list nat) : list sev :=
  map SDtor (filter (fun n => match whold w n with Some h => hinst h | None => false end) l).

Lemma destroy_other w n m : m <> n -> whold (destroy w n) m = whold w m.
Proof. intros N. unfold destroy. destruct (whold w n) as [h|]; [|reflexivity]. destruct (hinst h); [|reflexivity]. cbn. now rewrite fupd_other. Qed.
Lemma destroy_log w n : wlog (destroy w n) = wlog w ++ dtors w [n].
Proof. unfold destroy, dtors. cbn. destruct (whold w n) as [h|]; [|now rewrite app_nil_r]. destruct (hinst h); cbn; [reflexivity|now rewrite app_nil_r]. Qed.

Lemma run_exit_log l : forall w, NoDup l -> wlog (run_exit l w) = wlog w ++ dtors w l.
Proof.
  induction l as [|n l IH]; intros w N; cbn [run_exit]; [cbn; now rewrite app_nil_r|]. inversion N; subst.
  rewrite IH by assumption. rewrite destroy_log, <- app_assoc. f_equal.
  assert (E : dtors (destroy w n) l = dtors w l).
  { unfold dtors. f_equal. apply filter_ext_in. intros m X. rewrite destroy_other; [reflexivity|]. intros ->. contradiction. }
  rewrite E. unfold dtors. cbn. destruct (match whold w n with Some h => hinst h | None => false end); reflexivity.
Qed.
Lemma run_exit_once l : forall w, wonce (run_exit l w) = wonce w.
Proof.
  induction l as [|n l IH]; intros w; cbn; [reflexivity|]. rewrite IH. unfold destroy.
  destruct (whold w n) as [h|]; [|reflexivity]. destruct (hinst h); reflexivity.
Qed.
Lemma destroy_same w n h : whold w n = Some h ->
  exists h', whold (destroy w n) n = Some h' /\ hcreated h' = hcreated h /\ hinst h' = false.
Proof.
  intros E. unfold destroy. rewrite E. destruct (hinst h) eqn:Hi; [|exists h; auto].
  exists (Hold false (hcreated h)). cbn. rewrite fupd_same. auto.
Qed.
Lemma run_exit_hold l : forall w m h, whold w m = Some h ->
  exists h', whold (run_exit l w) m = Some h' /\ hcreated h' = hcreated h /\ (hinst h' = true <-> hinst h = true /\ ~ In m l).
Proof.
  induction l as [|n l IH]; intros w m h E; cbn [run_exit].
  - exists h. cbn. tauto.
  - destruct (Nat.eq_dec m n) as [->|N].
    + destruct (destroy_same w n h E) as (h1 & A & B & C). destruct (IH _ _ _ A) as (h2 & A2 & B2 & C2).
      exists h2. split; [assumption|]. split; [congruence|]. rewrite C2, C. cbn. split; [intros []; discriminate|tauto].
    + assert (E1 : whold (destroy w n) m = Some h) by (rewrite destroy_other; assumption).
      destruct (IH _ _ _ E1) as (h2 & A2 & B2 & C2). exists h2. split; [assumption|]. split; [assumption|]. rewrite C2. cbn. intuition congruence.
Qed.

Lemma dtors_times w l n : NoDup l -> times (SDtor n) (dtors w l) = if in_dec Nat.eq_dec n l then (match whold w n with Some h => if hinst h then 1 else 0 | None => 0 end) else 0.
Proof.
  induction 1 as [|m l X N IH]; [reflexivity|]. unfold dtors in *. cbn [filter].
  assert (K : times (SDtor n) (map SDtor (filter (fun n => match whold w n with Some h => hinst h | None => false end) (m :: l))) =
    (if Nat.eq_dec m n then (match whold w n with Some h => if hinst h then 1 else 0 | None => 0 end) else 0) + times (SDtor n) (map SDtor (filter (fun n => match whold w n with Some h => hinst h | None => false end) l))).
  { cbn [filter]. destruct (match whold w m with Some h => hinst h | None => false end) eqn:E; unfold times; cbn [map count_occ].
    - destruct (Nat.eq_dec m n) as [->|D].
      + destruct (sev_eq_dec (SDtor n) (SDtor n)); [|congruence]. destruct (whold w n) as [h|]; [|discriminate]. now rewrite E.
      + destruct (sev_eq_dec (SDtor m) (SDtor n)); [congruence|]. reflexivity.
    - destruct (Nat.eq_dec m n) as [->|D]; [|reflexivity]. destruct (whold w n) as [h|]; [|reflexivity]. now rewrite E. }
  cbn [filter] in K. rewrite K, IH. clear K. destruct (Nat.eq_dec m n) as [->|D].
  - destruct (in_dec Nat.eq_dec n l); [contradiction|]. destruct (in_dec Nat.eq_dec n (n :: l)) as [_|Y]; [lia|exfalso; apply Y; now left].
  - destruct (in_dec Nat.eq_dec n l) as [Y|Y]; destruct (in_dec Nat.eq_dec n (m :: l)) as [Z|Z]; cbn in Z; try tauto; try reflexivity.
Qed.

Lemma times_app e a b : times e (a ++ b) = times e a + times e b.
Proof. unfold times. apply count_occ_app. Qed.
Lemma dtors_not_other w l e : (forall n, e <> SDtor n) -> times e (dtors w l) = 0.
Proof.
  intros N. unfold times, dtors. apply count_occ_not_In. intros X. apply in_map_iff in X. destruct X as (m & X & _). now apply (N m).
Qed.

(** the whole story: calls, then the exit *)
Theorem exit_story fuel ns : (forall n, In n ns -> rank n < fuel) ->
  let w := calls deps ends fuel world0 (map CInstance ns) in let l := wlog (at_exit w) in
  (forall n, times (SCtor n) l + times (SFailed n) l <= 1) /\
  (forall n, times (SDtor n) l = times (SCtor n) l) /\
  (forall n d, In (SCtor n) l -> In d (deps n) -> before (SDtor n) (SDtor d) l).
Proof.
  intros L w l. destruct (instances_ok fuel ns world0 L winv0) as (I & C & _); [intros m u X; discriminate|]. fold w in I, C.
  assert (El : l = wlog w ++ dtors w (wstack w)).
  { unfold l, at_exit. cbn. apply run_exit_log. apply I. }
  assert (T1 : forall n, times (SCtor n) l = times (SCtor n) (wlog w)).
  { intros n. rewrite El, times_app, dtors_not_other by (intros; discriminate). lia. }
  assert (T2 : forall n, times (SFailed n) l = times (SFailed n) (wlog w)).
  { intros n. rewrite El, times_app, dtors_not_other by (intros; discriminate). lia. }
  split; [|split].
  - intros n. rewrite T1, T2. destruct (W_log _ I n) as (A & B & _). rewrite A, B. destruct (whold w n) as [h|]; [|lia]. destruct (hinst h); lia.
  - intros n. rewrite T1, El, times_app. destruct (W_log _ I n) as (A & _ & B). rewrite A, B, dtors_times by apply I.
    destruct (in_dec Nat.eq_dec n (wstack w)) as [X|X]; [reflexivity|]. rewrite (W_stack _ I) in X. destruct (whold w n); [|reflexivity]. exfalso. apply X. discriminate.
  - intros n d X Hd. assert (Hn : has w n).
    { assert (Y : times (SCtor n) l > 0) by (now apply count_occ_In). rewrite T1 in Y. destruct (W_log _ I n) as (A & _). rewrite A in Y.
      destruct (whold w n) as [h|] eqn:E; [|lia]. destruct (hinst h) eqn:Hi; [|lia]. now exists h. }
    destruct (W_deps _ I n d Hn Hd) as [(hd & E & Hi) (a & b & Es & Ib)]. destruct Hn as (hn & En & Hin).
    rewrite El, Es. unfold dtors. rewrite filter_app. cbn [filter]. rewrite En, Hin. rewrite map_app. cbn [map].
    assert (F : In d (filter (fun n => match whold w n with Some h => hinst h | None => false end) b)) by (apply filter_In; rewrite E; auto).
    apply in_split in F. destruct F as (b1 & b2 & F). rewrite F, map_app. cbn [map].
    exists (wlog w ++ map SDtor (filter (fun n => match whold w n with Some h => hinst h | None => false end) a)), (map SDtor b1), (map SDtor b2).
    now rewrite <- !app_assoc.
Qed.

(** answers before the exit, and after it *)
Theorem answers_before fuel ns n : (forall m, In m (n :: ns) -> rank m < fuel) ->
  let w := calls deps ends fuel world0 (map CInstance ns) in
  let '(w', a) := instance deps ends fuel w n in
  (a = Ref /\ In (SCtor n) (wlog w')) \/ (a = NotCreated /\ In (SFailed n) (wlog w')) \/ (a = Foreign /\ ~ In (SCtor n) (wlog w')).
Proof.
  intros L w. destruct (instances_ok fuel ns world0) as (I & C & _); [intros m X; apply L; now right|exact winv0|intros m u X; discriminate|]. fold w in I, C.
  pose proof (instance_ok fuel n (L n (or_introl eq_refl)) w I) as K. destruct (instance deps ends fuel w n) as [w' a] eqn:E.
  destruct K as (I' & G & F & T); [intros m u X; now apply C in X|].
  assert (Cn : In (SCtor n) (wlog w') <-> has w' n).
  { rewrite (count_occ_In sev_eq_dec). fold (times (SCtor n) (wlog w')). destruct (W_log _ I' n) as (A & _). rewrite A. unfold has.
    destruct (whold w' n) as [h|]; [|split; [lia|intros (h & X & _); discriminate]]. destruct (hinst h) eqn:Hi; split; try lia; eauto.
    intros (h' & X & Y). injection X as <-. congruence. }
  destruct F as [->|[->| ->]].
  - left. split; [reflexivity|]. now apply Cn.
  - right. left. split; [reflexivity|]. cbn in T. destruct T as (h & X & Y). apply (count_occ_In sev_eq_dec). fold (times (SFailed n) (wlog w')).
    destruct (W_log _ I' n) as (_ & B & _). rewrite B, X, Y. lia.
  - right. right. split; [reflexivity|]. rewrite Cn. intros (h & X & Y).
    (* the flag is back to fresh, so no static *)
    assert (wonce w' n = Over) by (apply (W_once _ I'); congruence).
    destruct fuel as [|fuel]; [specialize (L n (or_introl eq_refl)); lia|]. cbn [instance] in E. destruct (wonce w n) as [|u|] eqn:O.
    + destruct (each _ _ _) as [w1 a1]. assert (Ka : forall x, snd (answer x n) <> Foreign).
      { intros x. unfold answer. destruct (whold (get_holder x n) n) as [q|]; cbn; [|discriminate]. destruct (hinst q); [discriminate|]. destruct (hcreated q); discriminate. }
      destruct a1; try (destruct (ends n)); try (injection E as <- ; cbn in H; rewrite fupd_same in H; discriminate);
        try (match type of E with answer ?x n = _ => pose proof (Ka x) as Kx; rewrite E in Kx; cbn in Kx; congruence end); discriminate.
    + now apply C in O.
    + pose proof (answer_ok w n) as Ka. assert (Wn : whold w n <> None) by now apply (W_once _ I). destruct (whold w n) as [q|] eqn:Q; [|congruence].
      rewrite (Ka q I eq_refl) in E. destruct (hinst q); discriminate.
Qed.

Theorem answers_after fuel ns n : (forall m, In m ns -> rank m < fuel) -> 0 < fuel ->
  let w := at_exit (calls deps ends fuel world0 (map CInstance ns)) in
  (In (SCtor n) (wlog w) -> snd (instance deps ends fuel w n) = Destroyed /\ wlog (fst (instance deps ends fuel w n)) = wlog w) /\
  (In (SFailed n) (wlog w) -> snd (instance deps ends fuel w n) = NotCreated /\ wlog (fst (instance deps ends fuel w n)) = wlog w).
Proof.
  intros L Fu w. set (w0 := calls deps ends fuel world0 (map CInstance ns)) in *.
  destruct (instances_ok fuel ns world0 L winv0) as (I & C & _); [intros m u X; discriminate|]. fold w0 in I, C.
  assert (El : wlog w = wlog w0 ++ dtors w0 (wstack w0)) by (unfold w, at_exit; cbn; apply run_exit_log; apply I).
  assert (G : forall h, whold w0 n = Some h -> instance deps ends fuel w n = (w, if hinst h then Destroyed else NotCreated)).
  { intros h E. destruct fuel as [|f]; [lia|]. cbn [instance].
    assert (O : wonce w n = Over). { unfold w, at_exit. cbn. rewrite run_exit_once. apply (W_once _ I). congruence. }
    rewrite O. destruct (run_exit_hold (wstack w0) w0 n h E) as (h' & A & B & D).
    assert (Hi : hinst h' = false).
    { destruct (hinst h') eqn:X; [|reflexivity]. destruct D as [D _]. destruct (D eq_refl) as [_ Y]. exfalso. apply Y, (W_stack _ I). congruence. }
    assert (Aw : whold w n = Some h') by exact A. clearbody w.
    unfold answer, get_holder. rewrite Aw. cbn. rewrite Aw, Hi, B, (W_same _ I _ _ E). reflexivity. }
  destruct (W_log _ I n) as (A & B & _). split; intros X.
  - assert (Y : times (SCtor n) (wlog w) > 0) by now apply count_occ_In. rewrite El, times_app, dtors_not_other, A in Y by (intros; discriminate).
    destruct (whold w0 n) as [h|]; [|lia]. rewrite (G h eq_refl). destruct (hinst h); [auto|lia].
  - assert (Y : times (SFailed n) (wlog w) > 0) by now apply count_occ_In. rewrite El, times_app, dtors_not_other, B in Y by (intros; discriminate).
    destruct (whold w0 n) as [h|]; [|lia]. rewrite (G h eq_refl). destruct (hinst h); [lia|auto].
Qed.
End Order.

(** ** the store loop *)
Section StoreLoop.
Local Open Scope Z_scope.
Lemma store_done val env : store_run val env SDone = (env, SDone).
Proof. induction env as [|c env IH]; cbn; [reflexivity|]. now rewrite IH. Qed.

(** where the loop stops: at the first value equal to the one before it (0 before the first) *)
Fixpoint stops (prev : Z) (env : list Z) : option nat :=
  match env with
  | [] => None
  | c :: env => if c =? prev then Some 0%nat else option_map S (stops c env)
  end.
Lemma store_loop val env : forall old,
  match stops old env with
  | Some k => exists e1 c e2, env = e1 ++ c :: e2 /\ length e1 = k /\ store_run val env (SLoop old old) = (e1 ++ val :: e2, SDone)
  | None => exists o, store_run val env (SLoop old old) = (env, SLoop o o)
  end.
Proof.
  induction env as [|c env IH]; intros old; cbn; [eauto|]. destruct (Z.eqb_spec c old) as [->|N].
  - exists [], old, env. rewrite store_done. auto.
  - specialize (IH c). destruct (stops c env) as [k|]; cbn.
    + destruct IH as (e1 & c1 & e2 & -> & <- & ->). exists (c :: e1), c1, e2. auto.
    + destruct IH as (o & ->). eauto.
Qed.
End StoreLoop.
