From Coq Require Import List Arith Bool Lia ZArith ZifyNat.
From Verif Require Import Conc BitBufModel BitBufSpec.
Import ListNotations.
Local Open Scope nat_scope.
Ltac Zify.zify_post_hook ::= Z.div_mod_to_equations.

(** [a]: all bits put in; [c]: how many were taken out; [q]: position of the start of the lap
    the reader is in *)
Record ok (n : nat) (s : buf) (a : list bool) (c q : nat) : Prop := {
  o_c : c = q + ro s;
  o_r : ro s < 8 * n;
  o_w : wo s < 8 * n;
  o_t : contig s = true -> length a = q + wo s /\ ro s <= wo s;
  o_f : contig s = false -> length a = q + 8 * n + wo s /\ wo s <= ro s;
  o_1 : forall i, contig s = true -> ro s <= i -> i < wo s -> bits s i = nth (q + i) a false;
  o_2 : forall i, contig s = false -> ro s <= i -> i < 8 * n -> bits s i = nth (q + i) a false;
  o_3 : forall i, contig s = false -> i < wo s -> bits s i = nth (q + 8 * n + i) a false }.
Record zero (n : nat) (s : buf) : Prop := {
  z_1 : forall i, contig s = true -> i < ro s \/ wo s <= i -> i < 8 * n -> bits s i = false;
  z_2 : forall i, contig s = false -> wo s <= i -> i < ro s -> bits s i = false;
  z_r : ro s mod 8 = 0 }.

Lemma ok_data n s a c q : ok n s a c q -> data_bits n s = length a - c /\ c <= length a <= c + 8 * n.
Proof. intros [C R W T F _ _ _]. unfold data_bits. destruct (contig s); [destruct (T eq_refl)|destruct (F eq_refl)]; lia. Qed.

Lemma ok0 n : 0 < n -> ok n buf0 [] 0 0.
Proof. intros H. constructor; cbn; auto; try lia; discriminate. Qed.
Lemma zero0 n : zero n buf0.
Proof. constructor; auto; discriminate. Qed.

Lemma fupd_eq (f : nat -> bool) t b u : fupd f t b u = if u =? t then b else f u.
Proof. reflexivity. Qed.

(** AddBit *)
Lemma add_ok n s a c q b : ok n s a c q -> zero n s -> 0 < free_bits n s -> exists q', ok n (add_bit n s b) (a ++ [b]) c q' /\ zero n (add_bit n s b).
Proof.
  intros O Z Fr. pose proof (ok_data _ _ _ _ _ O) as [D B]. unfold free_bits in Fr. rewrite D in Fr.
  pose proof O as [C R W T F O1 O2 O3]. destruct Z as [Z1 Z2 Z3].
  assert (L : length (a ++ [b]) = S (length a)) by (rewrite app_length; cbn; lia).
  assert (N : forall i, i < length a -> nth i (a ++ [b]) false = nth i a false) by (intros i Hi; now rewrite app_nth1).
  assert (Nb : forall i, i = length a -> nth i (a ++ [b]) false = b) by (intros i ->; rewrite app_nth2, Nat.sub_diag; auto).
  assert (Bw : bits s (wo s) = false).
  { destruct (contig s) eqn:E; [apply Z1; auto; lia|]. destruct (F eq_refl). apply Z2; auto. lia. }
  exists q. unfold add_bit. rewrite Bw. cbn [orb]. set (f := fupd _ _ _).
  assert (Fw : f (wo s) = b) by (unfold f; rewrite fupd_eq, Nat.eqb_refl; auto).
  assert (Fo : forall i, i <> wo s -> f i = bits s i).
  { intros i Hi. unfold f. rewrite fupd_eq. destruct (Nat.eqb_spec i (wo s)); congruence. }
  destruct (Nat.eqb_spec (S (wo s)) (8 * n)) as [Ew|Ew].
  - (* the writer wraps: it was contiguous *)
    destruct (contig s) eqn:E; [|destruct (F eq_refl); lia]. destruct (T eq_refl) as [T1 T2].
    split; constructor; cbn [negb bits wo ro contig]; auto; try lia; try discriminate.
    + intros i _ Hi1 Hi2. destruct (Nat.eq_dec i (wo s)) as [->|Ni]; [rewrite Fw; symmetry; apply Nb; lia|]. rewrite Fo, O1, N by (auto; lia). auto.
    + intros i _ _ Hi. rewrite Fo by lia. apply Z1; auto; lia.
  - split; constructor; cbn [bits wo ro contig]; auto; try lia.
    + intros i E Hi1 Hi2. destruct (T E). destruct (Nat.eq_dec i (wo s)) as [->|Ni]; [rewrite Fw; symmetry; apply Nb; lia|]. rewrite Fo, O1, N by (auto; lia). auto.
    + intros i E Hi1 Hi2. destruct (F E). rewrite Fo, O2, N by (auto; lia). auto.
    + intros i E Hi. destruct (F E). destruct (Nat.eq_dec i (wo s)) as [->|Ni]; [rewrite Fw; symmetry; apply Nb; lia|]. rewrite Fo, O3, N by (auto; lia). auto.
    + intros i E Hi1 Hi2. destruct (T E). rewrite Fo by lia. apply Z1; auto; lia.
    + intros i E Hi1 Hi2. destruct (F E). rewrite Fo by lia. apply Z2; auto; lia.
Qed.

Lemma skipn_skipn (A : Type) x y (l : list A) : skipn x (skipn y l) = skipn (x + y) l.
Proof.
  revert l. induction y as [|y IH]; intros l; [now rewrite Nat.add_0_r|]. rewrite Nat.add_succ_r.
  destruct l; [now rewrite !skipn_nil|]. apply IH.
Qed.
Lemma slice_nth f off len (l : list bool) p : (forall i, i < len -> f (off + i) = nth (p + i) l false) -> p + len <= length l ->
  slice_bits f off len = firstn len (skipn p l).
Proof.
  unfold slice_bits. revert off p. induction len as [|len IH]; intros off p H L; [reflexivity|].
  cbn [seq map]. destruct (skipn p l) as [|x t] eqn:E.
  - apply (f_equal (@length _)) in E. rewrite skipn_length in E. cbn in E. lia.
  - cbn [firstn]. assert (X : nth p l false = x).
    { rewrite <- (firstn_skipn p l), E, app_nth2; rewrite firstn_length_le; try lia. now rewrite Nat.sub_diag. }
    f_equal.
    + specialize (H 0). rewrite !Nat.add_0_r in H. rewrite H by lia. auto.
    + rewrite (IH (S off) (S p)); [|intros i Hi; specialize (H (S i)); rewrite !Nat.add_succ_r in H; cbn; apply H; lia|lia].
      f_equal. change (S p) with (1 + p). rewrite <- skipn_skipn, E. reflexivity.
Qed.

(** DoConsume *)
Lemma consume_ok n s a c q want out k s' : ok n s a c q -> zero n s -> consume n s want = (out, k, s') ->
  k <= offered n s /\ c + 8 * k <= length a /\ out = firstn (8 * k) (skipn c a) /\ exists q', ok n s' a (c + 8 * k) q' /\ zero n s'.
Proof.
  intros O Z. pose proof O as [C R W T F O1 O2 O3]. destruct Z as [Z1 Z2 Z3].
  assert (Er : 8 * (ro s / 8) = ro s) by lia. unfold consume. rewrite Er.
  set (kk := Nat.min want (offered n s)). set (f := fun i => _). intros HH.
  pose proof (f_equal (fun x => fst (fst x)) HH) as H1. pose proof (f_equal (fun x => snd (fst x)) HH) as H2. pose proof (f_equal snd HH) as H3. cbn [fst snd] in H1, H2, H3. clear HH. subst out k s'.
  assert (Kle : kk <= offered n s) by (unfold kk; lia). 
  assert (Kr : ro s + 8 * kk <= 8 * n /\ (contig s = true -> ro s + 8 * kk <= wo s)).
  { unfold offered in Kle. destruct (contig s); [destruct (T eq_refl)|destruct (F eq_refl)]; lia. }
  destruct Kr as [Kr Kw].
  assert (Kl : c + 8 * kk <= length a).
  { destruct (contig s); [destruct (T eq_refl); specialize (Kw eq_refl)|destruct (F eq_refl)]; lia. }
  assert (Fi : forall i, i < ro s \/ ro s + 8 * kk <= i -> f i = bits s i).
  { intros i Hi. unfold f. destruct (Nat.leb_spec (ro s) i), (Nat.ltb_spec i (ro s + 8 * kk)); cbn; auto; lia. }
  assert (Fz : forall i, ro s <= i < ro s + 8 * kk -> f i = false).
  { intros i Hi. unfold f. destruct (Nat.leb_spec (ro s) i), (Nat.ltb_spec i (ro s + 8 * kk)); cbn; auto; lia. }
  split; auto. split; auto. split.
  { apply slice_nth; auto. intros i Hi. rewrite C. replace (q + ro s + i) with (q + (ro s + i)) by lia. destruct (contig s) eqn:E; [apply O1|apply O2]; auto; specialize (Kw); try lia. }
  clearbody f kk. destruct (Nat.eqb_spec (ro s + 8 * kk) (8 * n)) as [Ew|Ew].
  - (* the reader wraps: it was not contiguous *)
    destruct (contig s) eqn:E; [specialize (Kw eq_refl); lia|]. destruct (F eq_refl) as [F1 F2].
    exists (q + 8 * n). split; constructor; cbn [negb bits wo ro contig]; auto; try lia; try discriminate.
    + intros i _ _ Hi. rewrite Fi by lia. apply O3; auto.
    + intros i _ Hi1 Hi2. destruct (le_lt_dec (ro s) i); [apply Fz; lia|]. rewrite Fi by lia. apply Z2; auto. lia.
  - exists q. split; constructor; cbn [bits wo ro contig]; auto; try lia.
    + intros i E Hi1 Hi2. rewrite Fi by lia. apply O1; auto; lia.
    + intros i E Hi1 Hi2. rewrite Fi by lia. apply O2; auto; lia.
    + intros i E Hi. destruct (F E). rewrite Fi by lia. apply O3; auto; lia.
    + intros i E Hi1 Hi2. destruct (T E). specialize (Kw E). destruct (le_lt_dec (ro s) i) as [X|X]; [destruct (le_lt_dec (ro s + 8 * kk) i)|].
      * rewrite Fi by lia. apply Z1; auto; lia.
      * apply Fz; lia.
      * rewrite Fi by lia. apply Z1; auto; lia.
    + intros i E Hi1 Hi2. destruct (F E). destruct (le_lt_dec (ro s) i) as [X|X]; [apply Fz; lia|]. rewrite Fi by lia. apply Z2; auto; lia.
Qed.

Lemma firstn_firstn_skipn (l : list bool) p m : p <= length l -> firstn p l ++ firstn m (skipn p l) = firstn (p + m) l.
Proof.
  revert p. induction l as [|x l IH]; intros [|p] H; cbn in *; try lia; auto. f_equal. apply IH. lia.
Qed.

Lemma hist_ok n s a c : 0 < n -> hist n s a c -> c = firstn (length c) a /\ exists q, ok n s a (length c) q /\ zero n s.
Proof.
  intros Hn H. induction H as [|s a c b H [E (q & O & Z)] Fr|s a c want out k s' H [E (q & O & Z)] Co].
  - split; auto. exists 0. split; [now apply ok0|apply zero0].
  - destruct (add_ok _ _ _ _ _ b O Z Fr) as (q' & O' & Z'). split; eauto.
    pose proof (ok_data _ _ _ _ _ O) as [_ B]. rewrite firstn_app. replace (length c - length a) with 0 by lia. cbn. now rewrite app_nil_r.
  - destruct (consume_ok _ _ _ _ _ _ _ _ _ O Z Co) as (K1 & K2 & K3 & q' & O' & Z').
    assert (Lo : length out = 8 * k). { rewrite K3, firstn_length_le; auto. rewrite skipn_length. lia. }
    split.
    + rewrite app_length, Lo. rewrite <- firstn_firstn_skipn by lia. rewrite <- E, <- K3. auto.
    + exists q'. rewrite app_length, Lo. auto.
Qed.

(** everything added is either handed over, in order, or still there *)
Lemma hist_prefix n s a c : 0 < n -> hist n s a c -> exists rest, a = c ++ rest /\ length rest = data_bits n s.
Proof.
  intros Hn H. destruct (hist_ok _ _ _ _ Hn H) as [E (q & O & Z)]. pose proof (ok_data _ _ _ _ _ O) as [D B].
  exists (skipn (length c) a). split; [rewrite E at 1; symmetry; apply firstn_skipn|]. rewrite skipn_length. lia.
Qed.
(** ... and offered: what the consumer is shown is the next data *)
Lemma hist_offer n s a c : 0 < n -> hist n s a c -> forall want out k s', consume n s want = (out, k, s') ->
  k = Nat.min want (offered n s) /\ length out = 8 * k /\ exists rest, a = c ++ out ++ rest.
Proof.
  intros Hn H want out k s' Co. destruct (hist_ok _ _ _ _ Hn H) as [E (q & O & Z)].
  destruct (consume_ok _ _ _ _ _ _ _ _ _ O Z Co) as (K1 & K2 & K3 & _). split; [unfold consume in Co; congruence|]. split.
  - rewrite K3, firstn_length_le; auto. rewrite skipn_length. lia.
  - exists (skipn (8 * k) (skipn (length c) a)). rewrite K3, firstn_skipn. rewrite E at 1. symmetry. apply firstn_skipn.
Qed.
(** a whole byte of data is always offered *)
Lemma hist_offers n s a c : 0 < n -> hist n s a c -> 8 <= data_bits n s -> 0 < offered n s.
Proof.
  intros Hn H D. destruct (hist_ok _ _ _ _ Hn H) as [E (q & O & Z)]. destruct O as [C R W T F _ _ _]. pose proof (z_r _ _ Z) as Zr.
  unfold data_bits, offered in *. destruct (contig s); [destruct (T eq_refl)|destruct (F eq_refl)]; lia.
Qed.

(** ** EndOfData *)
Definition pad (a : nat) : nat := (8 - a mod 8) mod 8.

Lemma round_ok n s a c q : ok n s a c q -> zero n s -> (contig s = true -> wo s <= 8 * n - 8) -> q mod 8 = 0 ->
  ok n (round_up s) (padded a) c q /\ zero n (round_up s) /\ wo (round_up s) mod 8 = 0.
Proof.
  intros O Z NW Q. pose proof O as [C R W T F O1 O2 O3]. destruct Z as [Z1 Z2 Z3].
  assert (Wl : wo s <= 8 * ((wo s + 7) / 8)) by lia.
  assert (P : length (padded a) = length a + pad (length a)) by (unfold padded; rewrite app_length, repeat_length; auto).
  assert (P2 : pad (length a) = 8 * ((wo s + 7) / 8) - wo s).
  { unfold pad. destruct (contig s) eqn:E; [destruct (T eq_refl)|destruct (F eq_refl)]; lia. }
  assert (N1 : forall i, i < length a -> nth i (padded a) false = nth i a false) by (intros i Hi; unfold padded; now rewrite app_nth1).
  assert (N2 : forall i, length a <= i -> nth i (padded a) false = false).
  { intros i Hi. unfold padded. rewrite app_nth2 by auto. apply nth_repeat. }
  unfold round_up. split; [|split].
  - constructor; cbn [bits wo ro contig]; auto.
    + destruct (contig s) eqn:E; [specialize (NW eq_refl)|destruct (F eq_refl)]; lia.
    + intros E. destruct (T E). lia.
    + intros E. destruct (F E). lia.
    + intros i E Hi1 Hi2. destruct (T E). specialize (NW E). destruct (le_lt_dec (wo s) i); [rewrite N2 by lia; apply Z1; auto; lia|rewrite N1 by lia; apply O1; auto].
    + intros i E Hi1 Hi2. destruct (F E). rewrite N1 by lia. apply O2; auto.
    + intros i E Hi. destruct (F E). destruct (le_lt_dec (wo s) i); [rewrite N2 by lia; apply Z2; auto; lia|rewrite N1 by lia; apply O3; auto].
  - constructor; cbn [bits wo ro contig]; auto.
    + intros i E Hi1 Hi2. apply Z1; auto. lia.
    + intros i E Hi1 Hi2. apply Z2; auto. lia.
  - cbn [wo]. rewrite Nat.mul_comm. apply Nat.mod_mul. lia.
Qed.

Lemma drain_ok fuel n want i s a c q : ok n s a c q -> zero n s -> wo s mod 8 = 0 -> (forall j, 0 < want j) -> length a - c <= 8 * fuel -> 
  exists s', drain (S fuel) n want i s = Some (skipn c a, true, s') /\ data_bits n s' = 0 /\ wo s' = wo s.
Proof.
  revert i s c q. induction fuel as [|fuel IH]; intros i s c q O Z Wm Wa Le.
  - pose proof (ok_data _ _ _ _ _ O) as [D B]. cbn [drain]. exists s. rewrite D. replace (length a - c) with 0 by lia. cbn. rewrite skipn_all2 by lia. repeat split; auto; rewrite D; lia.
  - pose proof (ok_data _ _ _ _ _ O) as [D B]. cbn [drain]. destruct (Nat.eqb_spec (data_bits n s) 0) as [E0|E0].
    { exists s. rewrite skipn_all2 by lia. auto. }
    destruct (consume n s (want i)) as [[out k] s'] eqn:Co. destruct (consume_ok _ _ _ _ _ _ _ _ _ O Z Co) as (K1 & K2 & K3 & q' & O' & Z').
    assert (Kp : 0 < k).
    { assert (k = Nat.min (want i) (offered n s)) by (unfold consume in Co; congruence). specialize (Wa i). pose proof (z_r _ _ Z) as Zr.
      destruct O as [C R W T F _ _ _]. unfold data_bits in E0. assert (0 < offered n s); [|lia]. unfold offered. destruct (contig s); [destruct (T eq_refl)|destruct (F eq_refl)]; lia. }
    destruct (Nat.eqb_spec k 0); [lia|].
    assert (Ws : wo s' = wo s). { unfold consume in Co. injection Co as _ _ <-. destruct (_ =? _); reflexivity. }
    destruct (IH (S i) s' (c + 8 * k) q' O' Z') as (s'' & Dr & D0 & Wo); auto; [congruence|lia|].
    cbn [drain] in Dr. rewrite Dr. exists s''. split; [|split; congruence]. f_equal. f_equal. f_equal. rewrite K3. rewrite Nat.add_comm. rewrite <- skipn_skipn. apply firstn_skipn.
Qed.

Lemma hist_q n s a c : 0 < n -> hist n s a c -> exists q, ok n s a (length c) q /\ zero n s /\ q mod 8 = 0.
Proof.
  intros Hn H. destruct (hist_ok _ _ _ _ Hn H) as [E (q & O & Z)]. exists q. split; auto. split; auto.
  assert (X : length c mod 8 = 0).
  { clear E O Z. induction H as [|s a c b H IH Fr|s a c want out k s' H IH Co]; auto. destruct (hist_offer _ _ _ _ Hn H _ _ _ _ Co) as (_ & L & _).
    rewrite app_length, L. lia. }
  destruct O as [C _ _ _ _ _ _ _]. pose proof (z_r _ _ Z). lia.
Qed.

Lemma eod_ok n s a c want fuel : 0 < n -> hist n s a c -> (contig s = true -> wo s <= 8 * n - 8) -> (forall j, 0 < want j) -> S n <= fuel ->
  exists out s', end_of_data fuel n want s = Some (out, true, s') /\ c ++ out = padded a /\ data_bits n s' = 0.
Proof.
  intros Hn H NW Wa Fu. destruct (hist_ok _ _ _ _ Hn H) as [E _]. destruct (hist_q _ _ _ _ Hn H) as (q & O & Z & Q).
  destruct (round_ok _ _ _ _ _ O Z NW Q) as (O' & Z' & Wm). pose proof (ok_data _ _ _ _ _ O') as [D' B']. pose proof (ok_data _ _ _ _ _ O) as [D B].
  destruct fuel as [|fuel]; [lia|].
  destruct (drain_ok fuel n want 0 (round_up s) (padded a) (length c) q O' Z' Wm Wa) as (s' & Dr & D0 & _); [lia|].
  exists (skipn (length c) (padded a)), s'. split; [exact Dr|]. split; auto.
  rewrite E at 1. replace (firstn (length c) a) with (firstn (length c) (padded a)); [apply firstn_skipn|].
  unfold padded. rewrite firstn_app. replace (length c - length a) with 0 by lia. cbn. now rewrite app_nil_r.
Qed.

(** the writer is in the last byte of the buffer *)
Definition all_want (n : nat) (want : nat -> nat) : Prop := forall j, n <= want j.

Lemma spin_loops fuel n want i f b : 0 < n -> all_want n want -> drain fuel n want i (mk_buf f (8 * n) 0 b) = None.
Proof.
  intros Hn Wa. revert i f b. induction fuel as [|fuel IH]; intros i f b; [reflexivity|]. cbn [drain].
  assert (D : data_bits n (mk_buf f (8 * n) 0 b) <> 0) by (unfold data_bits; cbn; destruct b; lia). destruct (Nat.eqb_spec (data_bits n (mk_buf f (8 * n) 0 b)) 0); [contradiction|].
  assert (Of : offered n (mk_buf f (8 * n) 0 b) = n).
  { unfold offered. cbn [contig wo ro]. destruct b; [|cbn; lia]. replace (8 * n / 8) with n by (rewrite Nat.mul_comm, Nat.div_mul; lia). cbn. lia. }
  unfold consume. rewrite Of. rewrite Nat.min_r by apply Wa. cbn [ro wo contig bits]. destruct (Nat.eqb_spec n 0); [lia|].
  cbn [Nat.add]. rewrite Nat.eqb_refl. rewrite IH. reflexivity.
Qed.

Lemma eod_spins n s a c want : 0 < n -> hist n s a c -> contig s = true -> 8 * n - 8 < wo s -> all_want n want -> forall fuel, end_of_data fuel n want s = None.
Proof.
  intros Hn H Ct Wl Wa fuel. destruct (hist_q _ _ _ _ Hn H) as (q & O & Z & Q). destruct O as [C R W T F _ _ _]. destruct (T Ct) as [T1 T2]. pose proof (z_r _ _ Z) as Zr.
  unfold end_of_data, round_up. rewrite Ct. replace (8 * ((wo s + 7) / 8)) with (8 * n) by lia.
  destruct fuel as [|fuel]; [reflexivity|]. cbn [drain]. unfold data_bits. cbn [contig wo ro]. destruct (Nat.eqb_spec (8 * n - ro s) 0); [lia|].
  assert (Of : offered n (mk_buf (bits s) (8 * n) (ro s) true) = n - ro s / 8).
  { unfold offered. cbn [contig wo ro]. replace (8 * n / 8) with n by (rewrite Nat.mul_comm, Nat.div_mul; lia). auto. }
  unfold consume. rewrite Of. rewrite Nat.min_r by (specialize (Wa 0); lia). cbn [ro wo contig bits].
  destruct (Nat.eqb_spec (n - ro s / 8) 0); [lia|]. replace (ro s + 8 * (n - ro s / 8)) with (8 * n) by lia. rewrite Nat.eqb_refl. cbn [negb].
  rewrite spin_loops by auto. reflexivity.
Qed.

(** ** BytesToBitsBuffer *)
Lemma rget_ok n s a c q b s' : ok n s a c q -> 0 < data_bits n s -> get_bit n s = (b, s') ->
  c < length a /\ b = nth c a false /\ exists q', ok n s' a (S c) q' /\ wo s' = wo s.
Proof.
  intros O D. unfold get_bit. intros HH. pose proof (f_equal fst HH) as H1. pose proof (f_equal snd HH) as H2. cbn [fst snd] in H1, H2. clear HH. subst. pose proof (ok_data _ _ _ _ _ O) as [D' B]. pose proof O as [C R W T F O1 O2 O3].
  split; [lia|]. split.
  { rewrite C. destruct (contig s) eqn:E; [destruct (T eq_refl); apply O1|apply O2]; auto; lia. }
  destruct (Nat.eqb_spec (S (ro s)) (8 * n)) as [Er|Er].
  - destruct (contig s) eqn:E; [destruct (T eq_refl); lia|]. destruct (F eq_refl). exists (q + 8 * n). split; auto.
    constructor; cbn [negb bits wo ro contig]; auto; try lia; try discriminate; intros i _ _ Hi; apply O3; auto.
  - exists q. split; auto. constructor; cbn [bits wo ro contig]; auto; try lia.
    + intros i E Hi1 Hi2. apply O1; auto; lia.
    + intros i E Hi1 Hi2. apply O2; auto; lia.
Qed.

Lemma radd_ok n s a c q data k s' : ok n s a c q -> wo s mod 8 = 0 -> length data mod 8 = 0 -> add_bytes n s data = (k, s') ->
  8 * k <= length data /\ k = Nat.min (length data / 8) (free_run n s) /\ exists q', ok n s' (a ++ firstn (8 * k) data) c q' /\ wo s' mod 8 = 0.
Proof.
  intros O Wm Dm. pose proof O as [C R W T F O1 O2 O3]. assert (Ew : 8 * (wo s / 8) = wo s) by lia.
  unfold add_bytes. rewrite Ew. set (kk := Nat.min _ _). set (f := fun i => _). intros HH.
  pose proof (f_equal fst HH) as H1. pose proof (f_equal snd HH) as H2. cbn [fst snd] in H1, H2. clear HH. subst.
  assert (Kd : 8 * kk <= length data) by (unfold kk; lia).
  assert (Kf : kk <= free_run n s) by (unfold kk; lia).
  assert (Kw : wo s + 8 * kk <= 8 * n /\ (contig s = false -> wo s + 8 * kk <= ro s)).
  { unfold free_run in Kf. destruct (contig s); [destruct (T eq_refl)|destruct (F eq_refl)]; lia. }
  destruct Kw as [Kw Kr].
  assert (L : length (a ++ firstn (8 * kk) data) = length a + 8 * kk) by (rewrite app_length, firstn_length_le; auto).
  assert (N1 : forall i, i < length a -> nth i (a ++ firstn (8 * kk) data) false = nth i a false) by (intros i Hi; now rewrite app_nth1).
  assert (N2 : forall i, length a <= i < length a + 8 * kk -> nth i (a ++ firstn (8 * kk) data) false = nth (i - length a) data false).
  { intros i Hi. rewrite app_nth2 by lia. rewrite <- (firstn_skipn (8 * kk) data) at 2. rewrite app_nth1; auto. rewrite firstn_length_le by auto. lia. }
  assert (Fi : forall i, i < wo s \/ wo s + 8 * kk <= i -> f i = bits s i).
  { intros i Hi. unfold f. destruct (Nat.leb_spec (wo s) i), (Nat.ltb_spec i (wo s + 8 * kk)); cbn; auto; lia. }
  assert (Fd : forall i, wo s <= i < wo s + 8 * kk -> f i = nth (i - wo s) data false).
  { intros i Hi. unfold f. destruct (Nat.leb_spec (wo s) i), (Nat.ltb_spec i (wo s + 8 * kk)); cbn; auto; lia. }
  split; auto. split; auto. assert (Keq : kk = kk) by auto. clearbody f kk.
  destruct (Nat.eqb_spec (wo s + 8 * kk) (8 * n)) as [En|En].
  - destruct (contig s) eqn:E.
    + destruct (T eq_refl) as [T1 T2]. exists q. split; [|reflexivity]. constructor; cbn [negb bits wo ro contig]; auto; try lia; try discriminate.
      intros i _ Hi1 Hi2. destruct (le_lt_dec (wo s) i); [rewrite Fd, N2 by lia; f_equal; lia|rewrite Fi, N1 by lia; apply O1; auto].
    + destruct (F eq_refl) as [F1 F2]. specialize (Kr eq_refl). lia.
  - exists q. split; [|cbn [wo]; lia]. constructor; cbn [bits wo ro contig]; auto; try lia.
    + intros i E Hi1 Hi2. destruct (T E). destruct (le_lt_dec (wo s) i); [rewrite Fd, N2 by lia; f_equal; lia|rewrite Fi, N1 by lia; apply O1; auto].
    + intros i E Hi1 Hi2. destruct (F E). specialize (Kr E). rewrite Fi, N1 by lia. apply O2; auto.
    + intros i E Hi. destruct (F E). specialize (Kr E). destruct (le_lt_dec (wo s) i); [rewrite Fd, N2 by lia; f_equal; lia|rewrite Fi, N1 by lia; apply O3; auto].
Qed.

Lemma rhist_ok n s a c : 0 < n -> rhist n s a c -> c = firstn (length c) a /\ wo s mod 8 = 0 /\ exists q, ok n s a (length c) q.
Proof.
  intros Hn H. induction H as [|s a c data k s' H (E & Wm & q & O) Dm Ad|s a c b s' H (E & Wm & q & O) D Ge].
  - split; auto. split; auto. exists 0. now apply ok0.
  - destruct (radd_ok _ _ _ _ _ _ _ _ O Wm Dm Ad) as (K1 & K2 & q' & O' & Wm'). split; eauto.
    pose proof (ok_data _ _ _ _ _ O) as [_ B]. rewrite firstn_app. replace (length c - length a) with 0 by lia. cbn. now rewrite app_nil_r.
  - destruct (rget_ok _ _ _ _ _ _ _ O D Ge) as (L & Eb & q' & O' & Ws). rewrite app_length. cbn [length]. rewrite Nat.add_1_r.
    split; [|split; [now rewrite Ws|exists q'; auto]].
    replace (S (length c)) with (length c + 1) by lia. rewrite <- firstn_firstn_skipn by lia. rewrite <- E. f_equal.
    destruct (skipn (length c) a) as [|x t] eqn:Es; [apply (f_equal (@length _)) in Es; rewrite skipn_length in Es; cbn in Es; lia|].
    cbn. rewrite Eb. f_equal. rewrite <- (firstn_skipn (length c) a), Es, app_nth2; rewrite firstn_length_le; try lia. now rewrite Nat.sub_diag.
Qed.

Lemma rhist_prefix n s a c : 0 < n -> rhist n s a c -> exists rest, a = c ++ rest /\ length rest = data_bits n s.
Proof.
  intros Hn H. destruct (rhist_ok _ _ _ _ Hn H) as (E & _ & q & O). pose proof (ok_data _ _ _ _ _ O) as [D B].
  exists (skipn (length c) a). split; [rewrite E at 1; symmetry; apply firstn_skipn|]. rewrite skipn_length. lia.
Qed.
(** AddBytes takes something whenever a whole byte is free *)
Lemma rhist_takes n s a c : 0 < n -> rhist n s a c -> 8 <= free_bits n s -> forall data k s', 8 <= length data -> add_bytes n s data = (k, s') -> 0 < k.
Proof.
  intros Hn H Fr data k s' Ld Ad. destruct (rhist_ok _ _ _ _ Hn H) as (E & Wm & q & O). pose proof (ok_data _ _ _ _ _ O) as [D B]. unfold free_bits in Fr. rewrite D in Fr.
  assert (K : k = Nat.min (length data / 8) (free_run n s)) by (unfold add_bytes in Ad; congruence).
  assert (1 <= length data / 8) by lia. assert (1 <= free_run n s); [|lia]. destruct O as [C R W T F _ _ _].
  unfold free_run. destruct (contig s); [destruct (T eq_refl)|destruct (F eq_refl)]; lia.
Qed.
