(** * C71: singletons *)
From Coq Require Import List Arith Bool ZArith Lia.
From Verif Require Import Conc SingletonModel SingletonSpec SingletonProofs SingletonProofs2 SingletonProofs3.
Import ListNotations.

(** ** SafeSingleton, any number of threads, any schedule *)
(** at most one successful construction and none after a failure; a pointer handed out points to the object, alive;
    the object is destroyed at most once, after the static was, when nobody holds a pointer; nothing is handed out after *)
Theorem C71_safe_history ls s : steps safe_step safe0 ls s -> history_ok (log s).
Proof. intros H. destruct (inv_reach _ _ H) as [own I]. apply I. Qed.

(** whoever holds a pointer may use it: the object is alive at every moment *)
Theorem C71_safe_no_dangling ls s h o : steps safe_step safe0 ls s -> holds (log s) h o -> alive (log s) o.
Proof.
  intros H K. destruct (inv_reach _ _ H) as [own I]. apply (I_hlog _ _ I) in K. pose proof (I_hobj _ _ I _ _ K) as ->.
  pose proof (I_hhold _ _ I _ _ K) as Hh. split.
  - apply (I_ctor _ _ I). split; [reflexivity|]. now apply (I_hold _ _ I).
  - intros D. apply (I_dtor _ _ I) in D. destruct D as (_ & -> & _). assert (X : In (Hand h) []) by (apply (I_hand _ _ I); eauto). destruct X.
Qed.

(** no leak: when the static is destroyed, no pointer is held and every thread is out, the object is destroyed *)
Theorem C71_safe_no_leak ls s : steps safe_step safe0 ls s -> In Exited (log s) ->
  (forall h o, ~ holds (log s) h o) -> (forall t, pcs s t = Idle) -> exists o, In (Ctor o) (log s) /\ In (Dtor o) (log s).
Proof.
  intros H E N Id. destruct (inv_reach _ _ H) as [own I]. apply (I_exit _ _ I) in E. exists 0.
  assert (Own : own = []).
  { destruct own as [|x own]; [reflexivity|exfalso]. assert (X : In x (x :: own)) by now left. destruct x as [|h|t].
    - destruct (I_static _ _ I X) as [Y|[t Y]]; [congruence|]. rewrite Id in Y. discriminate.
    - apply (I_hand _ _ I) in X. destruct X as [o X]. apply (I_hlog _ _ I) in X. now apply N in X.
    - apply (I_thr _ _ I) in X. rewrite Id in X. destruct X. }
  split.
  - apply (I_ctor _ _ I). split; [reflexivity|]. apply (I_hold _ _ I). congruence.
  - destruct (I_gone _ _ I Own E) as [X|[t X]]; [assumption|]. rewrite Id in X. destruct X.
Qed.

(** Instance() returns null only if the constructor threw, or the static is being destroyed (with fewer than 2^32
    threads and pointers) *)
Theorem C71_safe_null ls s l s' t n : steps safe_step safe0 ls s -> Forall (fun l => fst l < n) ls ->
  (Z.of_nat (1 + length (hands s) + n) < 2 ^ 32)%Z ->
  safe_step s l = Some s' -> log s' = log s ++ [Null t] -> In Failed (log s) \/ In Exited (log s).
Proof.
  intros H F B E L. destruct (inv_reach _ _ H) as [own I].
  destruct (null_step _ _ _ _ _ I E L) as [X|[X|X]]; auto. exfalso.
  pose proof (own_bound s own n I) as K. assert (Id : forall t, n <= t -> pcs s t = Idle) by (apply (idle_above n safe0 ls s H F); reflexivity).
  specialize (K Id). lia.
Qed.

(** [hands] is what the events say *)
Theorem C71_safe_hands ls s : steps safe_step safe0 ls s ->
  NoDup (map fst (hands s)) /\ forall h o, In (h, o) (hands s) <-> holds (log s) h o.
Proof. intros H. destruct (inv_reach _ _ H) as [own I]. split; apply I. Qed.

(** while a thread is inside, some thread can make a step: nobody waits for ever *)
Theorem C71_safe_no_deadlock ls s t : steps safe_step safe0 ls s -> pcs s t <> Idle ->
  exists u, pcs s u <> Idle /\ forall r, exists s', safe_step s (u, Go r) = Some s'.
Proof. intros H N. destruct (inv_reach _ _ H) as [own I]. eapply safe_live; eauto. Qed.

(** non-vacuity: two threads get the object, the process exits, the last pointer destroys it, the next call is null *)
Definition get1 (t : nat) : list (nat * act) := (t, Call) :: repeat (t, Go Built) 4.
Example C71_safe_witness :
  exists s, steps safe_step safe0
    (((0, Call) :: repeat (0, Go Built) 9) ++ get1 1 ++
     [(0, Exit); (0, Go Built); (1, Drop 0); (1, Go Built); (2, Call); (2, Go Built); (2, Go Built);
      (0, Drop 1); (2, Go Built); (0, Go Built); (2, Go Built); (2, Drop 2); (2, Go Built); (2, Go Built); (2, Go Built);
      (1, Call); (1, Go Built); (1, Go Built)]) s /\
    log s = [Ctor 0; Got 0 0 0; Got 1 1 0; Exited; Dropped 0; Dropped 1; Got 2 2 0; Dropped 2; Dtor 0; Null 1].
Proof. apply exec_obs. vm_compute. reflexivity. Qed.
(** a constructor that throws a std::exception: never tried again; another exception: tried again *)
Example C71_safe_failed_witness :
  exists s, steps safe_step safe0 [(0, Call); (0, Go Built); (0, Go OtherExc); (1, Call); (1, Go Built); (1, Go StdExc); (1, Go Built);
    (1, Go Built); (2, Call); (2, Go Built); (2, Go Built)] s /\ log s = [Thrown 0; Failed; Null 1; Null 2].
Proof. apply exec_obs. vm_compute. reflexivity. Qed.

(** ** PhoenixSingleton, any number of threads, any schedule of calls and exit handlers *)
(** objects do not overlap; each is destroyed at most once, by an exit handler; the assert holds; a reference
    returned before any exit handler began is to a living object *)
Theorem C71_phoenix_history ls s : steps phx_step phx0 ls s -> phistory_ok (plog s).
Proof. intros H. apply (pinv_reach _ _ H). Qed.
Theorem C71_phoenix_assert ls s : steps phx_step phx0 ls s -> ~ In PAssert (plog s).
Proof. intros H X. pose proof (C71_phoenix_history _ _ H) as K. apply in_split in X. destruct X as (l1 & l2 & X). exact (K _ _ _ X). Qed.
Theorem C71_phoenix_one ls s o o' : steps phx_step phx0 ls s -> palive (plog s) o -> palive (plog s) o' -> o = o'.
Proof.
  intros H A B. pose proof (pinv_reach _ _ H) as I. apply (Q_live _ I) in A. apply (Q_live _ I) in B.
  assert (K : forall t q, ppcs s t = PPub q \/ ppcs s t = XDelete q -> crit (ppcs s t) /\ pinst s = None).
  { intros t q [X|X]; pose proof (Q_pc _ I t) as P; unfold ppc_ok in P; rewrite X in P |- *; cbn; tauto. }
  destruct A as [A|[t A]], B as [B|[u B]].
  - congruence.
  - apply K in B. destruct B. congruence.
  - apply K in A. destruct A. congruence.
  - assert (t = u) by (apply (Q_one _ I); [apply (K _ _ A)|apply (K _ _ B)]). subst u. destruct A, B; congruence.
Qed.
(** when the registered handlers are run and all threads are out, everything built is destroyed *)
Theorem C71_phoenix_no_leak ls s o : steps phx_step phx0 ls s -> pending s = 0 -> (forall t, ppcs s t = PIdle) ->
  In (PCtor o) (plog s) -> In (PDtor o) (plog s).
Proof.
  intros H P Id C. pose proof (pinv_reach _ _ H) as I.
  assert (D : forall a b : pev, {a = b} + {a <> b}) by (decide equality; apply Nat.eq_dec).
  destruct (in_dec D (PDtor o) (plog s)) as [X|X]; [assumption|exfalso].
  assert (A : palive (plog s) o) by (split; assumption). apply (Q_live _ I) in A. destruct A as [A|[t [A|A]]]; [|rewrite Id in A; discriminate..].
  assert (Ne : pinst s <> None) by congruence.
  destruct (Q_reg _ I Ne) as [[Y _]|(_ & [t Y] & _)]; [intros t q; rewrite Id; discriminate|lia|]. rewrite Id in Y. destruct Y.
Qed.
Theorem C71_phoenix_no_deadlock ls s t : steps phx_step phx0 ls s -> ppcs s t <> PIdle ->
  exists u, ppcs s u <> PIdle /\ forall ok, exists s', phx_step s (u, PGo ok) = Some s'.
Proof. intros H N. eapply phx_live; eauto. now apply (pinv_reach ls). Qed.
(** what it does not give: during the exit, Instance() can return a reference to an object already destroyed *)
Theorem C71_phoenix_live_reference_refuted :
  exists ls s t o l, steps phx_step phx0 ls s /\ plog s = l ++ [PRet t o] /\ ~ palive l o.
Proof.
  exists ([(0, PCall)] ++ repeat (0, PGo true) 8 ++ [(1, PCall); (1, PGo true); (0, PRunExit)] ++ repeat (0, PGo true) 5 ++ [(1, PGo true)]).
  assert (E : exists s, steps phx_step phx0 ([(0, PCall)] ++ repeat (0, PGo true) 8 ++ [(1, PCall); (1, PGo true); (0, PRunExit)] ++ repeat (0, PGo true) 5 ++ [(1, PGo true)]) s /\
    plog s = [PCtor 0; PRet 0 0; PExit; PDtor 0] ++ [PRet 1 0]) by (apply exec_obs; vm_compute; reflexivity).
  destruct E as (s & H & L). exists s, 1, 0, [PCtor 0; PRet 0 0; PExit; PDtor 0]. split; [exact H|]. split; [exact L|].
  intros [_ X]. apply X. cbn. tauto.
Qed.
(** non-vacuity: it rises again after an exit handler, and is destroyed again *)
Example C71_phoenix_witness :
  exists s, steps phx_step phx0 ([(0, PCall)] ++ repeat (0, PGo true) 8 ++ [(0, PRunExit)] ++ repeat (0, PGo true) 5 ++
    [(1, PCall); (2, PCall)] ++ repeat (2, PGo true) 3 ++ repeat (1, PGo true) 1 ++ repeat (2, PGo true) 5 ++ repeat (1, PGo true) 4 ++ [(0, PRunExit)] ++ repeat (0, PGo true) 5) s /\
    plog s = [PCtor 0; PRet 0 0; PExit; PDtor 0; PCtor 1; PRet 2 1; PRet 1 1; PExit; PDtor 1] /\ pending s = 0.
Proof. apply exec_obs. vm_compute. repeat split. Qed.

(** ** Singleton: any acyclic use of each other in the constructors, any sequence of Instance() calls, then exit *)
(** each constructor succeeds or fails at most once; what was built is destroyed exactly once; and before everything
    its constructor used *)
Theorem C71_destruction_order deps ends rank fuel ns : acyclic deps rank -> (forall n, In n ns -> rank n < fuel) ->
  let l := wlog (at_exit (calls deps ends fuel world0 (map CInstance ns))) in
  (forall n, times (SCtor n) l + times (SFailed n) l <= 1) /\
  (forall n, times (SDtor n) l = times (SCtor n) l) /\
  (forall n d, In (SCtor n) l -> In d (deps n) -> before (SDtor n) (SDtor d) l).
Proof. intros A L. exact (exit_story deps ends rank A fuel ns L). Qed.
(** Instance() never waits for itself; it returns a reference to what was built, or throws because the constructor
    threw; another exception passes through *)
Theorem C71_answers deps ends rank fuel ns n : acyclic deps rank -> (forall m, In m (n :: ns) -> rank m < fuel) ->
  let '(w, a) := instance deps ends fuel (calls deps ends fuel world0 (map CInstance ns)) n in
  (a = Ref /\ In (SCtor n) (wlog w)) \/ (a = NotCreated /\ In (SFailed n) (wlog w)) \/ (a = Foreign /\ ~ In (SCtor n) (wlog w)).
Proof. intros A L. exact (answers_before deps ends rank A fuel ns n L). Qed.
(** after the exit nothing is built again: "already destroyed", or "could not be created" *)
Theorem C71_answers_after_exit deps ends rank fuel ns n : acyclic deps rank -> (forall m, In m ns -> rank m < fuel) -> 0 < fuel ->
  let w := at_exit (calls deps ends fuel world0 (map CInstance ns)) in
  (In (SCtor n) (wlog w) -> snd (instance deps ends fuel w n) = Destroyed /\ wlog (fst (instance deps ends fuel w n)) = wlog w) /\
  (In (SFailed n) (wlog w) -> snd (instance deps ends fuel w n) = NotCreated /\ wlog (fst (instance deps ends fuel w n)) = wlog w).
Proof. intros A L F. exact (answers_after deps ends rank A fuel ns n L F). Qed.
Example C71_order_witness :
  let deps n := match n with 2 => [1; 0] | 1 => [0] | 3 => [4; 1] | _ => [] end in
  let ends n := match n with 4 => StdExc | _ => Built end in
  acyclic deps (fun n => if Nat.eqb n 3 then 5 else n) /\
  wlog (at_exit (calls deps ends 10 world0 (map CInstance [2; 3; 0]))) =
    [SCtor 0; SCtor 1; SCtor 2; SFailed 4; SFailed 3; SDtor 2; SDtor 1; SDtor 0].
Proof.
  split; [|reflexivity]. intros n d. destruct n as [|[|[|[|n]]]]; cbn; try tauto; intuition (subst; cbn; lia).
Qed.
(** false with IsAlive(): a call before the first Instance() builds the static too early, and the singleton outlives
    what its constructor used *)
Theorem C71_order_after_is_alive_refuted :
  let deps n := match n with 1 => [0] | _ => [] end in
  exists l, wlog (at_exit (calls deps (fun _ => Built) 5 world0 [CAlive 1; CInstance 1])) = l /\
    before (SDtor 0) (SDtor 1) l /\ ~ before (SDtor 1) (SDtor 0) l.
Proof.
  exists [SCtor 0; SCtor 1; SDtor 0; SDtor 1]. split; [reflexivity|]. split.
  - exists [SCtor 0; SCtor 1], [], []. reflexivity.
  - intros (l1 & l2 & l3 & H). do 5 (destruct l1 as [|? l1]; [cbn in H; try discriminate; injection H as H; destruct l2 as [|? l2]; cbn in H; try discriminate; injection H; intros; try discriminate; destruct l2; discriminate|cbn in H; try discriminate; injection H as <- H]).
Qed.
(** constructors that need each other: the thread waits for itself in pthread_once *)
Theorem C71_cycle_hangs_refuted :
  let deps n := match n with 0 => [1] | 1 => [0] | _ => [] end in
  snd (instance deps (fun _ => Built) 5 world0 0) = Hang.
Proof. reflexivity. Qed.
(** AssertInstanceCreated() returns exactly when Instance() has run the constructor to its end, well or not *)
Theorem C71_assert_created deps ends rank fuel ns n : acyclic deps rank -> (forall m, In m ns -> rank m < fuel) ->
  let w := calls deps ends fuel world0 (map CInstance ns) in
  assert_created w n = true <-> In (SCtor n) (wlog w) \/ In (SFailed n) (wlog w).
Proof.
  intros A L w. destruct (instances_ok deps ends rank A fuel ns world0 L (winv0 deps ends)) as (I & C & _); [intros m u X; discriminate|]. fold w in I, C.
  rewrite !(count_occ_In sev_eq_dec). fold (times (SCtor n) (wlog w)). fold (times (SFailed n) (wlog w)).
  destruct (W_log _ _ I n) as (E1 & E2 & _). rewrite E1, E2. pose proof (W_once _ _ I n) as O. unfold assert_created.
  destruct (whold w n) as [h|].
  - rewrite (proj2 O) by discriminate. destruct (hinst h); split; try reflexivity; lia.
  - destruct (wonce w n); split; try discriminate; try lia. intros _. exfalso. apply (proj1 O); reflexivity.
Qed.
(** AssertInstanceCreated() returns although the instance could not be created *)
Theorem C71_assert_created_refuted :
  let w := fst (instance (fun _ => []) (fun _ => StdExc) 5 world0 0) in
  assert_created w 0 = true /\ snd (is_alive w 0) = false.
Proof. split; reflexivity. Qed.

(** ** AtomicInt::Store as a compare-and-swap loop, whatever the others write in between: it changes the cell exactly
    once, to the value, and is then over; or it has not yet stopped and has changed nothing *)
Theorem C71_store_is_atomic val env : let '(h, q) := store val env in
  (q = SDone /\ exists e1 c e2, env = e1 ++ c :: e2 /\ h = e1 ++ val :: e2) \/ (q <> SDone /\ h = env).
Proof.
  unfold store. pose proof (store_loop val env 0) as K. destruct (stops 0 env) as [k|].
  - destruct K as (e1 & c & e2 & E & _ & ->). left. split; [reflexivity|]. eauto.
  - destruct K as (o & ->). right. split; [discriminate|reflexivity].
Qed.
(** and it stops as soon as the others leave the cell alone for one iteration *)
Theorem C71_store_stops val e1 c e2 : snd (store val (e1 ++ c :: c :: e2)) = SDone.
Proof.
  unfold store. assert (K : forall e old, exists k, stops old (e ++ c :: c :: e2) = Some k).
  { intros e. induction e as [|x e IH]; intros old; cbn.
    - destruct (c =? old)%Z; [eauto|]. rewrite Z.eqb_refl. cbn. eauto.
    - destruct (x =? old)%Z; [eauto|]. destruct (IH x) as [k ->]. cbn. eauto. }
  destruct (K e1 0%Z) as [k E]. pose proof (store_loop val (e1 ++ c :: c :: e2) 0) as S. rewrite E in S.
  destruct S as (a & b & d & _ & _ & ->). reflexivity.
Qed.
Example C71_store_witness : (store 7 [3; 4; 4; 9] = ([3; 4; 7; 9], SDone))%Z.
Proof. reflexivity. Qed.

Print Assumptions C71_safe_history.
Print Assumptions C71_safe_no_dangling.
Print Assumptions C71_safe_no_leak.
Print Assumptions C71_safe_null.
Print Assumptions C71_safe_no_deadlock.
Print Assumptions C71_phoenix_history.
Print Assumptions C71_phoenix_no_leak.
Print Assumptions C71_phoenix_live_reference_refuted.
Print Assumptions C71_destruction_order.
Print Assumptions C71_answers.
Print Assumptions C71_answers_after_exit.
Print Assumptions C71_store_is_atomic.
