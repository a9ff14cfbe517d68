(** * C74: counting pointers (self_count_ptr) destroy each object once, when the last pointer goes *)
From Coq Require Import List Arith Bool ZArith Lia.
From Verif Require Import CountModel CountSpec CountProofs.
Import ListNotations.

(** in every interleaving of every program: nobody touches an object whose destructor has begun *)
Theorem C74_no_use_after_free : forall ns s, reach ns s -> bad s = false.
Proof. intros ns s R. exact (i_bad s (inv_reach ns s R)). Qed.
(** an object is deleted at most once, and exactly the deleted objects are not alive *)
Theorem C74_deleted_once : forall ns s, reach ns s ->
  NoDup (deleted s) /\ forall o, In o (deleted s) <-> exists_object s o /\ ~ is_alive s o.
Proof.
  intros ns s R. destruct (i_log s (inv_reach ns s R)) as [L1 L2]. split; [exact L1|]. intros o. rewrite L2. unfold exists_object, is_alive.
  destruct (alive (the s o)); split; intros [H1 H2]; split; auto; congruence.
Qed.
(** whatever a pointer points to is alive, and use_count is the number of pointers to it *)
Theorem C74_pointed_alive : forall ns s o, reach ns s -> 0 < owners s o -> is_alive s o /\ cnt (the s o) = Z.of_nat (owners s o).
Proof.
  intros ns s o R H. pose proof (inv_reach ns s R) as I. pose proof (owned_alive s o I H) as A. split; [exact A|]. exact (proj1 (i_alive s I o A)).
Qed.
Theorem C74_use_count : forall ns s t i o, reach ns s -> is_var s t i o -> is_alive s o /\ use_count s t i = Z.of_nat (owners s o).
Proof.
  intros ns s t i o R (th & E & V). unfold use_count. rewrite E, V. apply (C74_pointed_alive ns s o R). apply (var_owned s t th o E). now apply var_in with i.
Qed.
(** an object is not deleted while somebody points to it *)
Theorem C74_not_too_early : forall ns s o, reach ns s -> In o (deleted s) -> owners s o = 0.
Proof.
  intros ns s o R H. pose proof (inv_reach ns s R) as I. destruct (i_log s I) as [_ L2]. apply L2 in H. exact (proj1 (i_dead s I o (proj2 H))).
Qed.
(** operations end: whatever the interleaving, only finitely many steps are left, and while an operation is under way its thread can go on *)
Theorem C74_operations_end : forall ns s, reach ns s -> exists bound, forall n s', runs n s s' -> n <= bound.
Proof. intros ns s R. exists (measure s). intros n s' H. exact (runs_bound n s s' (inv_reach ns s R) H). Qed.
Theorem C74_operations_go_on : forall s t th, nth_error (threads s) t = Some th -> todo th <> [] -> exists s', micro_step s t = Some s'.
Proof. exact micro_enabled. Qed.
(** no leaks: when no operation is under way, an object nobody points to has been deleted *)
Theorem C74_prompt : forall ns s o, reach ns s -> quiet s -> exists_object s o -> owners s o = 0 -> In o (deleted s).
Proof.
  intros ns s o R Q L O. pose proof (inv_reach ns s R) as I. destruct (i_log s I) as [_ L2]. apply L2. split; [exact L|].
  destruct (alive (the s o)) eqn:A; [|reflexivity]. destruct (i_alive s I o A) as [_ D]. rewrite O in D. cbn in D.
  assert (D0 : deletes s o = 0). { unfold deletes. apply sum_zero. intros th Hth. now rewrite (Q th Hth). } lia.
Qed.
(** without cycles, exactly what can be reached from a variable is alive: the rest of every tree is deleted with its root *)
Theorem C74_acyclic_no_leak : forall ns s o, reach ns s -> quiet s -> acyclic s -> (is_alive s o <-> accessible s o).
Proof.
  intros ns s o R Q Ac. pose proof (inv_reach ns s R) as I. split; [now apply alive_accessible|].
  induction 1 as [t i o (th & E & V)|p o Hp IH M].
  - apply (owned_alive s o I). apply (var_owned s t th o E). now apply var_in with i.
  - apply (owned_alive s o I). now apply member_owned with p.
Qed.
(** unique(): a thread that sees use_count 1 through its variable is the only owner, and stays so whatever the others do *)
Theorem C74_unique : forall ns s t i o, reach ns s -> is_var s t i o -> use_count s t i = 1%Z ->
  owners s o = 1 /\
  (forall t' s', t' <> t -> micro_step s t' = Some s' -> is_var s' t i o /\ use_count s' t i = 1%Z) /\
  (forall t' c s', t' <> t -> legal c -> start s t' c = Some s' -> is_var s' t i o /\ use_count s' t i = 1%Z).
Proof.
  intros ns s t i o R (th & E & V) C. pose proof (inv_reach ns s R) as I. unfold use_count in C. rewrite E, V in C.
  split; [exact (proj1 (sole_owner s t th i o I E V C))|]. split.
  - intros t' s' N H. destruct (other_micro s t th i o t' s' I E V C N H) as [H1 H2]. split; [exists th; auto|]. unfold use_count. now rewrite H2, V.
  - intros t' c s' N Lg H. destruct (other_start s t th i o t' c s' I Lg E V C N H) as (H1 & th2 & H2 & H3). split; [exists th2; auto|].
    unfold use_count. now rewrite H2, H3.
Qed.

(** ** What is not true *)
Fixpoint play (s : state) (l : list (nat * option op)) : option state :=
  match l with
  | [] => Some s
  | (t, Some c) :: r => match start s t c with Some s' => play s' r | None => None end
  | (t, None) :: r => match micro_step s t with Some s' => play s' r | None => None end
  end.
Definition legalb (l : list (nat * option op)) : bool := forallb (fun x => match snd x with Some (ResetRaw _) => false | _ => true end) l.
Lemma play_ex s l (f : state -> bool) : match play s l with Some s' => f s' | None => false end = true -> exists s', play s l = Some s' /\ f s' = true.
Proof. destruct (play s l) as [s'|]; intros H; [exists s'; auto|discriminate]. Qed.
(** reset(get()) adopts the pointer again: the object is deleted under the variable, and the next reset touches it *)
Theorem C74_reset_to_self_refuted : exists s, play (initial [1]) [(0, Some (New 0 0)); (0, None); (0, Some (ResetRaw 0)); (0, None); (0, None); (0, None);
    (0, Some (Reset 0)); (0, None); (0, None)] = Some s /\ bad s = true.
Proof. apply play_ex. vm_compute. reflexivity. Qed.

Lemma play_reach ns l : forall s s', reach ns s -> legalb l = true -> play s l = Some s' -> reach ns s'.
Proof.
  induction l as [|[t [c|]] l IH]; intros s s' R L H; cbn [play] in H.
  - injection H as <-. exact R.
  - unfold legalb in L. cbn [forallb snd] in L. apply andb_prop in L. destruct L as [L1 L2].
    destruct (start s t c) as [s1|] eqn:E; [|discriminate]. apply (IH s1 s'); [|exact L2|exact H].
    apply reach_start with s t c; auto. destruct c; try exact I; discriminate.
  - unfold legalb in L. cbn [forallb snd] in L. apply andb_prop in L. destruct L as [L1 L2].
    destruct (micro_step s t) as [s1|] eqn:E; [|discriminate]. apply (IH s1 s'); [|exact L2|exact H].
    now apply reach_micro with s t.
Qed.
(** an object that points to itself is never deleted *)
Definition loop : list (nat * option op) :=
  [(0, Some (New 0 1)); (0, None); (0, Some (Store 0 0 0)); (0, None); (0, None); (0, Some (Reset 0)); (0, None); (0, None)].
Definition loop_state : state := State [Object 1 [Some 0] true] [Thread [None] []] [] false.
Lemma loop_reach : reach [1] loop_state.
Proof. apply (play_reach [1] loop (initial [1])); [apply reach_init|reflexivity|vm_compute; reflexivity]. Qed.
Theorem C74_cycle_refuted : ~ (forall ns s, reach ns s -> quiet s -> (forall t i o, ~ is_var s t i o) -> forall o, ~ is_alive s o).
Proof.
  intros H. apply (H [1] loop_state loop_reach) with (o := 0).
  - intros th [<-|[]]. reflexivity.
  - intros t i o (th & E1 & E2). destruct t as [|[|t]]; cbn in E1; try discriminate. injection E1 as <-. unfold var in E2. cbn in E2.
    destruct i as [|[|i]]; discriminate.
  - reflexivity.
Qed.

(** ** The hypotheses can be met: two threads, an object handed over, a chain deleted with its root *)
Definition chain : list (nat * option op) :=
  [(0, Some (New 0 1)); (0, None); (0, Some (New 1 0)); (0, None); (0, Some (Store 0 0 1)); (0, None); (0, None);
   (0, Some (Copy 2 0)); (0, None); (0, None); (0, Some (Send 2 1 0)); (1, Some (Load 1 0 0)); (0, Some (Reset 1)); (1, None); (0, None); (0, None)].
Definition chain_state : state :=
  State [Object 2 [Some 1] true; Object 2 [] true] [Thread [Some 0; None; None] []; Thread [Some 0; Some 1] []] [] false.
Example C74_ex_chain : play (initial [3; 2]) chain = Some chain_state /\ reach [3; 2] chain_state /\ quiet chain_state /\ acyclic chain_state /\
  is_var chain_state 0 0 0 /\ use_count chain_state 0 0 = 2%Z /\ is_var chain_state 1 1 1 /\ use_count chain_state 1 1 = 2%Z.
Proof.
  split; [vm_compute; reflexivity|]. split.
  { apply (play_reach [3; 2] chain (initial [3; 2])); [apply reach_init|reflexivity|vm_compute; reflexivity]. }
  split.
  { intros th [<-|[<-|[]]]; reflexivity. }
  split.
  { exists (fun o => 1 - o). intros p o Hp. destruct p as [|[|[|p]]]; cbn in Hp.
    - destruct Hp as [Hp|[]]. injection Hp as <-. lia.
    - contradiction.
    - contradiction.
    - contradiction. }
  split; [eexists; split; reflexivity|]. split; [reflexivity|]. split; [eexists; split; reflexivity|]. reflexivity.
Qed.
Definition chain_end : list (nat * option op) :=
  [(1, Some (Reset 1)); (1, None); (0, Some (Reset 0)); (1, None); (0, None); (1, Some (Reset 0)); (1, None); (0, None); (1, None); (1, None); (1, None); (1, None)].
Example C74_ex_chain_end : exists s, play (initial [3; 2]) (chain ++ chain_end) = Some s /\ (match deleted s with [0; 1] => true | _ => false end) = true.
Proof. apply play_ex. vm_compute. reflexivity. Qed.
Example C74_ex_unique : exists s, play (initial [1; 1]) [(0, Some (New 0 0)); (0, None)] = Some s /\ Z.eqb (use_count s 0 0) 1 = true.
Proof. apply play_ex. vm_compute. reflexivity. Qed.

Print Assumptions C74_no_use_after_free.
Print Assumptions C74_deleted_once.
Print Assumptions C74_pointed_alive.
Print Assumptions C74_use_count.
Print Assumptions C74_not_too_early.
Print Assumptions C74_operations_end.
Print Assumptions C74_operations_go_on.
Print Assumptions C74_prompt.
Print Assumptions C74_acyclic_no_leak.
Print Assumptions C74_unique.
Print Assumptions C74_reset_to_self_refuted.
Print Assumptions C74_cycle_refuted.

(** a null pointer has no owners *)
Theorem C74_use_count_null : forall s t i th, nth_error (threads s) t = Some th -> var th i = None -> use_count s t i = 0%Z.
Proof. intros s t i th E V. unfold use_count. rewrite E, V. reflexivity. Qed.
Print Assumptions C74_use_count_null.
