(** * C75: scope guards clean up exactly once, also when callbacks throw *)
From Coq Require Import List Arith Bool Lia Permutation.
From Verif Require Import HandleModel HandleSpec HandleProofs.
Import ListNotations.

(** ** ScopedHolder *)
(** for every cleanup function, throwing whenever it likes, and every sequence of calls: every handle the holder took over is either
    given back by Release or cleaned up successfully, each once and in order; only the destructor's own cleanup may fail for good *)
Theorem C75_holder_account : forall V thr (v : option V) l c xs, hlife thr v l = (c, xs) ->
  exists kept lost, initially v ++ taken l xs = kept ++ lost /\ merge kept (succeeded c) (released l xs) /\
    (lost = [] \/ exists x c0, lost = [x] /\ c = c0 ++ [(x, true)]).
Proof. intros V thr v l c xs. apply hlife_account. Qed.
(** with a cleanup function that does not throw: exactly once, and Set and Clear never throw *)
Theorem C75_holder_exact : forall V thr (v : option V) l c xs, (forall n, thr n = false) -> hlife thr v l = (c, xs) ->
  merge (initially v ++ taken l xs) (map fst c) (released l xs) /\
  (forall k, (exists x, nth_error l k = Some (HSet x)) \/ nth_error l k = Some HClear -> nth_error xs k = Some (Done None)).
Proof.
  intros V thr v l c xs N H. pose proof H as H0. unfold hlife in H0. destruct (hrun thr (holder_new v) [] l) as [[h c1] ys] eqn:E.
  destruct (cleanup thr h c1) as [[h' c2] t] eqn:E2. injection H0 as <- <-.
  destruct (nothrow_calls thr l N _ _ _ _ _ (hwf_new v) (fun z (X : In z []) => match X with end) E) as (A & B & C).
  destruct (hrun_account thr l _ _ _ _ _ (hwf_new v) E) as (W & _).
  assert (A2 : forall z, In z c2 -> snd z = false).
  { destruct (cleanup_cases thr h c1 W) as [[Hv Hc]|[(y & Hh & Ht & Hc)|(y & Hh & Ht & Hc)]]; rewrite Hc in E2; injection E2 as <- <- <-.
    - exact A.
    - rewrite N in Ht. discriminate.
    - intros z Hz. apply in_app_or in Hz. destruct Hz as [Hz|[<-|[]]]; auto. }
  split.
  - destruct (hlife_account thr v l c2 ys H) as (kept & lost & G & M & [L|(x & c0 & L & Lc)]).
    + subst lost. rewrite app_nil_r in G. rewrite G, <- (succeeded_all c2 A2). exact M.
    + exfalso. assert (D : snd (x, true) = false) by (apply A2; rewrite Lc; apply in_or_app; right; now left). discriminate.
  - intros k [[x Hk]|Hk]; [exact (B x k Hk)|exact (C k Hk)].
Qed.
(** Get and Release give the handle of the last Set that returned, unless it was cleared or released since; otherwise they throw *)
Theorem C75_holder_get : forall V thr (v : option V) l h c xs, hrun thr (holder_new v) [] l = (h, c, xs) ->
  valid h = (match current v l xs with Some _ => true | None => false end) /\
  (forall o, o = HGet \/ o = HRelease -> snd (hstep thr h c o) = match current v l xs with Some x => Done (Some x) | None => Threw end).
Proof.
  intros V thr v l h c xs H. pose proof (hrun_current thr l _ _ _ _ _ (hwf_new v) H) as C.
  assert (Ev : (if valid (holder_new v) then handle (holder_new v) else None) = v) by (destruct v; reflexivity). rewrite Ev in C. rewrite <- C.
  destruct (hrun_account thr l _ _ _ _ _ (hwf_new v) H) as (W & _).
  destruct (valid h) eqn:Hv.
  - destruct (W Hv) as [y Hy]. rewrite Hy. split; [reflexivity|]. intros o [->| ->]; cbn; rewrite Hv, Hy; reflexivity.
  - split; [reflexivity|]. intros o [->| ->]; cbn; rewrite Hv; reflexivity.
Qed.
(** shared holders: the same account when the last copy is gone *)
Theorem C75_shared_holder_account : forall V thr (v : option V) l s c xs, shrun thr (Shared 1 (holder_new v)) [] l = (s, c, xs) -> copies s = 0 ->
  exists kept lost, initially v ++ sh_taken l xs = kept ++ lost /\ merge kept (succeeded c) (sh_released l xs) /\
    (lost = [] \/ exists x c0, lost = [x] /\ c = c0 ++ [(x, true)]).
Proof.
  intros V thr v l s c xs H Z. destruct (shrun_account thr l 0 _ _ _ _ _ (hwf_new v) H Z) as (cs & kept & lost & -> & G & M & L).
  rewrite cur_new in G. exists kept, lost. auto.
Qed.
(** not true: a cleanup that failed in Clear is not called again: the destructor repeats it *)
Theorem C75_holder_cleanup_once_refuted : exists (thr : nat -> bool) l c xs, hlife thr (Some 7) l = (c, xs) /\ map fst c = [7; 7] /\ l = [HClear].
Proof. exists (fun n => n =? 0), [HClear], [(7, true); (7, false)], [Threw]. repeat split. Qed.
(** not true: Set takes its handle over in any case: when the old handle's cleanup throws, the new handle is lost *)
Theorem C75_holder_set_takes_refuted : exists (thr : nat -> bool) c xs, hlife thr (Some 1) [HSet 2] = (c, xs) /\ ~ In 2 (map fst c) /\ ~ In 2 (released [HSet 2] xs).
Proof. exists (fun n => n =? 0), [(1, true); (1, false)], [Threw]. repeat split; cbn; intuition discriminate. Qed.

(** ** ScopeExitInvoker: once, unless cancelled *)
Theorem C75_scope_exit : forall l, sx_life l = if existsb (fun o => match o with SXCancel => true end) l then 0 else 1.
Proof.
  intros l. unfold sx_life. assert (G : forall b, fold_left (fun (f : bool) o => match o with SXCancel => false end) l b = b && negb (existsb (fun o => match o with SXCancel => true end) l)).
  { induction l as [|[] l IH]; intros b; cbn; [now rewrite andb_true_r|]. rewrite IH. now rewrite andb_false_r. }
  rewrite G. destruct (existsb _ l); reflexivity.
Qed.

(** ** ActionTransaction *)
(** all or nothing: with undoable actions, a transaction that was not committed leaves the world as it was, and a committed one leaves
    the effect of the actions that succeeded, and has called no rollback *)
Theorem C75_transaction_all_or_nothing : forall S (l : list (top S)) s0 s' g ts, all_pairs undoable l -> tlife s0 l = (s', g, ts) ->
  (committed l ts = false -> s' = s0) /\
  (committed l ts = true -> g = [] /\ s' = fold_left (fun s a => fst (body (fst a) s)) (executed l ts) s0).
Proof. intros. eapply tlife_restores; eauto. Qed.
(** which rollbacks are called: those of the actions that succeeded, last first, each once; none after a commit *)
Theorem C75_transaction_order : forall S (l : list (top S)) s s' g ts, all_pairs (fun _ r => never_throws r) l -> tlife s l = (s', g, ts) ->
  g = if committed l ts then [] else map (fun f => (fid f, false)) (rev (map snd (executed l ts))).
Proof. intros S l s s' g ts. apply tlife_order. Qed.
(** after a Commit or Rollback that returned, every call throws and does nothing *)
Theorem C75_transaction_closed : forall S (x : tx S) s o x' s' g l, (o = TCommit \/ o = TRollback) -> tstep x s o = (x', s', g, false) ->
  trun x' s' l = (x', s', [], map (fun _ => true) l).
Proof.
  intros S x s o x' s' g l Ho H. apply trun_inactive. unfold tstep in H. destruct (active x); [|discriminate]. destruct Ho as [->| ->].
  - injection H as <- <- <-. reflexivity.
  - destruct (undo (rev (seq x)) s) as [[s1 g1] [|]]; [discriminate|]. injection H as <- <- <-. reflexivity.
Qed.
(** a rollback that throws ends the Rollback: the rollbacks called are the last ones, in reverse order, up to the one that threw *)
Theorem C75_transaction_rollback_prefix : forall S (x : tx S) s x' s' g t, active x = true -> tstep x s TRollback = (x', s', g, t) ->
  exists dn rest, rev (seq x) = dn ++ rest /\ map fst g = map fid dn /\
    (t = false -> rest = [] /\ active x' = false /\ forall e, In e g -> snd e = false) /\
    (t = true -> x' = x /\ exists g0 k, g = g0 ++ [(k, true)] /\ forall e, In e g0 -> snd e = false).
Proof.
  intros S x s x' s' g t A H. unfold tstep in H. rewrite A in H. destruct (undo (rev (seq x)) s) as [[s1 g1] t1] eqn:E.
  destruct (undo_prefix _ _ _ _ _ E) as (dn & rest & Q & M & I1 & I2). exists dn, rest.
  destruct t1; injection H as <- <- <- <-; (split; [exact Q|]; split; [exact M|]; split).
  - discriminate.
  - intros _. split; [reflexivity|auto].
  - intros _. destruct (I1 eq_refl). auto.
  - discriminate.
Qed.
(** not true: each rollback is called once. One throws in Rollback; the destructor begins again with the last *)
Definition ok_func (n : nat) : func nat := Func n (fun s => (s, false)).
Definition bad_func (n : nat) : func nat := Func n (fun s => (s, true)).
Theorem C75_transaction_rollback_once_refuted : exists s' g ts,
  tlife 0 [TExecute (ok_func 1) (bad_func 11); TExecute (ok_func 2) (ok_func 12); TRollback] = (s', g, ts) /\ map fst g = [12; 11; 12; 11].
Proof. eexists _, _, _. split; reflexivity. Qed.
(** not true: every rollback is at least tried *)
Theorem C75_transaction_rollback_all_refuted : exists s' g ts,
  tlife 0 [TExecute (ok_func 1) (ok_func 11); TExecute (ok_func 2) (bad_func 12)] = (s', g, ts) /\ map fst g = [12].
Proof. eexists _, _, _. split; reflexivity. Qed.

(** ** tokens *)
(** every function in a token runs exactly once when it is destroyed *)
Theorem C75_token_once : forall t, Permutation (tdestroy t) (functions t).
Proof. exact tdestroy_once. Qed.
Theorem C75_token_order : forall l, tdestroy (Multi true l) = flat_map tdestroy l /\ tdestroy (Multi false l) = flat_map tdestroy (rev l).
Proof. intros l. split; [apply tdestroy_forward|apply tdestroy_backward]. Qed.
(** a builder gives a token with exactly the tokens added, once: afterwards every use throws *)
Theorem C75_builder : forall forward ts l,
  brun forward (Some []) (map BAdd ts ++ BToken :: l) = (None, map (fun _ => Done None) ts ++ Done (Some (Multi forward ts)) :: map (fun _ => Threw) l).
Proof.
  intros forward ts l. assert (G : forall acc, brun forward (Some acc) (map BAdd ts ++ BToken :: l) = (None, map (fun _ => Done None) ts ++ Done (Some (Multi forward (acc ++ ts))) :: map (fun _ => Threw) l)).
  { induction ts as [|t ts IH]; intros acc; cbn [map app brun bstep].
    - rewrite brun_used, app_nil_r. reflexivity.
    - rewrite IH, <- app_assoc. reflexivity. }
  apply G.
Qed.

(** ** unique_ptr *)
(** nothing is deleted twice *)
Theorem C75_unique_deleted_once : forall n s, ureach n s -> NoDup (udeleted s) /\ forall o, In o (udeleted s) -> o < made s.
Proof. intros n s R. pose proof (uinv_reach n s R) as I. split; [exact (u_nodup s I)|exact (u_made s I)]. Qed.
(** what a variable owns, or release() gave out, is not deleted, and has no other owner *)
Theorem C75_unique_owner : forall n s, ureach n s ->
  (forall i o, owns s i o -> o < made s /\ ~ In o (udeleted s)) /\
  (forall i j o, owns s i o -> owns s j o -> i = j) /\
  (forall o, In o (raws s) -> o < made s /\ ~ In o (udeleted s) /\ forall i, ~ owns s i o).
Proof.
  intros n s R. pose proof (uinv_reach n s R) as I. split; [|split].
  - intros i o H. apply (count_alive s o I). pose proof (owns_count s i o H). unfold ucount. lia.
  - intros i j o [Vi Ni] [Vj Nj]. pose proof (count_le s o I) as C. unfold ucount in C.
    assert (Mi : nth i (mask (uvars s) (pending s)) None = Some o) by (rewrite mask_nth, (blocked_not _ _ Ni); exact Vi).
    assert (Mj : nth j (mask (uvars s) (pending s)) None = Some o) by (rewrite mask_nth, (blocked_not _ _ Nj); exact Vj).
    destruct (Nat.lt_trichotomy i j) as [L|[E|L]]; [|exact E|].
    + pose proof (refs_two o _ i j L Mi Mj). lia.
    + pose proof (refs_two o _ j i L Mj Mi). lia.
  - intros o H. pose proof (raw_count s o H). assert (C : 0 < ucount s o) by (unfold ucount; lia). destruct (count_alive s o I C). split; [assumption|]. split; [assumption|].
    intros i Hi. pose proof (owns_count s i o Hi). pose proof (count_le s o I). unfold ucount in *. lia.
Qed.
(** no leaks: when no operation is under way, an object is deleted, owned by a variable, or in the hands of the caller of release() *)
Theorem C75_unique_no_leak : forall n s o, ureach n s -> utodo s = [] -> o < made s ->
  In o (udeleted s) \/ (exists i, owns s i o) \/ In o (raws s).
Proof.
  intros n s o R T L. pose proof (uinv_reach n s R) as I. destruct (is_deleted s o) eqn:D; [left; now apply is_deleted_in|]. right.
  pose proof (u_count s I o) as C. rewrite D in C. destruct (Nat.ltb_spec o (made s)); [|lia]. cbn [andb negb] in C. unfold ucount in C. rewrite T in C. cbn [flat_map] in C. rewrite refs_nil in C.
  destruct (Nat.eq_dec (refs o (mask (uvars s) (pending s))) 0) as [Z|Z].
  - right. assert (P : 0 < refs o (map Some (raws s))) by lia. apply refs_in in P. apply in_map_iff in P. destruct P as (x & E & P). injection E as ->. exact P.
  - left. assert (P : 0 < refs o (mask (uvars s) (pending s))) by lia. apply refs_in in P. destruct (In_nth _ _ None P) as (i & Li & Ei).
    rewrite mask_nth in Ei. exists i. destruct (blocked (pending s) i) eqn:B; [discriminate|]. split; [exact Ei|]. intros X. apply blocked_in in X. congruence.
Qed.
(** p = std::move(p) changes nothing and deletes nothing *)
Theorem C75_unique_self_move : forall s i, utodo s = [] -> i < length (uvars s) ->
  exists s1, ustart s (UMove i i) = Some s1 /\ ustep s1 = Some (U (uset (uset (uvars s) i None) i (uvar s i)) (raws s) (made s) (udeleted s) []) /\
    forall k, nth k (uset (uset (uvars s) i None) i (uvar s i)) None = uvar s k.
Proof.
  intros s i T L. unfold ustart, running. rewrite T. cbn [negb]. destruct (Nat.ltb_spec i (length (uvars s))); [|lia]. cbn [andb].
  eexists. split; [reflexivity|]. unfold reset_code, uvar. cbn [uvars utodo]. rewrite !uset_upd.
  assert (E : nth i (upd (uvars s) i None) None = None) by (rewrite nth_upd, Nat.eqb_refl; destruct (Nat.ltb_spec i (length (uvars s))); [reflexivity|lia]).
  rewrite E. cbn [delete_of app]. split; [reflexivity|].
  intros k. rewrite !nth_upd, upd_length. destruct (Nat.ltb_spec i (length (uvars s))); [|lia]. destruct (Nat.eqb_spec i k) as [->|]; reflexivity.
Qed.
Fixpoint uplay (s : ustate) (l : list (option uop)) : option ustate :=
  match l with
  | [] => Some s
  | Some c :: r => match ustart s c with Some s' => uplay s' r | None => None end
  | None :: r => match ustep s with Some s' => uplay s' r | None => None end
  end.
(** not true: a destructor may reset the variable that is being reset: it still holds the object, which is deleted twice *)
Theorem C75_unique_reentrant_reset_refuted : exists s, uplay (uinitial 1) [Some (UMake 0); None; Some (UReset 0); None; Some (UReset 0); None; None; None] = Some s /\ udeleted s = [0; 0].
Proof. eexists. split; reflexivity. Qed.
(** not true: reset(get()) is harmless *)
Theorem C75_unique_reset_get_refuted : exists s, uplay (uinitial 1) [Some (UMake 0); None; Some (UResetGet 0); None; None; Some (UReset 0); None; None] = Some s /\ udeleted s = [0; 0].
Proof. eexists. split; reflexivity. Qed.

(** ** The hypotheses can be met *)
Example C75_ex_holder : hlife (fun n => n =? 1) (Some 1) [HSet 2; HClear; HClear; HSet 3; HRelease; HGet; HSet 4] =
  ([(1, false); (2, true); (2, false); (4, false)], [Done None; Threw; Done None; Done None; Done (Some 3); Threw; Done None]).
Proof. reflexivity. Qed.
Example C75_ex_shared : exists s c xs, shrun (fun _ => false) (Shared 1 (holder_new (Some 5))) [] [SCopy; SDrop; SOp (HSet 6); SDrop] = (s, c, xs) /\ copies s = 0 /\ c = [(5, false); (6, false)].
Proof. eexists _, _, _. repeat split. Qed.
Definition plus (n k : nat) : func nat := Func n (fun s => (s + k, false)).
Definition minus (n k : nat) : func nat := Func n (fun s => (s - k, false)).
Definition fails (n : nat) : func nat := Func n (fun s => (s, true)).
Definition ex_ops : list (top nat) := [TExecute (plus 1 5) (minus 11 5); TExecute (fails 2) (minus 12 1); TExecute (plus 3 2) (minus 13 2)].
Example C75_ex_transaction : all_pairs undoable ex_ops /\ all_pairs (fun _ r => never_throws r) ex_ops /\
  tlife 10 ex_ops = (10, [(13, false); (11, false)], [false; true; false]) /\
  tlife 10 (ex_ops ++ [TCommit]) = (17, [], [false; true; false; false]).
Proof.
  assert (U : forall n m k, undoable (plus n k) (minus m k)).
  { intros n m k. split; intros s s' H; injection H as <-; [discriminate|]. unfold minus. cbn. f_equal. lia. }
  split; [|split; [|split; reflexivity]].
  - intros a r [H|[H|[H|[]]]]; injection H as <- <-; [apply U| |apply U]. split; intros s s' H; injection H as <-; [reflexivity|discriminate].
  - intros a r [H|[H|[H|[]]]]; injection H as <- <-; intros s; reflexivity.
Qed.
Example C75_ex_token : tdestroy (Multi false [Fn 1; Multi true [Fn 2; Fn 3]; Fn 4]) = [4; 2; 3; 1].
Proof. reflexivity. Qed.
Fixpoint uok (s : ustate) (l : list (option uop)) : bool :=
  match l with
  | [] => true
  | Some c :: r => forallb (fun i => negb (blocked (pending s) i)) (variables_of c) && (match c with UResetGet _ => false | _ => true end) &&
                   match ustart s c with Some s' => uok s' r | None => false end
  | None :: r => match ustep s with Some s' => uok s' r | None => false end
  end.
Lemma ureach_play n l : forall s s', ureach n s -> uok s l = true -> uplay s l = Some s' -> ureach n s'.
Proof.
  induction l as [|[c|] l IH]; intros s s' R O H; cbn [uplay] in H; cbn [uok] in O.
  - injection H as <-. exact R.
  - apply andb_prop in O. destruct O as [O1 O2]. apply andb_prop in O1. destruct O1 as [O1 O3]. destruct (ustart s c) as [s1|] eqn:E; [|discriminate].
    apply (IH s1 s'); auto. apply ureach_start with s c; auto. split; [|destruct c; try exact I; discriminate].
    intros i Hi X. rewrite forallb_forall in O1. specialize (O1 i Hi). apply blocked_in in X. rewrite X in O1. discriminate.
  - destruct (ustep s) as [s1|] eqn:E; [|discriminate]. apply (IH s1 s'); auto. now apply ureach_step with s.
Qed.
(** a destructor that resets another variable, a move, a release: *)
Example C75_ex_unique : exists s, ureach 3 s /\ utodo s = [] /\ udeleted s = [0; 1] /\ owns s 2 2 /\ made s = 3.
Proof.
  exists (U [None; None; Some 2] [] 3 [0; 1] []).
  split.
  - eapply (ureach_play 3 [Some (UMake 0); None; Some (UMake 1); None; Some (UReset 0); None; Some (UReset 1); None; None; None; Some (UMake 0); None; Some (UMove 2 0); None]).
    + apply ureach_init.
    + vm_compute. reflexivity.
    + vm_compute. reflexivity.
  - repeat split; cbn; auto.
Qed.

Print Assumptions C75_holder_account.
Print Assumptions C75_holder_exact.
Print Assumptions C75_holder_get.
Print Assumptions C75_shared_holder_account.
Print Assumptions C75_holder_cleanup_once_refuted.
Print Assumptions C75_holder_set_takes_refuted.
Print Assumptions C75_scope_exit.
Print Assumptions C75_transaction_all_or_nothing.
Print Assumptions C75_transaction_order.
Print Assumptions C75_transaction_closed.
Print Assumptions C75_transaction_rollback_prefix.
Print Assumptions C75_transaction_rollback_once_refuted.
Print Assumptions C75_transaction_rollback_all_refuted.
Print Assumptions C75_token_once.
Print Assumptions C75_token_order.
Print Assumptions C75_builder.
Print Assumptions C75_unique_deleted_once.
Print Assumptions C75_unique_owner.
Print Assumptions C75_unique_no_leak.
Print Assumptions C75_unique_self_move.
Print Assumptions C75_unique_reentrant_reset_refuted.
Print Assumptions C75_unique_reset_get_refuted.
