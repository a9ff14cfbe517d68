(** Proofs about the reading and writing helpers. *)
From Verif Require Import Base ReadHelpModel ReadHelpSpec.

Arguments so_got {D rest}. Arguments so_closed {D rest}. Arguments so_failed {D rest}. Arguments so_sticky {D rest}.
Arguments si_put {D out}. Arguments si_fail {D out}.

Section R.
Variable D : Stream.
Variable rest : st D -> list byte.
Hypothesis So : source D rest.

(** What ReadAll has read is a front part; an exception loses what this call had read. *)
Lemma read_all_ok : forall F p n got last p' r, read_all F D p n got last = (p', r) -> length got <= n ->
  exists t, rest p = t ++ rest p' /\
  match r with
  | Ok g => g = got ++ t /\ length g <= n
  | ThrClosed => rest p' = []
  | _ => True
  end.
Proof.
  induction F; intros p n got last p' r H B; cbn [read_all] in H.
  - injection H as <- <-. exists []. auto.
  - destruct (tok D p && (length got <? n) && match last with Some 0 => false | _ => true end) eqn:C.
    + destruct (rd D p (n - length got)) as [p1 [bs | | ]] eqn:E.
      * destruct (so_got So _ _ _ _ E) as [Lb Er]. 
        destruct (IHF _ _ _ _ _ _ H) as (t & Et & R); [rewrite app_length; lia | ].
        exists (bs ++ t). split; [rewrite Er, Et, app_assoc; reflexivity | ].
        destruct r; auto. rewrite app_assoc. exact R.
      * injection H as <- <-. destruct (so_closed So _ _ _ E) as [E1 E2]. exists []. rewrite E1, E2. auto.
      * injection H as <- <-. exists []. rewrite (so_failed So _ _ _ E). auto.
    + injection H as <- <-. exists []. rewrite app_nil_r. auto.
Qed.

Lemma read_all_sticky : forall F p n got last p' r, read_all F D p n got last = (p', r) -> tok D p' = true -> tok D p = true.
Proof.
  induction F; intros p n got last p' r H T; cbn [read_all] in H.
  - injection H as <- <-. exact T.
  - destruct (tok D p) eqn:Tp; [reflexivity | ]. cbn [andb] in H. injection H as <- <-. congruence.
Qed.

(** It stops short only at the end or when cancelled. *)
Lemma read_all_full : eager D rest -> forall F p n got last p' g, read_all F D p n got last = (p', Ok g) -> length got <= n ->
  (last = Some 0 -> rest p = [] \/ tok D p = false) ->
  length g = n \/ rest p' = [] \/ tok D p' = false.
Proof.
  intros Ea. induction F; intros p n got last p' g H B Hl; cbn [read_all] in H; [discriminate | ].
  destruct (tok D p) eqn:T; cbn [andb] in H; [ | injection H as <- <-; auto].
  destruct (Nat.ltb_spec (length got) n); cbn [andb] in H; [ | injection H as <- <-; left; lia].
  destruct (match last with Some 0 => false | _ => true end) eqn:L.
  - destruct (rd D p (n - length got)) as [p1 [bs | | ]] eqn:E; try discriminate.
    destruct (so_got So _ _ _ _ E) as [Lb Er]. apply IHF in H; [exact H | rewrite app_length; lia | ].
    intros Z. injection Z as Z. destruct bs; [ | discriminate]. destruct (Ea _ _ _ E ltac:(lia)) as [Q | Q]; [left | right; exact Q].
    rewrite Q in Er. cbn in Er. congruence.
  - injection H as <- <-. destruct last as [[ | ] | ]; try discriminate. destruct (Hl eq_refl); auto; congruence.
Qed.

Lemma read_all_ends : forall F p n got last, length got <= n -> n - length got < F ->
  (last = Some 0 -> 0 < F) -> snd (read_all F D p n got last) <> Hang.
Proof.
  assert (G : forall F p n got last, length got <= n -> 0 < F -> (match last with Some 0 => True | _ => n - length got < F end) ->
    snd (read_all F D p n got last) <> Hang).
  { induction F; intros p n got last B Fp HF; [lia | ]. cbn [read_all].
    destruct (tok D p && (length got <? n) && match last with Some 0 => false | _ => true end) eqn:C; [ | discriminate].
    apply andb_true_iff in C. destruct C as [C C3]. apply andb_true_iff in C. destruct C as [_ C2]. apply Nat.ltb_lt in C2.
    assert (HF' : n - length got < S F) by (destruct last as [[ | ] | ]; try discriminate; exact HF).
    destruct (rd D p (n - length got)) as [p1 [bs | | ]] eqn:E; [ | discriminate | discriminate].
    destruct (so_got So _ _ _ _ E) as [Lb Er].
    apply IHF; [rewrite app_length; lia | lia | ]. rewrite app_length.
    destruct bs; [exact I | cbn [length]; lia]. }
  intros F p n got last B H _. apply G; [exact B | lia | ]. destruct last as [[ | ] | ]; auto.
Qed.

(** ReadToEnd *)
Lemma rte_ok : eager D rest -> forall F p size acc p' r, rte_loop F D p size acc = (p', r) -> length acc < size ->
  match r with
  | Ok g => g = acc ++ rest p /\ rest p' = [] /\ tok D p' = true
  | _ => True
  end.
Proof.
  intros Ea. induction F; intros p size acc p' r H B; cbn [rte_loop] in H; [injection H as <- <-; exact I | ].
  destruct (tok D p) eqn:T; [ | injection H as <- <-; exact I].
  destruct (read_all (S size) D p (size - length acc) [] None) as [p1 r1] eqn:E.
  destruct r1 as [got | | | | ]; try (injection H as <- <-; exact I).
  destruct (read_all_ok _ _ _ _ _ _ _ E ltac:(cbn; lia)) as (t & Et & Eg & Lg). cbn [app] in Eg. subst t.
  pose proof (read_all_full Ea _ _ _ _ _ _ _ E ltac:(cbn; lia) ltac:(discriminate)) as Fu.
  destruct (Nat.eqb_spec (length got) (size - length acc)) as [El | Nl].
  - apply IHF in H; [ | rewrite app_length; lia]. destruct r; auto. destruct H as (-> & H2 & H3).
    rewrite <- app_assoc, <- Et. auto.
  - destruct (tok D p1) eqn:T1; injection H as <- <-; [ | exact I].
    destruct Fu as [Fu | [Fu | Fu]]; [lia | | congruence]. rewrite Et, Fu, app_nil_r. auto.
Qed.

Lemma rte_ends : forall F p size acc, length acc < size -> length (rest p) < F -> snd (rte_loop F D p size acc) <> Hang.
Proof.
  induction F; intros p size acc B HF; [lia | ]. cbn [rte_loop]. destruct (tok D p); [ | discriminate].
  pose proof (read_all_ends (S size) p (size - length acc) [] None ltac:(cbn; lia) ltac:(cbn; lia) ltac:(discriminate)) as Ne.
  destruct (read_all (S size) D p (size - length acc) [] None) as [p1 r1] eqn:E. cbn [snd] in Ne.
  destruct r1 as [got | | | | ]; try discriminate; [ | congruence].
  destruct (read_all_ok _ _ _ _ _ _ _ E ltac:(cbn; lia)) as (t & Et & Eg & Lg). cbn [app] in Eg. subst t.
  destruct (Nat.eqb_spec (length got) (size - length acc)).
  - apply IHF; [rewrite app_length; lia | ]. rewrite Et, app_length in HF. lia.
  - destruct (tok D p1); discriminate.
Qed.

(** BufferedPipe *)
Lemma buffered_source cap : source (buffered_pipe cap D) (fun s => fst s ++ rest (snd s)).
Proof.
  constructor; cbn [buffered_pipe rd st tok].
  - intros [buf p] n [buf' p'] bs H. cbn [bp_read fst snd] in *. destruct buf as [ | b buf].
    + destruct (rd D p cap) as [p1 [l | | ]] eqn:E; try discriminate.
      destruct (so_got So _ _ _ _ E) as [Lb Er].
      destruct l as [ | x l]; injection H as <- <- <-.
      * split; [cbn; lia | exact Er].
      * set (y := x :: l) in *. change (match n with 0 => 0 | S m' => S (Nat.min (length l) m') end) with (Nat.min (length y) n). split; [rewrite firstn_length; lia | ]. cbn [app]. rewrite app_assoc, firstn_skipn. exact Er.
    + injection H as <- <- <-. set (y := b :: buf) in *. change (match n with 0 => 0 | S m' => S (Nat.min (length buf) m') end) with (Nat.min (length y) n). split; [rewrite firstn_length; lia | ]. rewrite app_assoc, firstn_skipn. reflexivity.
  - intros [buf p] n [buf' p'] H. cbn [bp_read fst snd] in *. destruct buf as [ | b buf]; [ | discriminate].
    destruct (rd D p cap) as [p1 [[ | x l] | | ]] eqn:E; try discriminate. injection H as <- <-. exact (so_closed So _ _ _ E).
  - intros [buf p] n [buf' p'] H. cbn [bp_read fst snd] in *. destruct buf as [ | b buf]; [ | discriminate].
    destruct (rd D p cap) as [p1 [[ | x l] | | ]] eqn:E; try discriminate. injection H as <- <-. exact (so_failed So _ _ _ E).
  - intros [buf p] n [buf' p'] a H T. cbn [bp_read fst snd] in *. destruct buf as [ | b buf].
    + destruct (rd D p cap) as [p1 [[ | x l] | | ]] eqn:E; injection H as <- <- <-; exact (so_sticky So _ _ _ _ E T).
    + injection H as <- <- <-. exact T.
Qed.
Lemma buffered_eager cap : 0 < cap -> eager D rest -> eager (buffered_pipe cap D) (fun s => fst s ++ rest (snd s)).
Proof.
  intros Hc Ea [buf p] n [buf' p'] H Hn. cbn [buffered_pipe rd bp_read fst snd tok] in *. destruct buf as [ | b buf].
  - destruct (rd D p cap) as [p1 [[ | x l] | | ]] eqn:E; try discriminate.
    + injection H as <- <-. exact (Ea _ _ _ E Hc).
    + injection H as _ _ H. destruct n; [lia | discriminate H].
  - injection H as _ _ H. destruct n; [lia | discriminate H].
Qed.

(** PipeReader *)
Lemma read_byte_ok p p' r : read_byte D p = (p', r) ->
  match r with
  | Ok b => rest p = b :: rest p'
  | ThrClosed => rest p = [] /\ rest p' = []
  | ThrCancelled => rest p' = rest p
  | ThrOther => rest p' = rest p
  | Hang => False
  end.
Proof.
  unfold read_byte. intros H. destruct (rd D p 1) as [p1 [bs | | ]] eqn:E.
  - destruct (so_got So _ _ _ _ E) as [Lb Er]. destruct bs as [ | b [ | c bs]].
    + injection H as <- <-. destruct (tok D p1); symmetry; exact Er.
    + injection H as <- <-. exact Er.
    + cbn in Lb. lia.
  - injection H as <- <-. exact (so_closed So _ _ _ E).
  - injection H as <- <-. exact (so_failed So _ _ _ E).
Qed.

Lemma plain_app a b : plain (a ++ b) <-> plain a /\ plain b.
Proof. unfold plain. rewrite !in_app_iff. tauto. Qed.
Lemma plain_1 b : b <> LF -> b <> CR -> plain [b].
Proof. intros H1 H2. split; intros [E | []]; congruence. Qed.

Lemma read_line_ok : forall F p result p' r, read_line F D p result = (p', r) -> plain result ->
  exists t, plain t /\
  match r with
  | Ok l => l = result ++ t /\
      (rest p = t ++ [LF] ++ rest p' \/ rest p = t ++ [CR; LF] ++ rest p' \/
       (l <> [] /\ rest p' = [] /\ (rest p = t \/ rest p = t ++ [CR])))
  | ThrClosed => result ++ t = [] /\ rest p' = [] /\ (rest p = [] \/ rest p = [CR])
  | ThrOther => (exists c, c <> LF /\ rest p = t ++ [CR; c] ++ rest p') \/ rest p = t ++ rest p' \/ rest p = t ++ [CR] ++ rest p'
  | ThrCancelled => rest p = t ++ rest p' \/ rest p = t ++ [CR] ++ rest p'
  | Hang => length t = F
  end.
Proof.
  induction F; intros p result p' r H Pl; cbn [read_line] in H.
  - injection H as <- <-. exists []. split; [split; intros [] | reflexivity].
  - assert (Pn : plain []) by (split; intros []).
    destruct (read_byte D p) as [p1 r1] eqn:E. pose proof (read_byte_ok _ _ _ E) as B.
    destruct r1 as [b | | | | ].
    + destruct (Nat.eqb_spec b LF) as [-> | NL].
      { injection H as <- <-. exists []. split; [exact Pn | ]. rewrite app_nil_r. split; [reflexivity | left; exact B]. }
      destruct (Nat.eqb_spec b CR) as [-> | NC].
      * destruct (read_byte D p1) as [p2 r2] eqn:E2. pose proof (read_byte_ok _ _ _ E2) as B2.
        destruct r2 as [c | | | | ].
        -- destruct (Nat.eqb_spec c LF) as [-> | NL2]; injection H as <- <-; exists []; (split; [exact Pn | ]).
           ++ rewrite app_nil_r. split; [reflexivity | right; left]. rewrite B, B2. reflexivity.
           ++ left. exists c. split; [exact NL2 | ]. rewrite B, B2. reflexivity.
        -- destruct B2 as [B2 B3]. rewrite B2 in B. destruct result as [ | x res]; injection H as <- <-; exists []; (split; [exact Pn | ]).
           ++ auto.
           ++ rewrite app_nil_r. split; [reflexivity | ]. right. right. split; [discriminate | ]. split; [exact B3 | right; exact B].
        -- injection H as <- <-. exists []. split; [exact Pn | ]. right. rewrite B, B2. reflexivity.
        -- injection H as <- <-. exists []. split; [exact Pn | ]. right. right. rewrite B, B2. reflexivity.
        -- contradiction.
      * apply IHF in H; [ | apply plain_app; split; [exact Pl | apply plain_1; assumption]].
        destruct H as (t & Pt & H). exists (b :: t). split; [change (b :: t) with ([b] ++ t); apply plain_app; split; [apply plain_1; assumption | exact Pt] | ].
        rewrite B. destruct r as [l | | | | ].
        -- rewrite <- app_assoc in H. cbn [app] in *. destruct H as (-> & H). split; [reflexivity | ].
           destruct H as [H | [H | (H1 & H2 & [H3 | H3])]]; [left | right; left | right; right | right; right]; rewrite ?H, ?H3 by auto; auto.
        -- destruct H as (H & _). exfalso. rewrite <- app_assoc in H. cbn [app] in H. destruct result; discriminate.
        -- cbn [app]. destruct H as [H | H]; rewrite H; auto.
        -- cbn [app] in *. destruct H as [(c & H1 & H2) | [H | H]]; [left; exists c; rewrite H2; auto | rewrite H; auto | rewrite H; auto].
        -- cbn [length]. f_equal. exact H.
    + destruct B as [B1 B2]. destruct result as [ | x res]; injection H as <- <-; exists []; (split; [exact Pn | ]).
      * auto.
      * rewrite app_nil_r. split; [reflexivity | ]. right. right. split; [discriminate | ]. auto.
    + injection H as <- <-. exists []. split; [exact Pn | ]. left. symmetry. exact B.
    + injection H as <- <-. exists []. split; [exact Pn | ]. right. left. symmetry. exact B.
    + contradiction.
Qed.

Lemma read_line_ends : forall F p result, length (rest p) < F -> snd (read_line F D p result) <> Hang.
Proof.
  induction F; intros p result HF; [lia | ]. cbn [read_line].
  destruct (read_byte D p) as [p1 r1] eqn:E. pose proof (read_byte_ok _ _ _ E) as B. destruct r1 as [b | | | | ]; try discriminate.
  - destruct (b =? LF); [discriminate | ]. destruct (b =? CR).
    + destruct (read_byte D p1) as [p2 r2]. destruct r2; try discriminate; [destruct (a =? LF); discriminate | destruct result; discriminate].
    + apply IHF. rewrite B in HF. cbn in HF. lia.
  - destruct result; discriminate.
Qed.
End R.

(** Writing *)
Lemma write_all_ok D out : sink D out -> forall F p d total last p' r, write_all F D p d total last = (p', r) -> total <= length d ->
  exists k, total <= k <= length d /\
  match r with
  | Ok w => w = k /\ out p' = out p ++ firstn (k - total) (skipn total d)
  | _ => exists j, out p' = out p ++ firstn j (skipn total d)
  end.
Proof.
  intros Si. induction F; intros p d total last p' r H B; cbn [write_all] in H.
  - injection H as <- <-. exists total. split; [lia | ]. exists 0. rewrite app_nil_r. reflexivity.
  - destruct (tok D p && (total <? length d) && match last with Some 0 => false | _ => true end).
    + destruct (wt D p (skipn total d)) as [p1 [k | ]] eqn:E.
      * destruct (si_put Si _ _ _ _ E) as [Lk Ek]. rewrite skipn_length in Lk.
        destruct (IHF _ _ _ _ _ _ H ltac:(lia)) as (k' & Bk & R).
        assert (Sp : forall a b, firstn (a + b) (skipn total d) = firstn a (skipn total d) ++ firstn b (skipn (total + a) d)).
        { clear. intros a b. replace (skipn (total + a) d) with (skipn a (skipn total d)).
          - generalize (skipn total d) as l. induction a; intros l; cbn; [reflexivity | ]. destruct l; cbn; [destruct b; reflexivity | ]. f_equal. apply IHa.
          - revert d. induction total; intros d; [reflexivity | ]. destruct d; [cbn; destruct a; reflexivity | ]. apply IHtotal. }
        exists k'. split; [lia | ].
        assert (G : forall j, out p' = out p1 ++ firstn j (skipn (total + k) d) -> out p' = out p ++ firstn (k + j) (skipn total d)).
        { intros j Hj. rewrite Hj, Ek, <- app_assoc, <- Sp. reflexivity. }
        destruct r as [w | | | | ]; try (destruct R as (j & Rj); exists (k + j); apply G; exact Rj).
        destruct R as [-> R]. split; [reflexivity | ]. apply G in R. rewrite R. do 2 f_equal. lia.
      * injection H as <- <-. exists total. split; [lia | ]. exact (si_fail Si _ _ _ E).
    + injection H as <- <-. exists total. split; [lia | ]. split; [reflexivity | ]. rewrite Nat.sub_diag. cbn. rewrite app_nil_r. reflexivity.
Qed.

Lemma plain_split : forall a b x y u v, plain a -> plain b -> (x = LF \/ x = CR) -> (y = LF \/ y = CR) ->
  a ++ x :: u = b ++ y :: v -> a = b /\ x = y /\ u = v.
Proof.
  induction a as [ | c a IH]; intros [ | d b] x y u v [A1 A2] [B1 B2] Hx Hy E; cbn [app] in E.
  - injection E as -> ->. auto.
  - exfalso. injection E as E _. cbn [In] in *. destruct Hx; [apply B1 | apply B2]; left; congruence.
  - exfalso. injection E as E _. cbn [In] in *. destruct Hy; [apply A1 | apply A2]; left; congruence.
  - injection E as -> E. destruct (IH b x y u v) as (-> & -> & ->); auto.
    + split; intros H; [apply A1 | apply A2]; right; exact H.
    + split; intros H; [apply B1 | apply B2]; right; exact H.
Qed.

Section L.
Variable D : Stream.
Variable rest : st D -> list byte.
Hypothesis So : source D rest.

(** Whatever ReadLine returns, when there is a line it is that line. *)
Lemma read_line_sound F p p' l c tail r : plain l -> rest p = l ++ eol c ++ tail ->
  read_line F D p [] = (p', Ok r) -> r = l /\ rest p' = tail.
Proof.
  intros Pl Er H. destruct (read_line_ok _ _ So _ _ _ _ _ H ltac:(split; intros [])) as (t & Pt & -> & Hc). cbn [app] in *.
  destruct Hc as [Hc | [Hc | (_ & _ & Hc)]].
  - rewrite Er in Hc. destruct c; cbn [eol app] in Hc; apply plain_split in Hc; auto; destruct Hc as (-> & E1 & E2); try discriminate; auto.
  - rewrite Er in Hc. destruct c; cbn [eol app] in Hc; apply plain_split in Hc; auto; destruct Hc as (-> & E1 & E2); try discriminate.
    injection E2 as ->; auto.
  - exfalso. assert (I : In LF (rest p)) by (rewrite Er, !in_app_iff; right; left; destruct c; cbn; auto).
    destruct Hc as [Hc | Hc]; rewrite Hc in I; [apply (proj1 Pt I) | ]. rewrite in_app_iff in I. destruct I as [I | [I | []]]; [apply (proj1 Pt I) | discriminate].
Qed.

Hypothesis Wi : willing D rest.
Lemma read_byte_runs p b tl : rest p = b :: tl -> exists p', read_byte D p = (p', Ok b) /\ rest p' = tl.
Proof.
  intros E. destruct (Wi p 1 ltac:(rewrite E; discriminate) ltac:(lia)) as (p' & bs & Hr & Nb).
  destruct (so_got So _ _ _ _ Hr) as [Lb Er]. unfold read_byte. rewrite Hr.
  destruct bs as [ | x [ | ]]; [congruence | | cbn in Lb; lia]. rewrite E in Er. injection Er as <- ->. eauto.
Qed.
Lemma read_line_runs : forall l F p c tail res, plain l -> length l < F -> rest p = l ++ eol c ++ tail ->
  exists p', read_line F D p res = (p', Ok (res ++ l)) /\ rest p' = tail.
Proof.
  induction l as [ | b l IH]; intros F p c tail res [P1 P2] HF E; (destruct F; [cbn in HF; lia | ]); cbn [read_line].
  - rewrite app_nil_r. destruct c; cbn [eol app] in E.
    + destruct (read_byte_runs _ _ _ E) as (p1 & -> & E1). destruct (read_byte_runs _ _ _ E1) as (p2 & -> & E2). cbn. eauto.
    + destruct (read_byte_runs _ _ _ E) as (p1 & -> & E1). cbn. eauto.
  - cbn [app] in E. destruct (read_byte_runs _ _ _ E) as (p1 & -> & E1).
    destruct (Nat.eqb_spec b LF) as [-> | ]; [destruct P1; left; reflexivity | ].
    destruct (Nat.eqb_spec b CR) as [-> | ]; [destruct P2; left; reflexivity | ].
    destruct (IH F p1 c tail (res ++ [b])) as (p' & H1 & H2); [split; intros H; [apply P1 | apply P2]; right; exact H | cbn in HF; lia | exact E1 | ].
    exists p'. rewrite H1, <- app_assoc. auto.
Qed.
Lemma read_lines_runs : forall ls F p tail, Forall (fun lc => plain (fst lc)) ls -> length (text ls) < F -> rest p = text ls ++ tail ->
  exists p', read_lines F D p (length ls) = (p', map fst ls) /\ rest p' = tail.
Proof.
  induction ls as [ | [l c] ls IH]; intros F p tail Hp HF E; cbn [read_lines length map]; [exists p; auto | ].
  inversion Hp as [ | ? ? P1 P2]; subst. cbn [text flat_map fst snd] in *. fold (text ls) in *. rewrite !app_length in HF. rewrite <- !app_assoc in E.
  destruct (read_line_runs l F p c (text ls ++ tail) [] P1 ltac:(lia) E) as (p1 & H1 & E1). rewrite H1. cbn [app].
  destruct (IH F p1 tail P2 ltac:(lia) E1) as (p2 & H2 & E2). rewrite H2. eauto.
Qed.
End L.
