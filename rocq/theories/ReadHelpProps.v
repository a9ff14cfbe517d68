(** C52: the reading and writing helpers read and write exactly the bytes asked for. *)
From Verif Require Import Base ReadHelpModel ReadHelpSpec ReadHelpProofs.

(** * ReadAll *)
(** ReadAll returns (n times at most it calls Read); what it returns is the front of the stream, nothing
    is lost, and it is n bytes unless the stream ended or the token was cancelled. *)
Theorem C52_read_all : forall D rest p n, source D rest -> exists p' r, read_all (S n) D p n [] None = (p', r) /\ r <> Hang /\
  (forall got, r = Ok got -> rest p = got ++ rest p' /\ length got <= n /\
     (eager D rest -> length got = n \/ rest p' = [] \/ tok D p' = false)) /\
  (r = ThrClosed -> rest p' = []).
Proof.
  intros D rest p n So. destruct (read_all (S n) D p n [] None) as [p' r] eqn:E. exists p', r. split; [reflexivity | ].
  split; [ | split].
  - intros ->. apply (read_all_ends _ _ So (S n) p n [] None); [cbn; lia | cbn; lia | lia | ]. rewrite E. reflexivity.
  - intros got ->. destruct (read_all_ok _ _ So _ _ _ _ _ _ _ E ltac:(cbn; lia)) as (t & Et & -> & Lg). cbn [app] in *.
    split; [exact Et | ]. split; [exact Lg | ]. intros Ea. apply (read_all_full _ _ So Ea _ _ _ _ _ _ _ E); [cbn; lia | discriminate].
  - intros ->. destruct (read_all_ok _ _ So _ _ _ _ _ _ _ E ltac:(cbn; lia)) as (t & Et & H). exact H.
Qed.

(** CheckedReadAll returns exactly the next n bytes, or throws. *)
Theorem C52_checked_read_all : forall D rest F p n p' got, source D rest ->
  checked_read_all F D p n = (p', Ok got) -> length got = n /\ rest p = got ++ rest p' /\ tok D p' = true.
Proof.
  intros D rest F p n p' got So H. unfold checked_read_all in H. destruct (read_all F D p n [] None) as [p1 r1] eqn:E.
  destruct r1 as [g | | | | ]; try discriminate. destruct (tok D p1) eqn:T; cbn [negb] in H; [ | discriminate].
  destruct (Nat.eqb_spec (length g) n) as [El | ]; [ | discriminate]. injection H as <- <-.
  destruct (read_all_ok _ _ So _ _ _ _ _ _ _ E ltac:(cbn; lia)) as (t & Et & -> & Lg). auto.
Qed.

(** * ReadToEnd *)
(** What it returns is everything there was to read, whatever the initial size and the chunking; it returns. *)
Theorem C52_read_to_end : forall D rest p initial F, source D rest -> eager D rest -> length (rest p) < F ->
  exists p' r, read_to_end F D p initial = (p', r) /\ r <> Hang /\ (forall g, r = Ok g -> g = rest p /\ rest p' = []).
Proof.
  intros D rest p initial F So Ea HF. unfold read_to_end. destruct (Nat.eqb_spec initial 0).
  - exists p, ThrOther. split; [reflexivity | ]. split; [discriminate | ]. intros g H. discriminate.
  - destruct (rte_loop F D p initial []) as [p' r] eqn:E. exists p', r. split; [reflexivity | ].
    split.
    + intros ->. apply (rte_ends _ _ So F p initial []); [cbn; lia | exact HF | ]. rewrite E. reflexivity.
    + intros g ->. destruct (rte_ok _ _ So Ea _ _ _ _ _ _ E ltac:(cbn; lia)) as (-> & H & _). auto.
Qed.

(** * WriteAll *)
(** What was accepted is a front part of the data, and WriteAll says how much. *)
Theorem C52_write_all : forall D out F p d p' w, sink D out -> write_all F D p d 0 None = (p', Ok w) ->
  w <= length d /\ out p' = out p ++ firstn w d.
Proof.
  intros D out F p d p' w Si H. destruct (write_all_ok _ _ Si _ _ _ _ _ _ _ H ltac:(lia)) as (k & Bk & -> & E).
  rewrite Nat.sub_0_r in E. split; [lia | exact E].
Qed.
(** Also when it throws: no byte twice, none out of order. *)
Theorem C52_write_all_throws : forall D out F p d p' r, sink D out -> write_all F D p d 0 None = (p', r) ->
  exists j, out p' = out p ++ firstn j d.
Proof.
  intros D out F p d p' r Si H. destruct (write_all_ok _ _ Si _ _ _ _ _ _ _ H ltac:(lia)) as (k & Bk & E).
  destruct r as [w | | | | ]; [ | exact E .. ]. destruct E as [-> E]. rewrite Nat.sub_0_r in E. eauto.
Qed.
(** CheckedWriteAll has written everything when it returns. *)
Theorem C52_checked_write_all : forall D out F p d p' w, sink D out -> checked_write_all F D p d = (p', Ok w) ->
  out p' = out p ++ d.
Proof.
  intros D out F p d p' w Si H. unfold checked_write_all in H. destruct (write_all F D p d 0 None) as [p1 r1] eqn:E.
  destruct r1 as [k | | | | ]; try discriminate. destruct (tok D p1); cbn [negb] in H; [ | discriminate].
  destruct (Nat.eqb_spec k (length d)) as [-> | ]; [ | discriminate]. injection H as <- <-.
  destruct (C52_write_all _ _ _ _ _ _ _ Si E) as [_ R]. rewrite firstn_all in R. exact R.
Qed.

(** * BufferedPipe *)
(** It delivers what it has buffered and then what the pipe under it delivers, and is as eager. *)
Theorem C52_buffered_pipe : forall D rest cap, source D rest ->
  source (buffered_pipe cap D) (fun s => fst s ++ rest (snd s)) /\
  (0 < cap -> eager D rest -> eager (buffered_pipe cap D) (fun s => fst s ++ rest (snd s))).
Proof. intros D rest cap So. split; [apply buffered_source; exact So | apply buffered_eager]. Qed.
(** Its Peek says no only if nothing is buffered and the pipe under it says no. *)
Theorem C52_buffered_peek : forall D rest pk (s : list byte * st D), (forall p, pk p = false -> rest p = []) ->
  bp_peek D pk s = false -> fst s ++ rest (snd s) = [].
Proof.
  intros D rest pk [b p] Hp H. unfold bp_peek in H. cbn [fst snd] in *. apply orb_false_iff in H. destruct H as [H1 H2].
  destruct b; [apply Hp; exact H2 | discriminate].
Qed.

(** * ReadLine *)
(** When the rest is a line, ended by LF or CR LF, and something, and ReadLine returns, it returns that line
    and leaves that something. *)
Theorem C52_read_line : forall D rest F p p' l c tail r, source D rest -> plain l -> rest p = l ++ eol c ++ tail ->
  read_line F D p [] = (p', Ok r) -> r = l /\ rest p' = tail.
Proof. intros D rest F p p' l c tail r So. apply read_line_sound; exact So. Qed.
(** When there is no whole line: what it returns is what there was, without a CR at the end. *)
Theorem C52_read_line_last : forall D rest F p p' r, source D rest -> read_line F D p [] = (p', Ok r) -> ~ In LF (rest p) ->
  r <> [] /\ rest p' = [] /\ (rest p = r \/ rest p = r ++ [CR]).
Proof.
  intros D rest F p p' r So H NL. destruct (read_line_ok _ _ So _ _ _ _ _ H ltac:(split; intros [])) as (t & Pt & -> & Hc). cbn [app] in *.
  destruct Hc as [Hc | [Hc | Hc]]; [ | | exact Hc]; exfalso; apply NL; rewrite Hc, in_app_iff; right; cbn; auto.
Qed.
(** PipeClosed is thrown only when there is nothing more, or a lone CR. *)
Theorem C52_read_line_closed : forall D rest F p p', source D rest -> read_line F D p [] = (p', ThrClosed) ->
  rest p' = [] /\ (rest p = [] \/ rest p = [CR]).
Proof.
  intros D rest F p p' So H. destruct (read_line_ok _ _ So _ _ _ _ _ H ltac:(split; intros [])) as (t & Pt & _ & Hc). exact Hc.
Qed.
(** It returns or throws. *)
Theorem C52_read_line_ends : forall D rest p, source D rest -> snd (read_line (S (length (rest p))) D p []) <> Hang.
Proof. intros D rest p So. apply (read_line_ends D rest So). lia. Qed.
(** If nothing goes wrong below, calling it once for each line of a text gives exactly the lines. *)
Theorem C52_lines : forall D rest p ls tail, source D rest -> willing D rest -> Forall (fun lc => plain (fst lc)) ls ->
  rest p = text ls ++ tail -> exists p', read_lines (S (length (text ls))) D p (length ls) = (p', map fst ls) /\ rest p' = tail.
Proof. intros D rest p ls tail So Wi Hp E. apply (read_lines_runs D rest So Wi); auto. Qed.

(** * A stream of the kind meant: chunks of at most [ch] bytes; at the end nothing, or PipeClosed *)
Definition chunks (ch : nat) (closing : bool) : Stream :=
  mkStr (list byte)
    (fun p n => match p with [] => ([], if closing then Closed else Got []) | _ => let k := Nat.min ch n in (skipn k p, Got (firstn k p)) end)
    (fun p d => (p ++ firstn ch d, Some (Nat.min ch (length d)))) (fun _ => true).
Lemma chunks_source ch cl : source (chunks ch cl) (fun p => p).
Proof.
  constructor; cbn [chunks rd st tok].
  - intros [ | b p] n p' bs H; [destruct cl; [discriminate | ]; injection H as <- <-; cbn; split; [lia | reflexivity] | ].
    set (y := b :: p) in *. remember (Nat.min ch n) as k eqn:Ek. cbv zeta in H. injection H as <- <-. rewrite firstn_length, firstn_skipn. split; [lia | reflexivity].
  - intros [ | b p] n p' H; [ | discriminate]. injection H as <- _. auto.
  - intros [ | b p] n p' H; [ | discriminate]. destruct cl; discriminate.
  - auto.
Qed.
Lemma chunks_eager ch cl : 0 < ch -> eager (chunks ch cl) (fun p => p).
Proof.
  intros Hc [ | b p] n p' H Hn; [auto | ]. cbn [chunks rd] in H. destruct ch; [lia | ]. destruct n; [lia | ]. discriminate H.
Qed.
Lemma chunks_willing ch cl : 0 < ch -> willing (chunks ch cl) (fun p => p).
Proof.
  intros Hc [ | b p] n H Hn; [congruence | ]. destruct ch; [lia | ]. destruct n; [lia | ]. cbn [chunks rd Nat.min]. eexists. eexists. split; [reflexivity | discriminate].
Qed.
Lemma chunks_sink ch cl : sink (chunks ch cl) (fun p => p).
Proof.
  constructor; cbn [chunks wt st].
  - intros p d p' k H. injection H as <- <-. split; [lia | ]. f_equal.
    destruct (Nat.min_spec ch (length d)) as [[_ ->] | [L ->]]; [reflexivity | rewrite firstn_all, firstn_all2 by exact L; reflexivity].
  - discriminate.
Qed.

Example C52_ex_read_all : read_all 6 (chunks 2 true) [1;2;3;4;5;6;7] 5 [] None = ([6;7], Ok [1;2;3;4;5]).
Proof. reflexivity. Qed.
Example C52_ex_short : read_all 11 (chunks 2 false) [1;2;3] 10 [] None = ([], Ok [1;2;3])
  /\ checked_read_all 11 (chunks 2 false) [1;2;3] 10 = ([], ThrOther).
Proof. split; reflexivity. Qed.
Example C52_ex_read_to_end : read_to_end 8 (chunks 3 false) [1;2;3;4;5;6;7] 2 = ([], Ok [1;2;3;4;5;6;7]).
Proof. reflexivity. Qed.
Example C52_ex_write : checked_write_all 9 (chunks 3 true) [0] [1;2;3;4;5;6;7] = ([0;1;2;3;4;5;6;7], Ok 7).
Proof. reflexivity. Qed.
Example C52_ex_lines : read_lines 20 (buffered_pipe 4 (chunks 3 true)) ([], [65;66;10; 13;10; 67;13;10; 68]) 4
  = (([], []), [[65;66]; []; [67]; [68]]).
Proof. reflexivity. Qed.

(** * Refuted *)
(** ReadToEnd does not catch PipeClosed: over a pipe that never returns nothing (it says PipeClosed at its
    end), it never returns what it has read. *)
Lemma read_all_closing D : (forall p n p', rd D p n = (p', Got []) -> n = 0) -> (forall p, tok D p = true) ->
  forall F p n got last p' g, last <> Some 0 -> read_all F D p n got last = (p', Ok g) -> n <= length g.
Proof.
  intros Cl Tk. induction F; intros p n got last p' g Hl H; cbn [read_all] in H; [discriminate | ].
  rewrite Tk in H. cbn [andb] in H. destruct (Nat.ltb_spec (length got) n); cbn [andb] in H; [ | injection H as <- <-; lia].
  destruct last as [[ | k] | ]; [congruence | | ];
    (destruct (rd D p (n - length got)) as [p1 [bs | | ]] eqn:E; [ | discriminate | discriminate];
     apply IHF in H; [exact H | ]; destruct bs; [apply Cl in E; lia | discriminate]).
Qed.
Theorem C52_read_to_end_closing_refuted : forall D rest, source D rest -> (forall p n p', rd D p n = (p', Got []) -> n = 0) -> (forall p, tok D p = true) ->
  forall F p initial g, snd (read_to_end F D p initial) <> Ok g.
Proof.
  intros D rest So Cl Tk F p initial g. unfold read_to_end. destruct (initial =? 0); [discriminate | ].
  generalize (@nil byte) as acc. generalize initial as size. revert p.
  induction F; intros p size acc; cbn [rte_loop]; [discriminate | ]. rewrite Tk.
  destruct (read_all (S size) D p (size - length acc) [] None) as [p1 r1] eqn:E. destruct r1 as [got | | | | ]; try discriminate.
  destruct (Nat.eqb_spec (length got) (size - length acc)) as [ | Ne]; [apply IHF | ].
  exfalso. assert (L1 : size - length acc <= length got) by (refine (read_all_closing D Cl Tk _ _ _ _ _ _ _ _ E); discriminate).
  destruct (read_all_ok _ _ So _ _ _ _ _ _ _ E ltac:(cbn; lia)) as (t & _ & _ & L2). lia.
Qed.
(** ReadLine throws away what it has read of a line when a CR is not followed by LF: a text in which CR is an
    ordinary character (or ends a line) cannot be read. *)
Theorem C52_lone_cr_refuted : forall D rest F p p' l c tail r, source D rest -> plain l -> c <> LF -> rest p = l ++ [CR; c] ++ tail ->
  read_line F D p [] <> (p', Ok r).
Proof.
  intros D rest F p p' l c tail r So Pl Nc Er H.
  destruct (read_line_ok _ _ So _ _ _ _ _ H ltac:(split; intros [])) as (t & Pt & -> & Hc). cbn [app] in *. rewrite Er in Hc.
  destruct Hc as [Hc | [Hc | (_ & _ & Hc)]].
  - apply plain_split in Hc; auto. destruct Hc as (_ & Hc & _). discriminate.
  - apply plain_split in Hc; auto. destruct Hc as (_ & _ & Hc). congruence.
  - destruct Hc as [Hc | Hc].
    + apply (proj2 Pt). rewrite <- Hc, in_app_iff. right. left. reflexivity.
    + apply plain_split in Hc; auto. destruct Hc as (_ & _ & Hc). discriminate.
Qed.
(** A cut-off line, also one cut between CR and LF, is returned like a whole one: the same answer for four
    different contents. *)
Theorem C52_cut_line_refuted : forall tl, In tl [[]; [CR]; [LF]; [CR; LF]] ->
  read_line 9 (chunks 3 true) ([65; 66] ++ tl) [] = ([], Ok [65; 66]).
Proof. intros tl [<- | [<- | [<- | [<- | []]]]]; reflexivity. Qed.
(** A cancellation in the middle of a line loses the part already read: reading again starts in the middle.
    The token here is cancelled after two bytes. *)
Definition stalling : Stream :=
  mkStr (list byte * nat)
    (fun s n => match s with (p, 0) => ((p, 0), Got []) | (p, S k) => ((skipn 1 p, k), Got (firstn (Nat.min 1 n) p)) end)
    (fun s d => (s, None)) (fun s => match snd s with 0 => false | _ => true end).
Theorem C52_cancelled_line_lost_refuted :
  read_line 9 stalling ([65; 66; 67; 10], 2) [] = (([67; 10], 0), ThrCancelled) /\
  read_line 9 stalling ([67; 10], 5) [] = (([], 3), Ok [67]).
Proof. split; reflexivity. Qed.

Print Assumptions C52_read_all.
Print Assumptions C52_checked_read_all.
Print Assumptions C52_read_to_end.
Print Assumptions C52_write_all.
Print Assumptions C52_write_all_throws.
Print Assumptions C52_checked_write_all.
Print Assumptions C52_buffered_pipe.
Print Assumptions C52_buffered_peek.
Print Assumptions C52_read_line.
Print Assumptions C52_read_line_last.
Print Assumptions C52_read_line_closed.
Print Assumptions C52_read_line_ends.
Print Assumptions C52_lines.
Print Assumptions C52_read_to_end_closing_refuted.
Print Assumptions C52_lone_cr_refuted.
Print Assumptions C52_cut_line_refuted.
Print Assumptions C52_cancelled_line_lost_refuted.
