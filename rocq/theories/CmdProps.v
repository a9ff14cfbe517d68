(** C89: the command line. *)
From Coq Require Import ZArith List Bool Lia.
From Verif Require Import CmdModel CmdSpec CmdProofs.
Import ListNotations.
Open Scope Z_scope.

(** A command consisting of the handler's words and its arguments - strings,
    booleans, values with FromString, optional ones and vectors of these to
    any depth, written with escapes, with single spaces between the parts -
    calls the function with these values. *)
Theorem C89_written_commands_are_executed : forall ws ts vs xs,
  All_written ts vs xs -> execute ws ts (join (ws ++ xs)) = Some vs.
Proof. intros ws ts vs xs H; unfold execute. now rewrite words_join, (args_join ts vs xs H). Qed.
Print Assumptions C89_written_commands_are_executed.

(** Any list of nonempty strings can be passed, whatever their characters. *)
Theorem C89_all_nonempty_strings_can_be_passed : forall ws ss, Forall (fun s => s <> []) ss ->
  execute ws (map (fun _ => TStr) ss) (join (ws ++ map quote ss)) = Some (map VStr ss).
Proof.
  intros ws ss F. apply C89_written_commands_are_executed.
  induction F as [|s ss Hs F IH]; cbn [map]; constructor; [now constructor | exact IH].
Qed.
Print Assumptions C89_all_nonempty_strings_can_be_passed.

(** A handler of nonempty words executes only texts that begin with its
    words, with single spaces between, and end there or go on with a space. *)
Theorem C89_executed_texts_begin_with_the_words : forall ws ts s vs,
  Forall (fun w => w <> []) ws -> ws <> [] -> execute ws ts s = Some vs ->
  exists rest, s = join ws ++ rest /\ (rest = [] \/ exists u, rest = 32 :: u).
Proof.
  intros ws ts s vs F N H. unfold execute in H.
  destruct (parse_words ws s) as [r|] eqn:E; [|discriminate].
  eapply parse_words_prefix; eassumption.
Qed.
Print Assumptions C89_executed_texts_begin_with_the_words.

(** Not true: any strings can be passed.  No text passes an empty string
    before another argument. *)
Theorem C89_all_strings_can_be_passed_refuted :
  ~ (forall ws ss, exists s, execute ws (map (fun _ => TStr) ss) s = Some (map VStr ss)).
Proof.
  intros H. destruct (H [[97]] [[]; [98]]) as [s E]. unfold execute in E.
  destruct (parse_words [[97]] s) as [r|]; [|discriminate]. cbn [map parse_args read] in E.
  destruct (read_string r) as [v n] eqn:R.
  destruct (Nat.eqb_spec n 0) as [|N0]; [discriminate|].
  destruct (next_part (skipn n r)) as [u|] eqn:P; [|discriminate].
  destruct (read_string u) as [v2 n2] eqn:R2.
  destruct (Nat.eqb_spec n2 0) as [|N2]; [discriminate|].
  assert (v = []).
  { destruct (next_part (skipn n2 u)) as [[|? ?]|]; try discriminate. now injection E as ->. }
  subst v. destruct (read_empty r n R) as [|Sk]; [congruence|].
  rewrite Sk in P. cbn in P. injection P as <-. cbn in R2. injection R2 as <- <-. congruence.
Qed.
Print Assumptions C89_all_strings_can_be_passed_refuted.

(** Not true: spaces may surround the items of a vector.  [ ] is refused
    though [] is accepted. *)
Theorem C89_spaces_in_an_empty_vector_refuted :
  ~ (forall ws t k, execute ws [TVec t] (join (ws ++ [91 :: repeat 32 k ++ [93]])) = Some [VList []]).
Proof. intros H. specialize (H [[97]] TStr 1%nat). vm_compute in H. discriminate. Qed.
Print Assumptions C89_spaces_in_an_empty_vector_refuted.

(** Not true: an optional vector can be given any vector (the string the
    optional looks at ends at the first comma or ]). *)
Theorem C89_optional_vectors_refuted :
  ~ (forall ws t v x, Writes t v x -> v <> VNone -> x <> [110; 111; 110; 101] ->
     execute ws [TOpt t] (join (ws ++ [x])) = Some [VSome v]).
Proof.
  intros H. specialize (H [[97]] (TVec TStr) (VList [VStr [98]]) [91; 98; 93]).
  assert (W : Writes (TVec TStr) (VList [VStr [98]]) [91; 98; 93]).
  { apply (W_vec TStr [VStr [98]] 0 [98]). apply (I_last TStr (VStr [98]) [98] 0).
    apply (W_str [98]). discriminate. }
  specialize (H W ltac:(discriminate) ltac:(discriminate)). vm_compute in H. discriminate.
Qed.
Print Assumptions C89_optional_vectors_refuted.

Example C89_execute_example :
  (* set name a\ b [[on, off], [] ] none *)
  execute [[115]; [110]] [TStr; TVec (TVec TBool); TOpt TStr]
    ([115; 32; 110; 32; 97; 92; 32; 98; 32] ++
     [91; 91; 111; 110; 44; 32; 111; 102; 102; 93; 44; 32; 91; 93; 32; 93; 32; 110; 111; 110; 101])
  = Some [VStr [97; 32; 98]; VList [VList [VBool true; VBool false]; VList []]; VNone].
Proof. vm_compute. reflexivity. Qed.

Example C89_written_example :
  exists xs, All_written [TStr; TVec TBool; TFrom (fun s => match s with [c] => Some (c - 48) | _ => None end)]
                         [VStr [97; 32; 92]; VList [VBool true; VBool false]; VNum 7] xs.
Proof.
  eexists. constructor; [apply (W_str [97; 32; 92]); discriminate|].
  constructor; [apply (W_vec TBool _ 1); eapply (I_more _ _ _ 2 1); [constructor|]; eapply (I_last _ _ _ 3); constructor|].
  constructor; [apply (W_from _ [55]); [discriminate|reflexivity]|constructor].
Qed.

(** * Completion *)

(** The completion of the words of a handler: an input gets one exactly if it
    consists of some of the words, each followed by a space, and a beginning
    of the next word; it is the rest of that word and a space. *)
Theorem C89_completion_of_words : forall ws input r, complete_words ws input = Some r <->
  exists a p q b, ws = a ++ (p ++ q) :: b /\ input = flat_map (fun w => w ++ [32]) a ++ p /\ r = q ++ [32].
Proof. exact complete_words_spec. Qed.
Print Assumptions C89_completion_of_words.

(** Custom completion of an argument: for a beginning written with escapes,
    each candidate with that beginning gives its rest, with spaces, commas and ]
    escaped, and a space; other candidates give nothing. *)
Theorem C89_custom_completion : forall cs p r, In r (complete_custom cs (quote p)) <->
  exists q, In (p ++ q) cs /\ r = replace_char comma (replace_char endbracket (replace_char space q)) ++ [32].
Proof.
  intros cs p r; unfold complete_custom, read_string.
  pose proof (read_quote p [] I) as R. rewrite app_nil_r in R. rewrite R. cbn [fst].
  rewrite in_flat_map. split.
  - intros (c & Hc & H). destruct (str_eqb (firstn (length p) c) p) eqn:E; [|destruct H].
    apply str_eqb_eq in E. destruct (_ <=? _)%nat; cbn [andb] in H; [|destruct H].
    destruct H as [<-|[]]. exists (skipn (length p) c). split; [|reflexivity].
    rewrite <- E at 1. now rewrite firstn_skipn.
  - intros (q & Hc & ->). exists (p ++ q). split; [assumption|].
    rewrite firstn_len, str_eqb_refl, skipn_len.
    destruct (Nat.leb_spec (length p) (length (p ++ q))) as [_|L]; [now left | rewrite app_length in L; lia].
Qed.
Print Assumptions C89_custom_completion.

(** Input and result together read as the candidate, if its rest has no \. *)
Theorem C89_completed_argument_reads_as_candidate_partial : forall p q rest, ~ In 92 q -> p ++ q <> [] ->
  read TStr (quote p ++ (replace_char comma (replace_char endbracket (replace_char space q)) ++ [32]) ++ rest)
  = (VStr (p ++ q), length (quote p ++ replace_char comma (replace_char endbracket (replace_char space q)))).
Proof.
  intros p q rest H N. rewrite (escape_quote q H).
  rewrite <- app_assoc, app_assoc, <- quote_app.
  cbn [read]. unfold read_string. now rewrite (read_quote (p ++ q) ([32] ++ rest)).
Qed.
Print Assumptions C89_completed_argument_reads_as_candidate_partial.

(** Not true: a completed argument is read as the candidate, also if that
    contains a \ (which is not escaped). *)
Theorem C89_completed_argument_reads_as_candidate_refuted :
  ~ (forall cs p r, In r (complete_custom cs (quote p)) ->
     exists c, In c cs /\ fst (read TStr (quote p ++ r)) = VStr c).
Proof.
  intros H. destruct (H [[97; 92; 98]] [97] [92; 98; 32]) as (c & [<-|[]] & E).
  - vm_compute. now left.
  - vm_compute in E. discriminate.
Qed.
Print Assumptions C89_completed_argument_reads_as_candidate_refuted.

Example C89_completion_example :
  complete_words [[115; 101]; [110]] [115; 101; 32] = Some [110; 32]
  /\ complete_words [[115; 101]; [110]] [115] = Some [101; 32]
  /\ complete_words [[115; 101]; [110]] [115; 101; 110] = None
  /\ complete_custom [[97; 98; 32; 99]; [98]; [97]] [97] = [[98; 92; 32; 99; 32]; [32]].
Proof. vm_compute. repeat split. Qed.

(** * Handlers *)

(** After any history of registrations and destructions of tokens the
    handlers present are those registered and not released, in the order of
    their registration; registering never fails. *)
Theorem C89_registered_handlers : forall os, NoDup (registered os) ->
  (forall p h q, os = p ++ RRelease h :: q -> In h (registered p)) ->
  exists c, rrun cmdline0 os = Some c /\
  map snd (cl_commands c) = filter (fun h => negb (existsb (Nat.eqb h) (released os))) (registered os).
Proof.
  intros os ND RF. destruct (rrun_inv os ND RF) as (c & E & _ & I & _). now exists c.
Qed.
Print Assumptions C89_registered_handlers.

(** A text is given to the first handler, in this order, that accepts it, and
    to no other; the result is false exactly if there is none, except that a
    comment (a text beginning with #) is accepted and ignored. *)
Theorem C89_first_handler_executes : forall hs c cmd,
  (exists r, cmd = 35 :: r) /\ cmd_execute hs c cmd = (true, None) \/
  (forall r, cmd <> 35 :: r) /\
  ((exists a h b vs, map snd (cl_commands c) = a ++ h :: b /\
      (forall h', In h' a -> execute (h_words (hs h')) (h_types (hs h')) cmd = None) /\
      execute (h_words (hs h)) (h_types (hs h)) cmd = Some vs /\
      cmd_execute hs c cmd = (true, Some (h, vs))) \/
   (forall h, In h (map snd (cl_commands c)) -> execute (h_words (hs h)) (h_types (hs h)) cmd = None) /\
   cmd_execute hs c cmd = (false, None)).
Proof.
  intros hs c cmd.
  assert (T : forall d,
    (exists a h b vs, map snd d = a ++ h :: b /\
      (forall h', In h' a -> execute (h_words (hs h')) (h_types (hs h')) cmd = None) /\
      execute (h_words (hs h)) (h_types (hs h)) cmd = Some vs /\
      try_handlers hs d cmd = Some (h, vs)) \/
    (forall h, In h (map snd d) -> execute (h_words (hs h)) (h_types (hs h)) cmd = None) /\
    try_handlers hs d cmd = None).
  { induction d as [|[k h] d IH]; cbn [map snd try_handlers].
    - right. now split.
    - destruct (execute (h_words (hs h)) (h_types (hs h)) cmd) as [vs|] eqn:E.
      + left. exists [], h, (map snd d), vs. repeat split; try assumption. intros ? [].
      + destruct IH as [(a & h' & b & vs & A & B & C & D)|[A B]].
        * left. exists (h :: a), h', b, vs. rewrite A. repeat split; try assumption.
          intros x [<-|X]; [assumption | now apply B].
        * right. split; [|exact B]. intros x [<-|X]; [assumption | now apply A]. }
  destruct cmd as [|ch r].
  - right. split; [discriminate|]. cbn [cmd_execute].
    destruct (T (cl_commands c)) as [(a & h & b & vs & A & B & C & D)|[A B]].
    + left. exists a, h, b, vs. now rewrite D.
    + right. now rewrite B.
  - destruct (Z.eq_dec ch 35) as [->|N].
    + left. split; [eauto | reflexivity].
    + right. split; [congruence|]. cbn [cmd_execute]. unfold hash. apply Z.eqb_neq in N. rewrite N.
      destruct (T (cl_commands c)) as [(a & h & b & vs & A & B & C & D)|[A B]].
      * left. exists a, h, b, vs. now rewrite D.
      * right. now rewrite B.
Qed.
Print Assumptions C89_first_handler_executes.

Example C89_handlers_example :
  option_map cl_commands (rrun cmdline0 [RRegister 7; RRegister 8; RRelease 7; RRegister 9; RRelease 9; RRegister 4])
  = Some [(1, 8); (2, 4)]%nat.
Proof. reflexivity. Qed.
