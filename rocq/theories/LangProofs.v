(** Proofs about language codes, profiles and bandwidth. *)
From Coq Require Import ZArith List Bool Lia.
From Verif Require Import LangModel LangSpec.
Import ListNotations.
Open Scope Z_scope.

Lemma upper_cases : forall c, (97 <= c <= 122 /\ upper c = c - 32) \/ (~ 97 <= c <= 122 /\ upper c = c).
Proof.
  intros c. unfold upper. destruct (Z.leb_spec 97 c), (Z.leb_spec c 122); cbn [andb]; lia.
Qed.

Lemma upper_byte : forall c, 0 < c < 256 -> 0 < upper c < 256.
Proof. intros c H. destruct (upper_cases c); lia. Qed.

Lemma upper_idem : forall c, upper (upper c) = upper c.
Proof. intros c. destruct (upper_cases c) as [[A B]|[A B]], (upper_cases (upper c)); lia. Qed.

Lemma same_letter_upper : forall a b, same_letter a b <-> upper a = upper b.
Proof.
  intros a b. unfold same_letter. destruct (upper_cases a) as [[A ->]|[A ->]], (upper_cases b) as [[B ->]|[B ->]]; lia.
Qed.

Lemma same_text_upper : forall s t, Same_text s t <-> map upper s = map upper t.
Proof.
  induction s as [|a s IH]; intros [|b t]; cbn [map].
  - split; [reflexivity | constructor].
  - split; [inversion 1 | discriminate].
  - split; [inversion 1 | discriminate].
  - split; intros H.
    + inversion H; subst. f_equal; [now apply same_letter_upper | now apply IH].
    + injection H as H1 H2. constructor; [now apply same_letter_upper | now apply IH].
Qed.

Lemma bytes_of : forall a b c, 0 <= a < 256 -> 0 <= b < 256 -> 0 <= c < 256 ->
  let n := a * 65536 + b * 256 + c in byte2 n = a /\ byte1 n = b /\ byte0 n = c.
Proof. intros a b c A B C. unfold byte2, byte1, byte0. cbn zeta. repeat split; Z.div_mod_to_equations; lia. Qed.

Lemma code3 : forall s, Code3 s -> exists a b c, s = [a; b; c] /\ 0 < a < 256 /\ 0 < b < 256 /\ 0 < c < 256.
Proof.
  intros s [L F]. destruct s as [|a [|b [|c [|? ?]]]]; try discriminate.
  inversion F as [|? ? A F1]; subst. inversion F1 as [|? ? B F2]; subst. inversion F2; subst. eauto 8.
Qed.

Lemma to_string_of : forall a b c, 0 < a < 256 -> 0 < b < 256 -> 0 < c < 256 ->
  to_string (a * 65536 + b * 256 + c) = [a; b; c].
Proof.
  intros a b c A B C. unfold to_string.
  destruct (Z.eqb_spec (a * 65536 + b * 256 + c) 0) as [E|E]; [lia|].
  destruct (bytes_of a b c) as (-> & -> & ->); try lia. cbn [until_nul].
  destruct (Z.eqb_spec a 0), (Z.eqb_spec b 0), (Z.eqb_spec c 0); try lia. reflexivity.
Qed.

Lemma capital_upper : forall s t, Forall2 Capital s t <-> t = map upper s.
Proof.
  assert (C : forall a b, Capital a b <-> b = upper a).
  { intros a b. unfold Capital. destruct (upper_cases a) as [[A ->]|[A ->]]; lia. }
  induction s as [|a s IH]; intros t; cbn [map].
  - split; [now inversion 1 | intros ->; constructor].
  - split.
    + inversion 1; subst. f_equal; [now apply C | now apply IH].
    + intros ->. constructor; [now apply C | now apply IH].
Qed.

Lemma lex3 : forall a b c x y z, 0 < b < 256 -> 0 < c < 256 -> 0 < y < 256 -> 0 < z < 256 ->
  (a * 65536 + b * 256 + c < x * 65536 + y * 256 + z <-> Lex [a; b; c] [x; y; z]).
Proof.
  intros a b c x y z. split.
  - intros L. destruct (Z.lt_trichotomy a x) as [Q|[->|Q]]; [now constructor| |lia].
    constructor 2. destruct (Z.lt_trichotomy b y) as [Q|[->|Q]]; [now constructor| |lia].
    constructor 2. constructor. lia.
  - intros L. inversion L as [? ? ? ? Q|? ? ? L1]; subst; [lia|].
    inversion L1 as [? ? ? ? Q|? ? ? L2]; subst; [lia|].
    inversion L2 as [? ? ? ? Q|? ? ? L3]; subst; [lia|]. inversion L3.
Qed.

(** * Profiles *)

Lemma prun_app : forall p q s, prun s (p ++ q) = prun (prun s p) q.
Proof. induction p as [|o p IH]; intros q s; cbn [app prun]; [reflexivity | apply IH]. Qed.

Definition checks (cs : list (list Z * Z)) : list pop := map (fun c => PCheckpoint (fst c) (snd c)) cs.

Lemma checks_idle : forall cs s, p_start s = None -> prun s (checks cs) = s.
Proof.
  induction cs as [|[n t] cs IH]; intros s H; cbn [checks map prun pstep fst snd]; [reflexivity|].
  rewrite H. cbn [fst]. now apply IH.
Qed.

Lemma last_cons : forall (l : list Z) x d, last (x :: l) d = last l x.
Proof.
  induction l as [|y l IH]; intros x d; [reflexivity|].
  change (last (x :: y :: l) d) with (last (y :: l) d). now rewrite (IH y d), (IH y x).
Qed.

Lemma differences_app : forall a prev n d, differences prev (a ++ [(n, d)]) =
  differences prev a ++ [(n, d - last (map snd a) prev)].
Proof.
  induction a as [|[m e] a IH]; intros prev n d; cbn [app differences map snd]; [reflexivity|].
  now rewrite IH, last_cons.
Qed.

Lemma checks_run : forall cs t0 times prev,
  prev = last (map snd times) 0 ->
  exists out, Profile (length times) (t0 + prev) cs out /\
  exists times', prun (Prof (Some t0) times) (checks cs) = Prof (Some t0) times' /\
    differences 0 times' = differences 0 times ++ out.
Proof.
  induction cs as [|[n t] cs IH]; intros t0 times prev E.
  - exists []. split; [constructor|]. exists times. split; [reflexivity | now rewrite app_nil_r].
  - cbn [checks map prun pstep p_start p_times fst snd].
    set (nm := match n with [] => Numbered (length times) | _ :: _ => Named n end).
    destruct (IH t0 (times ++ [(nm, t - t0)]) (t - t0)) as (out & P & times' & R & D).
    { rewrite map_app. cbn [map snd]. now rewrite last_last. }
    exists ((nm, t - (t0 + prev)) :: out). split.
    + rewrite app_length in P. cbn [length] in P. rewrite Nat.add_1_r in P.
      replace (t0 + (t - t0)) with t in P by lia.
      subst nm. destruct n; constructor; try assumption. discriminate.
    + exists times'. split; [exact R|]. rewrite D, differences_app, <- app_assoc, <- E. cbn [app].
      now replace (t - t0 - prev) with (t - (t0 + prev)) by lia.
Qed.

(** * Bandwidth *)

Lemma brun_app : forall p q s, brun s (p ++ q) = match brun s p with Some s' => brun s' q | None => None end.
Proof.
  induction p as [|o p IH]; intros q s; cbn [app brun]; [reflexivity|].
  destruct (bstep s o) as [[s' r]|]; [apply IH | reflexivity].
Qed.

Lemma bytes_app : forall p q, bytes (p ++ q) = bytes p + bytes q.
Proof.
  intros p q. unfold bytes, sum. induction p as [|x p IH]; [reflexivity|].
  cbn [app map fold_right]. rewrite IH. lia.
Qed.

Definition Live (os : list bop) : Prop := Forall (fun o => o <> BReport 0) os.

Lemma u64_add : forall a b, u64 (u64 a + b) = u64 (a + b).
Proof. intros a b. unfold u64. apply Z.add_mod_idemp_l. lia. Qed.

Lemma u64_range : forall a, 0 <= u64 a < 2 ^ 64.
Proof. intros a. apply Z.mod_pos_bound. lia. Qed.

Lemma u64_small : forall a, 0 <= a < 2 ^ 64 -> u64 a = a.
Proof. intros. now apply Z.mod_small. Qed.

Lemma brun_total : forall os s, Live os -> u64 (b_total s) = b_total s ->
  exists s', brun s os = Some s' /\ b_total s' = u64 (b_total s + bytes os).
Proof.
  induction os as [|o os IH]; intros s L E.
  - exists s. split; [reflexivity|]. cbn. now rewrite Z.add_0_r.
  - inversion L as [|? ? N L']; subst. destruct o as [n|ms]; cbn [brun bstep].
    + destruct (IH (BState (u64 (b_total s + n)) (u64 (b_since s + n))) L') as (s' & R & T).
      { cbn [b_total]. rewrite u64_small; [reflexivity | apply u64_range]. }
      exists s'. split; [exact R|]. rewrite T. cbn [b_total].
      rewrite u64_add. f_equal. change (bytes (BPush n :: os)) with (n + bytes os). lia.
    + destruct (Z.eqb_spec ms 0) as [->|M]; [congruence|].
      destruct (IH (BState (b_total s) 0) L' E) as (s' & R & T).
      exists s'. split; [exact R|]. rewrite T. f_equal. 
Qed.

Lemma brun_pushes : forall ns s, u64 (b_since s) = b_since s ->
  exists s', brun s (map BPush ns) = Some s' /\ b_since s' = u64 (b_since s + sum ns).
Proof.
  induction ns as [|n ns IH]; intros s E; cbn [map brun bstep].
  - exists s. split; [reflexivity|]. cbn. now rewrite Z.add_0_r.
  - destruct (IH (BState (u64 (b_total s + n)) (u64 (b_since s + n)))) as (s' & R & T).
    { cbn [b_since]. rewrite u64_small; [reflexivity | apply u64_range]. }
    exists s'. split; [exact R|]. rewrite T. cbn [b_since]. rewrite u64_add. f_equal. change (sum (n :: ns)) with (n + sum ns). lia.
Qed.
