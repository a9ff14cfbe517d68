(** Vocabulary for C63. *)
From Verif Require Import Base PpmModel.
Local Open Scope Z_scope.

(** the sum of the counts, or of the probabilities, of a list *)
Definition mass (l : counts) : Z := fold_right (fun e a => snd e + a) 0 l.
(** everything counted in a level, in a builder *)
Definition level_mass (v : level) : Z := fold_right (fun e a => mass (snd e) + a) 0 (ctxs v).
Definition builder_mass (b : builder) : Z := fold_right (fun e a => level_mass (snd e) + a) 0 b.
(** the number of training symbols in a history *)
Fixpoint trained (es : list tstep) : Z := match es with [] => 0 | Train _ :: r => 1 + trained r | Pop _ _ :: r => trained r end.
Definition byte (s : Z) : Prop := 0 <= s <= 255.
Definition bytes_only (es : list tstep) : Prop := forall s, In (Train s) es -> byte s.

(** what the static_assert at PpmModel.h:109 demands of the configurations *)
Fixpoint descending (gs : list cfg) : Prop :=
  match gs with g :: ((g' :: _) as t) => (csize g' < csize g)%nat /\ descending t | _ => True end.
(** the last configuration has no context: every byte can be encoded there *)
Definition ends_with_order0 (gs : list cfg) : Prop := exists pre g, gs = pre ++ [g] /\ csize g = 0%nat.
(** training is short enough for the Probability type of every level, and for the coder *)
Definition fits (n : Z) (gs : list cfg) : Prop := n + 256 <= 2 ^ 29 /\ forall g, In g gs -> n + 255 <= 2 ^ pbits g.

(** how often [s] was counted in the context [c] of a level *)
Definition count_in (s : Z) (l : counts) : Z := match find (fun e => fst e =? s) l with Some (_, k) => k | None => 0 end.
Definition stat (v : level) (c : list Z) (s : Z) : Z :=
  match find (fun e => if list_eq_dec Z.eq_dec (fst e) c then true else false) (ctxs v) with Some (_, l) => count_in s l | None => 0 end.

(** what a dictionary is made of *)
Definition dictionary (t : trainer) : list mlevel := build (tr_builder t).

(** how often [s] followed the [n] symbols [c] in the text [h], counting only positions from [n] up to [upto] *)
Definition here (h c : list Z) (s : Z) (n : nat) (upto : option nat) (j : nat) : bool :=
  (n <=? j)%nat && match upto with Some u => (j <? u)%nat | None => true end &&
  (if list_eq_dec Z.eq_dec (lastn n (firstn j h)) c then true else false) &&
  match nth_error h j with Some x => x =? s | None => false end.
Definition seen (h c : list Z) (s : Z) (n : nat) (upto : option nat) : Z := Z.of_nat (length (filter (here h c s n upto) (seq 0 (length h)))).
(** where a level stops being the first that fits: at the context size of the level before it *)
Definition upto (gs : list cfg) (i : nat) : option nat := match i with O => None | S j => option_map csize (nth_error gs j) end.
