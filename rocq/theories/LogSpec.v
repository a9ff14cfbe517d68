(** Specifications of logging, without the model's helpers. *)
From Coq Require Import ZArith List Bool.
From Verif Require Import LogModel.
Import ListNotations.
Open Scope Z_scope.

(** What is to be printed for runs of equal messages, given as (message,
    number of its repetitions after the first), when one summary stands for
    n repetitions: the message; for each n + 1 repetitions a summary of n of
    them; and, when the next message comes, a summary of the remaining. *)
Fixpoint runs_output (n : nat) (rs : list (text * nat)) : list line :=
  match rs with
  | [] => []
  | (m, k) :: r =>
      Plain m :: repeat (Times m (Z.of_nat n)) (k / S n)
      ++ (match r with
          | [] => []
          | _ => if Nat.eqb (k mod S n) 0 then [] else [Times m (Z.of_nat (k mod S n))]
          end)
      ++ runs_output n r
  end.

(** Neighbouring runs have different messages. *)
Fixpoint proper_runs (rs : list (text * nat)) : Prop :=
  match rs with
  | (m, _) :: (((m', _) :: _) as r) => m <> m' /\ proper_runs r
  | _ => True
  end.

(** The messages of the runs. *)
Definition runs_texts (rs : list (text * nat)) : list text :=
  flat_map (fun r => repeat (fst r) (S (snd r))) rs.

(** Occurrences of a message that a line stands for. *)
Definition stands_for (m : text) (l : line) : Z :=
  match l with
  | Plain m' => if Z.eqb m' m then 1 else 0
  | Times m' n => if Z.eqb m' m then n else 0
  end.
Definition accounted (m : text) (ls : list line) : Z :=
  fold_right Z.add 0 (map (stands_for m) ls).
Definition occurrences (m : text) (ts : list text) : Z :=
  Z.of_nat (count_occ Z.eq_dec ts m).

(** The value last set for the name in the history. *)
Fixpoint last_bt (n : name) (os : list op) (d : bool) : bool :=
  match os with
  | [] => d
  | SetBt n' b :: r => last_bt n r (if Z.eqb n' n then b else d)
  | _ :: r => last_bt n r d
  end.
Fixpoint last_hl (n : name) (os : list op) (d : bool) : bool :=
  match os with
  | [] => d
  | SetHl n' b :: r => last_hl n r (if Z.eqb n' n then b else d)
  | _ :: r => last_hl n r d
  end.
Fixpoint last_level (n : name) (os : list op) (d : option Z) : option Z :=
  match os with
  | [] => d
  | SetLevel n' l :: r => last_level n r (if Z.eqb n' n then l else d)
  | _ :: r => last_level n r d
  end.

(** Identities are not reused: each Create has a new one. *)
Definition created (os : list op) : list nat :=
  flat_map (fun o => match o with Create i _ _ => [i] | _ => [] end) os.

(** Messages a sink has received. *)
Definition received (s : sink) (out : list (option sink * msg)) : list msg :=
  flat_map (fun p => match fst p with
                     | Some s' => if Z.eqb s' s then [snd p] else []
                     | None => []
                     end) out.

(** The statement has the mark of call site k. *)
Definition of_site (k : site) (e : event) : bool :=
  match e_mark e with Some (k', _) => Z.eqb k' k | None => false end.


(** The level of the statement is not below its logger's level. *)
Definition enabled (e : event) : bool := negb (e_level e <? e_logger e).


(** The messages of site k whose level is enabled, in order. *)
Definition site_texts (k : site) (es : list event) : list text :=
  map e_text (filter (fun e => enabled e && of_site k e) es).


(** The last of the messages, if any. *)
Fixpoint last_text (ts : list text) (d : option text) : option text :=
  match ts with [] => d | t :: r => last_text r (Some t) end.


(** The lines printed by statements of site k. *)
Definition site_lines (k : site) (out : list (event * line)) : list line :=
  map snd (filter (fun p => of_site k (fst p)) out).


(** Each time is at least d after the previous one. *)
Fixpoint gaps (d : Z) (ts : list Z) : Prop :=
  match ts with
  | a :: ((b :: _) as r) => d <= b - a /\ gaps d r
  | _ => True
  end.


(** How often the sink was added ... *)
Definition adds (s : sink) (os : list lop) : nat :=
  length (filter (fun o => match o with AddSink s' => Z.eqb s' s | _ => false end) os).


(** ... and removed. *)
Definition removes (s : sink) (os : list lop) : nat :=
  length (filter (fun o => match o with RemoveSink s' => Z.eqb s' s | _ => false end) os).


(** The messages logged, in order. *)
Definition copied (os : list lop) : list msg :=
  flat_map (fun o => match o with LogCopy m => [m] | _ => [] end) os.


(** The deliveries of message m. *)
Definition about (m : msg) (out : list (option sink * msg)) : list (option sink * msg) :=
  filter (fun p => Z.eqb (snd p) m) out.


(** A setting is known for the name: a level, or one of the switches on. *)
Definition some_setting (n : name) (os : list op) : bool :=
  match last_level n os None with Some _ => true | None => false end
  || last_bt n os false || last_hl n os false.

(** The sinks added, in order. *)
Definition added (os : list lop) : list sink :=
  flat_map (fun o => match o with AddSink s => [s] | _ => [] end) os.
