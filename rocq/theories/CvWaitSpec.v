(** * What users of ConditionVariable::Wait(mutex, token) rely on *)

From Coq Require Import List Arith Bool.
From Verif Require Import Conc CvWaitModel.
Import ListNotations.

(** the states some schedule leads to *)
Definition reachable (s : st) : Prop := exists ls, steps step init ls s.

(** the thread is inside Wait *)
Definition waiting (p : pc) : bool :=
  match p with
  | PReg _ _ _ _ | PSleep _ _ _ | PWoken _ _ _ | PRel _ _ _ | PDtor _ _ _ _ | PUnreg _ _ _ | PRelock _ _ => true
  | _ => false
  end.
(** the tokens it waits on *)
Definition waits_on (p : pc) : list nat :=
  match p with
  | PReg ls _ _ _ | PSleep ls _ _ | PWoken ls _ _ | PRel ls _ _ | PDtor ls _ _ _ | PUnreg ls _ _ | PRelock ls _ => ls
  | _ => []
  end.
Definition asleep (p : pc) : Prop := match p with PSleep _ _ _ => True | _ => False end.

(** the thread is inside code that the user's mutex protects *)
Definition critical (p : pc) : bool :=
  match p with
  | Hold                                                       (* the caller's code, before and after Wait *)
  | PReg _ _ _ _ | PRel _ _ _ | PDtor _ _ _ _                  (* Wait, except while asleep and while it waits for a Cancel *)
  | KCall true _ _ | KTail true _                              (* Cancel called with the mutex held *)
  | KHave _ _ _ | KUnl _ _ _ => true                           (* the handler *)
  | _ => false
  end.

(** the thread is inside Cancel of token [t] and has, or is about to use, the handler of the [n]-th Wait
    of thread [w] *)
Definition uses_handler (p : pc) (t w n : nat) : Prop :=
  match p with
  | KCall _ t' (Some h) | KHave _ t' h | KUnl _ t' h => t' = t /\ h = (w, n)
  | _ => False
  end.

(** steps that start no new operation: a thread goes on with the function it is in, or releases the mutex *)
Definition goes_on (l : nat * choice) : Prop := snd l = Go \/ snd l = Unlock.

(** ** BasicConditionVariable: threads inside Wait *)
Definition bwaiting (s : bst) : nat :=
  length (filter (fun p => match p with BCounted | BBlocked => true | _ => false end) (bpcs s)).
Definition no_timeouts (ls : list (nat * bchoice)) : Prop := Forall (fun l => snd l <> BTimeout) ls.
