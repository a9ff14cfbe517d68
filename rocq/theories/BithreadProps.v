(** C01, C02: io/BithreadCircularBuffer. *)
From Verif Require Import Base BithreadModel BithreadSpec BithreadProofs.
Set Implicit Arguments.
Local Open Scope Z_scope.

(** C01. For every non-empty storage and every interleaving of one writer and one
    reader, the answers are those of a plain FIFO byte queue ([BithreadSpec]); in
    particular no call made by a correct client throws. *)
Theorem C01_fifo : forall (A : Type) (storage : list A) (os : list (op A)),
  storage <> [] ->
  exists q', allowed_run (zlen storage) (mkQ [] None None) os (snd (run (sys_init storage) os)) q'.
Proof. exact fifo. Qed.
Print Assumptions C01_fifo.

(** C02. Views always lie inside the storage and never overlap. *)
Theorem C02_views_disjoint : forall (A : Type) (storage : list A) (os : list (op A)) (x : sys A),
  storage <> [] -> x = fst (run (sys_init storage) os) ->
  (forall v, wv x = Some v -> 0 <= fst v /\ 0 <= snd v /\ fst v + snd v <= zlen storage) /\
  (forall v, rv x = Some v -> 0 <= fst v /\ 0 <= snd v /\ fst v + snd v <= zlen storage) /\
  (forall v w, wv x = Some v -> rv x = Some w -> fst v + snd v <= fst w \/ fst w + snd w <= fst v).
Proof. exact no_alias. Qed.
Print Assumptions C02_views_disjoint.

(** C02. Filling the writer's view does not change what the reader sees. *)
Theorem C02_fill_preserves_reader :
  forall (A : Type) (storage : list A) (os : list (op A)) (k : Z) (bs : list A) (x : sys A) (v : view),
  storage <> [] -> x = fst (run (sys_init storage) os) -> rv x = Some v ->
  view_bytes (buf (fst (step x (OpFill k bs)))) v = view_bytes (buf x) v /\
  rv (fst (step x (OpFill k bs))) = Some v.
Proof. exact fill_preserves_reader. Qed.
Print Assumptions C02_fill_preserves_reader.

(** Non-vacuity: a run over a 4 byte storage that wraps around, with reader and
    writer views held at the same time. *)
Example bithread_run :
  snd (run (sys_init [0;0;0;0])
    [OpAcquireW; OpFill 0 [1;2;3]; OpPush 3; OpAcquireR; OpPop 2; OpAcquireW; OpFill 0 [4];
     OpPush 1; OpAcquireW; OpFill 0 [5]; OpAcquireR; OpGetData; OpPush 1; OpPop 2; OpAcquireR;
     OpGetData; OpDataSize; OpFreeSize]) =
  [OutSize 4; OutUnit; OutUnit; OutSize 3; OutUnit; OutSize 1; OutUnit; OutUnit; OutSize 2; OutUnit;
   OutSize 2; OutBytes [3;4]; OutUnit; OutUnit; OutSize 1; OutBytes [5]; OutSize 1; OutSize 3].
Proof. reflexivity. Qed.

Example bithread_views_held :
  let x := fst (run (sys_init [0;0;0;0]) [OpAcquireW; OpFill 0 [1;2]; OpPush 2; OpAcquireR; OpAcquireW]) in
  wv x = Some (2, 2) /\ rv x = Some (0, 2).
Proof. split; reflexivity. Qed.
