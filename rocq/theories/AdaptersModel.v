(** Model of the data source / data consumer adapters: stingraykit/io/IDataSource.h (ConsumeAll,
    InterceptingDataConsumer, ReactiveDataSource), io/DataUtils.h (TakingConsumer, DataTaker,
    SkippingConsumer, DataSkipper), io/DataAligner.h, io/BufferedDataMediator.h, io/ByteArrayDataSource.h,
    io/ByteStreamDataSource.h, io/PipeDataSource.cpp, io/ByteDataConsumer.cpp, io/DataSourceReader.cpp and
    io/DataPacketer.h.

    A consumer is any object with a state; [c_tok] is what a check of the cancellation token gives in
    that state (so a consumer's answers may cancel the token at any call).  Sizes do not wrap. *)
From Verif Require Import Base.

Definition byte := nat.

(** A call returns, throws, or does not return (within the loop bound given). *)
Inductive Res (A : Type) := Ok (a : A) | Thr | Hang.
Arguments Ok {A} a. Arguments Thr {A}. Arguments Hang {A}.

(** IDataSource.h:17-23 IDataConsumer *)
Record Consumer (S : Type) := mkC {
  c_proc : S -> list byte -> Res (S * nat);
  c_eod : S -> S;
  c_tok : S -> bool
}.
Arguments mkC {S}. Arguments c_proc {S}. Arguments c_eod {S}. Arguments c_tok {S}.

(** IDataSource.h:276-283 ConsumeAll; [F] bounds the number of iterations. *)
Fixpoint consume_all (F : nat) {S} (C : Consumer S) (s : S) (d : list byte) (off : nat) : Res (S * nat) :=
  match F with
  | O => Hang
  | Datatypes.S f =>
      if c_tok C s && (off <? length d)
      then match c_proc C s (skipn off d) with
           | Ok (s', k) => consume_all f C s' d (off + k)
           | Thr => Thr
           | Hang => Hang
           end
      else Ok (s, off)
  end.

(** IDataSource.h:73-93 IDataSource: a state and Read, for consumers of any type. *)
Record Source := mkS {
  src : Type;
  s_read : forall S, Consumer S -> src -> S -> Res (src * S)
}.

(** DataUtils.h:18-52 TakingConsumer; the state is _leftToTake and the consumer. *)
Definition taking {S} (C : Consumer S) (discard : bool) : Consumer (nat * S) :=
  mkC (fun ls d =>
         let '(lf, s) := ls in
         let size := Nat.min lf (length d) in
         if size =? 0 then Ok (ls, if discard then length d else 0)
         else match c_proc C s (firstn size d) with
              | Ok (s', k) => Ok ((lf - k, s'), k)
              | Thr => Thr
              | Hang => Hang
              end)
      (fun ls => (0, c_eod C (snd ls)))
      (fun ls => c_tok C (snd ls)).

(** DataUtils.h:69-75 DataTaker::Read *)
Fixpoint taker_loop (F : nat) (Sr : Source) {S} (C : Consumer S) (discard : bool) (x : src Sr) (ls : nat * S) : Res (src Sr * (nat * S)) :=
  match F with
  | O => Hang
  | Datatypes.S f =>
      if c_tok C (snd ls) && negb (fst ls =? 0)
      then match s_read Sr _ (taking C discard) x ls with
           | Ok (x', ls') => taker_loop f Sr C discard x' ls'
           | Thr => Thr
           | Hang => Hang
           end
      else Ok (x, ls)
  end.
Definition data_taker (F : nat) (Sr : Source) (discard : bool) : Source :=
  mkS (src Sr * nat) (fun S C st s =>
    match taker_loop F Sr C discard (fst st) (snd st, s) with
    | Ok (x', (lf', s')) => Ok ((x', lf'), s')
    | Thr => Thr
    | Hang => Hang
    end).

(** DataUtils.h:79-111 SkippingConsumer *)
Definition skipping (F : nat) {S} (C : Consumer S) (processRest : bool) : Consumer (nat * S) :=
  mkC (fun ls d =>
         let '(lf, s) := ls in
         let skipped := Nat.min lf (length d) in
         if (skipped <? length d) && processRest
         then match consume_all F C s (skipn skipped d) 0 with
              | Ok (s', _) => Ok ((lf - skipped, s'), length d)
              | Thr => Thr
              | Hang => Hang
              end
         else Ok ((lf - skipped, s), if processRest then length d else skipped))
      (fun ls => (0, c_eod C (snd ls)))
      (fun ls => c_tok C (snd ls)).

(** DataUtils.h:128-133 DataSkipper::Read *)
Definition data_skipper (F : nat) (Sr : Source) (processRest : bool) : Source :=
  mkS (src Sr * nat) (fun S C st s =>
    match s_read Sr _ (skipping F C processRest) (fst st) (snd st, s) with
    | Ok (x', (lf', s')) => Ok ((x', lf'), s')
    | Thr => Thr
    | Hang => Hang
    end).

(** math.h:29-33 *)
Definition align_down (n a : nat) : nat := a * (n / a).

(** DataAligner.h:39-66 Align, as the consumer handed to the source (EndOfData is forwarded, line 33);
    the state is _buffer and the consumer. *)
Definition aligning (F a : nat) (useBuffer : bool) {S} (C : Consumer S) : Consumer (list byte * S) :=
  mkC (fun bs d =>
         let '(buf, s) := bs in
         if length buf =? 0 then
           match consume_all F C s (firstn (align_down (length d) a) d) 0 with
           | Ok (s', processed) =>
               let remainder := length d - processed in
               if useBuffer && c_tok C s' && negb (remainder =? 0)
               then Ok ((buf ++ skipn processed d, s'), processed + remainder)
               else Ok ((buf, s'), processed)
           | Thr => Thr
           | Hang => Hang
           end
         else
           let offset := Nat.min (a - length buf) (length d) in
           let buf := buf ++ firstn offset d in
           if length buf =? a
           then match consume_all F C s buf 0 with
                | Ok (s', _) => Ok (([], s'), offset)
                | Thr => Thr
                | Hang => Hang
                end
           else Ok ((buf, s), offset))
      (fun bs => (fst bs, c_eod C (snd bs)))
      (fun bs => c_tok C (snd bs)).

(** DataAligner.h:32-33 *)
Definition data_aligner (F a : nat) (useBuffer : bool) (Sr : Source) : Source :=
  mkS (src Sr * list byte) (fun S C st s =>
    match s_read Sr _ (aligning F a useBuffer C) (fst st) (snd st, s) with
    | Ok (x', (buf', s')) => Ok ((x', buf'), s')
    | Thr => Thr
    | Hang => Hang
    end).

(** BufferedDataMediator.h:27-51; the state is _buffer and _eod. *)
Definition med_process (m : list byte * bool) (d : list byte) : list byte * bool := (fst m ++ d, snd m).
Definition med_eod (m : list byte * bool) : list byte * bool := (fst m, true).
Definition mediator (F : nat) : Source :=
  mkS (list byte * bool) (fun S C m s =>
    match consume_all F C s (fst m) 0 with
    | Ok (s', _) => Ok (([], false), if snd m then c_eod C s' else s')
    | Thr => Thr
    | Hang => Hang
    end).

(** ByteArrayDataSource.h:27-33; the state is what is left of the array from _processed on. *)
Definition byte_array_source : Source :=
  mkS (list byte) (fun S C x s =>
    match x with
    | [] => Ok (x, c_eod C s)
    | _ => match c_proc C s x with
           | Ok (s', k) => Ok (skipn k x, s')
           | Thr => Thr
           | Hang => Hang
           end
    end).

(** What an underlying stream or pipe returns from a read into a buffer of [cap] bytes: at least one
    byte if there is one, unless the read was cancelled; the oracle says how many. *)
Definition read_size (tok : bool) (oracle : list nat) (cap rem : nat) : nat :=
  let k := hd 0 oracle in
  if (k =? 0) && negb tok then 0 else Nat.min (Nat.max 1 k) (Nat.min cap rem).

(** ByteStreamDataSource.h:31-39; the state is the rest of the stream and the oracle. *)
Definition stream_source (F cap : nat) : Source :=
  mkS (list byte * list nat) (fun S C x s =>
    let '(rem, o) := x in
    let n := read_size (c_tok C s) o cap (length rem) in
    let x' := (skipn n rem, tl o) in
    if negb (n =? 0)
    then match consume_all F C s (firstn n rem) 0 with
         | Ok (s', _) => Ok (x', s')
         | Thr => Thr
         | Hang => Hang
         end
    else if c_tok C s then Ok (x', c_eod C s) else Ok (x', s)).

(** PipeDataSource.cpp:18-36; an empty pipe is closed (reading from it throws PipeClosedException). *)
Definition pipe_source (cap : nat) : Source :=
  mkS (list byte * list nat) (fun S C x s =>
    let '(rem, o) := x in
    match rem with
    | [] => Ok (x, c_eod C s)
    | _ =>
        let n := read_size (c_tok C s) o cap (length rem) in
        let x' := (skipn n rem, tl o) in
        if n =? 0 then Ok (x', s)
        else match c_proc C s (firstn n rem) with
             | Ok (s', k) => if k =? 0 then Ok (x', s') else if k =? n then Ok (x', s') else Thr
             | Thr => Thr
             | Hang => Hang
             end
    end).

(** IDataSource.h:159-179 ReactiveDataConsumer, 189-194 ReactiveDataSource::Read *)
Definition reactive_consumer {S} (C : Consumer S) : Consumer (bool * S) :=
  mkC (fun fs d => match c_proc C (snd fs) d with
                   | Ok (s', k) => Ok ((fst fs, s'), k)
                   | Thr => Thr
                   | Hang => Hang
                   end)
      (fun fs => (true, c_eod C (snd fs)))
      (fun fs => c_tok C (snd fs)).
Fixpoint reactive_loop (F : nat) (Sr : Source) {S} (C : Consumer S) (x : src Sr) (fs : bool * S) : Res (src Sr * (bool * S)) :=
  match F with
  | O => Hang
  | Datatypes.S f =>
      if c_tok C (snd fs) && negb (fst fs)
      then match s_read Sr _ (reactive_consumer C) x fs with
           | Ok (x', fs') => reactive_loop f Sr C x' fs'
           | Thr => Thr
           | Hang => Hang
           end
      else Ok (x, fs)
  end.
Definition reactive_source (F : nat) (Sr : Source) : Source :=
  mkS (src Sr) (fun S C x s =>
    match reactive_loop F Sr C x (false, s) with
    | Ok (x', (_, s')) => Ok (x', s')
    | Thr => Thr
    | Hang => Hang
    end).

(** DataSourceReader.cpp:21-36 DataStorage, with a token that stays active. *)
Definition storage : Consumer (list byte) :=
  mkC (fun s d => Ok (s ++ d, length d)) (fun s => s) (fun _ => true).
(** DataSourceReader.cpp:38-40 *)
Definition read_to_end (F : nat) (Sr : Source) (x : src Sr) : Res (src Sr * list byte) :=
  s_read (reactive_source F Sr) _ storage x [].

(** IDataSource.h:42-53 InterceptingDataConsumer; the state is what _processFunc was given, the number of
    _eodFunc calls, and the consumer. *)
Definition intercepting {S} (C : Consumer S) : Consumer (list byte * nat * S) :=
  mkC (fun ls d => let '(log, n, s) := ls in
                   match c_proc C s d with
                   | Ok (s', k) => Ok ((log ++ firstn k d, n, s'), k)
                   | Thr => Thr
                   | Hang => Hang
                   end)
      (fun ls => let '(log, n, s) := ls in (log, Datatypes.S n, c_eod C s))
      (fun ls => let '(_, _, s) := ls in c_tok C s).

(** ByteDataConsumer.cpp:21-28: what has been written to the destination, the room left in it, _eod. *)
Definition byte_data_consumer (tok : bool) : Consumer (list byte * nat * bool) :=
  mkC (fun st d => let '(written, room, e) := st in
                   let size := Nat.min (length d) room in
                   Ok ((written ++ firstn size d, room - size, e), length d))
      (fun st => let '(written, room, _) := st in (written, room, true))
      (fun _ => tok).

(** IDataSource.h:226-233 IPacketConsumer *)
Record PConsumer (S : Type) := mkP {
  p_proc : S -> list byte -> Res (S * bool);
  p_eod : S -> S;
  p_tok : S -> bool
}.
Arguments mkP {S}. Arguments p_proc {S}. Arguments p_eod {S}. Arguments p_tok {S}.

(** DataPacketer.h:16-41 ConsumerDepacketer *)
Definition depacketer (F : nat) {S} (C : Consumer S) : PConsumer S :=
  mkP (fun s p => match consume_all F C s p 0 with
                  | Ok (s', _) => Ok (s', true)
                  | Thr => Thr
                  | Hang => Hang
                  end)
      (c_eod C) (c_tok C).

(** DataPacketer.h:45-76 ConsumerPacketer; the sub-view of line 70 throws if it is too long. *)
Definition packeter {S} (P : PConsumer S) (size : option nat) : Consumer S :=
  mkC (fun s d =>
         let n := match size with Some n => n | None => length d end in
         if length d <? n then Thr
         else match p_proc P s (firstn n d) with
              | Ok (s', b) => Ok (s', if b then n else 0)
              | Thr => Thr
              | Hang => Hang
              end)
      (p_eod P) (p_tok P).
