(** Model of logging: the filter of repeated messages, the settings of
    named loggers and the delivery to sinks.
    Source: stingraykit/log/LoggerStream.{h,cpp}, stingraykit/log/Logger.cpp. *)
From Coq Require Import ZArith List Bool.
Import ListNotations.
Open Scope Z_scope.

(** A message text is abstracted to an integer: only equality of texts is
    used by the code.  A call site (file name and line, LoggerStream.h 29-37)
    is an integer too; KeyType::operator< (LoggerStream.cpp 17-22) is a strict
    order on pairs whose equivalence is equality of the two fields. *)
Definition text := Z.
Definition site := Z.

(** The text given to the log function: the message itself
    (LoggerStream.cpp 55, 70) or "message (n times)" (67). *)
Inductive line := Plain (m : text) | Times (m : text) (n : Z).

(** HideDuplicatingLogs, LoggerStream.h 39-57: the count and the interval;
    the interval form has the count 2^32 - 1. *)
Record hide := Hide { h_count : Z; h_interval : option Z }.

Definition every_count (n : Z) : hide := Hide n None.
Definition every_interval (d : Z) : hide := Hide (2 ^ 32 - 1) (Some d).

(** StringCounter, LoggerStream.h 65-71.  Elapsed holds the time at which it
    was started. *)
Record counter := Counter { c_str : text; c_count : option Z; c_since : option Z }.

(** LoggerStream.h 71: a default counter (the text "" is 0 here). *)
Definition counter0 : counter := Counter 0 None None.

(** StringCounter::Reset, LoggerStream.h 73-82. *)
Definition reset (m : text) (has_interval : bool) (now : Z) : counter :=
  Counter m (Some 0) (if has_interval then Some now else None).

Definition is_some {A} (o : option A) : bool := match o with Some _ => true | None => false end.

(** LoggerStream::DoLog for a stream with the filter, LoggerStream.cpp 51-75.
    Elapsed >= Interval compares with an optional: a null one is less than
    any duration (the case of one site used with both forms). *)
Definition do_log (h : hide) (c : counter) (m : text) (now : Z) : counter * list line :=
  match c_count c with
  | None => (reset m (is_some (h_interval h)) now, [Plain m])
  | Some k =>
      let new_message := negb (Z.eqb (c_str c) m) in
      let timed_out := match c_since c with
                       | Some s => match h_interval h with
                                   | Some d => d <=? now - s
                                   | None => true
                                   end
                       | None => false
                       end in
      if new_message || (h_count h <=? k) || timed_out
      then (reset m (is_some (h_interval h)) now,
            (if 0 <? k then [Times (c_str c) k] else [])
            ++ (if new_message then [Plain m] else []))
      else (Counter (c_str c) (Some ((k + 1) mod 2 ^ 32)) (c_since c), [])
  end.

(** The filter: std::map from keys to counters, LoggerStream.h 87-93. *)
Definition filter_state := site -> counter.
Definition filter0 : filter_state := fun _ => counter0.
Definition fset (f : filter_state) (k : site) (c : counter) : filter_state :=
  fun k' => if Z.eqb k' k then c else f k'.

(** One statement that writes one message to a stream: its level, the level
    of the logger, the mark that hides duplicates (if any) and the time. *)
Record event := Event { e_level : Z; e_logger : Z; e_mark : option (site * hide);
                        e_text : text; e_now : Z }.

(** The stream of the event: operator<< (LoggerStream.h 124-130, 136-142)
    creates the text only if the level is not below the logger's; the
    destructor (LoggerStream.cpp 31-40) logs it then; DoLog 43-75. *)
Definition log_event (f : filter_state) (e : event) : filter_state * list line :=
  if e_level e <? e_logger e then (f, [])
  else match e_mark e with
       | None => (f, [Plain (e_text e)])
       | Some (k, h) =>
           let '(c, out) := do_log h (f k) (e_text e) (e_now e) in (fset f k c, out)
       end.

(** A program of such statements.  Each line of the output is paired with the
    statement that printed it. *)
Fixpoint log_run (f : filter_state) (es : list event) : filter_state * list (event * line) :=
  match es with
  | [] => (f, [])
  | e :: r => let '(f1, o1) := log_event f e in
              let '(f2, o2) := log_run f1 r in
              (f2, map (pair e) o1 ++ o2)
  end.

(** * The settings of named loggers *)

Definition name := Z.

(** NamedLoggerSettings, Logger.cpp 24-46. *)
Record settings := Settings { s_level : option Z; s_bt : bool; s_hl : bool }.
Definition settings0 : settings := Settings None false false.
Definition s_empty (s : settings) : bool :=
  negb (is_some (s_level s)) && negb (s_bt s) && negb (s_hl s).

(** A live NamedLogger: its parameters and own level, Logger.h 133-139,
    NamedLoggerParams.h. *)
Record logger := Logger { l_id : nat; l_name : name; l_level : option Z; l_bt : bool; l_hl : bool }.

(** NamedLoggerRegistry, Logger.cpp 48-56: the map of settings and the
    registered loggers.  The names and the map are a function. *)
Record registry := Registry { r_settings : name -> option settings; r_loggers : list logger }.
Definition registry0 : registry := Registry (fun _ => None) [].

Definition sset (f : name -> option settings) (n : name) (s : option settings) : name -> option settings :=
  fun n' => if Z.eqb n' n then s else f n'.

Definition set_level (l : option Z) (g : logger) : logger := Logger (l_id g) (l_name g) l (l_bt g) (l_hl g).
Definition set_bt (b : bool) (g : logger) : logger := Logger (l_id g) (l_name g) (l_level g) b (l_hl g).
Definition set_hl (b : bool) (g : logger) : logger := Logger (l_id g) (l_name g) (l_level g) (l_bt g) b.

(** The loop over equal_range(loggerName), Logger.cpp 89-91, 109-111, 122-124. *)
Definition for_name (n : name) (u : logger -> logger) (gs : list logger) : list logger :=
  map (fun g => if Z.eqb (l_name g) n then u g else g) gs.

(** _settings.emplace, the change and the erasure of empty settings,
    Logger.cpp 93-96, 113-116, 126-129. *)
Definition change (n : name) (u : settings -> settings) (f : name -> option settings) : name -> option settings :=
  let s := u (match f n with Some s => s | None => settings0 end) in
  sset f n (if s_empty s then None else Some s).

Inductive op :=
| Create (i : nat) (n : name) (l : option Z)      (* NamedLogger(name, logLevel) *)
| Destroy (i : nat)                               (* ~NamedLogger *)
| SetLevel (n : name) (l : option Z)              (* Logger::SetLogLevel(name, level) *)
| SetBt (n : name) (b : bool)                     (* Logger::EnableBacktrace(name, b) *)
| SetHl (n : name) (b : bool).                    (* Logger::EnableHighlight(name, b) *)

(** Create: NamedLogger::NamedLogger, Logger.cpp 288-294, and Register, 59-70.
    Destroy: Unregister, 72-76.  SetLogLevel 86-97, EnableBacktrace 106-117,
    EnableHighlight 119-130.  The singleton exists throughout. *)
Definition reg_step (r : registry) (o : op) : registry :=
  match o with
  | Create i n l =>
      let g := Logger i n l false false in
      let g' := match r_settings r n with
                | Some s => set_hl (s_hl s) (set_bt (s_bt s) (set_level (s_level s) g))
                | None => g
                end in
      Registry (r_settings r) (r_loggers r ++ [g'])
  | Destroy i => Registry (r_settings r) (filter (fun g => negb (Nat.eqb (l_id g) i)) (r_loggers r))
  | SetLevel n l =>
      Registry (change n (fun s => Settings l (s_bt s) (s_hl s)) (r_settings r))
               (for_name n (set_level l) (r_loggers r))
  | SetBt n b =>
      Registry (change n (fun s => Settings (s_level s) b (s_hl s)) (r_settings r))
               (for_name n (set_bt b) (r_loggers r))
  | SetHl n b =>
      Registry (change n (fun s => Settings (s_level s) (s_bt s) b) (r_settings r))
               (for_name n (set_hl b) (r_loggers r))
  end.

Definition reg_run (os : list op) : registry := fold_left reg_step os registry0.

(** Logger::GetLogLevel(name), Logger.cpp 99-104. *)
Definition get_level (r : registry) (n : name) : option Z :=
  match r_settings r n with Some s => s_level s | None => None end.

(** NamedLogger::GetLogLevel, Logger.cpp 297-302. *)
Definition effective_level (global : Z) (g : logger) : Z :=
  match l_level g with Some l => l | None => global end.

(** * Sinks *)

Definition sink := Z.
Definition msg := Z.

(** LoggerImpl and the calls of Log that have copied the sinks and not
    finished, Logger.cpp 133-193.  Delivered messages are the observable
    history, oldest first; None is the system log. *)
Record lstate := LState { st_sinks : list sink;
                          st_calls : list (msg * list sink);
                          st_out : list (option sink * msg) }.
Definition lstate0 : lstate := LState [] [] [].

(** std::find and erase of the first equal sink, Logger.cpp 153-155. *)
Fixpoint remove_first (s : sink) (ss : list sink) : list sink :=
  match ss with
  | [] => []
  | x :: r => if Z.eqb x s then r else x :: remove_first s r
  end.

Inductive lop :=
| AddSink (s : sink)          (* Logger::AddSink *)
| RemoveSink (s : sink)       (* destruction of its token *)
| LogCopy (m : msg)           (* Log up to the copy of the sinks *)
| LogNext (i : nat) (throws : bool). (* call i gives its message to the next sink, which throws or not *)

Fixpoint upd {A} (l : list A) (i : nat) (x : A) : list A :=
  match l, i with
  | [], _ => []
  | _ :: r, O => x :: r
  | y :: r, S j => y :: upd r j x
  end.

(** AddSink 144-148; RemoveSink 150-156; Log 158-177 up to the copy, and the
    message of a Log without sinks to SystemLogger (170-171); one iteration
    of PutMessageToSinks 185-191: what a sink throws (a std::exception) is
    swallowed, so the loop goes on. *)
Definition lstep (st : lstate) (o : lop) : lstate :=
  match o with
  | AddSink s => LState (st_sinks st ++ [s]) (st_calls st) (st_out st)
  | RemoveSink s => LState (remove_first s (st_sinks st)) (st_calls st) (st_out st)
  | LogCopy m =>
      match st_sinks st with
      | [] => LState [] (st_calls st ++ [(m, [])]) (st_out st ++ [(None, m)])
      | ss => LState ss (st_calls st ++ [(m, ss)]) (st_out st)
      end
  | LogNext i _ =>
      match nth_error (st_calls st) i with
      | Some (m, s :: r) => LState (st_sinks st) (upd (st_calls st) i (m, r)) (st_out st ++ [(Some s, m)])
      | _ => st
      end
  end.

Definition lrun (os : list lop) : lstate := fold_left lstep os lstate0.

(** A Log call that no other call interrupts: the copy, then the loop over
    the sinks, each of which may throw. *)
Definition log_all (ths : sink -> bool) (st : lstate) (m : msg) : lstate :=
  fold_left (fun st s => lstep st (LogNext (length (st_calls st) - 1)%nat (ths s)))
            (st_sinks st) (lstep st (LogCopy m)).
