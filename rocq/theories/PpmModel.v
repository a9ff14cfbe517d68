(** Model of compression/ppm/PpmModel.h, PpmCompressor.h, PpmDecompressor.h and PpmDictionaryBuilder.h: the statistics, the
    prediction and its inverse.

    Symbol is u8 (a Z from 0 to 255), SymbolCount is u32; counts do not wrap (that would take 2^32 training symbols).  The list of
    model configurations is a list here; contexts are lists of symbols.  A failed check is None.  Which contexts a Compactificator
    gives up depends on std::sort with equal counts, so giving up is a step that may take any context. *)
From Verif Require Import Base ArithModel.
Local Open Scope Z_scope.

(** PpmDictionaryFactory.h:25-31: PpmModelConfig: ContextSize and the width of Probability; Scale is its largest value *)
Record cfg := mkCfg { csize : nat; pbits : Z }.
Definition scale_max (g : cfg) : Z := 2 ^ pbits g - 1.

(** array::operator <, the order of std::map<Context, ...> *)
Fixpoint lex_lt (a b : list Z) {struct a} : bool :=
  match a, b with
  | _, [] => false
  | [], _ :: _ => true
  | x :: a', y :: b' => if x <? y then true else if y <? x then false else lex_lt a' b'
  end.

(** PpmModel.h:51-84: ContextInfoBuilder: the symbols with their counts, sorted; AddSymbol (64-74) tells whether it inserted *)
Definition counts := list (Z * Z).
Fixpoint info_add (s k : Z) (l : counts) : bool * counts :=
  match l with
  | [] => (true, [(s, k)])
  | (s', k') :: t => if s' <? s then let (b, t') := info_add s k t in (b, (s', k') :: t')
                     else if s' =? s then (false, (s', k' + k) :: t)
                     else (true, (s, k) :: l)
  end.

(** PpmModel.h:88-154: ModelBuilder, one level: _contexts, _contextsCount, _entriesCount *)
Record level := mkLevel { ctxs : list (list Z * counts); n_contexts : Z; n_entries : Z }.
Definition level0 : level := mkLevel [] 0 0.
(** PpmModel.h:127-139: AddContext and DoAddSymbol: the context and the entry are created if missing *)
Fixpoint map_add (c : list Z) (s k : Z) (m : list (list Z * counts)) : (bool * bool) * list (list Z * counts) :=
  match m with
  | [] => ((true, true), [(c, [(s, k)])])
  | (c', l) :: t => if lex_lt c' c then let (r, t') := map_add c s k t in (r, (c', l) :: t')
                    else if lex_lt c c' then ((true, true), (c, [(s, k)]) :: m)
                    else let (b, l') := info_add s k l in ((false, b), (c', l') :: t)
  end.
Definition level_add (c : list Z) (s k : Z) (v : level) : level :=
  let (r, m) := map_add c s k (ctxs v) in
  mkLevel m (n_contexts v + if fst r then 1 else 0) (n_entries v + if snd r then 1 else 0).

Definition lastn {A} (n : nat) (l : list A) : list A := skipn (length l - n) l.
Definition builder := list (cfg * level).
(** PpmModel.h:111-122 and 163-164: the first level whose context size is not more than what there is *)
Fixpoint b_add (ctx : list Z) (s k : Z) (b : builder) : builder :=
  match b with
  | [] => []
  | (g, v) :: t => if (length ctx <? csize g)%nat then (g, v) :: b_add ctx s k t
                   else (g, level_add (lastn (csize g) ctx) s k v) :: t
  end.
(** PpmModel.h:264-277: DoPop, with RemoveContext (141-146): the symbols of a context go to the next level and it is removed *)
Fixpoint map_remove (c : list Z) (m : list (list Z * counts)) : option (counts * list (list Z * counts)) :=
  match m with
  | [] => None
  | (c', l) :: t => if list_eq_dec Z.eq_dec c c' then Some (l, t)
                    else match map_remove c t with Some (l', t') => Some (l', (c', l) :: t') | None => None end
  end.
Fixpoint b_pop (i : nat) (c : list Z) (b : builder) {struct b} : option builder :=
  match b with
  | [] => None
  | (g, v) :: t =>
      match i with
      | O => match t, map_remove c (ctxs v) with
             | (g', v') :: t', Some (l, m) =>
                 Some ((g, mkLevel m (n_contexts v - 1) (n_entries v - Z.of_nat (length l))) ::
                       (g', fold_left (fun acc e => level_add (lastn (csize g') c) (fst e) (snd e) acc) l v') :: t')
             | _, _ => None
             end
      | S i' => option_map (cons (g, v)) (b_pop i' c t)
      end
  end.

(** PpmDictionaryBuilder.h:62-76 and PpmCompressor.h:148-150: the context is cut to the largest context size *)
Definition push_context (top : nat) (ctx : list Z) (s : Z) : list Z :=
  let c := ctx ++ [s] in if (top <? length c)%nat then tl c else c.

(** PpmModel.h:373: the largest count; GetExit() is 0 (57, 61) *)
Definition exit_count : Z := 0.
Definition max_count (l : counts) : Z := fold_left (fun m e => Z.max m (snd e)) l exit_count.
(** PpmModel.h:378, 392: a count as a Probability *)
Definition scaled (g : cfg) (maxc k : Z) : Z := (if scale_max g <? maxc then k * scale_max g / maxc else k) mod 2 ^ pbits g.
(** PpmModel.h:386-396: every symbol of the alphabet from [sym] on, [n] of them *)
Fixpoint fill (n : nat) (g : cfg) (maxc sym : Z) (l : counts) : counts :=
  match n with
  | O => []
  | S n' => match l with
            | (s, k) :: t => if s =? sym then (sym, Z.max (scaled g maxc k) 1) :: fill n' g maxc (sym + 1) t
                             else (sym, 1) :: fill n' g maxc (sym + 1) l
            | [] => (sym, 1) :: fill n' g maxc (sym + 1) []
            end
  end.
(** PpmModel.h:374-397: the symbols of one context with their probabilities *)
Definition probs (g : cfg) (l : counts) : counts :=
  let maxc := max_count l in
  if (csize g =? 0)%nat then fill 256 g maxc 0 l
  else filter (fun e => negb (snd e =? 0)) (map (fun e => (fst e, scaled g maxc (snd e))) l).
(** PpmModel.h:402 *)
Definition exit_prob (g : cfg) (l : counts) : Z :=
  let maxc := max_count l in Z.max 1 (if scale_max g <? maxc then exit_count * scale_max g / maxc else exit_count).

(** PpmModel.h:307-363: a level of the Model: all symbols in one vector, each context with its exit probability and offset *)
Record mlevel := mkM { m_cfg : cfg; m_symbols : counts; m_contexts : list (list Z * Z * nat) }.
(** PpmModel.h:366-405 *)
Definition add_context (g : cfg) (m : mlevel) (e : list Z * counts) : mlevel :=
  match probs g (snd e) with
  | [] => m
  | p => mkM g (m_symbols m ++ p) (m_contexts m ++ [(fst e, exit_prob g (snd e), length (m_symbols m))])
  end.
Definition build_level (gv : cfg * level) : mlevel := fold_left (add_context (fst gv)) (ctxs (snd gv)) (mkM (fst gv) [] []).
Definition build (b : builder) : list mlevel := map build_level b.

(** PpmModel.h:418-426, 439-444: lower_bound (the contexts come from a map and are sorted) and the part of the vector up to the next
    context's offset; the context that is found is not compared with the one that was looked for *)
Fixpoint find_context (c : list Z) (l : list (list Z * Z * nat)) (total : nat) : option (Z * nat * nat) :=
  match l with
  | [] => None
  | (c', e, off) :: t => if lex_lt c' c then find_context c t total
                         else Some (e, off, match t with [] => total | (_, _, off2) :: _ => off2 end)
  end.
Definition lookup (m : mlevel) (c : list Z) : option (Z * counts) :=
  match find_context c (m_contexts m) (length (m_symbols m)) with
  | None => None
  | Some (e, off, stop) => Some (e, firstn (stop - off) (skipn off (m_symbols m)))
  end.

(** PpmModel.h:466, 487: in SymbolCount, u32 *)
Definition total (l : counts) (exit : Z) : Z := w32 (fold_left (fun a e => w32 (a + snd e)) l 0 + exit).
(** PpmModel.h:473-479: the symbols before the looked-for one; Sum adds in the type of its elements, Probability (Range.h:1479-1485) *)
Fixpoint find_symbol (s : Z) (l : counts) (acc : counts) : option (counts * Z) :=
  match l with
  | [] => None
  | (s', p) :: t => if s' <? s then find_symbol s t (acc ++ [(s', p)]) else if s' =? s then Some (acc, p) else None
  end.
Definition sum_prob (g : cfg) (l : counts) : Z := fold_left (fun a e => (a + snd e) mod 2 ^ pbits g) l 0.
(** PpmModel.h:464-482: the interval that is encoded, and whether it is the symbol (true) or the exit *)
Definition do_predict (g : cfg) (l : counts) (exit : Z) (symbol : option Z) : sym * bool :=
  let scale := total l exit in
  let leave := (mk_sym (w32 (scale - exit)) scale scale, false) in
  match symbol with
  | None => leave
  | Some s => match find_symbol s l [] with
              | None => leave
              | Some (before, p) => let low := sum_prob g before in (mk_sym low (w32 (low + p)) scale, true)
              end
  end.
(** PpmModel.h:408-429 and 514-515 *)
Fixpoint predict (ms : list mlevel) (ctx : list Z) (symbol : option Z) : option (list sym) :=
  match ms with
  | [] => match symbol with None => Some [] | Some _ => None end
  | m :: t =>
      if (length ctx <? csize (m_cfg m))%nat then predict t ctx symbol
      else match lookup m (lastn (csize (m_cfg m)) ctx) with
           | None => predict t ctx symbol
           | Some (exit, l) => let (y, here) := do_predict (m_cfg m) l exit symbol in
                               if here then Some [y] else option_map (cons y) (predict t ctx symbol)
           end
  end.
(** PpmModel.h:490-501 *)
Fixpoint scan (l : counts) (low target : Z) : option (Z * Z * Z) :=
  match l with
  | [] => None
  | (s, p) :: t => let high := w32 (low + p) in
                   if (low <=? target) && (target <? high) then Some (s, low, high) else scan t high target
  end.
(** PpmModel.h:485-502: None: a check in SymbolDecoded failed *)
Definition do_decode (l : counts) (exit : Z) (d : decoder) : option (option Z * decoder) :=
  let scale := total l exit in
  let (s, y) := match scan l 0 (get_probability d scale) with
                | Some (s, low, high) => (Some s, mk_sym low high scale)
                | None => (None, mk_sym (w32 (scale - exit)) scale scale)
                end in
  match symbol_decoded d y with Some d' => Some (s, d') | None => None end.
(** PpmModel.h:432-447 and 518-519 *)
Fixpoint decode_symbol (ms : list mlevel) (ctx : list Z) (d : decoder) : option (option Z * decoder) :=
  match ms with
  | [] => Some (None, d)
  | m :: t =>
      if (length ctx <? csize (m_cfg m))%nat then decode_symbol t ctx d
      else match lookup m (lastn (csize (m_cfg m)) ctx) with
           | None => decode_symbol t ctx d
           | Some (exit, l) => match do_decode l exit d with
                               | None => None
                               | Some (Some s, d') => Some (Some s, d')
                               | Some (None, d') => decode_symbol t ctx d'
                               end
           end
  end.

(** Model::ContextSize: that of the first configuration *)
Definition top_size (ms : list mlevel) : nat := match ms with [] => 0%nat | m :: _ => csize (m_cfg m) end.
(** PpmCompressor.h:119-152: what is passed to the ArithmeticCoder for the bytes [msg] and the end of data *)
Fixpoint intervals (ms : list mlevel) (ctx : list Z) (msg : list Z) : option (list sym) :=
  match msg with
  | [] => predict ms ctx None
  | s :: t => match predict ms ctx (Some s), intervals ms (push_context (top_size ms) ctx s) t with
              | Some a, Some b => Some (a ++ b)
              | _, _ => None
              end
  end.
(** PpmDecompressor.h:124-135 and 161-180: symbols until the end-of-data mark; None: a check failed or no end within [fuel] symbols *)
Fixpoint decompress (fuel : nat) (ms : list mlevel) (ctx : list Z) (d : decoder) : option (list Z) :=
  match fuel with
  | O => None
  | S f => match decode_symbol ms ctx d with
           | None => None
           | Some (None, _) => Some []
           | Some (Some s, d') => option_map (cons s) (decompress f ms (push_context (top_size ms) ctx s) d')
           end
  end.

(** PpmDictionaryBuilder: training.  A builder's life: symbols added one after the other, contexts given up at any time *)
Record trainer := mkTr { tr_builder : builder; tr_context : list Z }.
Inductive tstep := Train (s : Z) | Pop (i : nat) (c : list Z).
Definition top_cfg (b : builder) : nat := match b with [] => 0%nat | (g, _) :: _ => csize g end.
Definition train1 (t : trainer) (e : tstep) : option trainer :=
  match e with
  | Train s => Some (mkTr (b_add (tr_context t) s 1 (tr_builder t)) (push_context (top_cfg (tr_builder t)) (tr_context t) s))
  | Pop i c => match b_pop i c (tr_builder t) with Some b => Some (mkTr b (tr_context t)) | None => None end
  end.
Fixpoint train (t : trainer) (es : list tstep) : option trainer :=
  match es with [] => Some t | e :: r => match train1 t e with Some t' => train t' r | None => None end end.
Definition trainer0 (gs : list cfg) : trainer := mkTr (map (fun g => (g, level0)) gs) [].
