(** LogParserModel.v -- executable model of Token's accessors, LogParserOutputBuffer, LogParser::parse,
    generate_log_event_view_metadata, LogEventView, LogEvent and BufferParser. *)
From Verif Require Import Base LexerModel.

(** * Token accessors *)

(** Read [count] bytes of [m] starting at [a]. *)
(** Token.cpp 8-17: the bytes m_buffer[a .. a+count). *)
Fixpoint read_range (m : mem) (a : N) (count : nat) : out (list N) :=
  match count with
  | O => Ret []
  | S n => match m a with
           | None => UB
           | Some x => do r <- read_range m (a + 1) n; Ret (x :: r)
           end
  end.

(** Token.cpp 8-17 / 19-28: to_string and to_string_view (same bytes; see TokenModel.v for the cache). *)
Definition tok_text (h : heap) (t : token) : out (list N) :=
  let m := h (t_sid t) in
  if t_start t <=? t_end t then read_range m (t_start t) (N.to_nat (t_end t - t_start t))
  else do a <- read_range m (t_start t) (N.to_nat (t_bufsz t - t_start t));
       do b <- read_range m 0 (N.to_nat (t_end t));
       Ret (a ++ b).

(** Token.cpp 30-35: get_char(i). *)
Definition tok_char (h : heap) (t : token) (i : N) : out N :=
  let m := h (t_sid t) in
  let p := if t_start t + i <? t_bufsz t then t_start t + i
           else i - (t_bufsz t - t_start t) in
  match m p with None => UB | Some x => Ret x end.

(** Token.cpp 37-39: get_delimiter. *)
Definition tok_delimiter (h : heap) (t : token) : out N :=
  match h (t_sid t) (t_start t) with None => UB | Some x => Ret x end.

(** Token.cpp 41-46: get_length. *)
Definition tok_length (t : token) : N :=
  if t_start t <=? t_end t then t_end t - t_start t else t_bufsz t - t_start t + t_end t.

(** m_type_ids_ptr->at(0): null pointer = UB, empty vector = std::out_of_range. *)
(** LogParser.cpp 184, 209, 215-216, 235, 301. *)
Definition tok_type (t : token) : out N :=
  match t_ids t with
  | None => UB
  | Some [] => Throw
  | Some (i :: _) => Ret i
  end.

(** Token.hpp 38-44: a default-constructed token. *)
Definition default_token : token := mkToken 0 0 Null 0 0 None.

(** * LogParserOutputBuffer.hpp / .cpp on top of Buffer<Token>.
    [ob_act] is the active storage; [ob_base] is the static storage while a dynamic one is active. *)
Record obuf := mkObuf {
  ob_act : N -> token;
  ob_base : option (N -> token);
  ob_size : N;
  ob_pos : N;
  ob_has_ts : bool;
  ob_has_delims : bool
}.
Definition obuf_init : obuf :=
  mkObuf (fun _ => default_token) None cStaticByteBuffSize 0 false false.
Definition ob_upd (f : N -> token) (i : N) (t : token) : N -> token :=
  fun j => if j =? i then t else f j.
(** LogParserOutputBuffer.hpp 40, Buffer.hpp 31. *)
Definition ob_set_token (o : obuf) (i : N) (t : token) : obuf :=
  mkObuf (ob_upd (ob_act o) i t) (ob_base o) (ob_size o) (ob_pos o) (ob_has_ts o) (ob_has_delims o).
(** LogParserOutputBuffer.hpp 50, Buffer.hpp 27. *)
Definition ob_set_curr (o : obuf) (t : token) : obuf := ob_set_token o (ob_pos o) t.
Definition ob_set_pos (o : obuf) (p : N) : obuf :=
  mkObuf (ob_act o) (ob_base o) (ob_size o) p (ob_has_ts o) (ob_has_delims o).
Definition ob_set_ts (o : obuf) (v : bool) : obuf :=
  mkObuf (ob_act o) (ob_base o) (ob_size o) (ob_pos o) v (ob_has_delims o).
Definition ob_set_delims (o : obuf) (v : bool) : obuf :=
  mkObuf (ob_act o) (ob_base o) (ob_size o) (ob_pos o) (ob_has_ts o) v.
(** LogParserOutputBuffer.cpp 8-16: advance_to_next_token, doubling a full buffer (Buffer.hpp 47-51, 75-78). *)
Definition ob_advance (o : obuf) : obuf :=
  let p := ob_pos o + 1 in
  if p =? ob_size o then
    mkObuf (fun i => if i <? ob_size o then ob_act o i else default_token)
           (match ob_base o with Some f => Some f | None => Some (ob_act o) end)
           (ob_size o * 2) p (ob_has_ts o) (ob_has_delims o)
  else ob_set_pos o p.
(** LogParserOutputBuffer.hpp 26-30, Buffer.hpp 57-62: the tokens in the static storage are kept. *)
Definition ob_reset (o : obuf) : obuf :=
  mkObuf (match ob_base o with Some f => f | None => ob_act o end) None cStaticByteBuffSize 0 false false.

(** Indices a, a+1, ..., b-1. *)
(** The index ranges of the loops at LogEvent.cpp 44-47 and LogParser.cpp 293-304. *)
Definition indices (a b : N) : list N :=
  map (fun i => a + N.of_nat i) (seq 0 (N.to_nat (b - a))).

(** First slot of an event (LogEvent.cpp 40-43, LogParser.cpp 294-297, ...). *)
Definition ob_first (o : obuf) : N := if ob_has_ts o then 0 else 1.
(** The event's tokens, slots [first, pos). *)
Definition ob_tokens (o : obuf) : list token := map (ob_act o) (indices (ob_first o) (ob_pos o)).

(** * LogParser *)
(** LogParser.hpp 21-25: enum class ParsingAction. *)
Inductive paction := ActNone | ActCompress | ActCompressAndFinish.

(** LogParser.hpp 164-167 with the LogEventView (LogEvent.hpp 118-126) inlined. [lp_occ] holds slot
    numbers instead of Token pointers into the output buffer. *)
Record lparser := mkLp {
  lp_lex : lex;
  lp_in : ibuf;
  lp_has_start : bool;        (* m_has_start_of_log *)
  lp_start_tok : token;       (* m_start_of_log_message *)
  lp_out : obuf;              (* m_log_event_view->m_log_output_buffer *)
  lp_multi : bool;            (* m_log_event_view->m_multiline *)
  lp_occ : list (list N)      (* m_log_event_view->m_log_var_occurrences *)
}.
Definition lp_set_out (p : lparser) (o : obuf) : lparser :=
  mkLp (lp_lex p) (lp_in p) (lp_has_start p) (lp_start_tok p) o (lp_multi p) (lp_occ p).
Definition lp_set_lexin (p : lparser) (l : lex) (b : ibuf) : lparser :=
  mkLp l b (lp_has_start p) (lp_start_tok p) (lp_out p) (lp_multi p) (lp_occ p).
Definition lp_set_start (p : lparser) (v : bool) (t : token) : lparser :=
  mkLp (lp_lex p) (lp_in p) v t (lp_out p) (lp_multi p) (lp_occ p).
Definition lp_set_cons (p : lparser) (n : N) : lparser :=
  lp_set_lexin p (lp_lex p) (ib_set_cons (lp_in p) n).

(** LogEvent.cpp 23-29 (reset) via LogParser.hpp 115. *)
Definition reset_log_event_view (p : lparser) : lparser :=
  mkLp (lp_lex p) (lp_in p) (lp_has_start p) (lp_start_tok p) (ob_reset (lp_out p)) false
       (map (fun _ => []) (lp_occ p)).

(** LogParser.cpp 158-162: reset (m_has_start_of_log is NOT cleared). *)
Definition lp_reset (c : lexcfg) (p : lparser) : lparser :=
  let b := ib_reset (lp_in p) in
  lp_set_lexin p (prepend_sof c lex_reset b) b.

(** LogParser.cpp 289-291: get_next_symbol. *)
Definition get_next_symbol (fuel : nat) (c : lexcfg) (p : lparser) : out (option token * lparser) :=
  do (ot, l, b) <- scan fuel c (lp_lex p) (lp_in p);
  Ret (ot, lp_set_lexin p l b).

(** LogParser.cpp 190-196 and 256-261: skip the leading newline of the next event's first token. *)
Definition skip_newline (t : token) : token :=
  set_t_start t (if t_start t =? t_bufsz t - 1 then 0 else t_start t + 1).
(** LogParser.cpp 198-200 and 262-266: keep only that newline, as static text. *)
Definition only_newline (t : token) : token :=
  set_t_ids (set_t_end t (t_start t + 1)) cTokenUncaughtStringTypes.

(** LogParser.cpp 229-280: the loop of parse. [None] = BufferOutOfBounds. *)
Fixpoint parse_loop (fuel : nat) (sfuel : nat) (c : lexcfg) (p : lparser)
  : out (option paction * lparser) :=
  match fuel with
  | O => OutOfFuel
  | S fuel' =>
    do (ot, p1) <- get_next_symbol sfuel c p;
    match ot with
    | None => Ret (None, p1)
    | Some tok =>
      let p2 := lp_set_out p1 (ob_set_curr (lp_out p1) tok) in                 (* 234 *)
      let has_ts := ob_has_ts (lp_out p2) in
      do ty <- tok_type tok;                                                   (* 235 *)
      do found <-                                                              (* 236-240 *)
        (if has_ts && (ty =? TokenNewlineTimestamp) then Ret true
         else if negb has_ts then
           do ch <- tok_char (ib_heap (lp_in p2)) tok 0;
           Ret ((ch =? cNewline) && negb (ty =? TokenNewline))
         else Ret false);
      if ty =? TokenEnd then Ret (Some ActCompressAndFinish, p2)               (* 241-244 *)
      else if negb has_ts && (ty =? TokenNewline) then                         (* 245-252 *)
        let p3 := lp_set_cons p2 (t_end tok) in
        Ret (Some ActCompress, lp_set_out p3 (ob_advance (lp_out p3)))
      else if found then                                                       (* 253-277 *)
        let st := skip_newline tok in
        let p3 := lp_set_out p2 (ob_set_curr (lp_out p2) (only_newline tok)) in
        let p4 := lp_set_cons p3 (if t_start st =? 0 then ib_size (lp_in p3) - 1 else t_start st - 1) in
        let p5 := lp_set_start p4 true st in
        Ret (Some ActCompress, lp_set_out p5 (ob_advance (lp_out p5)))
      else parse_loop fuel' sfuel c (lp_set_out p2 (ob_advance (lp_out p2)))   (* 278 *)
    end
  end.

(** LogParser.cpp 209-226: the first token of an event has been obtained. *)
Definition parse_first (fuel : nat) (sfuel : nat) (c : lexcfg) (p : lparser) (tok : token)
  : out (option paction * lparser) :=
  do ty <- tok_type tok;
  if ty =? TokenEnd then
    Ret (Some ActCompressAndFinish, lp_set_out p (ob_set_pos (ob_set_token (lp_out p) 0 tok) 1))
  else
    let o := lp_out p in
    let o' := if (ty =? TokenFirstTimestamp) || (ty =? TokenNewlineTimestamp)
              then ob_set_pos (ob_set_token (ob_set_ts o true) 0 tok) 1
              else ob_set_pos (ob_set_token (ob_set_ts o false) 1 tok) 2 in
    parse_loop fuel sfuel c (lp_set_start (lp_set_out p o') false (lp_start_tok p)).

(** LogParser.cpp 172-281: parse. *)
Definition parse (fuel : nat) (sfuel : nat) (c : lexcfg) (p : lparser) : out (option paction * lparser) :=
  if ob_pos (lp_out p) =? 0 then
    let p1 := lp_set_out p (ob_set_delims (lp_out p) (c_has_delims c)) in
    if lp_has_start p1 then parse_first fuel sfuel c p1 (lp_start_tok p1)
    else
      do (ot, p2) <- get_next_symbol sfuel c p1;
      match ot with
      | None => Ret (None, p2)
      | Some tok =>
        if ob_has_ts (lp_out p2) then parse_first fuel sfuel c p2 tok
        else
          do ty <- tok_type tok;
          if ty =? TokenNewlineTimestamp then                                  (* 183-207 *)
            let nl := only_newline tok in
            let p3 := lp_set_out p2 (ob_set_pos (ob_set_token (lp_out p2) 1 nl) 2) in
            let p4 := lp_set_cons p3 (t_start nl) in
            Ret (Some ActCompress, lp_set_start p4 true (skip_newline tok))
          else parse_first fuel sfuel c p2 tok
      end
  else parse_loop fuel sfuel c p.

(** m_log_var_occurrences[id].push_back(slot) (LogEvent.hpp 111-116); out of range is UB. *)
Definition occ_add (occ : list (list N)) (id slot : N) : out (list (list N)) :=
  let i := N.to_nat id in
  match nth_error occ i with
  | None => UB
  | Some l => Ret (firstn i occ ++ (l ++ [slot]) :: skipn (S i) occ)
  end.

(** LogParser.cpp 298-305: the loop of generate_log_event_view_metadata. *)
Fixpoint meta_loop (h : heap) (o : obuf) (is : list N) (nlpos : N) (occ : list (list N))
  : out (N * list (list N)) :=
  match is with
  | [] => Ret (nlpos, occ)
  | i :: is' =>
    let tok := ob_act o i in
    do ty <- tok_type tok;
    do occ' <- occ_add occ ty i;
    do dl <- tok_delimiter h tok;
    let nlpos' := if (dl =? cNewline) && (nlpos =? 0) then i else nlpos in
    meta_loop h o is' nlpos' occ'
  end.

(** LogParser.cpp 293-313: generate_log_event_view_metadata. *)
Definition generate_metadata (p : lparser) : out lparser :=
  let o := lp_out p in
  do (nlpos, occ) <- meta_loop (ib_heap (lp_in p)) o (indices (ob_first o) (ob_pos o)) 0 (lp_occ p);
  let multi := if ob_has_ts o && (0 <? nlpos) && (nlpos + 1 <? ob_pos o) then true else lp_multi p in
  Ret (mkLp (lp_lex p) (lp_in p) (lp_has_start p) (lp_start_tok p) o multi occ).

(** LogParser.cpp 164-170: parse_and_generate_metadata. *)
Definition parse_and_generate_metadata (fuel sfuel : nat) (c : lexcfg) (p : lparser)
  : out (option paction * lparser) :=
  do (oa, p1) <- parse fuel sfuel c p;
  match oa with
  | None => Ret (None, p1)
  | Some a => do p2 <- generate_metadata p1; Ret (Some a, p2)
  end.

(** * LogEventView (LogEvent.cpp) *)

(** LogEvent.cpp 44-47: the loop raw_log += token->to_string_view(). *)
Fixpoint concat_out (l : list (out (list N))) : out (list N) :=
  match l with
  | [] => Ret []
  | x :: l' => do a <- x; do b <- concat_out l'; Ret (a ++ b)
  end.

(** LogEvent.cpp 38-49: to_string. *)
Definition ev_to_string (p : lparser) : out (list N) :=
  concat_out (map (tok_text (ib_heap (lp_in p))) (ob_tokens (lp_out p))).

(** LogEvent.cpp 31-36: get_timestamp. *)
Definition ev_timestamp (p : lparser) : option token :=
  if ob_has_ts (lp_out p) then Some (ob_act (lp_out p) 0) else None.

(** LogEvent.hpp 53-55 (get_variables): m_log_var_occurrences[id] (unchecked), as tokens. *)
Definition ev_variables (p : lparser) (id : N) : out (list token) :=
  match nth_error (lp_occ p) (N.to_nat id) with
  | None => UB
  | Some l => Ret (map (ob_act (lp_out p)) l)
  end.

(** LogEvent.hpp 85: is_multiline. *)
Definition ev_multiline (p : lparser) : bool := lp_multi p.

(** LogEvent.cpp 51-67: get_logtype. [name] is LogParser::get_id_symbol (LogParser.hpp 65), which throws
    for an unknown id. '<' = 60, '>' = 62. *)
Fixpoint logtype_loop (h : heap) (name : N -> option (list N)) (ts : list token) : out (list N) :=
  match ts with
  | [] => Ret []
  | t :: ts' =>
    do ty <- tok_type t;
    do s <- (if ty =? TokenUncaughtString then tok_text h t
             else
               do dl <- (if ty =? TokenNewline then Ret []
                         else do x <- tok_delimiter h t; Ret [x]);
               match name ty with
               | None => Throw
               | Some nm => Ret (dl ++ [60] ++ nm ++ [62])
               end);
    do r <- logtype_loop h name ts';
    Ret (s ++ r)
  end.
Definition ev_logtype (name : N -> option (list N)) (p : lparser) : out (list N) :=
  logtype_loop (ib_heap (lp_in p)) name (map (ob_act (lp_out p)) (indices 1 (ob_pos (lp_out p)))).

(** * BufferParser *)
(** BufferParser.hpp 100-101. *)
Record bparser := mkBp { bp_lp : lparser; bp_done : bool }.

(** BufferParser.cpp 16-19. *)
Definition bp_reset (c : lexcfg) (bp : bparser) : bparser := mkBp (lp_reset c (bp_lp bp)) false.

(** BufferParser.cpp 21-48: parse_next_event(buf, size, offset, finished). [k], [m]: the user's buffer.
    Returns (success, new offset, parser). *)
Definition parse_next_event (fuel sfuel : nat) (c : lexcfg) (k : nat) (m : mem) (size offset : N) (fin : bool)
           (bp : bparser) : out (bool * N * bparser) :=
  let p0 := reset_log_event_view (bp_lp bp) in
  let p1 := lp_set_lexin p0 (lp_lex p0) (ib_set_storage (lp_in p0) k m size offset fin) in
  do (oa, p2) <- parse_and_generate_metadata fuel sfuel c p1;
  match oa with
  | None =>
    let offset' := if ob_pos (lp_out p2) =? 0 then offset else t_start (ob_act (lp_out p2) 0) in
    Ret (false, offset', bp_reset c (mkBp p2 (bp_done bp)))
  | Some a =>
    let done := match a with ActCompressAndFinish => true | _ => bp_done bp end in
    Ret (true, ib_pos (lp_in p2), mkBp p2 done)
  end.

(** A freshly constructed BufferParser: LogParser.cpp 33-37 (constructor), LogEvent.cpp 13-17. [nsym] is
    m_id_symbol.size(). Static storages are uninitialised. *)
Definition bp_init (nsym : N) : bparser :=
  mkBp (mkLp (mkLex 0 0 0 0 0 false None 0 false None)
             (mkIbuf (fun _ _ => None) Static 0%nat cStaticByteBuffSize 0 0 false false false
                     (cStaticByteBuffSize - 1))
             false default_token obuf_init false (repeat [] (N.to_nat nsym)))
       false.

(** The documented usage (examples/buffer-parser.cpp, tests/test-buffer-parser.cpp): reset, offset 0, call
    parse_next_event on one buffer with finished_reading_input = true until done(). Collects one observation
    [obs] per event. [calls] bounds the number of calls. *)
Fixpoint drive {A} (obs : lparser -> A) (calls fuel sfuel : nat) (c : lexcfg) (k : nat) (m : mem)
         (size offset : N) (bp : bparser) : out (list A * bparser) :=
  match calls with
  | O => OutOfFuel
  | S calls' =>
    do (ok, offset', bp') <- parse_next_event fuel sfuel c k m size offset true bp;
    if ok then
      let a := obs (bp_lp bp') in
      if bp_done bp' then Ret ([a], bp')
      else do (l, bp'') <- drive obs calls' fuel sfuel c k m size offset' bp';
           Ret (a :: l, bp'')
    else Throw
  end.
