(** ReaderSpec.v -- what the user of a parser sees of a log event. *)
From Verif Require Import Base LexerModel LogParserModel.

(** A token: its text, its type ids, its line (Token.hpp). *)
Definition shown (p : lparser) (t : token) : out (list N) * option (list N) * N :=
  (tok_text (ib_heap (lp_in p)) t, t_ids t, t_line t).
Definition not_empty (p : lparser) (t : token) : bool :=
  match tok_text (ib_heap (lp_in p)) t with Ret (_ :: _) => true | _ => false end.

(** Everything LogEventView offers (LogEvent.hpp 30-100): to_string(), all the tokens, get_timestamp(), is_multiline(),
    get_variables(id) for every id, and get_logtype() if no token is empty (the delimiter of an empty token, which
    get_logtype prints, is the byte that happens to follow it). [name]: the symbol names. *)
Record report := mkReport {
  r_string : out (list N);
  r_tokens : list (out (list N) * option (list N) * N);
  r_timestamp : option (out (list N) * option (list N) * N);
  r_multiline : bool;
  r_variables : list (out (list (out (list N) * option (list N) * N)));
  r_logtype : option (out (list N))
}.
Definition report_of (name : N -> option (list N)) (nsym : N) (p : lparser) : report :=
  mkReport (ev_to_string p) (map (shown p) (ob_tokens (lp_out p))) (option_map (shown p) (ev_timestamp p)) (ev_multiline p)
           (map (fun id => do l <- ev_variables p (N.of_nat id); Ret (map (shown p) l)) (seq 0 (N.to_nat nsym)))
           (if forallb (not_empty p) (ob_tokens (lp_out p)) then Some (ev_logtype name p) else None).

(** Reading only the start-of-file character completes no rule (no timestamp pattern matches the empty string). *)
From Verif Require Import LexerSpec RingModel.
Definition sof_quiet (c : lexcfg) : Prop := reported (c_dfa c) d_root [cCharStartOfFile] = [].

(** A ReaderParser that is not in the middle of a log, for a schema with [nsym] symbols. Its static storage may hold
    anything, but is memory. *)
Record reader_idle (nsym : N) (rp : rparser) : Prop := {
  ri_start : lp_has_start (rp_lp rp) = false;
  ri_occ : length (lp_occ (rp_lp rp)) = N.to_nat nsym;
  ri_mem : forall i, i < cStaticByteBuffSize -> exists x, ib_heap (lp_in (rp_lp rp)) Static i = Some x
}.
(** reset_and_set_reader, then parse_next_event until done() (examples/reader-parser.cpp), collecting what is
    seen of each event. [grow] bounds the number of times one call enlarges the buffer. *)
Definition read_all (chunk : nat -> N) (name : N -> option (list N)) (nsym : N) (calls grow fuel sfuel : nat) (c : lexcfg) (log : list N) (rp : rparser)
  : out (list report * rparser) :=
  rp_drive chunk (report_of name nsym) calls grow fuel sfuel c (rp_reset c rp (mkReader log 0)).
(** The same for a BufferParser whose buffer holds the whole log. *)
Definition buffer_all (name : N -> option (list N)) (nsym : N) (calls fuel sfuel : nat) (c : lexcfg) (k : nat) (m : mem) (log : list N) (bp : bparser)
  : out (list report * bparser) :=
  drive (report_of name nsym) calls fuel sfuel c k m (len log) 0 (bp_reset c bp).

(** No pattern continues after a newline: a newline can only be the first character a rule consumes. *)
Definition one_line (c : lexcfg) : Prop := forall w q, run (c_dfa c) d_root w = Some q -> ~ In cNewline (tl w).

(** [texts]: the log's events. From the start of every event, within fewer than 23999 bytes (half the initial
    buffer, minus 1) there is either the end of the log, or the end of the event and two more newlines. *)
Definition events_fit (texts : list (list N)) : Prop :=
  forall pre x post, texts = pre ++ x :: post ->
    let rest := x ++ concat post in
    len rest < 23999 \/
    exists n1 n2, len x <= n1 /\ n1 < n2 /\ n2 < 23999 /\ byte_at rest n1 = Some cNewline /\ byte_at rest n2 = Some cNewline.

(** The schema has no timestamp. *)
Definition no_timestamps (c : lexcfg) : Prop :=
  forall q, ~ In TokenFirstTimestamp (d_ids (c_dfa c) q) /\ ~ In TokenNewlineTimestamp (d_ids (c_dfa c) q).
(** Every line has at most [n] bytes before its newline. *)
Definition lines_at_most (n : N) (log : list N) : Prop :=
  forall a, a + n < len log -> exists i, a <= i <= a + n /\ byte_at log i = Some cNewline.
