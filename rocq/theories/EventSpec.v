(** EventSpec.v -- vocabulary for the properties of parsed events. *)
From Verif Require Import Base LexerModel LexerSpec LogParserModel.

(** A generated LogParser configuration with [nsym] symbols on which parsing is defined: [wf_cfg], some rule
    starts with the start-of-file character, and every rule id is a symbol id. *)
Record usable (c : lexcfg) (nsym : N) : Prop := {
  us_wf : wf_cfg c;
  us_sof : exists q, d_next (c_dfa c) d_root cCharStartOfFile = Some q;
  us_ids : forall q i, In i (d_ids (c_dfa c) q) -> i < nsym;
  us_nsym : 1 < nsym
}.

(** The user's buffer starts with [t]. *)
Definition stored (m : mem) (t : list N) : Prop := forall p, p < len t -> m p = byte_at t p.
(** The same, and the byte after it may be read. *)
Definition holds (m : mem) (t : list N) : Prop := stored m t /\ exists x, m (len t) = Some x.

(** A parser that is not in the middle of a log: freshly constructed, or whose last log was parsed until
    done(). *)
Definition idle (nsym : N) (bp : bparser) : Prop :=
  lp_has_start (bp_lp bp) = false /\ length (lp_occ (bp_lp bp)) = N.to_nat nsym.

(** Loop bounds that suffice for a buffer holding [t]. *)
Record enough (t : list N) (calls fuel sfuel : nat) : Prop := {
  en_calls : len t < N.of_nat calls;
  en_fuel : len t < N.of_nat fuel;
  en_scan : 2 * len t + 4 <= N.of_nat sfuel
}.

(** Parse the whole of [t], from reset() until done(); the parser after each call is collected, so that
    every accessor of each event can be observed. *)
Definition parse_all (calls fuel sfuel : nat) (c : lexcfg) (k : nat) (m : mem) (t : list N) (bp : bparser)
  : out (list lparser * bparser) :=
  drive (fun p => p) calls fuel sfuel c k m (len t) 0 (bp_reset c bp).

(** The event's tokens. *)
Definition ev_tokens (p : lparser) : list token := ob_tokens (lp_out p).
(** The event has a timestamp. *)
Definition is_timestamp (tok : token) : Prop :=
  tok_type tok = Ret TokenFirstTimestamp \/ tok_type tok = Ret TokenNewlineTimestamp.
Definition of_type (id : N) (tok : token) : bool :=
  match tok_type tok with Ret ty => ty =? id | _ => false end.

(** No rule other than a timestamp's matches a newline, except as its first byte; the newline rule
    matches only the newline; a first-timestamp begins with the start-of-file character; no rule matches
    the start-of-file character alone. Holds for every accepted schema whose delimiters include the newline
    and whose variables do not match the empty string. *)
Record newline_free (c : lexcfg) : Prop := {
  nf_delim : c_delim c cNewline = true;
  nf_newline : forall w, In TokenNewline (reported (c_dfa c) d_root w) -> w = [cNewline];
  nf_first : forall w, In TokenFirstTimestamp (reported (c_dfa c) d_root w) -> exists w', w = cCharStartOfFile :: w';
  nf_sof : reported (c_dfa c) d_root [cCharStartOfFile] = [];
  nf_var : forall w i, In i (reported (c_dfa c) d_root w) -> i <> TokenFirstTimestamp ->
     i <> TokenNewlineTimestamp -> ~ In cNewline (tl w)
}.

(** What may precede a typed token's text in the text its rule matched: nothing; the start-of-file character, at the
    start of the log; the newline that belongs to the event before. *)
Definition lead (pre : list N) : Prop :=
  pre = [] \/ pre = [cCharStartOfFile] \/ pre = [cNewline] \/ pre = [cCharStartOfFile; cNewline].

(** [s] is how a token appears in a logtype: static text as it is, any other token as its leading delimiter
    (none for the newline token) followed by the name of its type in angle brackets. *)
Definition render (h : heap) (name : N -> option (list N)) (tok : token) (s : list N) : Prop :=
  exists ty, tok_type tok = Ret ty /\
  if ty =? TokenUncaughtString then tok_text h tok = Ret s
  else exists nm, name ty = Some nm /\
    if ty =? TokenNewline then s = [60] ++ nm ++ [62]
    else exists d, tok_delimiter h tok = Ret d /\ s = d :: [60] ++ nm ++ [62].

(** The tokens a logtype is made of: those after the timestamp. *)
Definition logtype_tokens (p : lparser) : list token :=
  match ev_timestamp p with Some _ => tl (ev_tokens p) | None => ev_tokens p end.
