(** PropertiesEventLines.v -- C72: the line numbers of the tokens that events report. *)
From Verif Require Import Base LexerModel LexerSpec LogParserModel EventSpec StreamModel RingModel RingSpec ReaderSpec LexerProofs LogParserProofs EventProofs ReaderProofs
  SchemaModel SchemaSpec SchemaUsable EventLines PropertiesReader PropertiesSchemaRuns SchemaExamples Toy.

(** [rs]: the reports of a log's events. The texts of all their tokens, concatenated, are the log, and the line number of every token (static text and
    the newlines that end events included) is the number of newlines in the log up to the token's end. *)
Definition lines_counted (log : list N) (rs : list report) : Prop :=
  exists toks : list (list N * option (list N) * N),
    List.concat (map r_tokens rs) = map (fun q => (Ret (fst (fst q)), snd (fst q), snd q)) toks /\
    List.concat (map (fun q => fst (fst q)) toks) = log /\
    forall pre text ids line post, toks = pre ++ (text, ids, line) :: post ->
      line = N.of_nat (count_occ N.eq_dec (List.concat (map (fun q => fst (fst q)) pre) ++ text) cNewline).

(** For every lexer whose delimiters include the newline and whose patterns do not go on after a newline. *)
Theorem C72_line_numbers : forall c nsym t k m name bp calls fuel sfuel,
  usable c nsym -> c_delim c cNewline = true -> one_line c -> holds m t -> idle nsym bp -> enough t calls fuel sfuel ->
  exists rs bp', buffer_all name nsym calls fuel sfuel c k m t bp = Ret (rs, bp') /\ lines_counted t rs.
Proof.
  intros c nsym t k m name bp calls fuel sfuel Hus Hnl Hone Hh Hi He.
  destruct (report_lines c nsym t k m Hus Hh Hnl Hone name calls fuel sfuel bp Hi He) as (rs & bp' & toks & H1 & H2 & H3 & H4).
  exists rs, bp'. split; [exact H1|]. exists toks. auto.
Qed.
Print Assumptions C72_line_numbers.

(** For every schema with line-oriented variables. *)
Theorem C72_schema_line_numbers : forall F addr sc g t k m name bp calls fuel sfuel,
  make_parser F addr sc = Ret g -> lines_ok sc -> holds m t -> idle (lg_nsym g) bp -> enough t calls fuel sfuel ->
  exists rs bp', buffer_all name (lg_nsym g) calls fuel sfuel (lg_cfg g) k m t bp = Ret (rs, bp') /\ lines_counted t rs.
Proof.
  intros F addr sc g t k m name bp calls fuel sfuel Hg Hk Hh Hi He. destruct (schema_lexer_lines _ _ _ _ Hg Hk) as (Hus & Hnf & Hone & _).
  exact (C72_line_numbers (lg_cfg g) (lg_nsym g) t k m name bp calls fuel sfuel Hus (nf_delim _ Hnf) Hone Hh Hi He).
Qed.
Print Assumptions C72_schema_line_numbers.

(** And with ReaderParser, for a log of any length whose events have at most 7999 bytes each (a parser that enlarges its buffer may report something
    else: C47_refuted). *)
Theorem C72_reader_line_numbers : forall F addr sc g chunk log name rp calls grow fuel sfuel,
  make_parser F addr sc = Ret g -> lines_ok sc -> fills chunk log -> reader_idle (lg_nsym g) rp -> enough log calls fuel sfuel -> len log mod 48000 <> 0 ->
  (exists k m bp rs bp' texts, holds m log /\ idle (lg_nsym g) bp /\ buffer_all name (lg_nsym g) calls fuel sfuel (lg_cfg g) k m log bp = Ret (rs, bp') /\
     map r_string rs = map Ret texts /\ forall x, In x texts -> len x <= 7999) ->
  exists rs rp', read_all chunk name (lg_nsym g) calls grow fuel sfuel (lg_cfg g) log rp = Ret (rs, rp') /\ lines_counted log rs.
Proof.
  intros F addr sc g chunk log name rp calls grow fuel sfuel Hg Hk Hf Hr He Hl (k & m & bp & rs & bp' & texts & Hm & Hi & Hb & Ht & Hs).
  destruct (C47_schema_events_partial F addr sc g chunk log k m name rp bp calls grow fuel sfuel rs bp' texts Hg Hk Hf Hm Hr Hi He Hl Hb Ht Hs) as (rp' & H).
  destruct (C72_schema_line_numbers F addr sc g log k m name bp calls fuel sfuel Hg Hk Hm Hi He) as (rs2 & bp2 & Hb2 & HL).
  rewrite Hb in Hb2. injection Hb2 as <- _. exists rs, rp'. auto.
Qed.
Print Assumptions C72_reader_line_numbers.

(** Not vacuous: "T 1", "2 x", "3" on three lines, where the second newline begins a variable token: four reports' worth of tokens. *)
Example C72_example : exists rs bp' toks,
  buffer_all (fun _ => None) toy_nsym 102 102 210 toy 0 (buf_of [84;32;49;10;50;32;120;10;84;10;51]) [84;32;49;10;50;32;120;10;84;10;51] (bp_init toy_nsym) = Ret (rs, bp') /\
  List.concat (map r_tokens rs) = map (fun q => (Ret (fst (fst q)), snd (fst q), snd q)) toks /\
  map (fun q => (fst (fst q), snd q)) toks =
    [([84], 0); ([32;49], 0); ([10;50], 1); ([32;120], 1); ([10], 2); ([84], 2); ([10;51], 3)].
Proof.
  eexists _, _, [([84], Some [TokenFirstTimestamp], 0); ([32;49], Some [8], 0); ([10;50], Some [8], 1); ([32;120], Some [TokenUncaughtString], 1);
    ([10], Some [TokenUncaughtString], 2); ([84], Some [TokenNewlineTimestamp], 2); ([10;51], Some [8], 3)].
  split; [vm_compute; reflexivity|]. split; vm_compute; reflexivity.
Qed.
Example C72_hypotheses : usable toy toy_nsym /\ c_delim toy cNewline = true /\ one_line toy /\ lines_ok ex_schema_ts /\ lines_ok ex_schema.
Proof.
  split; [exact toy_usable|]. split; [reflexivity|]. split; [exact toy_one_line|]. exact (conj (proj1 ex_lines_ok) (proj1 (proj2 ex_lines_ok))).
Qed.
