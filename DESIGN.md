# Formal model of y-scope/log-surgeon in Rocq (Coq 8.16.1)

What is modelled, how each property of `properties.jsonl` is stated and proved, what the trusted base
is, and which properties turned out to be false of the code (findings). Status per property:
`MANIFEST.json`. Mutation tests of the theorems: `seeded/LOG.jsonl`.

## 1. Conventions

* Only the Coq standard library is used. No axioms, no plugins, no functors, no module types.
* Positions, bytes, sizes and rule ids are `N`, DFA/NFA state indices are `nat`. C++ `uint32_t`
  arithmetic is modelled without wrap-around unless the property is about it (C35: repetition counts).
* Undefined behaviour (null dereference, out-of-range read, failed `assert`, overflow of a static
  array) is the outcome `UB`; a C++ exception is `Throw`; an `ErrorCode` is an ordinary value; a loop
  that has not finished within its fuel is `OutOfFuel`. Theorems either prove that an explicit amount
  of fuel suffices, or hold for every fuel that does not run out (and then fuel adequacy is proved
  separately, see `FuelMono.v` for monotonicity).
* Every model definition is preceded by a comment citing `/repo` file and lines; simplifications are
  stated there.
* `*_refuted` theorems exhibit a concrete input on which the property as written is false of the model
  (and, traced through the source, of the code). `*_partial` theorems prove part of a property; the
  note in `MANIFEST.json` says what is missing. A refuted property has status `partial`.
* The theorems of the properties live in `theories/Properties*.v` and `StringReader.v`. Next to each one
  there is an `Example` that meets its hypotheses with a non-trivial input, and `Print Assumptions`.
* Files `*Model.v` model code; files `*Spec.v` (and `SchemaSyntax.v`, `GrammarSpec.v`, `ParseSpec.v`)
  contain the vocabulary of the statements and do not refer to the mutable state of the model;
  `*Proofs.v` and the others contain lemmas.

## 2. The model, file by file

| code | model |
|------|-------|
| Buffer.hpp, ParserInputBuffer (static buffer side), Token, Lexer::scan | `LexerModel.v` |
| Lexer::scan_with_wildcard | `WildcardModel.v` |
| LogParserOutputBuffer, LogParser::parse, generate_log_event_view_metadata, LogEventView, BufferParser | `LogParserModel.v` |
| LogEvent (deep_copy) | `CopyModel.v` |
| ParserInputBuffer (ring: read_if_safe, increase_capacity...), Reader, Lexer::increase_buffer_capacity, ReaderParser | `RingModel.v` |
| ReaderParser with a Reader whose calls fail | `ReaderErrors.v` |
| line numbers of the variables of a schema, the messages of LogParser::add_rules with the quoted line (FileReader::try_read_to_delimiter) | `LineModel.v` |
| finite_automata: RegexAST, add_to_nfa (with tags), RegexNFA | `RegexModel.v` |
| RegexAST as objects: stored tags, clone, destructors, serialize | `AstModel.v` |
| RegexNFA::serialize, get_bfs_traversal_order, serialize of states and tagged transitions | `SerializeModel.v` |
| Lexer::epsilon_closure, nfa_to_dfa, RegexDFA::get_intersect | `DfaModel.v` |
| Parser (symbol tables), Lexer::add_rule/add_delimiters/generate, LogParser::add_rules | `SchemaModel.v` |
| SchemaParser: tokens, productions, registration (add_rule, add_production, add_token...) | `SchemaGrammar.v` |
| SchemaParser: semantic rules | `SchemaActions.v`, `SchemaRules.v` |
| SchemaParser: lexer, try_schema_string, generate_schema_ast | `SchemaLexer.v`, `StringReader.v`, `PropertiesSchemaText.v` |
| SchemaParser::try_schema_file, FileReader (open, read), LALR1Parser::parse with its input buffer and lexer | `FileModel.v` |
| LALR1Parser: FIRST sets, item sets, lookaheads, table | `FirstModel.v`, `LrModel.v` |
| LALR1Parser: parse driver, index of the static children array | `LrDriver.v` |
| LALR1Parser: static children array, report_error and its message | `ReportModel.v`, `PropertiesReport.v` |
| Schema, SchemaAST::add_schema_var | `SchemaEditModel.v` |
| PrefixTree, RegisterHandler | `RegisterModel.v` |
| Token.cpp (wrap-around accessors) | `TokenModel.v` |
| UnicodeIntervalTree | `IntervalTreeModel.v` |

Not modelled: C++ memory management and moves; the internals of std::map/set/vector/deque/regex
containers (mathematical sets, maps and lists, with the iteration order of the C++ containers where the
result depends on it: `OrdSet.v`, and the `addr` parameter of the subset construction for sets ordered
by pointer); the wording of the error messages of LALR1Parser::generate; UTF-8 automata (only the byte instance is
built by the library); performance; concurrent use of the static
counters.

## 3. Properties

Statements first quantify over every lexer configuration (`lexcfg`: delimiter table, DFA, flags) that
is `usable` -- a condition proved for every accepted schema (`C01_schema_usable`) -- so that they hold
for every DFA and not only for those of some schemas.

| id | statement and proof |
|----|---------------------|
| C01, C02 | `parse_all` on a buffer: events' texts concatenate to the log; explicit fuel. Invariant of `parse_next_event` (`LogParserProofs.v`), induction over the remaining bytes |
| C03-C06, C41 | token stream of `scan` on a finished buffer (`StreamModel.v`): tiling; typed tokens are DFA matches; longest delimited match; C06 is false in general and proved for schemas without timestamps (`C06_matches_are_tokens`) |
| C07, C12, C37 | exact language of `add_to_nfa` (path induction), equal to the documented one on `faithful` patterns; refuted for `R*` and alternatives ending in a loop |
| C08-C11 | subset construction: work-list invariant, termination by finiteness of the power set; reported ids are all matching rules; order refuted (address order) |
| C13-C16, C44 | construction of a LogParser from a schema (`make_parser`) |
| C17-C21, C36, C40 | content of events: split points, timestamp, variables, multiline flag, logtype |
| C22 | LogEvent: own storage, tokens copied; refuted without timestamp |
| C23-C26 | ring buffer refined to (log, cursor, window) under every schedule of operations |
| C27, C47 | ReaderParser simulated by a BufferParser on a window of the log (`ViewSim.v`, `ReaderProofs.v`); refuted by `ReaderStuck.v`, `ReaderWrong.v` |
| C28-C30, C43, C45 | BufferParser given a log in pieces (`FeedSpec.v`, `FlatSim.v`, `FeedRuns.v`); any number of pieces with resubmission (`PieceSpec.v`: read it first; `PieceSim.v` relates the parser on the rest of the log to the parser on the whole log at an event boundary, `PieceStart.v` the start-of-file character to a newline) |
| C31 | PrefixTree refined to shared cells holding lists |
| C32 | list insertion; first with the parse as a parameter, then with the schema parser of C51 |
| C33 | string reader over the ring buffer |
| C34, C35 | Token accessors; decimal folds modulo 2^32 |
| C38, C48 | for every grammar and the table generate builds: soundness (accepted => parse tree of the whole input with the returned value), completeness, unambiguity; refuted for grammars with accept/reduce conflicts, proved without exception for SchemaParser's grammar (its table is computed by `vm_compute` in `SchemaTable.v` and checked by the kernel) |
| C39 | FIRST/nullable sets are exact for every grammar, and fuel suffices |
| C42, C46 | interval tree: in-order list invariant under any rotation; refuted (pointer differences as balance factors, pop) |
| C49 | size of the static children array: sufficient conditions and counterexamples |
| C50 | SchemaParser's parser on a token sequence = the language defined in `SchemaSyntax.v` (read it first: it is the documentation of schema files as a recursive relation) |
| C51 | the same for the text of a schema: reader, generated lexer, parser, rules |
| C52 | C51, C44, C01, C13 and the events' tokens composed: from the text of a schema to the events of any log (`SchemaOrigin.v`: what holds of every schema written as text; `SchemaLines.v`: line starts of schema lexers, for C43 and C47) |
| C53 | scan_with_wildcard with '*' over a complete text: invariant of the search over the automaton (visited states have their successors visited or above them on the stack), composed with C13 for schemas |
| C54 | the same for '?'; refuted: null dereference for every variable, never a typed token |
| C55 | exact cost of a one-line text (slots of its tree) by an invariant of the driver; refuted: the static index is never set back |
| C56 | soundness of the stacks (every stack reached can be completed to a sentence), and a lockstep with the complete run on a sentence |
| C57 | the children array as part of the state: what the walk reads from the stack does not depend on cells beyond the index; when the index is set back the stack is at the end of a line; lines of tokens from the lexer model; composed with C56 and C51 |
| C58 | refuted by computed messages and C56 |
| C59 | simulation between the parser reading through the ring (C23-C26 invariants) and the parser on the list of tokens (C50): semantic rules only look at the text of their last child, which ends where the lookahead starts; between two rules at most 20000 bytes are on the stack. Lengths that are multiples of 48000: invariant that the cursor never is where the end is marked |
| C60 | invariant of the builders (at most one optional transition per state), invariant of the breadth-first search, rows of the text are a prefix code |
| C61 | objects with the tag pointers they store, a heap of tags; induction over the object; builders related up to the tags |
| C62, C63 | which token begins with a newline and which ends an event (`EventExact.v`), then induction over the events; C62 also for schemas (`C62_schema_lines`) |
| C64 | the states of a DFA node are listed in address order, so the rules, sorted by the addresses of their accepting states, are one order for all nodes (`DfaOrder.v`) |
| C65 | the path induction of C07, without conditions |
| C66 | the calls the Reader was given are collected along the run (`ReaderAnswers.v`): all but the last are answered in full, and a run on what they delivered goes through the same states |
| C67 | a failing call leaves the parser as it was, so the run is that of the Reader that does not fail; refuted for the read after an enlargement, where text is lost, by a run computed step by step (`ReaderErrors.v`, `ReaderLost.v`) |
| C68 | the parser's values carry the line numbers of the colons (`LineModel.v`); a homomorphism forgets them, an induction on parse trees shows that they are the newlines before the variable (`LineSpec.v`, `LineProofs.v`); the texts of the messages, with an independent notion of decimal numeral (`LineTexts.v`) |
| C69 | with `m_file_path` set by the user: reading lines of the file computes the line with a given number, which is unique (`QuoteProofs.v`) |
| C70, C73 | the text built from the report (`ReportModel.message`) against a specification of its parts (`PropertiesMessage.v`); cut at the first zero byte, as what() shows it; refuted at the end of the text and for zero bytes; C73 is the case distinction without exceptions |
| C74 | C22 without exceptions: the empty event, the events with and those without timestamp; the copies' texts, types, lines and order; the logtype's missing part (`PropertiesCopyExact.v`) |
| C75 | calls = `gcall`, `registered` folds add_rule/add_production over the builder of `SchemaGrammar.v`; the invariant `inv` (names in order of first use, ids = positions) by induction over the calls; derivations by name and by id correspond (`GrammarCalls.v`, `PropertiesGrammar.v`) |
| C76 | termination: items over the finite universe `uni`, kernels bounded by its power set, lookahead sets by the terminals (`LrTerm.v`); outcome: invariant `row_inv` of a row of m_actions, every item of a set finds its m_next entry because kernels of a productive grammar do not collapse, lookaheads are terminals (`LrOutcome.v`, `PropertiesGenerate.v`) |
| C77 | specification `LrSpec.v` (items valid for a viable prefix, LR(1), LALR(1)); every valid item is in the item set that the prefix leads to, by induction over validity with C48's lemmas about the table (`LrValid.v`); the second sentence is refuted by a grammar with three sentences, whose valid items are listed and checked to be closed (`PropertiesLr1.v`) |
| C71 | the run on a buffer that ends with its text against the run with one more byte, step by step: each scan, parse and metadata call agrees or reads behind (`EdgeProofs.v`, `PropertiesEdge.v`); exact |
| C72 | the lexer's tokens have the line of their end; taking off and splitting off a first newline keeps this when patterns do not cross lines (`EventLines.v`, `PropertiesEventLines.v`); also for schemas and for ReaderParser |

## 4. Findings (theorems named `*_refuted*`, `C51_surprises`, `C51_undefined`)

* `R*` does not match the empty string (RegexASTEmpty::add_to_nfa adds nothing), `R{0}` means any
  number, `a+|b` matches `ba`, `[^]` matches nothing, counts wrap modulo 2^32 (C07, C12, C35, C37).
* The order of type ids follows the addresses of NFA states (C10).
* Blank lines are merged with the next event (C18); is_multiline is wrong for the last event (C21);
  line numbers restart (C41); `buf[size]` is read (C36): exactly when the last event has a token and either no timestamp or an empty text (C71).
* deep_copy of an event without timestamp loses its first token in to_string (C22).
* Enlarging the ring moves a pending match that ends at the cursor to place 0 (C24); a short read is
  taken for end of input (C26); a log of 24000 bytes makes ReaderParser loop for ever (C27); after an
  enlargement it can report a variable that is not there (C47).
* BufferParser: wrong offset after BufferOutOfBounds without timestamps (C28), offset past the first
  token of the next event after Success (C29), reset() in mid-log keeps the pending token (C30), bytes
  before `offset` are parsed (C45); hence a log without timestamps given in pieces is reported with repeated
  events (C43).
* set_register on a copied register changes the original (C31); add_variable drops further variables of
  the text (C32); schema strings of 24000 bytes and more are read over and over (C33).
* The UTF-8 automata are not modelled: the UTF-8 instance of the NFA cannot be instantiated
  (RegexNFAState<UTF8>::add_interval assigns the tree's pointer-valued entries to a vector), and the interval tree of
  the UTF-8 DFA states is never filled.
* UnicodeIntervalTree balances by pointer differences: three insertions crash (C42); pop fails (C46).
* add_production returns m_productions.size() when the production exists already, which is not the index of that production
  (C75_returned_index); no caller uses the result except the registration of the root production.
* If some non-terminal derives no sequence of tokens (D -> D m only), two item sets can have the same LR(1) kernel; the second
  replaces the first in m_lr1_item_sets (LALR1Parser.tpp 366), transitions to the first find no m_next entry, the assert at 446
  fails, and without it a null item set enters the table (C76_unproductive: a grammar of ten calls of add_production).
* generate refuses LALR(1) grammars: generate_lr1_item_sets keeps spontaneous lookaheads per production (m_spontaneous_map) and
  lookaheads per item (LALR1Parser.tpp 302-350), not per item set, so that an item gets in every set the lookaheads it has in any.
  For S -> a A c | b A d | b B c, A -> e, B -> e it reports a conflict between A -> e and B -> e (C77_refuted).
* LALR1Parser does not detect accept/reduce conflicts (C48) and overflows a static array of 10000
  children (C49).
* scan_with_wildcard with '?' dereferences a null successor for the texts it is meant for (C54).
* Schema language: `delimiters:(ab)` is undefined behaviour, `[\s]` throws, `a|b*` is a syntax error,
  `abc|def` means `ab(c|d)ef`, an empty comment is rejected (C51).
* The index into the static array of children outlives the parsers: one-line schema texts (add_variable)
  use it up, the 87th call with a typical timestamp pattern overflows (C55); Schema() filled by
  add_variable can never have delimiters, so no parser can be built from it (C32).
* Messages for a rejected schema: an error at a newline token is reported with the number of the next
  line; a lone carriage return starts a new column but no new line (C57); "empty file" is said of texts
  that are not empty; the list of expected tokens has wrong entries, lacks right ones and names
  nonterminals; because Lexer::generate moves the rules away, get_rule never finds one, so the code that
  prints literal characters is dead (C58).
* A schema file whose length is a positive multiple of 48000 is rejected whatever is in it; an I/O error while
  reading a schema file is taken for its end: half a schema is accepted (C59).
* RegexAST::clone copies the vectors of tag pointers: a copy of a pattern with a capture inside an alternation (LogParser
  copies timestamp patterns) points to the original's tags; the text of a pattern is ambiguous (C61).
* The first answer of a Reader with fewer bytes than asked for ends the log, whatever the Reader still has (C66).
* If the Reader fails after the buffer was enlarged in the middle of an event (ReaderParser.cpp 40-44), the tokens found so far
  are dropped by the next parse_next_event: text is lost although no byte was (C67_refuted).
* SchemaAST::m_file_path is never assigned: the error message for a pattern with a delimiter names no file and never quotes
  the line (LogParser.cpp 111 opens the empty path) unless the user sets it (C68); if it is set, the underlining is
  one longer than the pattern on lines that end with \r\n (C69).
* For a schema that ends too early in a line that is not empty, report_error takes character 0 of the empty text of the end token
  (LALR1Parser.tpp 619): the message contains a zero byte, and what() ends at `before '`: no line and no ^ are seen (C70; all cases: C73).

## 5. Trusted base

* Coq's kernel (8.16.1) including its virtual machine (`vm_compute` is used for the schema parser's
  table and for examples; coqchk re-checks them without it).
* The reading of the C++ source into the model, cited per definition.
* `Print Assumptions` says "Closed under the global context" for every theorem of `Properties*.v`.
  (`vcheck` lists seven constants `Coq.ssr.ssrunder.Under_rel.*`: these are the fields of a module type
  instance of the standard library's ssreflect, loaded through `Lia`'s dependencies; no theorem uses
  them.)
