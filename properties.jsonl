{"id": "C01", "title": "Lossless event stream (BufferParser)", "statement": "After reset(), calling parse_next_event repeatedly on one buffer with finished_reading_input=true until done() yields events whose to_string() texts, concatenated in order, are exactly the bytes of the buffer: nothing is dropped, duplicated or reordered.", "quantifier": "every compiled schema (delimiter set + DFA) and every byte buffer", "why_tests_cant": "the number of inputs and schemas is unbounded; a lost or doubled byte only shows at particular boundary interactions between lexer backtracking and event splitting", "anchors": ["src/log_surgeon/BufferParser.cpp:BufferParser::parse_next_event", "src/log_surgeon/LogParser.cpp:LogParser::parse", "src/log_surgeon/Lexer.tpp:Lexer::scan", "src/log_surgeon/LogEvent.cpp:LogEventView::to_string"]}
{"id": "C02", "title": "Parsing a finished buffer terminates and never fails", "statement": "With finished_reading_input=true every parse_next_event call after reset() returns Success after finitely many steps, every call but the last consumes at least one byte, and done() becomes true after at most size+1 calls.", "quantifier": "every compiled schema and every byte buffer", "why_tests_cant": "non-termination cannot be observed by a finite test; progress must hold for all inputs", "anchors": ["src/log_surgeon/Lexer.tpp:Lexer::scan", "src/log_surgeon/LogParser.cpp:LogParser::parse", "src/log_surgeon/BufferParser.cpp:BufferParser::parse_next_event"]}
{"id": "C03", "title": "Tokens tile the input", "statement": "Successive tokens returned by Lexer::scan are contiguous: each starts where the previous ended, the first at the scan start; at the end token the whole buffer has been covered.", "quantifier": "every DFA, delimiter table, buffer and number of scan calls", "why_tests_cant": "holds across arbitrary call histories and backtracking", "anchors": ["src/log_surgeon/Lexer.tpp:Lexer::scan"]}
{"id": "C04", "title": "Variable tokens are real matches", "statement": "A token reported with rule ids (not uncaught/end) has text accepted by each of these rules (start-of-file standing in for the delimiter on the first token), and is followed by a delimiter or the end of input, unless it is the single-byte newline token.", "quantifier": "every schema, buffer and scan history", "why_tests_cant": "soundness of a matcher must hold for all strings", "anchors": ["src/log_surgeon/Lexer.tpp:Lexer::scan", "src/log_surgeon/Lexer.tpp:Lexer::nfa_to_dfa"]}
{"id": "C05", "title": "Longest match", "statement": "When a variable token is reported at a position, no longer prefix of the remaining input that is followed by a delimiter or end of input is accepted by the DFA from the same starting position.", "quantifier": "every schema, buffer and scan history", "why_tests_cant": "quantifies over all longer candidate matches", "anchors": ["src/log_surgeon/Lexer.tpp:Lexer::scan"]}
{"id": "C06", "title": "Delimited matches are never missed", "statement": "If a delimiter byte followed by a delimiter-free string matches a variable rule and is followed by a delimiter or end of input, then it is reported as a variable token rather than as static text.", "quantifier": "every schema, input and position", "why_tests_cant": "completeness quantifies over all occurrences in all inputs", "anchors": ["src/log_surgeon/Lexer.tpp:Lexer::scan", "docs/schema.md"]}
{"id": "C07", "title": "Regex patterns match their documented language", "statement": "The NFA built for a pattern accepts a string iff the string matches the regular expression as documented (cat, or, brackets, *, +, {N}, {N,M}, captures).", "quantifier": "every regex AST and every byte string", "why_tests_cant": "infinite language equality", "anchors": ["src/log_surgeon/finite_automata/RegexAST.hpp:add_to_nfa", "src/log_surgeon/LexicalRule.hpp:add_to_nfa", "src/log_surgeon/SchemaParser.cpp:regex_match_zero_or_more_rule", "docs/schema.md"]}
{"id": "C08", "title": "DFA equals NFA", "statement": "The DFA produced by nfa_to_dfa exists (construction terminates) and reports, after reading any byte string, exactly the ids of accepting NFA states reachable by that string; it is stuck exactly when no NFA state is reachable.", "quantifier": "every NFA and every byte string", "why_tests_cant": "infinite set of strings and automata", "anchors": ["src/log_surgeon/Lexer.tpp:Lexer::nfa_to_dfa", "src/log_surgeon/Lexer.tpp:Lexer::epsilon_closure", "src/log_surgeon/finite_automata/RegexDFA.tpp:RegexDFA::new_state"]}
{"id": "C09", "title": "All matching rule ids are reported", "statement": "A string's reported ids contain id i iff some rule registered under id i accepts the string.", "quantifier": "every rule list, every string", "why_tests_cant": "quantifies over strings and rule sets", "anchors": ["src/log_surgeon/finite_automata/RegexNFA.hpp:RegexNFA::RegexNFA", "src/log_surgeon/finite_automata/RegexDFA.tpp:RegexDFA::new_state"]}
{"id": "C10", "title": "Type order follows schema order", "statement": "When a token matches several rules its type ids are listed in the order the rules appear in the schema, so the first listed type is the highest-priority rule, independent of memory layout.", "quantifier": "every rule list, string and allocation layout", "why_tests_cant": "depends on heap addresses, which a test run cannot control", "anchors": ["src/log_surgeon/finite_automata/RegexDFA.tpp:RegexDFA::new_state", "src/log_surgeon/Lexer.tpp:Lexer::nfa_to_dfa", "docs/schema.md"]}
{"id": "C11", "title": "get_intersect is exact", "statement": "RegexDFA::get_intersect returns id i iff there is a string which the first DFA accepts with i among its ids and the second DFA accepts.", "quantifier": "every pair of DFAs", "why_tests_cant": "existential over all strings", "anchors": ["src/log_surgeon/finite_automata/RegexDFA.tpp:RegexDFA::get_intersect", "src/log_surgeon/finite_automata/RegexDFA.tpp:RegexDFAStatePair::get_reachable_pairs"]}
{"id": "C12", "title": "Bracket expressions match exactly the listed bytes", "statement": "A bracket group adds transitions on byte b iff b lies in one of its ranges; a negated group iff b lies in none of them, whatever the order and overlap of the ranges.", "quantifier": "every list of ranges and every byte", "why_tests_cant": "all orders/overlaps of ranges", "anchors": ["src/log_surgeon/finite_automata/RegexAST.hpp:RegexASTGroup::merge", "src/log_surgeon/finite_automata/RegexAST.hpp:RegexASTGroup::complement", "src/log_surgeon/finite_automata/RegexAST.hpp:RegexASTGroup::add_to_nfa"]}
{"id": "C13", "title": "'.' excludes exactly the delimiters", "statement": "After schema processing the wildcard matches a byte iff it is not a delimiter.", "quantifier": "every non-empty delimiter set and every byte", "why_tests_cant": "all delimiter sets", "anchors": ["src/log_surgeon/finite_automata/RegexAST.hpp:RegexASTGroup::remove_delimiters_from_wildcard", "src/log_surgeon/LogParser.cpp:LogParser::add_rules"]}
{"id": "C14", "title": "Variable patterns cannot match delimiters", "statement": "If the parser accepts a schema, no string matched by a (non-timestamp) variable pattern contains a delimiter byte; otherwise construction throws.", "quantifier": "every schema and string", "why_tests_cant": "language-level claim", "anchors": ["src/log_surgeon/LogParser.cpp:LogParser::add_rules", "src/log_surgeon/finite_automata/RegexAST.hpp:set_possible_inputs_to_true"]}
{"id": "C15", "title": "Last delimiters line wins", "statement": "With several delimiters lines only the last is in force (plus the start-of-file marker byte 0xFD); with none construction throws.", "quantifier": "every list of delimiter lines", "why_tests_cant": "all lists", "anchors": ["src/log_surgeon/Lexer.tpp:Lexer::add_delimiters", "src/log_surgeon/LogParser.cpp:LogParser::add_rules", "docs/schema.md"]}
{"id": "C16", "title": "Symbol ids are a stable bijection", "statement": "Names and ids are in bijection, the eight reserved names keep their fixed ids, adding rules never changes existing ids, and rules with the same name share one id.", "quantifier": "every sequence of rule names", "why_tests_cant": "every history of add_rule calls", "anchors": ["src/log_surgeon/Parser.tpp:Parser::add_rule", "src/log_surgeon/Parser.tpp:Parser::Parser", "src/log_surgeon/LogParser.cpp:LogParser::get_symbol_id", "src/log_surgeon/LogParser.hpp:LogParser::get_id_symbol"]}
{"id": "C17", "title": "Timestamped events are split exactly at newline-timestamps", "statement": "In an event that has a timestamp, no interior token is a newline-timestamp: the event ends just before the next newline+timestamp token (whose newline stays with the event and whose rest starts the next event) or at end of input.", "quantifier": "every schema and buffer", "why_tests_cant": "all inputs", "anchors": ["src/log_surgeon/LogParser.cpp:LogParser::parse", "docs/parsing-constraints.md"]}
{"id": "C18", "title": "Without timestamps each event is one line", "statement": "Until a timestamp is found, a newline ends the event: an event without a timestamp contains no newline except as its last byte.", "quantifier": "every schema and buffer", "why_tests_cant": "all inputs", "anchors": ["src/log_surgeon/LogParser.cpp:LogParser::parse", "docs/schema.md"]}
{"id": "C19", "title": "get_timestamp is right", "statement": "get_timestamp() is non-null iff the event's first token is a (first/newline) timestamp token and then it is that token.", "quantifier": "every event produced from any input", "why_tests_cant": "all inputs", "anchors": ["src/log_surgeon/LogEvent.cpp:LogEventView::get_timestamp", "src/log_surgeon/LogParser.cpp:LogParser::parse"]}
{"id": "C20", "title": "get_variables lists exactly the event's tokens", "statement": "For each id, get_variables(id) is exactly the in-order list of the event's tokens whose first type is id.", "quantifier": "every parsed event and id", "why_tests_cant": "all inputs", "anchors": ["src/log_surgeon/LogParser.cpp:LogParser::generate_log_event_view_metadata", "src/log_surgeon/LogEvent.hpp:LogEventView::get_variables"]}
{"id": "C21", "title": "is_multiline is right", "statement": "is_multiline() is true iff the event has a timestamp and some character follows a newline character of the event.", "quantifier": "every parsed event", "why_tests_cant": "all inputs", "anchors": ["src/log_surgeon/LogParser.cpp:LogParser::generate_log_event_view_metadata", "src/log_surgeon/LogEvent.hpp:LogEventView::is_multiline"]}
{"id": "C22", "title": "deep_copy preserves the event", "statement": "For a non-empty event, deep_copy() yields an owning LogEvent with the same to_string(), timestamp, multiline flag, and variables.", "quantifier": "every parsed event", "why_tests_cant": "all inputs", "anchors": ["src/log_surgeon/LogEvent.cpp:LogEvent::LogEvent", "src/log_surgeon/LogEvent.cpp:LogEventView::to_string"]}
{"id": "C23", "title": "The input ring buffer delivers the log in order", "statement": "Characters obtained from ParserInputBuffer through any interleaving of read/get_next_character/increase_capacity are the source's bytes in order, each once, followed by end-of-file.", "quantifier": "every buffer size, source and schedule of operations", "why_tests_cant": "all schedules", "anchors": ["src/log_surgeon/ParserInputBuffer.cpp:ParserInputBuffer::read", "src/log_surgeon/ParserInputBuffer.cpp:ParserInputBuffer::get_next_character", "src/log_surgeon/ParserInputBuffer.cpp:ParserInputBuffer::increase_capacity"]}
{"id": "C24", "title": "Growing the buffer preserves its content", "statement": "increase_capacity keeps the most recently read `capacity` bytes in log order in the first half of the new buffer and repositions the cursor at their end, and token positions are moved with the bytes.", "quantifier": "every buffer state", "why_tests_cant": "all states", "anchors": ["src/log_surgeon/ParserInputBuffer.cpp:ParserInputBuffer::increase_capacity", "src/log_surgeon/Lexer.tpp:Lexer::flip_states", "src/log_surgeon/Lexer.tpp:Lexer::increase_buffer_capacity"]}
{"id": "C25", "title": "A read never overwrites unconsumed data", "statement": "When read_is_safe() holds, every byte between the consumed position and the current position is untouched by the read.", "quantifier": "every reachable buffer state", "why_tests_cant": "all states", "anchors": ["src/log_surgeon/ParserInputBuffer.cpp:ParserInputBuffer::read_is_safe", "src/log_surgeon/ParserInputBuffer.cpp:ParserInputBuffer::read"]}
{"id": "C26", "title": "Chunking of the Reader does not matter", "statement": "A Reader honouring its documented contract (Success with any positive number of bytes, EndOfFile at the end) delivers the whole log to the parser however it chunks its reads.", "quantifier": "every source and chunking", "why_tests_cant": "all schedules of short reads", "anchors": ["src/log_surgeon/ParserInputBuffer.cpp:ParserInputBuffer::read", "src/log_surgeon/Reader.hpp:Reader::read"]}
{"id": "C27", "title": "ReaderParser terminates on every finite log", "statement": "For a finite source that fills every read request, ReaderParser::parse_next_event returns after finitely many steps.", "quantifier": "every schema and finite source", "why_tests_cant": "non-termination is not observable by a finite test", "anchors": ["src/log_surgeon/ReaderParser.cpp:ReaderParser::parse_next_event", "src/log_surgeon/ParserInputBuffer.cpp:ParserInputBuffer::read_is_safe"]}
{"id": "C28", "title": "BufferOutOfBounds leaves a resumable offset", "statement": "If parse_next_event returns BufferOutOfBounds, offset is the start of the event being parsed (or unchanged if none was begun), so the caller can move buf[offset..] to a new buffer and lose or repeat nothing.", "quantifier": "every schema, buffer and call history", "why_tests_cant": "all inputs and histories", "anchors": ["src/log_surgeon/BufferParser.cpp:BufferParser::parse_next_event", "src/log_surgeon/BufferParser.hpp:BufferParser::parse_next_event"]}
{"id": "C29", "title": "Success leaves offset at the next event", "statement": "After Success, offset is the starting position of the next unparsed event.", "quantifier": "every schema, buffer and call history", "why_tests_cant": "all inputs and histories", "anchors": ["src/log_surgeon/BufferParser.hpp:BufferParser::parse_next_event", "src/log_surgeon/BufferParser.cpp:BufferParser::parse_next_event"]}
{"id": "C30", "title": "reset() forgets the past", "statement": "After reset(), parsing behaves as that of a freshly constructed and reset parser, whatever was parsed before.", "quantifier": "every earlier call history", "why_tests_cant": "all histories", "anchors": ["src/log_surgeon/BufferParser.cpp:BufferParser::reset", "src/log_surgeon/LogParser.cpp:LogParser::reset"]}
{"id": "C31", "title": "Register positions are the appended history", "statement": "RegisterHandler/PrefixTree: get_reversed_positions(reg) is the reverse of the sequence of positions appended to that register, copies share history at the time of copying and are not affected by later appends to the source.", "quantifier": "every sequence of add/set/copy/append operations", "why_tests_cant": "all histories", "anchors": ["src/log_surgeon/finite_automata/RegisterHandler.hpp:RegisterHandler", "src/log_surgeon/finite_automata/PrefixTree.hpp:PrefixTree", "src/log_surgeon/finite_automata/PrefixTree.cpp:get_reversed_positions"]}
{"id": "C32", "title": "Schema variable priority", "statement": "add_variable(v,p) inserts at rank p and keeps the relative order of all other variables; p=-1 appends; release leaves an empty schema.", "quantifier": "every sequence of additions", "why_tests_cant": "all histories", "anchors": ["src/log_surgeon/Schema.cpp:Schema::add_variable", "src/log_surgeon/SchemaParser.hpp:SchemaAST::add_schema_var"]}
{"id": "C33", "title": "Schema strings are read in full exactly once", "statement": "try_schema_string presents exactly the bytes of the schema string to the parser, whatever its length.", "quantifier": "every schema string", "why_tests_cant": "all lengths, in particular beyond the internal buffer", "anchors": ["src/log_surgeon/SchemaParser.cpp:SchemaParser::try_schema_string"]}
{"id": "C34", "title": "Token accessors agree", "statement": "For a token over a (possibly wrapping) buffer to_string, to_string_view, get_length and get_char describe the same byte sequence.", "quantifier": "every token and buffer", "why_tests_cant": "all wrap positions", "anchors": ["src/log_surgeon/Token.cpp:Token::to_string", "src/log_surgeon/Token.cpp:Token::get_length", "src/log_surgeon/Token.cpp:Token::get_char"]}
{"id": "C35", "title": "Repetition counts are decimal", "statement": "The count in R{N} / R{N,M} is the decimal value of the digits written.", "quantifier": "every digit string", "why_tests_cant": "all lengths incl. overflow", "anchors": ["src/log_surgeon/SchemaParser.cpp:regex_match_exactly_rule", "src/log_surgeon/SchemaParser.cpp:regex_match_range_rule"]}
{"id": "C36", "title": "Lexing never reads outside the buffer", "statement": "Parsing a finished buffer never dereferences a null DFA state and never reads a byte outside buf[0,size).", "quantifier": "every schema and buffer", "why_tests_cant": "all inputs; sanitizers only see executed paths", "anchors": ["src/log_surgeon/Lexer.tpp:Lexer::scan", "src/log_surgeon/Token.cpp:Token::get_char", "src/log_surgeon/Lexer.tpp:Lexer::prepend_start_of_file_char"]}
{"id": "C37", "title": "Capture tags partition on every path", "statement": "Along every accepting path of a rule's NFA each capture group is recorded as matched or as unmatched, and an alternative not taken never records its captures as matched.", "quantifier": "every regex and path", "why_tests_cant": "all paths", "anchors": ["src/log_surgeon/finite_automata/RegexAST.hpp:RegexASTOr", "src/log_surgeon/finite_automata/RegexAST.hpp:add_to_nfa_with_negative_tags", "src/log_surgeon/finite_automata/RegexAST.hpp:RegexASTCapture::add_to_nfa"]}
{"id": "C38", "title": "Accepted schemas are derivable", "statement": "If the LALR(1) parser accepts a token sequence, this sequence is derived by the grammar from the start symbol and the AST is obtained by running the semantic actions bottom-up on that derivation.", "quantifier": "every grammar, action table built from it, and token sequence", "why_tests_cant": "all inputs", "anchors": ["src/log_surgeon/LALR1Parser.tpp:LALR1Parser::parse_symbol", "src/log_surgeon/LALR1Parser.tpp:LALR1Parser::parse"]}
{"id": "C39", "title": "FIRST and nullable sets are exact", "statement": "generate_first_sets terminates and computes exactly the terminals that can begin, and the symbols that can vanish in, a derivation.", "quantifier": "every grammar", "why_tests_cant": "all grammars and derivations", "anchors": ["src/log_surgeon/LALR1Parser.tpp:LALR1Parser::generate_first_sets"]}
{"id": "C40", "title": "Logtype is the text with variables replaced", "statement": "get_logtype() equals the concatenation over the event's tokens after the first slot of: the text for static tokens, the leading delimiter (unless newline token) and <name> for variables; an event of static tokens only has its own text as logtype.", "quantifier": "every event", "why_tests_cant": "all inputs", "anchors": ["src/log_surgeon/LogEvent.cpp:LogEventView::get_logtype"]}
{"id": "C41", "title": "Line numbers count newlines", "statement": "A variable token's line number is the number of newline bytes before its end (the lexer's line counter survives backtracking).", "quantifier": "every schema and buffer", "why_tests_cant": "all inputs", "anchors": ["src/log_surgeon/Lexer.tpp:Lexer::scan"]}
{"id": "C42", "title": "Unicode interval tree is an ordered map", "statement": "insert/all on UnicodeIntervalTree behave as an ordered map from intervals to values regardless of balancing decisions; find returns exactly the stored intervals overlapping the query.", "quantifier": "every sequence of insertions and every balancing outcome", "why_tests_cant": "all histories; the balance factor is computed from pointer values", "anchors": ["src/log_surgeon/finite_automata/UnicodeIntervalTree.tpp"]}
{"id": "C43", "title": "Chunked feeding equals whole-buffer parsing", "statement": "Feeding a log to BufferParser in pieces, resubmitting buf[offset..] after each BufferOutOfBounds, yields the same events as one call sequence on the whole log.", "quantifier": "every schema, log and split point", "why_tests_cant": "all split points", "anchors": ["src/log_surgeon/BufferParser.cpp:BufferParser::parse_next_event", "docs/design-objectives.md"]}
{"id": "C44", "title": "Building a parser terminates", "statement": "For every schema whose delimiters are bytes, constructing a LogParser ends, either with a parser or with an exception; the exception is thrown exactly if there is no delimiters line or the pattern of some non-timestamp variable mentions a delimiter.", "quantifier": "all schema ASTs (any number of variables and delimiters lines, any pattern shapes), all memory layouts", "why_tests_cant": "The subset construction's termination and the absence of other outcomes hold for unboundedly many patterns.", "anchors": ["/repo/src/log_surgeon/LogParser.cpp: LogParser::LogParser, add_rules", "/repo/src/log_surgeon/Lexer.tpp: generate, nfa_to_dfa"]}
{"id": "C45", "title": "Only buf[offset:size] is parsed", "statement": "parse_next_event(buf, size, offset, finished) parses the bytes buf[offset:size] only: after reset(), the events reported contain no byte before offset.", "quantifier": "every buffer and every starting offset", "why_tests_cant": "tests use offset 0 or continue from the offset the parser itself reported", "anchors": ["src/log_surgeon/BufferParser.hpp:BufferParser::parse_next_event", "src/log_surgeon/BufferParser.cpp:BufferParser::parse_next_event"]}
{"id": "C46", "title": "Interval tree pop", "statement": "UnicodeIntervalTree::pop(q) removes and returns exactly the stored intervals that overlap q, keeps all others in order, and terminates.", "quantifier": "every sequence of insertions, balancing outcome and query", "why_tests_cant": "the result depends on tree shapes produced by address-dependent balancing", "anchors": ["src/log_surgeon/finite_automata/UnicodeIntervalTree.tpp:UnicodeIntervalTree::pop"]}
{"id": "C47", "title": "ReaderParser and BufferParser agree", "statement": "For every schema and log, calling ReaderParser::parse_next_event until done() yields the same sequence of log events (text, tokens, timestamp, variables, logtype, multiline flag) as a BufferParser on a buffer that holds the whole log.", "quantifier": "every schema, log, earlier content of the parsers' storage, and reader that fills its requests", "why_tests_cant": "all logs, all alignments of events with the halves of the ring buffer", "anchors": ["src/log_surgeon/ReaderParser.cpp:ReaderParser::parse_next_event", "src/log_surgeon/BufferParser.cpp:BufferParser::parse_next_event", "src/log_surgeon/ParserInputBuffer.cpp"]}
{"id": "C48", "title": "Derivable inputs are accepted, with one reading", "statement": "If generate() reports no conflict for a grammar, the parser accepts every token sequence that the grammar derives from its start symbol and returns the value of its only parse tree; every other sequence ends in an error report.", "quantifier": "every grammar and every token sequence, and every order and choice of the types the lexer reports for a token", "why_tests_cant": "all grammars and all inputs; LALR(1) tables are correct or not only as a whole", "anchors": ["src/log_surgeon/LALR1Parser.tpp:LALR1Parser::generate", "src/log_surgeon/LALR1Parser.tpp:LALR1Parser::parse", "src/log_surgeon/SchemaParser.cpp:SchemaParser::add_productions"]}
{"id": "C49", "title": "Schema length is not limited", "statement": "Parsing a schema never writes outside NonTerminal's static array of children, however long its lines and comments are and however many schemas the process has parsed before.", "quantifier": "every schema text and every history of earlier parses", "why_tests_cant": "depends on the length of the text and on the history of the process", "anchors": ["src/log_surgeon/LALR1Parser.hpp:NonTerminal", "src/log_surgeon/LALR1Parser.tpp:LALR1Parser::parse_symbol", "src/log_surgeon/SchemaParser.cpp:SchemaParser::existing_schema_rule", "src/log_surgeon/Constants.hpp:cSizeOfAllChildren"]}
{"id": "C50", "title": "The parser of schemas computes the schema language", "statement": "Given the tokens of a schema, and room for them in the static array of children, SchemaParser's parser returns the list of variables and delimiters that the schema language assigns to the token sequence, if the sequence is in the language (and then it is assigned exactly one meaning); it throws otherwise, and its behaviour is undefined only if the sequence contains a delimiters line with a parenthesised pattern or a repetition count of more than ten digits.", "quantifier": "every sequence of tokens, every choice and order of the types reported for a token, every value of the static index for which there is room", "why_tests_cant": "infinitely many schemas; the precedence of |, repetition and concatenation, and the absence of ambiguity, are properties of the whole grammar and its generated tables", "anchors": ["src/log_surgeon/SchemaParser.cpp:SchemaParser::add_productions", "src/log_surgeon/SchemaParser.cpp:semantic rules", "src/log_surgeon/LALR1Parser.tpp:LALR1Parser::parse"]}
{"id": "C51", "title": "A schema string is read as the schema language says", "statement": "For a string of fewer than 24000 bytes that leaves room in the static array (it is short, or at least every 713 tokens there is a whole variable line, and the index starts in the first half), SchemaParser::try_schema_string returns a schema iff the string is a text of the schema language (tokens: the word delimiters, else single bytes), and then that schema; otherwise it throws, and it is undefined only if the string contains a parenthesised pattern among delimiters or a repetition count of more than ten digits.", "quantifier": "every string of bytes below that length, every content of the buffer before, every order in which the heap places the NFA's states, every value of the static index in its first half", "why_tests_cant": "infinitely many strings; involves the generated lexer (NFA, DFA, longest match), the generated LALR(1) table and every semantic rule together", "anchors": ["src/log_surgeon/SchemaParser.cpp:SchemaParser::try_schema_string", "src/log_surgeon/SchemaParser.cpp:SchemaParser::add_lexical_rules", "src/log_surgeon/SchemaParser.cpp:SchemaParser::add_productions", "src/log_surgeon/Lexer.tpp:Lexer::scan", "src/log_surgeon/LALR1Parser.tpp:LALR1Parser::parse"]}
{"id": "C52", "title": "From schema text to events", "statement": "For every schema text that the schema language allows (shorter than 24000 bytes, with room in the parser's static array; at least one variable, none named like an internal token, no reversed range in a negated bracket expression), try_schema_string followed by the construction of a BufferParser either yields a parser or throws, and throws exactly if there is no delimiters line or a variable other than timestamp mentions a delimiter. The parser parses every log to its end without error or undefined behaviour, the events' texts concatenated are the log, and (patterns on which the automaton construction is faithful) every typed token is a word of exactly the rules whose ids it carries, as the schema's text defines them.", "quantifier": "every schema text, every log, every memory layout", "why_tests_cant": "all pairs of schema and log; composes six components", "anchors": ["src/log_surgeon/SchemaParser.cpp:SchemaParser::try_schema_string", "src/log_surgeon/BufferParser.cpp:BufferParser", "src/log_surgeon/LogParser.cpp:LogParser::add_rules", "src/log_surgeon/Lexer.tpp:Lexer::scan"]}
{"id": "C53", "title": "A wildcard search with '*' finds exactly the variables that cannot be broken", "statement": "After reset() (and optionally prepend_start_of_file_char()), Lexer::scan_with_wildcard with '*' over a complete text without a newline (but, without the prepended character, at its beginning) ends and returns one token that covers the text: with the ids of exactly the rules the text is a word of, if the text followed by any string without delimiters is still a word of some rule, else as static text. The assertion in the code fails exactly if the automaton cannot read the text, and then no extension of the text is a word.", "quantifier": "every lexer with finitely many states; every schema; every text; every string that may stand for the wildcard", "why_tests_cant": "the answer speaks of the infinitely many strings the wildcard may stand for, and the search must end on every automaton", "anchors": ["src/log_surgeon/Lexer.tpp:Lexer::scan_with_wildcard"]}
{"id": "C54", "title": "A wildcard search with '?' is defined and finds variables", "statement": "Lexer::scan_with_wildcard with '?' over a complete text that the automaton can read is defined, and returns the text with its ids if the text followed by any byte that is no delimiter is still a word of some rule.", "quantifier": "every lexer, every schema, every text", "why_tests_cant": "all texts and schemas", "anchors": ["src/log_surgeon/Lexer.tpp:Lexer::scan_with_wildcard"]}
{"id": "C55", "title": "The meaning of a schema text does not depend on the texts parsed before", "statement": "SchemaParser::try_schema_string and Schema::add_variable give a schema text the same meaning whatever texts were parsed earlier in the process: any sequence of calls with valid texts returns exactly the schema of each text.", "quantifier": "every sequence of schema texts in one process, of any length", "why_tests_cant": "static state accumulates over the history of the process; a test sees short histories only", "anchors": ["src/log_surgeon/LALR1Parser.hpp:NonTerminal::m_next_children_start", "src/log_surgeon/LALR1Parser.cpp:NonTerminal::NonTerminal", "src/log_surgeon/SchemaParser.cpp:SchemaParser::try_schema_string", "src/log_surgeon/Schema.cpp:Schema::add_variable"]}
{"id": "C56", "title": "A wrong input is rejected at the first token that cannot continue", "statement": "For a parser built from a grammar without conflicts, if LALR1Parser::parse rejects an input then the token it stops at is the first one that cannot continue: the tokens before it are the beginning of some sentence of the grammar, and no sentence begins with them followed by that token; if it stops at the end of the input, the input is the beginning of a sentence but not itself one.", "quantifier": "every grammar for which the table is built without conflict, every input of tokens, every set of semantic actions", "why_tests_cant": "LALR tables merge lookaheads, so the parser may reduce several times before it notices an error; that it never shifts a wrong token is a statement about all grammars and inputs", "anchors": ["src/log_surgeon/LALR1Parser.tpp: LALR1Parser::parse, parse_advance, parse_symbol", "src/log_surgeon/LALR1Parser.tpp: LALR1Parser::generate"]}
{"id": "C57", "title": "The message of a rejected schema points at the first token that cannot continue", "statement": "If SchemaParser::try_schema_string rejects a text for its syntax, then the message's second number is one more than the number of bytes between the last line break before the first token that cannot continue and that token, its first number is one more than the number of newlines up to and including that token, and it quotes the token's line; it does so whatever earlier calls left in the parser's static array of children, and building the message never reads outside that array.", "quantifier": "every text of less than 24000 bytes, every earlier content of the static array, every value of its index, every heap order", "why_tests_cant": "the quoted line is reconstructed by walking a static array that is reused across parses and set back in the middle of a parse; that the cells read are always the ones of this parse depends on every history", "anchors": ["src/log_surgeon/LALR1Parser.tpp: report_error, get_input_after_last_newline, get_input_until_next_newline, get_line_num", "src/log_surgeon/SchemaParser.cpp: existing_schema_rule, try_schema_string"]}
{"id": "C58", "title": "The message of a rejected schema says what could follow", "statement": "The error message of a rejected schema says empty file only for an empty file, and otherwise lists exactly the tokens that could follow at that place.", "quantifier": "every rejected schema text", "why_tests_cant": "the list is read from the row of the state in which the parser noticed the error, which may not be the state in which the offending token was first looked at; that it is right would be a statement about all states of the table", "anchors": ["src/log_surgeon/LALR1Parser.tpp: report_error", "src/log_surgeon/Lexer.tpp: Lexer::generate, Lexer::get_rule"]}
{"id": "C59", "title": "A schema file means what its text means, whatever its length", "statement": "SchemaParser::try_schema_file returns a schema if and only if the bytes of the file are a schema, and then that schema; in particular the file is read through a buffer of 48000 bytes while the parser runs, and no text is lost, repeated or changed when the file is longer than the buffer. A file that cannot be opened or read completely is an exception.", "quantifier": "every file of every length, every earlier use of the buffer, every value of the static index, every heap order of the automaton's states", "why_tests_cant": "a token is a pair of positions in a ring buffer that is overwritten while the parser still holds it on its stack; that every text is used before it is overwritten depends on how far every reachable stack can lag behind the reader, for every length and every position of the tokens relative to the buffer's halves", "anchors": ["src/log_surgeon/SchemaParser.cpp: try_schema_file, generate_schema_ast", "src/log_surgeon/FileReader.cpp: FileReader::read", "src/log_surgeon/LALR1Parser.tpp: parse, parse_advance, parse_symbol, reduce", "src/log_surgeon/ParserInputBuffer.cpp: read, read_is_safe, get_next_character"]}
{"id": "C60", "title": "The text of an automaton shows the whole automaton", "statement": "RegexNFA::serialize never fails (no state id is missing), terminates, and describes exactly the states that can be reached from the root, each once, the root as number 0; and the text is faithful: two automata with the same text have the same states, transitions, capture names and accepting rules up to renaming of the states, so they accept the same tagged words for the same rules.", "quantifier": "every list of rules and patterns (any nesting of captures, alternatives and repetitions), every naming of the capture groups by names that the schema language allows", "why_tests_cant": "tests compare the text of one automaton with one expected string; that no two different automata share a text (a transition on '}' or ',' is printed unescaped) and that no lookup fails needs all automata the construction can build", "anchors": ["src/log_surgeon/finite_automata/RegexNFA.hpp: get_bfs_traversal_order, serialize", "src/log_surgeon/finite_automata/RegexNFAState.hpp: serialize", "src/log_surgeon/finite_automata/TaggedTransition.hpp: serialize"]}
{"id": "C61", "title": "A copy of a pattern is independent of the original", "statement": "RegexAST::clone gives a pattern that matches the same strings and has the same capture groups; it shares nothing with the original, so that it can be printed (serialize) and compiled after the original is destroyed; and the printed text of a pattern determines what it matches.", "quantifier": "every pattern (any nesting of alternatives, repetitions, captures), every list of rules, every state of the heap of tags", "why_tests_cant": "a copy that keeps pointers into the original prints correctly in every test in which the original is still alive; which patterns are affected needs all patterns", "anchors": ["src/log_surgeon/finite_automata/RegexAST.hpp: clone, copy constructors, serialize, add_to_nfa_with_negative_tags", "src/log_surgeon/LogParser.cpp: add_rules (timestamp patterns are cloned)"]}
{"id": "C62", "title": "Exactly which bytes of a log without timestamps go into which event", "statement": "A log none of whose events has a timestamp is split into events by one rule, whatever the schema: an event reaches up to and including the first newline after its first byte (so a blank line is merged with the line that follows it), the rest after the last such newline is the last event, and after a final newline there is one more, empty, event. In a log that has timestamps the same rule holds for each event without one, except that a single newline directly before an event with a timestamp is an event of its own.", "quantifier": "every schema whose variables cannot start or contain a newline, every log text without the start-of-file byte, every storage that holds it, every previous use of the parser", "why_tests_cant": "whether a newline ends an event depends on the token the lexer makes of it, hence on all schemas and all texts", "anchors": ["src/log_surgeon/LogParser.cpp: parse", "src/log_surgeon/BufferParser.cpp: parse_next_event", "src/log_surgeon/Lexer.tpp: scan"]}
{"id": "C63", "title": "Exactly when an event is reported as multi-line", "statement": "is_multiline() of an event is true if and only if the event has a timestamp and one of its tokens other than the first and the last one begins with a newline.", "quantifier": "every usable schema, every log text, every storage that holds it, every event", "why_tests_cant": "it relates the flag to all token sequences that any schema can produce", "anchors": ["src/log_surgeon/LogParser.cpp: generate_log_event_view_metadata", "src/log_surgeon/LogEvent.hpp: is_multiline"]}
{"id": "C64", "title": "One lexer ranks its rules consistently", "statement": "For a lexer once generated there is one order of its rules such that, after every string, the types listed are those of the matching rules in that order; two tokens never rank the same two rules differently, whatever addresses the automaton states were allocated at.", "quantifier": "every list of rules, every injective assignment of addresses to automaton states, every string", "why_tests_cant": "the order follows memory addresses, which a test does not control, and must be the same for all strings", "anchors": ["src/log_surgeon/Lexer.tpp: nfa_to_dfa", "src/log_surgeon/finite_automata/RegexDFA.hpp: RegexDFAState::get_matching_variable_ids, new_state"]}
{"id": "C65", "title": "Exactly which strings a registered pattern matches", "statement": "The automaton built from any list of rules accepts a string for id i if and only if, for a rule registered under i, the string is a word of the pattern's leading part followed by any number of words of its trailing loops, both defined by recursion on the pattern alone; in particular the rules do not influence one another.", "quantifier": "every list of rules, every pattern (any nesting of alternatives, concatenations, repetitions and captures), every string", "why_tests_cant": "it is an equality of languages over all patterns and all strings", "anchors": ["src/log_surgeon/finite_automata/RegexAST.hpp: add_to_nfa", "src/log_surgeon/finite_automata/RegexNFA.hpp"]}
{"id": "C66", "title": "A Reader is called until its first short answer, and exactly what it delivered is parsed", "statement": "When parsing a log through a Reader ends normally, every call of the Reader but the last was answered with all the bytes asked for, the last one with fewer, every call asked for at least 24000 bytes, and the events are exactly those for the text made of the answers (those of a Reader that delivers this text at once; those of a BufferParser on it, if the buffer was not enlarged); what the Reader still has is ignored.", "quantifier": "every usable schema, every log, every Reader (any sequence of answer lengths), any number of enlargements", "why_tests_cant": "it ranges over all ways in which a Reader can cut its answers, and all logs", "anchors": ["src/log_surgeon/ParserInputBuffer.cpp: read", "src/log_surgeon/ParserInputBuffer.hpp: read_if_safe", "src/log_surgeon/ReaderParser.cpp: parse_next_event", "src/log_surgeon/Reader.hpp"]}
{"id": "C67", "title": "A Reader error is passed on, and parsing can go on after it", "statement": "If a call of the Reader fails, parse_next_event returns that error, and a caller that calls it again gets in the end exactly the events it would have got without the failures; every failure is reported once and in order.", "quantifier": "every usable schema, every log, every Reader, every set of finitely many failing calls", "why_tests_cant": "it ranges over all points at which a read can fail", "anchors": ["src/log_surgeon/ReaderParser.cpp: parse_next_event", "src/log_surgeon/ParserInputBuffer.cpp: read"]}
{"id": "C68", "title": "A schema error names the right variable, line and delimiter", "statement": "If a schema's text is accepted but constructing the LogParser throws, the message either says that the delimiters line is missing, and then the schema has none, or it names the first variable (timestamps aside) whose pattern mentions a delimiter, the number of the line of the schema's text on which that variable stands, counted from 1, and the smallest delimiter that its pattern mentions.", "quantifier": "every schema text of less than 24000 bytes, every heap layout, every earlier use of the parser", "why_tests_cant": "it ranges over all texts, numbers of lines before the variable, patterns and delimiter sets", "anchors": ["src/log_surgeon/LogParser.cpp: LogParser::add_rules", "src/log_surgeon/SchemaParser.cpp: schema_var_rule, existing_schema_rule, try_schema_string", "src/log_surgeon/SchemaParser.hpp: SchemaVarAST::m_line_num"]}
{"id": "C69", "title": "The quoted line of a schema error", "statement": "If SchemaAST::m_file_path names a file that holds the schema's text, then the message of a LogParser construction that fails because of a delimiter in a pattern quotes exactly the line on which that variable stands, and the line below has one ^ under each byte of the pattern (and one under the \\r if the line ends with \\r\\n).", "quantifier": "every schema text of less than 24000 bytes, every path, heap layout and earlier use of the parser", "why_tests_cant": "it ranges over all schema texts, positions of the variable and lengths of its line", "anchors": ["src/log_surgeon/LogParser.cpp: LogParser::add_rules", "src/log_surgeon/FileReader.cpp: FileReader::try_read_to_delimiter", "src/log_surgeon/SchemaParser.hpp: SchemaAST::m_file_path"]}
{"id": "C70", "title": "The message of a rejected schema is readable", "statement": "what() of the exception that rejects a schema's text shows the line and the position of the offending token, what is expected before it, the token's line as it is in the text, and below that line a ^ under the first byte of the token.", "quantifier": "every rejected schema text", "why_tests_cant": "it ranges over all texts, positions in them and lists of expected symbols", "anchors": ["src/log_surgeon/LALR1Parser.tpp: report_error, unescape, get_input_after_last_newline, get_input_until_next_newline"]}
{"id": "C71", "title": "A buffer of exactly the text's size is enough", "statement": "Parsing a finished buffer whose storage ends where the text ends reads nothing behind it and reports the same events as with more storage, except in one case: the last event has a token and no timestamp, or a token and an empty text; then the byte behind the text is read.", "quantifier": "every schema, text, parser state and byte behind the text", "why_tests_cant": "a read of one byte behind a buffer is visible only under a sanitizer and depends on the whole history of the run", "anchors": ["src/log_surgeon/BufferParser.cpp: parse_next_event", "src/log_surgeon/LogParser.cpp: parse, generate_log_event_view_metadata", "src/log_surgeon/Token.cpp: get_char, get_delimiter"]}
{"id": "C72", "title": "Line numbers of an event's tokens", "statement": "Every token that the events of a log report -- variables, timestamps, static text and the newlines that end events -- carries as its line number the number of newlines in the log up to the token's end.", "quantifier": "every schema with line-oriented variables, every log read by BufferParser, every log of events of at most 7999 bytes read by ReaderParser", "why_tests_cant": "the counter is restored after every failed match and carried over events; a wrong restore shows up only in particular logs, lines later", "anchors": ["src/log_surgeon/Lexer.tpp: Lexer::scan", "src/log_surgeon/LogParser.cpp: parse", "src/log_surgeon/Token.hpp: Token::m_line"]}
{"id": "C73", "title": "What is read of a rejected schema's message, exactly", "statement": "For every rejected schema text, what() is determined: the position, the expected symbols, the offending byte, the quoted line and the ^ under it -- or the beginning of that text up to the first zero byte, which is the offending byte's place if the text ends too early and a zero byte of the line otherwise -- or the message 'empty file'.", "quantifier": "every rejected schema text, including line breaks, zero bytes and the end of the text as offending places", "why_tests_cant": "it ranges over all texts and all places in them", "anchors": ["src/log_surgeon/LALR1Parser.tpp: report_error, unescape, get_input_after_last_newline, get_input_until_next_newline"]}
{"id": "C74", "title": "What a deep copy is, exactly", "statement": "deep_copy() throws for an event without text. For every other event it returns a LogEvent that reads only its own memory, with the event's multiline flag and, for each type, copies of the event's variables in the same order. If the event has a timestamp, the copy has a copy of it, the same to_string() and the same get_logtype(); otherwise the copy's to_string() and get_logtype() are the event's without the part of the first token. Every copied token has the original's text and type ids, and line 0.", "quantifier": "every event of every log", "why_tests_cant": "it ranges over all events, with and without timestamps, of all logs", "anchors": ["src/log_surgeon/LogEvent.cpp:LogEvent::LogEvent", "src/log_surgeon/LogEvent.cpp:LogEventView::to_string", "src/log_surgeon/LogEvent.cpp:LogEventView::get_logtype"]}
{"id": "C75", "title": "What add_rule and add_production register", "statement": "After any sequence of calls of add_rule (or add_token, add_token_group, add_token_chain) and add_production that does not use \"$START_PRIME\" as a head: every name used so far has exactly one symbol id and every id one name (m_symbol_id and m_id_symbol are inverse), the eight reserved names keep ids 0 to 7; the terminals are the reserved names and those given to add_rule; each pair of head and body is one production, in the order of the first call that names it, with the semantic rule of the last such call, and the root production \"$START_PRIME -> first head\" is the second production. add_production returns the index of a new production, but for a head and body that are registered already an index that no production has. If no head is the name of a token and every name in a body is a token (not the end token) or a head, then the registered grammar is well formed, and whenever generate succeeds, a sequence of tokens that parse accepts is derivable, by name, from the first head with the productions of the calls. SchemaParser's own calls meet this condition.", "quantifier": "every sequence of registration calls, in every order, with repetitions; every table generate builds for it and every token sequence", "why_tests_cant": "it ranges over all sequences of calls, hence all grammars, and all inputs of the parsers generated from them", "anchors": ["src/log_surgeon/LALR1Parser.tpp:LALR1Parser::add_rule", "src/log_surgeon/LALR1Parser.tpp:LALR1Parser::add_production", "src/log_surgeon/Parser.tpp:Parser::add_rule", "src/log_surgeon/SchemaParser.cpp:SchemaParser::add_productions"]}
{"id": "C76", "title": "generate always ends: a table or the conflict exception", "statement": "LALR1Parser::generate ends for every registered grammar in which every symbol of a body is a token or a head. If moreover every non-terminal derives some sequence of tokens, then its result is a complete table or the exception about a conflict: it never reads outside m_actions or stores a null item set. The exception means that in one of the item sets one item demands a reduction on a symbol on which another item demands a shift or a reduction; and whenever an item set has such a pair of items, generate throws, except at the end of the input in an item set in which the root production is complete.", "quantifier": "every well-formed grammar, of any size", "why_tests_cant": "it ranges over all grammars; termination and the absence of missed conflicts hold for each of the infinitely many", "anchors": ["src/log_surgeon/LALR1Parser.tpp:LALR1Parser::generate", "src/log_surgeon/LALR1Parser.tpp:LALR1Parser::generate_lr1_item_sets", "src/log_surgeon/LALR1Parser.tpp:LALR1Parser::generate_lalr1_action"]}
{"id": "C77", "title": "generate accepts exactly the LALR(1) grammars", "statement": "Let a grammar be registered in which every symbol of a body is a token or a head and every non-terminal derives some sequence of tokens. If generate returns a table, the grammar is LR(1): no two items that are valid for the same viable prefix ask for different actions on the same lookahead. If the grammar is LALR(1), generate reports no conflict.", "quantifier": "every grammar", "why_tests_cant": "it ranges over all grammars and, for each, over its infinitely many viable prefixes", "anchors": ["src/log_surgeon/LALR1Parser.tpp:LALR1Parser::generate_lr1_item_sets", "src/log_surgeon/LALR1Parser.tpp:LALR1Parser::generate_lalr1_action"]}
