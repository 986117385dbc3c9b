{"claims": [
{"property": "C01", "status": "proved", "theorems": ["C01_lossless", "C01_schema_usable", "C01_lossless_schema"], "note": "for every usable configuration (any DFA)"},
{"property": "C02", "status": "proved", "theorems": ["C02_terminates_and_succeeds"], "note": "explicit fuel bound"},
{"property": "C03", "status": "proved", "theorems": ["C03_tokens_tile_the_input"], "note": ""},
{"property": "C04", "status": "proved", "theorems": ["C04_variable_tokens_are_matches", "C04_tokens_are_schema_words", "C04_event_tokens_are_matches"], "note": "at the lexer, for schemas, and for the tokens of parsed events"},
{"property": "C05", "status": "proved", "theorems": ["C05_longest_match"], "note": ""},
{"property": "C06", "status": "partial", "theorems": ["C06_matches_never_missed_partial", "C06_refuted", "C06_matches_are_tokens"], "note": "refuted as stated; proved under the no_cross conditions For schemas without timestamps whose delimiters include the newline, C06_matches_are_tokens proves it in full."},
{"property": "C07", "status": "partial", "theorems": ["C07_nfa_exists", "C07_patterns_match_partial", "C07_refuted_star", "C07_refuted_alternative"], "note": "refuted as stated: R* does not match the empty string, 'a+|b' matches 'ba'; proved on faithful patterns with * read as +; the exact language is C65"},
{"property": "C08", "status": "proved", "theorems": ["C08_dfa_equals_nfa"], "note": "for every rule set and memory layout"},
{"property": "C09", "status": "proved", "theorems": ["C09_all_matching_ids"], "note": ""},
{"property": "C10", "status": "partial", "theorems": ["C10_type_order_partial", "C10_refuted"], "note": "refuted as stated: the order follows the addresses of NFA states; proved for monotone allocation, and as multiset for any; the exact order is C64"},
{"property": "C11", "status": "proved", "theorems": ["C11_get_intersect_exact"], "note": ""},
{"property": "C12", "status": "partial", "theorems": ["C12_brackets_exact", "C12_refuted_empty_complement"], "note": "exact except for '[^]', which matches nothing"},
{"property": "C13", "status": "proved", "theorems": ["C13_schema_words", "C13_dot_excludes_exactly_delimiters"], "note": "For every accepted legal schema whose patterns are faithful (see C07)."},
{"property": "C14", "status": "proved", "theorems": ["C14_no_delimiter_in_variables", "C14_else_throws", "C44_construction_terminates"], "note": "For legal schemas: variables not named with a reserved name, bracket ranges in order."},
{"property": "C15", "status": "proved", "theorems": ["C15_last_delimiters_line", "C15_no_delimiters_throws"], "note": ""},
{"property": "C16", "status": "proved", "theorems": ["C16_symbols_bijective", "C16_ids_stable"], "note": "Stability is stated for schemas extended with more variables at the end."},
{"property": "C17", "status": "proved", "theorems": ["C17_split_at_timestamps", "C17_refuted_reserved_name"], "note": " Hypothesis usable holds for every legal schema (C01_schema_usable); a schema naming a variable newLineTimestamp violates it (C17_refuted_reserved_name)."},
{"property": "C18", "status": "partial", "theorems": ["C18_one_line_partial", "C18_refuted", "C18_schema_newline_free", "C18_refuted_reserved_name"], "note": "refuted as stated (blank lines are merged with the next line); the exact split is C62"},
{"property": "C19", "status": "proved", "theorems": ["C19_get_timestamp"], "note": ""},
{"property": "C20", "status": "proved", "theorems": ["C20_get_variables"], "note": ""},
{"property": "C21", "status": "partial", "theorems": ["C21_multiline_sound_partial", "C21_multiline_complete_partial", "C21_refuted"], "note": "refuted as stated for the last event; the exact rule is C63"},
{"property": "C22", "status": "partial", "theorems": ["C22_deep_copy_partial", "C22_refuted"], "note": "Refuted as stated: the copy of an event without timestamp loses its first token in to_string() (C22_refuted). Proved for every non-empty event: the copy succeeds, reads only its own memory, and has the same multiline flag, timestamp and variables; with a timestamp also the same to_string() and logtype."},
{"property": "C23", "status": "proved", "theorems": ["C23_log_in_order", "C23_each_byte_once", "C23_out_of_bounds_only_at_the_end"], "note": "Every even size, every source, every schedule of read_if_safe/get_next_character/increase_capacity/set_consumed_pos/set_pos, for readers that fill their requests (short reads: C26). 32-bit wrap of the doubled size not modelled."},
{"property": "C24", "status": "partial", "theorems": ["C24_growth_keeps_content", "C24_positions_follow_partial", "C24_refuted"], "note": "The content part holds in full. Refuted as stated for lexer positions: a pending match ending at the cursor (newline is the last byte read) is moved to place 0; positions behind the cursor are moved correctly."},
{"property": "C25", "status": "proved", "theorems": ["C25_safe_read_keeps_data"], "note": "Every reachable state, every reader behaviour."},
{"property": "C26", "status": "partial", "theorems": ["C26_refuted", "C26_any_chunking_partial", "C26_full_readers_agree_partial"], "note": "Refuted as stated: a short read is taken for the end of input. For any chunking the bytes shown are a prefix in order; for readers that fill requests everything is delivered. The exact rule is C66."},
{"property": "C27", "status": "partial", "theorems": ["C27_refuted", "C47_short_logs_partial", "C47_bounded_events_partial", "C47_short_events_partial", "C47_short_lines_partial"], "note": "Refuted as stated: a schema and a 24000-byte log on which ReaderParser never returns, whatever the loop bounds (C27_refuted; the buffer is doubled for ever because consumed_pos = 0 never becomes safe). Termination proved for logs shorter than half the initial buffer, and for logs of any length in which every event and the two lines after it fit into half the initial buffer."},
{"property": "C28", "status": "partial", "theorems": ["C28_resumable_partial", "C28_refuted", "C28_lost_refuted"], "note": "Refuted as stated: without a timestamp the offset after BufferOutOfBounds is the stale start of token slot 0, so bytes are repeated (C28_refuted) or lost (C28_lost_refuted). Proved: the reported events are a beginning of the whole log's events, the parser is left reset and idle, and if the next event has a timestamp, offset is exactly where it starts."},
{"property": "C29", "status": "partial", "theorems": ["C29_offset_partial", "C29_refuted"], "note": "Refuted as stated: when the next event's first token was read ahead, offset is past it (C29_refuted). Proved: exactly which of the two values offset takes, for every event of every log."},
{"property": "C30", "status": "partial", "theorems": ["C30_reset_forgets_partial", "C30_refuted"], "note": "Refuted as stated: reset() in the middle of a log keeps the pending first token (C30_refuted). Proved: if the parser was between two logs, all reports after reset() are those of any other idle parser, new or not."},
{"property": "C31", "status": "partial", "theorems": ["C31_registers_exact", "C31_history", "C31_set_independent", "C31_refuted_set_after_copy"], "note": "Exact for every operation sequence (registers as shared cells, C31_registers_exact); the history reading of the property holds for every sequence without set_register (C31_history), and with set_register if there is no copy (C31_set_independent). Refuted as stated: set_register on a copy changes the original too."},
{"property": "C32", "status": "partial", "theorems": ["C32_one_addition", "C32_history", "C32_release", "C32_refuted_extra_variables", "C32_add_variable_texts", "C32_no_delimiters"], "note": "Proved for priorities -1..size and texts with a variable; outside that the code has undefined behaviour, and further variables of the text are silently dropped (C32_refuted_extra_variables). C32_add_variable_texts: the same with the real schema parser instead of a parameter, with the exact bound up to which a sequence of additions is defined. C32_no_delimiters: no sequence of additions makes a schema from which a parser can be built."},
{"property": "C33", "status": "partial", "theorems": ["C33_short_strings_partial", "C33_long_strings_refuted"], "note": "Refuted as stated: for every string of at least half the buffer (24000 bytes) the reader of try_schema_string starts over from byte 0 at each call (its position is a local of the lambda), so the parser sees the first 24000 bytes again and again and never end of file (C33_long_strings_refuted). Proved for all shorter strings: exactly the bytes of the string, then end of file, under every schedule of buffer operations."},
{"property": "C34", "status": "proved", "theorems": ["C34_accessors_agree"], "note": "For tokens whose positions lie in the buffer (what the lexer produces). The wrap-around cache is assumed empty or filled by these accessors."},
{"property": "C35", "status": "partial", "theorems": ["C35_counts_partial", "C35_exactly", "C35_range", "C35_refuted_wraps", "C35_refuted_zero"], "note": "Holds for at most 10 digits and values below 2^32; refuted as stated: 4294967297 counts as 1, 11 digits are undefined behaviour, {0} means any number."},
{"property": "C36", "status": "partial", "theorems": ["C36_no_undefined_behaviour_partial", "C36_refuted", "C36_null_state_refuted"], "note": "refuted as stated: buf[size] is read (exactly when: C71); null state without variables"},
{"property": "C37", "status": "partial", "theorems": ["C37_captures_recorded_partial", "C37_tagged_language_partial", "C37_alternative_partial", "C37_refuted_zero", "C37_refuted_alternative"], "note": "refuted as stated for R{0} and for alternatives ending in an unbounded repetition"},
{"property": "C38", "status": "proved", "theorems": ["C38_accepted_inputs_are_derivations"], "note": "For every grammar of the shape add_rule/add_production build (wf_grammar) and every table generate returns."},
{"property": "C39", "status": "proved", "theorems": ["C39_first_and_nullable_are_exact"], "note": "For every grammar; the fuel bound (productions * (terminals + 1)) is proved sufficient."},
{"property": "C40", "status": "proved", "theorems": ["C40_logtype"], "note": ""},
{"property": "C41", "status": "partial", "theorems": ["C41_line_numbers_partial", "C41_refuted"], "note": "refuted as stated"},
{"property": "C42", "status": "partial", "theorems": ["C42_ordered_map_partial", "C42_refuted_crash"], "note": "all() and find() are right for every memory layout if the insertions do not crash; refuted as stated: pointer differences used as balance factor make three insertions dereference null."},
{"property": "C43", "status": "partial", "theorems": ["C43_pieces_partial", "C43_schema_pieces_partial", "C43_refuted"], "note": "Refuted as stated (C43_refuted: a log without timestamps cut before its last byte repeats an event). Proved for every lexer whose patterns do not cross lines and whose line starts behave like the buffer start, every log whose first event has a timestamp and every sequence of pieces (empty ones included): the events of feeding the pieces are those of the whole log up to line numbers and the kind of timestamp. C43_schema_pieces_partial: for parsers built from a schema no hypothesis on the lexer is left (newline is a delimiter, timestamp patterns do not mention it, no pattern matches the empty string, ids in rule order or no string is both a timestamp and a variable)."},
{"property": "C44", "status": "proved", "theorems": ["C44_construction_terminates"], "note": "For patterns without a bare integer node (the grammar never produces one)."},
{"property": "C45", "status": "partial", "theorems": ["C45_refuted"], "note": "Refuted as stated: after reset() with offset 2 the event contains the two bytes before offset."},
{"property": "C46", "status": "partial", "theorems": ["C46_pop_partial", "C46_refuted"], "note": "Right whenever it does not crash, in increasing order, and it terminates; refuted as stated: an overlap in the right subtree only fails the assertion (or removes the wrong node without assertions)."},
{"property": "C47", "status": "partial", "theorems": ["C47_refuted", "C47_reader_as_buffer_partial", "C47_or_enlarge_partial", "C47_short_logs_partial", "C47_bounded_events_partial", "C47_short_events_partial", "C47_short_lines_partial", "C47_schema_events_partial", "C47_schema_lines_partial"], "note": "Refuted as stated: after an enlargement of the buffer ReaderParser reports a number token made of letters (C47_refuted), or never returns (C27_refuted). Proved whenever the log is read without enlarging the buffer: every log shorter than 24000 bytes; every log, of any length, whose events are at most 7999 bytes (C47_short_events_partial), or more generally fit together with two more lines into 23998 bytes; until an enlargement nothing else can go wrong. For parsers built from a schema: C47_schema_*."},
{"property": "C48", "status": "partial", "theorems": ["C48_derivations_are_accepted_partial", "C48_one_tree_partial", "C48_refuted", "C48_schema_grammar", "C48_schema_complete", "C48_by_name_partial"], "note": "Refuted as stated: generate does not detect accept/reduce conflicts, and such a parser loops until it overflows (C48_refuted). Proved for every grammar without such a state and without unproductive non-terminals (C48_by_name_partial: in terms of the names given to add_rule and add_production), and without any exception for SchemaParser's own grammar (termination included)."},
{"property": "C49", "status": "partial", "theorems": ["C49_short_schemas_fit_partial", "C49_refuted", "C50_schema_tokens"], "note": "Refuted as stated: a comment of 5000 characters overflows the static array (undefined behaviour), and so do two schemas with shorter comments parsed one after the other. Proved for inputs of at most (10000 - counter - 1) / 7 tokens, and (C50_schema_tokens, room_for) for inputs of any length in which every stretch of more than 713 tokens contains a whole variable line, if the counter starts in the first half."},
{"property": "C50", "status": "proved", "theorems": ["C50_schema_tokens", "C50_schema_unambiguous"], "note": "Specification: SchemaSyntax.v (the language), SchemaReads.bad (what is undefined), SchemaRoom.often. Undefined behaviour really occurs: C51_undefined."},
{"property": "C51", "status": "proved", "theorems": ["C51_schema_string", "C51_splits"], "note": "The whole pipeline: generated DFA lexer, generated table, semantic rules. Examples run the pipeline, /repo/examples/schema.txt included. Strings of 24000 bytes and more are not covered (the reader restarts: C33); texts without variable lines overflow the array (C49_refuted)."},
{"property": "C52", "status": "proved", "theorems": ["C52_text_to_events"], "note": "Composition of C51, C44, C01, C13 and the token theorem. Example C52_example."},
{"property": "C53", "status": "proved", "theorems": ["C53_star", "C53_schema_star"], "note": "Any lexer (C53_star) and, with the words of the rules in place of the automaton, any legal schema with faithful patterns (C53_schema_star). An assertion failure is modelled as undefined behaviour."},
{"property": "C54", "status": "partial", "theorems": ["C54_question_partial", "C54_question_useless", "C54_refuted"], "note": "Refuted as stated: the successor by a byte that cannot follow is dereferenced though null (C54_refuted); with a schema without timestamps no text ever gets ids (C54_question_useless). Proved: what is returned when it is defined."},
{"property": "C55", "status": "partial", "theorems": ["C55_one_text", "C55_history", "C55_short_histories", "C55_refuted"], "note": "Refuted as stated: every one-line schema text moves a static index by a fixed cost that is never taken back, so the history is undefined as soon as the costs exceed 10000 (C55_history says exactly when; C55_example: the 87th add_variable of a timestamp pattern). Proved: short histories return the right schemas (C55_short_histories). A history ends at the first exception."},
{"property": "C56", "status": "proved", "theorems": ["C56_first_error"], "note": "For any grammar with a table without conflicts (the hypotheses of C38/C39) and any actions. Instantiated for the schema grammar in C57."},
{"property": "C57", "status": "proved", "theorems": ["C57_schema_report", "C57_quoted_line", "C57_newline_line", "C57_empty_file"], "note": "C57_schema_report: try_schema_string with its message, for every content and index of the static array; describes (SchemaReport.v) is the specification; C57_quoted_line: the quoted line is the text's line, C57_newline_line: the line number at a newline token, C57_empty_file: when the message says empty file. Examples with the full message."},
{"property": "C58", "status": "partial", "theorems": ["C58_listed_but_wrong", "C58_missing", "C57_empty_file"], "note": "Refuted as stated: C58_not_empty, C58_listed_but_wrong (Rangle is listed where no schema can go on with it), C58_missing (tokens that can follow are not listed), C58_not_a_token. C57_empty_file says exactly when the message is 'empty file'."},
{"property": "C59", "status": "partial", "theorems": ["C59_schema_file_partial", "C59_missing_file", "C59_multiple", "C59_io_error"], "note": "Proved for every file whose length is no positive multiple of 48000 (including the empty one), under room_for of C51 (the static array does not overflow); refuted for the rest: such a file is never accepted (C59_multiple, C59_multiple_example), and an I/O error is taken for the end of the file (C59_io_error, C59_example_io). storage_exists: the bytes of the static storage have some value."},
{"property": "C60", "status": "proved", "theorems": ["C60_total", "C60_faithful", "C60_language"], "note": "For every automaton built from rules by the modelled constructor. C60_faithful and C60_language assume that capture names are non-empty and have no comma or closing bracket (the schema language allows only letters, digits and underscore). C60_example_text: the model prints exactly the text expected by tests/test-NFA.cpp. Byte automata (the UTF-8 tree transitions are not printed by the code, as its TODO says)."},
{"property": "C61", "status": "partial", "theorems": ["C61_objects", "C61_copy_partial", "C61_copy_text", "C61_copy_dangles_refuted", "C61_copy_skips_refuted", "C61_text_ambiguous_refuted"], "note": "Refuted as stated. Proved: a copy accepts the same bytes and (while the original lives) the same capture names, and prints the same text. Refuted: after the original is destroyed, printing the copy reads destroyed tags if and only if some alternation has a capture in a branch; negative transitions of the copy's automaton carry the original's tags, which no capture of the copy has; the text does not determine the pattern (no escaping). C61_objects ties the object model to the model of add_to_nfa of the other properties; the examples reproduce the texts expected in tests/test-lexer.cpp."},
{"property": "C62", "status": "proved", "theorems": ["C62_event_exact", "C62_lines_exact", "C62_split_lines_unique", "C62_schema_lines"], "note": "for every configuration meeting usable and newline_free; C62_schema_lines states it for schemas"},
{"property": "C63", "status": "proved", "theorems": ["C63_multiline_exact"], "note": ""},
{"property": "C64", "status": "proved", "theorems": ["C64_consistent_order"], "note": ""},
{"property": "C65", "status": "proved", "theorems": ["C65_exact", "C07_nfa_exists"], "note": "lead/trail in RegexSpec.v"},
{"property": "C66", "status": "proved", "theorems": ["C66_short_answer", "C66_as_buffer"], "note": "For every lexer configuration that is usable; C66_as_buffer for runs that do not enlarge the buffer."},
{"property": "C67", "status": "partial", "theorems": ["C67_retry_partial", "C67_short_logs_partial", "C67_short_events_partial", "C67_errors_reported", "C67_refuted"], "note": "Refuted as stated for a failure of the read after an enlargement of the buffer: text is lost (C67_refuted: a log of 24003 bytes and one failure; the first byte is in no event, although the Reader delivered every byte). Proved for every run that needs no enlargement, in particular logs of less than 24000 bytes, and logs of any length whose events have at most 7999 bytes. For every run, C67_errors_reported: the calls report exactly the failures of the Reader, in order."},
{"property": "C68", "status": "proved", "theorems": ["C68_message", "C68_lines", "C68_where", "C68_schema_error"], "note": "The message of the AST is C68_message, the line numbers of the AST are C68_lines and C68_where, the whole claim is C68_schema_error. The message with the quoted line (LogParser.cpp 120-142) is dead code: m_file_path is never assigned."},
{"property": "C69", "status": "proved", "theorems": ["C69_quoted_line"], "note": ""},
{"property": "C70", "status": "partial", "theorems": ["C70_what_partial", "C70_line_break_partial", "C70_zero_byte_refuted", "C70_end_refuted"], "note": "Refuted as stated: a text that ends too early in a line that is not empty gives a message with a zero byte, after which what() shows nothing; a zero byte in the line cuts the message too. Proved for the rest; at a newline token the line number is one too large. All cases together: C73."},
{"property": "C71", "status": "proved", "theorems": ["C71_exact_buffer"], "note": "The exact counterpart of C36: when buf[size] is read."},
{"property": "C72", "status": "proved", "theorems": ["C72_line_numbers", "C72_schema_line_numbers", "C72_reader_line_numbers"], "note": "Delimiters with the newline and patterns within a line; C41_refuted shows why the newline must be a delimiter."},
{"property": "C73", "status": "proved", "theorems": ["C73_message"], "note": "Exact counterpart of C70; the meaning of rp_line and rp_expected is C57 and C58."},
{"property": "C74", "status": "proved", "theorems": ["C74_deep_copy"], "note": "Exact counterpart of C22 (refuted as stated): every event of a BufferParser, for every usable schema. The heap model gives each buffer its own storage; 32-bit wrap of the total length not modelled."},
{"property": "C75", "status": "proved", "theorems": ["C75_registered", "C75_returned_index", "C75_well_formed", "C75_accepted_by_name", "C75_schema_calls"], "note": "For every sequence of registration calls; at most 10000000 symbols (cNullSymbol) for the grammar's well-formedness. The converse of the last part (derivable sequences are accepted) is C48_by_name_partial."},
{"property": "C76", "status": "proved", "theorems": ["C76_generate_ends", "C76_table_or_conflict", "C76_conflicts_found", "C76_conflict_means", "C76_unproductive"], "note": "generate without the lexer's own part (m_lexer.generate). For grammars with a non-terminal that derives no sequence of tokens only termination holds: C76_unproductive shows a grammar for which generate finds no m_next entry (failed assert, or a null item set in the table)."},
{"property": "C77", "status": "partial", "theorems": ["C77_accepted_is_lr1_partial", "C77_refuted", "C77_schema_lr1"], "note": "Refuted as stated: generate reports a conflict for an LALR(1) grammar (C77_refuted). The first sentence is proved for every grammar without a state that both accepts and reduces at the end of the input, a conflict that generate does not check (C48_refuted)."}
]}
