(** SchemaGrammar.v -- the tokens and the grammar of SchemaParser (SchemaParser.cpp 419-639) and the
    functions that register them (LALR1Parser.tpp 56-151; Parser.tpp 33-48). *)
From Verif Require Import Base OrdSet GrammarSpec SchemaModel.
From Coq Require Import String.
Local Open Scope list_scope.
Local Open Scope N_scope.

(** The state of the parser under construction: m_lexer's symbol tables, m_terminals, m_productions with
    the names they were given (the keys of m_productions_map) and their semantic rules, and
    m_root_production_id. [R] is the type of semantic rules. *)
(** LALR1Parser.hpp 279-289, Parser.hpp. *)
Record builder (R : Type) : Type := mkB {
  b_sym : symtab; b_terms : list N;
  b_prods : list (string * list string * prod * R);
  b_root : N }.
Arguments mkB {R}.
Arguments b_sym {R}. Arguments b_terms {R}. Arguments b_prods {R}. Arguments b_root {R}.

(** LALR1Parser.tpp 56-65: the constructor. *)
Definition builder_init {R} : builder R := mkB symtab_init [0; 1; 2; 3; 4; 5; 6; 7] [] 0.

(** LALR1Parser.tpp 67-74: add_rule. (The lexical rule itself goes to the lexer.) *)
Definition add_terminal {R} (b : builder R) (name : string) : builder R :=
  let '(s, i) := sym_add (b_sym b) name in
  mkB s (oins N.compare i (b_terms b)) (b_prods b) (b_root b).

(** Equality of the keys of m_productions_map (LALR1Parser.hpp 285-286). *)
Fixpoint names_eqb (a b : list string) : bool :=
  match a, b with
  | [], [] => true
  | x :: a', y :: b' => String.eqb x y && names_eqb a' b'
  | _, _ => false
  end.
(** LALR1Parser.tpp 123-131: m_productions_map[head].find(body). *)
Definition same_prod {R} (head : string) (body : list string) (e : string * list string * prod * R) : bool :=
  let '(h, bd, _, _) := e in String.eqb h head && names_eqb bd body.
(** LALR1Parser.tpp 135-141: the symbols of the body. *)
Fixpoint sym_add_all (s : symtab) (names : list string) : symtab * list N :=
  match names with
  | [] => (s, [])
  | x :: r => let '(s1, i) := sym_add s x in
              let '(s2, l) := sym_add_all s1 r in (s2, i :: l)
  end.

(** LALR1Parser.tpp 112-146: add_production up to the registration of the root production. A production
    that exists already only gets the new semantic rule. *)
Definition add_production1 {R} (b : builder R) (head : string) (body : list string) (rule : R) :
  builder R :=
  let '(s, h) := sym_add (b_sym b) head in
  if existsb (same_prod head body) (b_prods b) then
    mkB s (b_terms b)
        (map (fun e => if same_prod head body e then (fst e, rule) else e) (b_prods b)) (b_root b)
  else
    let '(s2, ids) := sym_add_all s body in
    mkB s2 (b_terms b) (b_prods b ++ [(head, body, mkProd h ids, rule)]) (b_root b).
(** LALR1Parser.tpp 147-150: after the first production the root production is added; its index is what
    the inner call returns, the number of productions before it. *)
Definition add_production {R} (null : R) (b : builder R) (head : string) (body : list string) (rule : R) :
  builder R :=
  let b1 := add_production1 b head body rule in
  if Nat.eqb (List.length (b_prods b1)) 1 then
    let b2 := add_production1 b1 "$START_PRIME" [head] null in
    mkB (b_sym b2) (b_terms b2) (b_prods b2) 1
  else b1.

(** The grammar that generate() works on; [nts] is the iteration order of m_non_terminals, here the order
    of first appearance. *)
(** LALR1Parser.hpp 284-288 (m_productions, m_non_terminals, m_root_production_id) as generate reads them. *)
Definition b_grammar {R} (b : builder R) : grammar :=
  let ps := map (fun e => snd (fst e)) (b_prods b) in
  mkGrammar ps (b_terms b) (nodup N.eq_dec (map p_head ps)) (b_root b)
            (N.of_nat (List.length (sy_id (b_sym b)))).

(** ** Tokens (SchemaParser.cpp 419-482). *)
Inductive lexrule : Type :=
| LexChar (c : N) | LexRange (lo hi : N) | LexChain (w : list N) | LexNotIn (cs : list N).
(** m_special_regex_characters is an unordered_map: the order in which the loop visits it, and so the ids
    of these sixteen tokens, are unspecified; here it is the order of insertion. *)
Local Open Scope string_scope.
Definition special_chars : list (string * lexrule) :=
  [("Lparen", LexChar 40);
   ("Rparen", LexChar 41);
   ("Star", LexChar 42);
   ("Plus", LexChar 43);
   ("Dash", LexChar 45);
   ("Dot", LexChar 46);
   ("Lbracket", LexChar 91);
   ("Rbracket", LexChar 93);
   ("Backslash", LexChar 92);
   ("Hat", LexChar 94);
   ("Lbrace", LexChar 123);
   ("Rbrace", LexChar 125);
   ("Vbar", LexChar 124);
   ("Langle", LexChar 60);
   ("Rangle", LexChar 62);
   ("QuestionMark", LexChar 63)].
(** SchemaParser.cpp 419-482: add_lexical_rules. *)
Definition schema_tokens : list (string * lexrule) :=
  special_chars ++
  [("Tab", LexChar 9);
   ("NewLine", LexChar 10);
   ("VerticalTab", LexChar 11);
   ("FormFeed", LexChar 12);
   ("CarriageReturn", LexChar 13);
   ("Space", LexChar 32);
   ("Bang", LexChar 33);
   ("Quotation", LexChar 34);
   ("Hash", LexChar 35);
   ("DollarSign", LexChar 36);
   ("Percent", LexChar 37);
   ("Ampersand", LexChar 38);
   ("Apostrophe", LexChar 39);
   ("Comma", LexChar 44);
   ("ForwardSlash", LexChar 47);
   ("Numeric", LexRange 48 57);
   ("Colon", LexChar 58);
   ("SemiColon", LexChar 59);
   ("Equal", LexChar 61);
   ("At", LexChar 64);
   ("AlphaNumeric", LexRange 97 122);
   ("AlphaNumeric", LexRange 65 90);
   ("AlphaNumeric", LexRange 48 57);
   ("Underscore", LexChar 95);
   ("Backtick", LexChar 96);
   ("Tilde", LexChar 126);
   ("d", LexChar 100);
   ("s", LexChar 115);
   ("n", LexChar 110);
   ("r", LexChar 114);
   ("t", LexChar 116);
   ("f", LexChar 102);
   ("v", LexChar 118);
   ("Delimiters", LexChain [100; 101; 108; 105; 109; 105; 116; 101; 114; 115]);
   ("CommentCharacters", LexNotIn [13; 10])].

Local Close Scope string_scope.

(** ** Productions (SchemaParser.cpp 484-637); the semantic rules by name. *)
Inductive srule : Type :=
| new_schema_rule | new_schema_rule_with_var | new_schema_rule_with_delimiters | identity_rule_ParserASTSchema | existing_schema_rule | existing_schema_rule_with_delimiter | existing_delimiter_string_rule | new_delimiter_string_rule | nullptr | schema_var_rule | existing_identifier_rule | new_identifier_rule | regex_identity_rule | regex_cat_rule | regex_or_rule | regex_match_zero_or_more_rule | regex_match_one_or_more_rule | regex_match_exactly_rule | regex_match_range_rule | regex_add_range_existing_group_rule | regex_add_literal_existing_group_rule | regex_add_range_new_group_rule | regex_add_literal_new_group_rule | regex_complement_incomplete_group_rule | regex_range_rule | regex_tab_rule | regex_newline_rule | regex_vertical_tab_rule | regex_form_feed_rule | regex_char_return_rule | regex_literal_rule | regex_cancel_literal_rule | regex_capture_rule | regex_middle_identity_rule | regex_existing_integer_rule | regex_new_integer_rule | regex_digit_rule | regex_wildcard_rule | regex_white_space_rule.
Local Open Scope string_scope.
Definition schema_productions : list (string * list string * srule) :=
  [("Schema", ["Comment"], new_schema_rule);
   ("Schema", ["SchemaVar"], new_schema_rule_with_var);
   ("Schema", ["Delimiters"; "Colon"; "DelimiterString"], new_schema_rule_with_delimiters);
   ("Schema", ["Schema"; "PortableNewLine"], identity_rule_ParserASTSchema);
   ("Schema", ["Schema"; "PortableNewLine"; "Comment"], identity_rule_ParserASTSchema);
   ("Schema", ["Schema"; "PortableNewLine"; "SchemaVar"], existing_schema_rule);
   ("Schema", ["Schema"; "PortableNewLine"; "Delimiters"; "Colon"; "DelimiterString"], existing_schema_rule_with_delimiter);
   ("DelimiterString", ["DelimiterString"; "Literal"], existing_delimiter_string_rule);
   ("DelimiterString", ["Literal"], new_delimiter_string_rule);
   ("PortableNewLine", ["CarriageReturn"; "NewLine"], nullptr);
   ("PortableNewLine", ["NewLine"], nullptr);
   ("Comment", ["ForwardSlash"; "ForwardSlash"; "Text"], nullptr);
   ("Text", ["Text"; "CommentCharacters"], nullptr);
   ("Text", ["CommentCharacters"], nullptr);
   ("Text", ["Text"; "Delimiters"], nullptr);
   ("Text", ["Delimiters"], nullptr);
   ("SchemaVar", ["WhitespaceStar"; "Identifier"; "Colon"; "Regex"], schema_var_rule);
   ("Identifier", ["Identifier"; "AlphaNumeric"], existing_identifier_rule);
   ("Identifier", ["AlphaNumeric"], new_identifier_rule);
   ("WhitespaceStar", ["WhitespaceStar"; "Space"], nullptr);
   ("WhitespaceStar", [], nullptr);
   ("Regex", ["Concat"], regex_identity_rule);
   ("Concat", ["Concat"; "Or"], regex_cat_rule);
   ("Concat", ["Or"], regex_identity_rule);
   ("Or", ["Or"; "Vbar"; "Literal"], regex_or_rule);
   ("Or", ["MatchStar"], regex_identity_rule);
   ("Or", ["MatchPlus"], regex_identity_rule);
   ("Or", ["MatchExact"], regex_identity_rule);
   ("Or", ["MatchRange"], regex_identity_rule);
   ("Or", ["CompleteGroup"], regex_identity_rule);
   ("MatchStar", ["CompleteGroup"; "Star"], regex_match_zero_or_more_rule);
   ("MatchPlus", ["CompleteGroup"; "Plus"], regex_match_one_or_more_rule);
   ("MatchExact", ["CompleteGroup"; "Lbrace"; "Integer"; "Rbrace"], regex_match_exactly_rule);
   ("MatchRange", ["CompleteGroup"; "Lbrace"; "Integer"; "Comma"; "Integer"; "Rbrace"], regex_match_range_rule);
   ("CompleteGroup", ["IncompleteGroup"; "Rbracket"], regex_identity_rule);
   ("CompleteGroup", ["Literal"], regex_identity_rule);
   ("CompleteGroup", ["Digit"], regex_identity_rule);
   ("CompleteGroup", ["Wildcard"], regex_identity_rule);
   ("CompleteGroup", ["WhiteSpace"], regex_identity_rule);
   ("IncompleteGroup", ["IncompleteGroup"; "LiteralRange"], regex_add_range_existing_group_rule);
   ("IncompleteGroup", ["IncompleteGroup"; "Digit"], regex_add_range_existing_group_rule);
   ("IncompleteGroup", ["IncompleteGroup"; "Literal"], regex_add_literal_existing_group_rule);
   ("IncompleteGroup", ["IncompleteGroup"; "WhiteSpace"], regex_add_literal_existing_group_rule);
   ("IncompleteGroup", ["Lbracket"; "LiteralRange"], regex_add_range_new_group_rule);
   ("IncompleteGroup", ["Lbracket"; "Digit"], regex_add_range_new_group_rule);
   ("IncompleteGroup", ["Lbracket"; "Literal"], regex_add_literal_new_group_rule);
   ("IncompleteGroup", ["Lbracket"; "WhiteSpace"], regex_add_literal_new_group_rule);
   ("IncompleteGroup", ["Lbracket"; "Hat"], regex_complement_incomplete_group_rule);
   ("LiteralRange", ["Literal"; "Dash"; "Literal"], regex_range_rule);
   ("Literal", ["Backslash"; "t"], regex_tab_rule);
   ("Literal", ["Backslash"; "n"], regex_newline_rule);
   ("Literal", ["Backslash"; "v"], regex_vertical_tab_rule);
   ("Literal", ["Backslash"; "f"], regex_form_feed_rule);
   ("Literal", ["Backslash"; "r"], regex_char_return_rule);
   ("Literal", ["Space"], regex_literal_rule);
   ("Literal", ["Bang"], regex_literal_rule);
   ("Literal", ["Quotation"], regex_literal_rule);
   ("Literal", ["Hash"], regex_literal_rule);
   ("Literal", ["DollarSign"], regex_literal_rule);
   ("Literal", ["Percent"], regex_literal_rule);
   ("Literal", ["Ampersand"], regex_literal_rule);
   ("Literal", ["Apostrophe"], regex_literal_rule);
   ("Literal", ["Backslash"; "Lparen"], regex_cancel_literal_rule);
   ("Literal", ["Backslash"; "Rparen"], regex_cancel_literal_rule);
   ("Literal", ["Backslash"; "Star"], regex_cancel_literal_rule);
   ("Literal", ["Backslash"; "Plus"], regex_cancel_literal_rule);
   ("Literal", ["Comma"], regex_literal_rule);
   ("Literal", ["Backslash"; "Dash"], regex_cancel_literal_rule);
   ("Literal", ["Backslash"; "Dot"], regex_cancel_literal_rule);
   ("Literal", ["ForwardSlash"], regex_literal_rule);
   ("Literal", ["AlphaNumeric"], regex_literal_rule);
   ("Literal", ["Colon"], regex_literal_rule);
   ("Literal", ["SemiColon"], regex_literal_rule);
   ("Literal", ["Equal"], regex_literal_rule);
   ("Literal", ["At"], regex_literal_rule);
   ("Literal", ["Backslash"; "Lbracket"], regex_cancel_literal_rule);
   ("Literal", ["Backslash"; "Backslash"], regex_cancel_literal_rule);
   ("Literal", ["Backslash"; "Rbracket"], regex_cancel_literal_rule);
   ("Literal", ["Backslash"; "Hat"], regex_cancel_literal_rule);
   ("Literal", ["Underscore"], regex_literal_rule);
   ("Literal", ["Backtick"], regex_literal_rule);
   ("Literal", ["Backslash"; "Lbrace"], regex_cancel_literal_rule);
   ("Literal", ["Backslash"; "Vbar"], regex_cancel_literal_rule);
   ("Literal", ["Backslash"; "Rbrace"], regex_cancel_literal_rule);
   ("Literal", ["Backslash"; "Langle"], regex_cancel_literal_rule);
   ("Literal", ["Backslash"; "Rangle"], regex_cancel_literal_rule);
   ("Literal", ["Backslash"; "QuestionMark"], regex_cancel_literal_rule);
   ("Literal", ["Tilde"], regex_literal_rule);
   ("Literal", ["Lparen"; "QuestionMark"; "Langle"; "Identifier"; "Rangle"; "Regex"; "Rparen"], regex_capture_rule);
   ("Literal", ["Lparen"; "Regex"; "Rparen"], regex_middle_identity_rule)]
  ++ map (fun sc => ("Literal", ["Backslash"; fst sc], regex_cancel_literal_rule)) special_chars ++
  [("Integer", ["Integer"; "Numeric"], regex_existing_integer_rule);
   ("Integer", ["Numeric"], regex_new_integer_rule);
   ("Digit", ["Backslash"; "d"], regex_digit_rule);
   ("Wildcard", ["Dot"], regex_wildcard_rule);
   ("WhiteSpace", ["Backslash"; "s"], regex_white_space_rule)].
Local Close Scope string_scope.

(** SchemaParser's constructor (SchemaParser.cpp 45-49) up to generate(). *)
Definition schema_builder : builder srule :=
  fold_left (fun b e => let '(h, bd, r) := e in add_production nullptr b h bd r) schema_productions
    (fold_left (fun b e => add_terminal b (fst e)) schema_tokens builder_init).
Definition schema_grammar : grammar := Eval vm_compute in b_grammar schema_builder.
Definition schema_rules : list srule := Eval vm_compute in map snd (b_prods schema_builder).
Definition schema_names : list (string * N) := Eval vm_compute in sy_id (b_sym schema_builder).

Lemma schema_grammar_built : b_grammar schema_builder = schema_grammar.
Proof. vm_compute. reflexivity. Qed.
Lemma schema_rules_built : map snd (b_prods schema_builder) = schema_rules.
Proof. vm_compute. reflexivity. Qed.
