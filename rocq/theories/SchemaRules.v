(** SchemaRules.v -- the semantic rules of SchemaParser (SchemaParser.cpp 107-416) on the children of a
    NonTerminal. *)
From Verif Require Import Base GrammarSpec ParseSpec RegexModel SchemaModel SchemaActions SchemaGrammar SchemaTable.
From Coq Require Import String Ascii.
Local Open Scope list_scope.
Local Open Scope N_scope.

(** The classes derived from ParserAST (SchemaParser.hpp 12-70; LALR1Parser.hpp 48-54 for ParserValueRegex).
    Simplifications: m_line_num and m_file_path, which only occur in error messages, are dropped. *)
Inductive sval : Type :=
| VIdent (name : list N)
| VVar (name : list N) (r : regex)
| VSchema (vars : list (list N * regex)) (delims : list (list N))
| VDelims (ds : list N)
| VRegex (r : regex).
Notation child := (value stok sval).

(** LALR1Parser.hpp 85-100: token_cast and non_terminal_cast: get_if of the wrong alternative is null, and
    every rule dereferences it; get_parser_ast()->get<> static_casts, dynamic_cast is dereferenced
    unchecked unless noted: all undefined for a null pointer or another class. *)
Definition tok_at (vs : list child) (i : nat) : out (list N) :=
  match nth_error vs i with Some (VTok (STok w)) => Ret w | _ => UB end.
Definition ast_at (vs : list child) (i : nat) : out sval :=
  match nth_error vs i with Some (VNt _ (Some a)) => Ret a | _ => UB end.
Definition regex_at (vs : list child) (i : nat) : out regex :=
  do a <- ast_at vs i; match a with VRegex r => Ret r | _ => UB end.
Definition ident_at (vs : list child) (i : nat) : out (list N) :=
  do a <- ast_at vs i; match a with VIdent n => Ret n | _ => UB end.
Definition schema_at (vs : list child) (i : nat) : out (list (list N * regex) * list (list N)) :=
  do a <- ast_at vs i; match a with VSchema v d => Ret (v, d) | _ => UB end.
Definition delims_at (vs : list child) (i : nat) : out (list N) :=
  do a <- ast_at vs i; match a with VDelims d => Ret d | _ => UB end.
(** token->to_string()[0]: for an empty text this is the terminating zero; char is converted to uint32_t
    (the texts concerned are single ASCII characters). *)
(** E.g. SchemaParser.cpp 107-118. *)
Definition char_at (vs : list child) (i : nat) : out N :=
  do w <- tok_at vs i; Ret (match w with b :: _ => b | [] => 0 end).
(** dynamic_cast<RegexASTIntegerByte*>. *)
(** SchemaParser.cpp 219-221, 232-235. *)
Definition int_at (vs : list child) (i : nat) : out (list N) :=
  do r <- regex_at vs i; match r with RInt ds => Ret ds | _ => UB end.
(** A Tag is its name (Tag.hpp): a number that encodes it. Simplification: two capture groups of the same
    name share their tag. *)
Fixpoint tag_of (name : list N) : tag := match name with [] => 1 | b :: r => b + 256 * tag_of r end.

(** RegexAST.hpp 954-1005: the constructors of RegexASTGroup. A null pointer to a RegexASTLiteral throws, a
    null pointer to a group or an empty m_ranges is undefined. The assertions on ranges are not compiled
    into release builds. *)
Definition group_lit (neg : bool) (rs : list range) (r : regex) : out sval :=
  match r with RLit c => Ret (VRegex (RGroup false neg (rs ++ [(c, c)]))) | _ => Throw end.
Definition group_range (neg : bool) (rs : list range) (r : regex) : out sval :=
  match r with RGroup _ _ (x :: _) => Ret (VRegex (RGroup false neg (rs ++ [x]))) | _ => UB end.
Definition group_at (vs : list child) (i : nat) : out (bool * list range) :=
  do r <- regex_at vs i; match r with RGroup _ neg rs => Ret (neg, rs) | _ => UB end.

(** SchemaParser.cpp 395-402: regex_white_space_rule. *)
Definition cWhitespace : list N := [32; 9; 13; 10; 11; 12].

(** SchemaParser.cpp 107-417; each case cites its lines. *)
Definition act (k : srule) (vs : list child) : out sval :=
  match k with
  | nullptr => UB
  (* 107-110 *)
  | new_identifier_rule => do c <- char_at vs 0; Ret (VIdent [c])
  (* 112-118 *)
  | existing_identifier_rule => do n <- ident_at vs 0; do c <- char_at vs 1; Ret (VIdent (n ++ [c]))
  (* 120-125 *)
  | schema_var_rule => do n <- ident_at vs 1; do _ <- tok_at vs 2; do r <- regex_at vs 3; Ret (VVar n r)
  (* 127-129 *)
  | new_schema_rule => Ret (VSchema [] [])
  (* 131-136; the variables and delimiters of a SchemaAST are cast when a LogParser is built from it *)
  | new_schema_rule_with_var =>
      do a <- ast_at vs 0; match a with VVar n r => Ret (VSchema [(n, r)] []) | _ => UB end
  (* 138-143 *)
  | new_schema_rule_with_delimiters => do d <- delims_at vs 2; Ret (VSchema [] [d])
  (* 145-151 *)
  | existing_schema_rule_with_delimiter =>
      do (v, ds) <- schema_at vs 0; do d <- delims_at vs 4; Ret (VSchema v (ds ++ [d]))
  (* 153-163; the reset of m_next_children_start is part of the driver *)
  | existing_schema_rule =>
      do (v, ds) <- schema_at vs 0;
      do a <- ast_at vs 2; match a with VVar n r => Ret (VSchema (v ++ [(n, r)]) ds) | _ => UB end
  (* 165-172 *)
  | regex_capture_rule => do n <- ident_at vs 3; do r <- regex_at vs 5; Ret (VRegex (RCapture r (tag_of n)))
  (* 174-178 *)
  | identity_rule_ParserASTSchema => do (v, ds) <- schema_at vs 0; Ret (VSchema v ds)
  (* 180-184 *)
  | regex_identity_rule => do r <- regex_at vs 0; Ret (VRegex r)
  (* 186-192 *)
  | regex_cat_rule => do r1 <- regex_at vs 0; do r2 <- regex_at vs 1; Ret (VRegex (RCat r1 r2))
  (* 194-200 *)
  | regex_or_rule => do r1 <- regex_at vs 0; do r2 <- regex_at vs 2; Ret (VRegex (ROr r1 r2))
  (* 202-217 *)
  | regex_match_zero_or_more_rule => do r <- regex_at vs 0; Ret (VRegex (act_zero_or_more r))
  | regex_match_one_or_more_rule => do r <- regex_at vs 0; Ret (VRegex (act_one_or_more r))
  (* 219-231 *)
  | regex_match_exactly_rule =>
      do ds <- int_at vs 2; do r <- regex_at vs 0; do x <- act_exactly r ds; Ret (VRegex x)
  (* 233-261 *)
  | regex_match_range_rule =>
      do ds <- int_at vs 2; do es <- int_at vs 4; do r <- regex_at vs 0; do x <- act_range r ds es; Ret (VRegex x)
  (* 263-281 *)
  | regex_add_literal_existing_group_rule =>
      do (neg, rs) <- group_at vs 0; do r <- regex_at vs 1; group_lit neg rs r
  | regex_add_range_existing_group_rule =>
      do (neg, rs) <- group_at vs 0; do r <- regex_at vs 1; group_range neg rs r
  (* 283-297 *)
  | regex_add_literal_new_group_rule => do r <- regex_at vs 1; group_lit false [] r
  | regex_add_range_new_group_rule => do r <- regex_at vs 1; group_range false [] r
  (* 299-301 and RegexAST.hpp 296: the default group is negated and has no ranges *)
  | regex_complement_incomplete_group_rule => Ret (VRegex (RGroup false true []))
  (* 303-311 *)
  | regex_range_rule =>
      do r1 <- regex_at vs 0; do r2 <- regex_at vs 2;
      match r1, r2 with
      | RLit a, RLit b => Ret (VRegex (RGroup false false [(a, b)]))
      | _, _ => Throw
      end
  (* 313-317 *)
  | regex_middle_identity_rule => do r <- regex_at vs 1; Ret (VRegex r)
  (* 319-333 *)
  | regex_literal_rule => do c <- char_at vs 0; Ret (VRegex (RLit c))
  | regex_cancel_literal_rule => do c <- char_at vs 1; Ret (VRegex (RLit c))
  (* 335-351 *)
  | regex_existing_integer_rule =>
      do ds <- int_at vs 0; do c <- char_at vs 1; Ret (VRegex (RInt (ds ++ [c - 48])))
  | regex_new_integer_rule => do c <- char_at vs 0; Ret (VRegex (RInt [c - 48]))
  (* 353-363 *)
  | regex_digit_rule => Ret (VRegex (RGroup false false [(48, 57)]))
  | regex_wildcard_rule => Ret (VRegex (RGroup true false [(0, cUnicodeMax)]))
  (* 365-393 *)
  | regex_vertical_tab_rule => Ret (VRegex (RLit 11))
  | regex_form_feed_rule => Ret (VRegex (RLit 12))
  | regex_tab_rule => Ret (VRegex (RLit 9))
  | regex_char_return_rule => Ret (VRegex (RLit 13))
  | regex_newline_rule => Ret (VRegex (RLit 10))
  (* 395-402 *)
  | regex_white_space_rule => Ret (VRegex (group_of cWhitespace))
  (* 404-411: the dynamic_cast to RegexASTLiteral is dereferenced unchecked *)
  | existing_delimiter_string_rule =>
      do d <- delims_at vs 0; do r <- regex_at vs 1;
      match r with RLit c => Ret (VDelims (d ++ [c])) | _ => UB end
  (* 413-417 *)
  | new_delimiter_string_rule => do r <- regex_at vs 0; match r with RLit c => Ret (VDelims [c]) | _ => UB end
  end.

(** The rules as add_productions registers them; existing_schema_rule is the one that resets the static
    counter. *)
(** SchemaParser.cpp 484-639: add_productions. *)
Definition schema_rule (p : N) : option (list child -> out sval) :=
  match nth_error schema_rules (N.to_nat p) with
  | Some nullptr | None => None
  | Some k => Some (act k)
  end.
(** SchemaParser.cpp 153-163: existing_schema_rule. *)
Definition schema_resets (p : N) : bool :=
  match nth_error schema_rules (N.to_nat p) with Some existing_schema_rule => true | _ => false end.

(** The AST that LogParser works on: names as strings. *)
(** A std::string as the list of its bytes (SchemaParser.hpp 41, 59: m_name). *)
Definition string_of (w : list N) : string := string_of_list_ascii (map ascii_of_N w).
(** SchemaParser.hpp 12-32: SchemaAST, as LogParser.cpp 46-156 reads it. *)
Definition schema_of (vars : list (list N * regex)) (delims : list (list N)) : schema :=
  mkSchema delims (map (fun v => (string_of (fst v), snd v)) vars).
