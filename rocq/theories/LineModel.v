(** LineModel.v -- the line numbers of a schema's variables (SchemaVarAST::m_line_num), and the error messages of LogParser::add_rules
    (LogParser.cpp 46-156). *)
From Verif Require Import Base OrdSet LexerModel LogParserModel RingModel RegexModel DfaModel GrammarSpec FirstModel LrModel LrTable ParseSpec LrDriver SchemaModel SchemaActions SchemaGrammar
  SchemaTable SchemaRules SchemaSyntax SchemaLexer SchemaSplit SchemaReport SerializeModel PropertiesSchemaText.
From Coq Require Import String Ascii.
Local Open Scope list_scope.
Local Open Scope N_scope.

(** A ParserAST with the line numbers (SchemaParser.hpp 44-61: m_line_num) of the SchemaVarASTs in it, in the order of m_schema_vars: one for a
    SchemaVarAST, one per variable for a SchemaAST, none for the others. *)
Definition lval : Type := sval * list N.
Notation lchild := (value ltok lval).
(** LALR1Parser.hpp 78-100: what the semantic rules of SchemaRules.v see of a child. *)
Definition unlined (v : lchild) : child :=
  match v with VTok x => VTok (fst x) | VNt p None => VNt p None | VNt p (Some a) => VNt p (Some (fst a)) end.
(** The line numbers that come with child [i]; Token::m_line of a token (Token.hpp 42). *)
Definition lines_at (vs : list lchild) (i : nat) : list N := match nth_error vs i with Some (VNt _ (Some a)) => snd a | _ => [] end.
Definition line_at (vs : list lchild) (i : nat) : list N := match nth_error vs i with Some (VTok x) => [snd x] | _ => [] end.
(** The line numbers of the new ParserAST. SchemaParser.cpp 120-125 (schema_var_rule: the line of the colon), 131-136, 145-151, 153-163, 174-178
    (SchemaParser.hpp 21-27: add_schema_var with pos = -1 appends). *)
Definition rule_lines (k : srule) (vs : list lchild) : list N :=
  match k with
  | schema_var_rule => line_at vs 2
  | new_schema_rule_with_var => lines_at vs 0
  | existing_schema_rule => lines_at vs 0 ++ lines_at vs 2
  | existing_schema_rule_with_delimiter => lines_at vs 0
  | identity_rule_ParserASTSchema => lines_at vs 0
  | _ => []
  end.
(** SchemaParser.cpp 484-639 with the line numbers. *)
Definition lined_rule (p : N) : option (list lchild -> out lval) :=
  match schema_rule p with
  | None => None
  | Some f => Some (fun vs => do a <- f (map unlined vs);
                              Ret (a, match nth_error schema_rules (N.to_nat p) with Some k => rule_lines k vs | None => [] end))
  end.

(** A SchemaAST as LogParser::add_rules reads it (SchemaParser.hpp 12-32, 44-61): the delimiters lines, and every variable's name, pattern and line
    number. m_file_path is a parameter of add_rules below. *)
Record lschema := mkLschema { ls_delims : list (list N); ls_vars : list (list N * regex * N) }.
Fixpoint with_lines (vars : list (list N * regex)) (ls : list N) : list (list N * regex * N) :=
  match vars, ls with v :: vars', k :: ls' => (v, k) :: with_lines vars' ls' | _, _ => [] end.
(** SchemaParser.cpp 51-57, 86-101: try_schema_string, as in PropertiesSchemaText.v, with the line numbers. *)
Definition lined_schema_string (dfuel calls fuel pfuel : nat) (addr : nat -> N) (cons : nat -> N) (b : ibuf) (alloc : N) (s : list N)
  : out (option lschema * N) :=
  do c <- schema_lexer dfuel addr;
  do (t, root) <- generate sfuel scfuel schema_grammar;
  do (ls, eline) <- schema_lines calls fuel c cons s b;
  do (v, al) <- parse (fun x : ltok => lexer_types c (fst x)) (SEof, eline) lined_rule schema_resets cSizeOfAllChildren schema_grammar t pfuel root (tagged ls) alloc;
  match v with
  | VNt _ (Some (VSchema vars delims, lines)) => Ret (Some (mkLschema delims (with_lines vars lines)), al)
  | _ => Ret (None, al)
  end.

(** ** LogParser::add_rules with its messages. *)
(** A string literal as the list of its bytes. *)
Definition text (s : string) : list N := map N_of_ascii (list_ascii_of_string s).
(** LogParser.cpp 58-60. *)
Definition no_delimiters_message : list N := text "When using --schema-path, ""delimiters:"" line must be used.".
(** FileReader::try_read_to_delimiter with '\n', keep_delimiter = false and append = false (FileReader.cpp 60-80): the line read, and the rest of the
    file; at the end of the file the string is only cleared. Simplification: reading does not fail. *)
Fixpoint read_line (f : list N) : list N * list N :=
  match f with
  | [] => ([], [])
  | b :: f' => if b =? 10 then ([], f') else let (l, r) := read_line f' in (b :: l, r)
  end.
(** LogParser.cpp 121-124: [n] lines are read before the one that stays. *)
Fixpoint last_read (n : nat) (f : list N) : list N :=
  match n with O => fst (read_line f) | S n' => last_read n' (snd (read_line f)) end.
(** LogParser.cpp 125-131. *)
Fixpoint colon_pos (l : list N) : nat :=
  match l with [] => O | b :: l' => if b =? 58 then 1%nat else S (colon_pos l') end.
(** LogParser.cpp 132-142: what follows the first line of the message. *)
Definition quoted (l : list N) : list N :=
  let indent := repeat 32 10 in
  indent ++ l ++ [10] ++ indent ++ repeat 32 (colon_pos l) ++ repeat 94 (List.length l - colon_pos l) ++ [10].
Section Messages.
(** m_file_path (nothing in the library assigns it: it is empty unless the user sets it), and the bytes of the file that opens under that name (None:
    opening fails, as it does for the empty name). *)
Variables (path : list N) (file : option (list N)).
(** LogParser.cpp 109-142. char(delimiter_name): one byte. *)
Definition delimiter_message (line : N) (name : list N) (d : N) : list N :=
  path ++ text ":" ++ dec (line + 1) ++ text ": error: '" ++ name ++ text "' has regex pattern which contains delimiter '" ++ [d] ++ text "'." ++ [10] ++
  match file with None => [] | Some content => quoted (last_read (N.to_nat line) content) end.
(** LogParser.cpp 61-155: the loop over the variables; [inr]: the text of the runtime_error thrown. *)
Fixpoint add_lined_vars (ds : list N) (vars : list (list N * regex * N)) (s : symtab) (rules : list (N * regex))
  : (symtab * list (N * regex)) + list N :=
  match vars with
  | [] => inl (s, rules)
  | (name, r, line) :: vars' =>
    if String.eqb (string_of name) cTimestamp then
      let (s1, i1) := sym_add s cTokenFirstTimestamp in
      let (s2, i2) := sym_add s1 cTokenNewlineTimestamp in
      add_lined_vars ds vars' s2 (rules ++ [(i1, RCat (RLit cCharStartOfFile) r); (i2, RCat (RLit cNewline) r)])
    else
      let r' := strip_wild ds r in
      match find (possible r') ds with
      | Some d => inr (delimiter_message line name d)
      | None => let (s1, i) := sym_add s (string_of name) in
                add_lined_vars ds vars' s1 (rules ++ [(i, RCat (group_of ds) r')])
      end
  end.
(** LogParser.cpp 54-155: what follows the delimiters lines; [tbl] is m_is_delimiter, [ds] the delimiters collected from it (50-55). *)
Definition lined_rules_from (tbl : N -> bool) (ds : list N) (lvs : list (list N * regex * N)) : out (prepared + list N) :=
  match ds with
  | [] => Ret (inr no_delimiters_message)
  | _ => let (s0, i0) := sym_add symtab_init cTokenNewline in
         match add_lined_vars ds lvs s0 [(i0, RLit cNewline)] with
         | inl (s, rules) => Ret (inl (mkPrep tbl s rules))
         | inr m => Ret (inr m)
         end
  end.
(** LogParser.cpp 46-156: add_rules. *)
Definition add_lined_rules (sc : lschema) : out (prepared + list N) :=
  do tbl <- add_delimiter_lines (ls_delims sc) (fun _ => false); lined_rules_from tbl (delims_of tbl) (ls_vars sc).
End Messages.
(** The schema without line numbers, as SchemaModel.v has it. *)
Definition unlined_schema (sc : lschema) : schema := schema_of (map fst (ls_vars sc)) (ls_delims sc).
