(** SchemaModel.v -- executable model of how a LogParser is built from a schema AST: Parser's symbol tables
    (Parser.tpp), Lexer::add_delimiters / add_rule / generate (Lexer.tpp 344-389), LogParser::add_rules
    (LogParser.cpp 46-156) and the parts of RegexAST it calls. *)
From Verif Require Import Base LexerModel RegexModel DfaModel.
From Coq Require Import String.
Local Open Scope list_scope.

(** * Symbol tables

    m_symbol_id and m_id_symbol (Lexer.hpp 129-130; std::unordered_map), as association lists in insertion
    order. *)
Record symtab := mkSym {
  sy_id : list (string * N);
  sy_name : list (N * string)
}.
Fixpoint id_of (l : list (string * N)) (name : string) : option N :=
  match l with [] => None | (x, i) :: l' => if String.eqb x name then Some i else id_of l' name end.
Fixpoint name_of (l : list (N * string)) (i : N) : option string :=
  match l with [] => None | (x, s) :: l' => if x =? i then Some s else name_of l' i end.
(** m_id_symbol[i] = s. *)
Fixpoint set_name (l : list (N * string)) (i : N) (s : string) : list (N * string) :=
  match l with
  | [] => [(i, s)]
  | (x, s') :: l' => if x =? i then (i, s) :: l' else (x, s') :: set_name l' i s
  end.

(** Constants.hpp 41-48: the names of the reserved symbols. *)
Definition cTokenEnd : string := "$end".
Definition cTokenUncaughtString : string := "$UncaughtString".
Definition cTokenInt : string := "int".
Definition cTokenFloat : string := "float".
Definition cTokenHex : string := "hex".
Definition cTokenFirstTimestamp : string := "firstTimestamp".
Definition cTokenNewlineTimestamp : string := "newLineTimestamp".
Definition cTokenNewline : string := "newLine".

(** Parser.tpp 10-31: the constructor of Parser. *)
Definition symtab_init : symtab :=
  mkSym [(cTokenEnd, TokenEnd); (cTokenUncaughtString, TokenUncaughtString); (cTokenInt, TokenInt);
         (cTokenFloat, TokenFloat); (cTokenHex, TokenHex); (cTokenFirstTimestamp, TokenFirstTimestamp);
         (cTokenNewlineTimestamp, TokenNewlineTimestamp); (cTokenNewline, TokenNewline)]
        [(TokenEnd, cTokenEnd); (TokenUncaughtString, cTokenUncaughtString); (TokenInt, cTokenInt);
         (TokenFloat, cTokenFloat); (TokenHex, cTokenHex); (TokenFirstTimestamp, cTokenFirstTimestamp);
         (TokenNewlineTimestamp, cTokenNewlineTimestamp); (TokenNewline, cTokenNewline)].

(** Parser.tpp 34-44: add_rule. The size of the map is taken before the new entry is inserted (C++17:
    the right operand of an assignment is sequenced before the left one). [sym_add] is its effect on the
    symbol tables and the id it uses. *)
Definition sym_add (s : symtab) (name : string) : symtab * N :=
  match id_of (sy_id s) name with
  | Some i => (s, i)
  | None => let i := N.of_nat (List.length (sy_id s)) in
            (mkSym (sy_id s ++ [(name, i)]) (set_name (sy_name s) i name), i)
  end.

(** * Delimiters *)

(** Lexer.tpp 344-355: add_delimiters; m_is_delimiter has 256 entries, writing outside is UB. The assertion
    that the list is not empty is not modelled (the grammar never produces an empty one). *)
Definition delim_table (ds : list N) : N -> bool := fun b =>
  existsb (fun d => d =? b) ds || (b =? cCharStartOfFile).
Definition add_delimiters (ds : list N) : out (N -> bool) :=
  if forallb (fun d => d <? cSizeOfByte) ds then Ret (delim_table ds) else UB.
(** LogParser.cpp 47-49: every delimiters line in turn. *)
Fixpoint add_delimiter_lines (lines : list (list N)) (tbl : N -> bool) : out (N -> bool) :=
  match lines with
  | [] => Ret tbl
  | ds :: lines' => do tbl' <- add_delimiters ds; add_delimiter_lines lines' tbl'
  end.
(** LogParser.cpp 50-55. *)
Definition delims_of (tbl : N -> bool) : list N := filter tbl all_bytes.

(** * The pattern's preparation *)

(** RegexAST.hpp 369-382: the ranges of a wildcard once the (sorted) delimiters are removed. [prev] is
    delimiters[i - 1]. *)
Fixpoint wild_gaps (prev : N) (ds : list N) : list range :=
  match ds with
  | [] => if prev =? cUnicodeMax then [] else [(prev + 1, cUnicodeMax)]
  | d :: ds' => if 1 <? d - prev then (prev + 1, d - 1) :: wild_gaps d ds' else wild_gaps d ds'
  end.
Definition wild_ranges (ds : list N) : list range :=
  match ds with
  | [] => []
  | d :: ds' => if d =? 0 then wild_gaps d ds' else (0, d - 1) :: wild_gaps d ds'
  end.
(** RegexAST.hpp 175-178, 219-222, 266-269, 359-384 (Group), 466-469, 529-532, 594-596, 690-692:
    remove_delimiters_from_wildcard. The call's std::ranges::sort is the identity: LogParser passes the
    delimiters in increasing order. *)
Fixpoint strip_wild (ds : list N) (r : regex) : regex :=
  match r with
  | REmpty | RLit _ | RInt _ => r
  | RGroup w neg rs => if negb w then r else match ds with [] => r | _ => RGroup w neg (wild_ranges ds) end
  | ROr l r => ROr (strip_wild ds l) (strip_wild ds r)
  | RCat l r => RCat (strip_wild ds l) (strip_wild ds r)
  | RMult r mn mx => RMult (strip_wild ds r) mn mx
  | RCapture r t => RCapture (strip_wild ds r) t
  end.

(** RegexAST.hpp 330-351: the loops over m_ranges. *)
Definition in_rangesb (rs : list range) (b : N) : bool := existsb (fun r => (fst r <=? b) && (b <=? snd r)) rs.
(** RegexAST.hpp 168-172, 208-211, 253-258, 329-352 (Group), 455-459, 518-522, 583-586, 680-683:
    set_possible_inputs_to_true; [possible r b] is is_possible_input[b] afterwards. Simplification: ranges
    are within Unicode (std::array::at would throw). *)
Fixpoint possible (r : regex) (b : N) : bool :=
  match r with
  | REmpty => false
  | RLit c => c =? b
  | RInt ds => existsb (fun d => 48 + d =? b) ds
  | RGroup _ neg rs => if neg then negb (in_rangesb rs b) else in_rangesb rs b
  | ROr l r | RCat l r => possible l b || possible r b
  | RMult r _ _ | RCapture r _ => possible r b
  end.

(** RegexAST.hpp 1008-1014: RegexASTGroup(vector of literals). *)
Definition group_of (ds : list N) : regex := RGroup false false (map (fun d => (d, d)) ds).

(** * LogParser *)

(** The AST of a schema (SchemaParser.hpp 14-36, 48-75): the delimiters lines and the variables in file
    order. Simplification: line numbers and the file path (used in error texts) are dropped. *)
Record schema := mkSchema {
  sc_delims : list (list N);
  sc_vars : list (string * regex)
}.
Definition cTimestamp : string := "timestamp".

(** LogParser.cpp 61-155: the loop over the schema's variables. [Throw] is the runtime_error for a pattern
    that can match a delimiter. *)
Fixpoint add_vars (ds : list N) (vars : list (string * regex)) (s : symtab) (rules : list (N * regex))
  : out (symtab * list (N * regex)) :=
  match vars with
  | [] => Ret (s, rules)
  | (name, r) :: vars' =>
    if String.eqb name cTimestamp then
      let (s1, i1) := sym_add s cTokenFirstTimestamp in
      let (s2, i2) := sym_add s1 cTokenNewlineTimestamp in
      add_vars ds vars' s2 (rules ++ [(i1, RCat (RLit cCharStartOfFile) r); (i2, RCat (RLit cNewline) r)])
    else
      let r' := strip_wild ds r in
      if existsb (possible r') ds then Throw
      else let (s1, i) := sym_add s name in
           add_vars ds vars' s1 (rules ++ [(i, RCat (group_of ds) r')])
  end.

(** What LogParser::add_rules leaves in the lexer. *)
(** Lexer.hpp 131-159, Parser.hpp: m_is_delimiter, the symbol tables and m_rules. *)
Record prepared := mkPrep {
  pr_delim : N -> bool;
  pr_sym : symtab;
  pr_rules : list (N * regex)
}.
(** LogParser.cpp 46-156: add_rules. *)
Definition prepare (sc : schema) : out prepared :=
  do tbl <- add_delimiter_lines (sc_delims sc) (fun _ => false);
  match delims_of tbl with
  | [] => Throw
  | ds => let (s0, i0) := sym_add symtab_init cTokenNewline in
          do (s, rules) <- add_vars ds (sc_vars sc) s0 [(i0, RLit cNewline)];
          Ret (mkPrep tbl s rules)
  end.

(** A constructed LogParser: the generated lexer and the symbol tables. *)
(** LogParser.hpp 164-167 and the lexer of its base class Parser (Parser.hpp). *)
Record logparser := mkLogparser { lg_cfg : lexcfg; lg_sym : symtab }.
(** LogParser.cpp 33-37 with Lexer.tpp 375-389 (generate). [fuel] bounds the construction of the DFA, [addr]
    is the memory layout. m_has_delimiters is true as soon as one delimiters line was added. *)
Definition make_parser (fuel : nat) (addr : nat -> N) (sc : schema) : out logparser :=
  do p <- prepare sc;
  do A <- nfa_of_rules (pr_rules p);
  do f <- nfa_to_dfa fuel addr A;
  Ret (mkLogparser (mkCfg (dfa_of f) (pr_delim p) true) (pr_sym p)).
(** LogEvent.cpp 14: m_id_symbol.size(). *)
Definition lg_nsym (g : logparser) : N := N.of_nat (List.length (sy_name (lg_sym g))).
(** LogParser.hpp 65: get_id_symbol (None: it throws); LogParser.cpp 283-287: get_symbol_id. *)
Definition get_id_symbol (g : logparser) (i : N) : option string := name_of (sy_name (lg_sym g)) i.
Definition get_symbol_id (g : logparser) (name : string) : option N := id_of (sy_id (lg_sym g)) name.
