(** SchemaSpec.v -- what a schema means: the words of its variables. *)
From Verif Require Import Base LexerModel LexerSpec RegexModel RegexSpec RegexLang SchemaModel.
From Coq Require Import String.
Local Open Scope list_scope.

(** The documented meaning of a variable's pattern: as [matches], but '.' stands for any byte that is not a
    delimiter. *)
Fixpoint var_matches (delim : N -> bool) (r : regex) : lang N :=
  match r with
  | REmpty => l_eps
  | RLit c => fun w => w = [c] /\ c < cSizeOfByte
  | RInt _ => l_empty
  | RGroup true _ _ => fun w => exists b, w = [b] /\ b < cSizeOfByte /\ delim b = false
  | RGroup false neg rs => fun w => exists b, w = [b] /\ b < cSizeOfByte /\ group_has neg rs b
  | ROr l r => l_or (var_matches delim l) (var_matches delim r)
  | RCat l r => l_cat (var_matches delim l) (var_matches delim r)
  | RMult r mn mx => l_rep (var_matches delim r) mn mx
  | RCapture r _ => var_matches delim r
  end.
(** '.' is not negated (the grammar has no way to write that, SchemaParser.cpp 266-270). *)
Fixpoint wild_plain (r : regex) : Prop :=
  match r with
  | REmpty | RLit _ | RInt _ => True
  | RGroup w neg _ => w = true -> neg = false
  | ROr l r | RCat l r => wild_plain l /\ wild_plain r
  | RMult r _ _ | RCapture r _ => wild_plain r
  end.

(** Byte [b] can be read somewhere in the pattern, whether or not that part can take part in a match. *)
Fixpoint mentions (delim : N -> bool) (r : regex) (b : N) : Prop :=
  match r with
  | REmpty => False
  | RLit c => b = c
  | RInt ds => exists d, In d ds /\ b = 48 + d
  | RGroup true neg _ => if neg then delim b = true else delim b = false
  | RGroup false neg rs => group_has neg rs b
  | ROr l r | RCat l r => mentions delim l b \/ mentions delim r b
  | RMult r _ _ | RCapture r _ => mentions delim r b
  end.
(** Some variable other than timestamp mentions a delimiter: one of the last delimiters line, or 0xFD. *)
Definition mentions_delimiter (sc : schema) : Prop :=
  exists front lst name r b, sc_delims sc = front ++ [lst] /\ In (name, r) (sc_vars sc) /\ name <> cTimestamp /\
    (In b lst \/ b = 253) /\ mentions (fun x => existsb (N.eqb x) lst || (x =? 253)) r b.

(** [schema_word sc delim ids i w]: the byte string [w] is a word of the rule(s) with id [i]: the newline; the
    start of file or a newline, followed by a timestamp; or a delimiter followed by a match of a variable.
    [R*] is read as [R+] (see C07). *)
Inductive schema_word (sc : schema) (delim : N -> bool) (id : string -> option N) : N -> list N -> Prop :=
| sw_newline : schema_word sc delim id TokenNewline [cNewline]
| sw_first : forall r v, In (cTimestamp, r) (sc_vars sc) -> matches (star_as_plus r) v ->
    schema_word sc delim id TokenFirstTimestamp (cCharStartOfFile :: v)
| sw_newline_ts : forall r v, In (cTimestamp, r) (sc_vars sc) -> matches (star_as_plus r) v ->
    schema_word sc delim id TokenNewlineTimestamp (cNewline :: v)
| sw_var : forall name r i d v, In (name, r) (sc_vars sc) -> name <> cTimestamp -> id name = Some i ->
    delim d = true -> var_matches delim (star_as_plus r) v -> schema_word sc delim id i (d :: v).

(** Every pattern of the schema is one on which the automaton construction is faithful (see C07). *)
Definition faithful_schema (sc : schema) : Prop :=
  forall name r, In (name, r) (sc_vars sc) -> faithful (star_as_plus r) /\ wild_plain r.
