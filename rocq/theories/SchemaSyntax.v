(** SchemaSyntax.v -- the schema language: which sequences of tokens are schemas, and what they mean
    (specification of C50; independent of the grammar, the tables and the semantic rules). A token is its text: one byte, or
    the keyword "delimiters". The letters below: ASCII codes in the comments. *)
From Verif Require Import Base RegexModel SchemaModel SchemaActions SchemaRules.
Local Open Scope N_scope.

Definition toks : Type := list (list N).
(** The tokens of a text without the keyword. *)
Definition chars (w : list N) : toks := map (fun b => [b]) w.
Definition keyword : list N := [100; 101; 108; 105; 109; 105; 116; 101; 114; 115].

Definition digit (b : N) : Prop := 48 <= b <= 57.
Definition alnum (b : N) : Prop := digit b \/ 65 <= b <= 90 \/ 97 <= b <= 122.
(** Characters that stand for themselves: letters, digits, the space, the exclamation mark, both quotation
    marks, the backtick, and # $ % & , / : ; = @ _ ~ *)
Definition plain (b : N) : Prop :=
  alnum b \/ In b [32; 33; 34; 35; 36; 37; 38; 39; 44; 47; 58; 59; 61; 64; 95; 96; 126].
(** Characters that stand for themselves after a backslash: ( ) * + - . [ ] \ ^ { } | < > ? *)
Definition special (b : N) : Prop := In b [40; 41; 42; 43; 45; 46; 91; 93; 92; 94; 123; 125; 124; 60; 62; 63].
(** \t \n \v \f \r *)
Definition control (l b : N) : Prop := In (l, b) [(116, 9); (110, 10); (118, 11); (102, 12); (114, 13)].

Definition name (w : toks) (n : list N) : Prop := n <> [] /\ Forall alnum n /\ w = chars n.
(** A repetition count: its digits' value as rep_count computes it (C34). *)
Definition count (w : toks) (k : N) : Prop :=
  exists ds, ds <> [] /\ Forall digit ds /\ w = chars ds /\ rep_count (digits_of ds) = Ret k.

(** Patterns. [literal]: one character, or a parenthesised pattern; [prim]: what a repetition applies to;
    [alt]: alternatives -- the operands of | are single literals, except the first; [pattern]: a
    concatenation. *)
Inductive literal : toks -> regex -> Prop :=
| lit_plain : forall b, plain b -> literal [[b]] (RLit b)
| lit_escaped : forall b, special b -> literal [[92]; [b]] (RLit b)
| lit_control : forall l b, control l b -> literal [[92]; [l]] (RLit b)
| lit_parens : forall w r, pattern w r -> literal ([40] :: w ++ [[41]]) r
| lit_capture : forall wn n w r, name wn n -> pattern w r ->
    literal ([40] :: [63] :: [60] :: wn ++ [62] :: w ++ [[41]]) (RCapture r (tag_of n))
with pattern : toks -> regex -> Prop :=
| pat_one : forall w r, alt w r -> pattern w r
| pat_cat : forall w1 r1 w2 r2, pattern w1 r1 -> alt w2 r2 -> pattern (w1 ++ w2) (RCat r1 r2)
with alt : toks -> regex -> Prop :=
| alt_one : forall w r, repeated w r -> alt w r
| alt_or : forall w1 r1 w2 r2, alt w1 r1 -> literal w2 r2 -> alt (w1 ++ [124] :: w2) (ROr r1 r2)
with repeated : toks -> regex -> Prop :=
| rep_once : forall w r, prim w r -> repeated w r
| rep_star : forall w r, prim w r -> repeated (w ++ [[42]]) (ROr REmpty (RMult r 1 0))
| rep_plus : forall w r, prim w r -> repeated (w ++ [[43]]) (RMult r 1 0)
| rep_exactly : forall w r wk k, prim w r -> count wk k -> repeated (w ++ [123] :: wk ++ [[125]]) (RMult r k k)
| rep_between : forall w r wk k wm m, prim w r -> count wk k -> count wm m ->
    repeated (w ++ [123] :: wk ++ [44] :: wm ++ [[125]])
             (if k =? 0 then ROr REmpty (RMult r 1 m) else RMult r k m)
with prim : toks -> regex -> Prop :=
| prim_literal : forall w r, literal w r -> prim w r
| prim_digit : prim [[92]; [100]] (RGroup false false [(48, 57)])
| prim_any : prim [[46]] (RGroup true false [(0, cUnicodeMax)])
| prim_space : prim [[92]; [115]] (group_of [32; 9; 13; 10; 11; 12])
| prim_group : forall w neg rs, bracket w neg rs -> prim (w ++ [[93]]) (RGroup false neg rs)
(** A bracket expression without its closing bracket; its literals must mean single characters. *)
with bracket : toks -> bool -> list (N * N) -> Prop :=
| br_negated : bracket [[91]; [94]] true []
| br_first : forall w x, element w x -> bracket ([91] :: w) false [x]
| br_next : forall w1 neg rs w2 x, bracket w1 neg rs -> element w2 x -> bracket (w1 ++ w2) neg (rs ++ [x])
with element : toks -> N * N -> Prop :=
| el_char : forall w c, literal w (RLit c) -> element w (c, c)
| el_range : forall w1 a w2 b, literal w1 (RLit a) -> literal w2 (RLit b) -> element (w1 ++ [45] :: w2) (a, b)
| el_digit : element [[92]; [100]] (48, 57).

Scheme literal_m := Minimality for literal Sort Prop
  with pattern_m := Minimality for pattern Sort Prop
  with alt_m := Minimality for alt Sort Prop
  with repeated_m := Minimality for repeated Sort Prop
  with prim_m := Minimality for prim Sort Prop
  with bracket_m := Minimality for bracket Sort Prop
  with element_m := Minimality for element Sort Prop.
Combined Scheme syntax_ind from literal_m, pattern_m, alt_m, repeated_m, prim_m, bracket_m, element_m.

(** Lines. A comment is // and at least one more character that is not a line break; the characters after
    "delimiters:" are literals that mean single characters. *)
Definition comment_text (w : toks) : Prop :=
  w <> [] /\ Forall (fun t => t = keyword \/ exists b, t = [b] /\ b < 256 /\ b <> 10 /\ b <> 13) w.
Inductive delimiters : toks -> list N -> Prop :=
| del_one : forall w c, literal w (RLit c) -> delimiters w [c]
| del_more : forall w1 ds w2 c, delimiters w1 ds -> literal w2 (RLit c) -> delimiters (w1 ++ w2) (ds ++ [c]).
Inductive variable : toks -> list N -> regex -> Prop :=
| var_line : forall k wn n w r, name wn n -> pattern w r ->
    variable (repeat [32] k ++ wn ++ [58] :: w) n r.
Definition line_break (w : toks) : Prop := w = [[10]] \/ w = [[13]; [10]].

(** A schema: its variables and its delimiters lines, in order. Only the first line may not be empty. *)
Inductive schema_text : toks -> list (list N * regex) -> list (list N) -> Prop :=
| sch_comment : forall w, comment_text w -> schema_text ([47] :: [47] :: w) [] []
| sch_variable : forall w n r, variable w n r -> schema_text w [(n, r)] []
| sch_delimiters : forall w d, delimiters w d -> schema_text (keyword :: [58] :: w) [] [d]
| sch_empty_line : forall w vs ds b, schema_text w vs ds -> line_break b -> schema_text (w ++ b) vs ds
| sch_more_comment : forall w vs ds b c, schema_text w vs ds -> line_break b -> comment_text c ->
    schema_text (w ++ b ++ [47] :: [47] :: c) vs ds
| sch_more_variable : forall w vs ds b v n r, schema_text w vs ds -> line_break b -> variable v n r ->
    schema_text (w ++ b ++ v) (vs ++ [(n, r)]) ds
| sch_more_delimiters : forall w vs ds b d cs, schema_text w vs ds -> line_break b -> delimiters d cs ->
    schema_text (w ++ b ++ keyword :: [58] :: d) vs (ds ++ [cs]).
