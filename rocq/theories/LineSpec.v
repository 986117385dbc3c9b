(** LineSpec.v -- which line a variable of a schema is on, and the texts of the messages (specification of C68). *)
From Verif Require Import Base RegexModel SchemaModel SchemaActions SchemaRules SchemaSyntax SchemaSplit.
From Coq Require Import String Ascii.
Local Open Scope list_scope.
Local Open Scope N_scope.
(** What each variable's line number is. As schema_text (SchemaSyntax.v), and the line number of a variable is the number of
    newlines in the text before it. *)
Inductive lined_text : toks -> list (list N * regex * N) -> list (list N) -> Prop :=
| lt_comment : forall w, comment_text w -> lined_text ([47] :: [47] :: w) [] []
| lt_variable : forall w n r, variable w n r -> lined_text w [(n, r, 0)] []
| lt_delimiters : forall w d, delimiters w d -> lined_text (keyword :: [58] :: w) [] [d]
| lt_empty_line : forall w vs ds b, lined_text w vs ds -> line_break b -> lined_text (w ++ b) vs ds
| lt_more_comment : forall w vs ds b c, lined_text w vs ds -> line_break b -> comment_text c ->
    lined_text (w ++ b ++ [47] :: [47] :: c) vs ds
| lt_more_variable : forall w vs ds b v n r, lined_text w vs ds -> line_break b -> variable v n r ->
    lined_text (w ++ b ++ v) (vs ++ [(n, r, newlines (List.concat (w ++ b)))]) ds
| lt_more_delimiters : forall w vs ds b d cs, lined_text w vs ds -> line_break b -> delimiters d cs ->
    lined_text (w ++ b ++ keyword :: [58] :: d) vs (ds ++ [cs]).

(** [ds] is the decimal numeral of [n]: digits, no leading zero. *)
Definition decimal (ds : list N) (n : N) : Prop :=
  ds <> [] /\ Forall (fun d => 48 <= d <= 57) ds /\ fold_left (fun v d => 10 * v + (d - 48)) ds 0 = n /\ (forall t, ds = 48 :: t -> t = []).
Definition bytes (s : string) : list N := map N_of_ascii (list_ascii_of_string s).
(** [l] is the line of [content] with number [k], counted from 0; behind the last line there are only empty lines. *)
Definition line_of (content : list N) (k : N) (l : list N) : Prop :=
  (exists a z, content = a ++ l ++ z /\ newlines a = k /\ ~ In 10 l /\ (a = [] \/ exists a', a = a' ++ [10]) /\ (z = [] \/ exists z', z = 10 :: z')) \/
  (newlines content < k /\ l = []).
(** [q] shows the line [l] and underlines what follows its first colon. *)
Definition underlines (q l : list N) : Prop :=
  exists front back, l = front ++ back /\ ((exists f, front = f ++ [58] /\ ~ In 58 f) \/ (~ In 58 front /\ back = [])) /\
    q = bytes "          " ++ l ++ [10] ++ bytes "          " ++ repeat 32 (List.length front) ++ repeat 94 (List.length back) ++ [10].
(** The message that blames delimiter [d] in the pattern of variable [name], defined on line [line] (counted from 1) of the file [path]; if there is a
    file of that name, with the bytes [file], it quotes the line. *)
Definition blames (path : list N) (file : option (list N)) (m : list N) (line : N) (name : list N) (d : N) : Prop :=
  exists digits q, decimal digits line /\
    m = path ++ bytes ":" ++ digits ++ bytes ": error: '" ++ name ++ bytes "' has regex pattern which contains delimiter '" ++ [d] ++ bytes "'." ++ [10] ++ q /\
    match file with None => q = [] | Some content => exists l, line_of content (line - 1) l /\ underlines q l end.
(** The message for a schema without delimiters line. *)
Definition blames_schema (m : list N) : Prop := m = bytes "When using --schema-path, ""delimiters:"" line must be used.".
