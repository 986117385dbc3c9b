(** PropertiesQuote.v -- C69: the line that the message of LogParser::add_rules quotes when SchemaAST::m_file_path names the schema's own file. *)
From Verif Require Import Base OrdSet LexerModel LexerSpec LogParserModel RingModel RegexModel RegexSpec GrammarSpec LrModel LrTable ParseSpec LrDriver
  ReportModel SchemaModel SchemaSpec SchemaProofs SchemaUsable SchemaWords SchemaActions SchemaGrammar SchemaTable SchemaSafe SchemaRules SchemaSyntax
  SchemaLexer SchemaSplit SchemaRoom SchemaReport SerializeModel PropertiesSchema PropertiesSchemaText LineModel LineSpec LineProofs LineTexts QuoteProofs PropertiesLines.
From Coq Require Import String.
Local Open Scope list_scope.
Local Open Scope N_scope.

(** If m_file_path names a file that holds the text of the schema, the message for a variable with a delimiter quotes the line on which the variable
    stands, and the line below it has one ^ for each byte of the pattern, under the pattern -- and one more if the line ends with \r\n. *)
Theorem C69_quoted_line : forall addr, exists F, forall dfuel, (F <= dfuel)%nat ->
  forall path calls fuel pfuel cons b alloc s ws m,
    Forall (fun x => x < 256) s -> len s < cStaticByteBuffSize / 2 -> splits s ws ->
    len s + 1 <= N.of_nat fuel -> len s < N.of_nat calls ->
    construct path (Some s) dfuel calls fuel pfuel addr cons b alloc s = Ret (inr m) ->
  exists vars delims, schema_text ws vars delims /\
    ((delims = [] /\ blames_schema m) \/
     exists front lst before name r after d pre k wp post digits cr,
       delims = front ++ [lst] /\ vars = before ++ (name, r) :: after /\
       (forall n r', In (n, r') before -> string_of n <> "timestamp"%string -> clean lst r') /\
       string_of name <> "timestamp"%string /\ least_mentioned lst r d /\
       ws = pre ++ (repeat [32] k ++ chars name ++ [58] :: wp) ++ post /\ pattern wp r /\
       (pre = [] \/ exists p b, pre = p ++ b /\ line_break b) /\ (post = [] \/ exists b q, post = b ++ q /\ line_break b) /\
       (cr = [] \/ cr = [13]) /\ (cr = [13] <-> exists q, post = [13] :: [10] :: q) /\
       decimal digits (1 + newlines (List.concat pre)) /\
       m = path ++ bytes ":" ++ digits ++ bytes ": error: '" ++ name ++ bytes "' has regex pattern which contains delimiter '" ++ [d] ++ bytes "'." ++ [10] ++
           repeat 32 10 ++ (repeat 32 k ++ name ++ [58] ++ List.concat wp) ++ cr ++ [10] ++
           repeat 32 10 ++ repeat 32 (k + List.length name + 1) ++ repeat 94 (List.length (List.concat wp) + List.length cr) ++ [10]).
Proof.
  intros addr. destruct (C68_schema_error addr) as (F & HF). exists F. intros dfuel Hd path calls fuel pfuel cons b alloc s ws m Hb Hl Hs H1 H2 H.
  destruct (HF dfuel Hd path (Some s) calls fuel pfuel cons b alloc s ws m Hb Hl Hs H1 H2 H) as (vars & delims & HT & G). clear HF H. exists vars, delims. split; [exact HT|].
  destruct G as [G | (front & lst & before & name & r & after & d & pre & v & post & E1 & E2 & E3 & E4 & E5 & E6 & E7 & E8 & E9 & E10)]; [left; exact G|right].
  destruct (variable_line v name r E7) as (k & wp & Ev & Hp & Et & _ & Hc).
  destruct (variable_line_of pre v post name r E7 E8 E9) as (cr & Hcr & Hline & Hiff).
  destruct E10 as (digits & q & Hdig & Em & l & Hl1 & Hu).
  assert (El : l = List.concat v ++ cr).
  { apply (line_of_unique s (newlines (List.concat pre))).
    - replace (newlines (List.concat pre)) with (1 + newlines (List.concat pre) - 1) by lia. exact Hl1.
    - rewrite <- (splits_concat _ _ Hs), E6. exact Hline. }
  rewrite Et in El. assert (El2 : l = (repeat 32 k ++ name) ++ 58 :: (List.concat wp ++ cr)) by (rewrite El, <- !app_assoc; reflexivity).
  rewrite (underlines_unique q l _ _ Hu El2 Hc) in Em.
  exists front, lst, before, name, r, after, d, pre, k, wp, post, digits, cr.
  split; [exact E1|]. split; [exact E2|]. split; [exact E3|]. split; [exact E4|]. split; [exact E5|]. split; [rewrite <- Ev; exact E6|]. split; [exact Hp|].
  split; [exact E8|]. split; [exact E9|]. split; [exact Hcr|]. split; [exact Hiff|]. split; [exact Hdig|]. rewrite Em. do 8 f_equal.
  rewrite El. rewrite !app_length, repeat_length. cbn [app]. rewrite <- !app_assoc. cbn [app]. rewrite !repeat_app, <- !app_assoc. reflexivity.
Qed.
Print Assumptions C69_quoted_line.
(** Non-vacuity: a schema of two lines, the second with blanks in front and ended by \r\n; its file is named s.txt. *)
Definition quoted_example : list N := (lines ["delimiters: ,"]%string ++ codes "  v:a(b|,)c" ++ [13; 10])%list.
Example C69_example :
  match construct_run (bytes "s.txt") (Some quoted_example) quoted_example with
  | Ret (inr m) =>
      m = (bytes "s.txt:2: error: 'v' has regex pattern which contains delimiter ','." ++ [10] ++ bytes "            v:a(b|,)c" ++ [13; 10] ++
           bytes "              ^^^^^^^^" ++ [10])%list
  | _ => False
  end.
Proof. vm_compute. reflexivity. Qed.
(** The file is read again when the message is made: if it has fewer lines than the schema, an empty line is quoted. *)
Example C69_other_file :
  match construct_run (bytes "s.txt") (Some (bytes "x")) quoted_example with
  | Ret (inr m) =>
      m = (bytes "s.txt:2: error: 'v' has regex pattern which contains delimiter ','." ++ [10] ++ bytes "          " ++ [10] ++ bytes "          " ++ [10])%list
  | _ => False
  end.
Proof. vm_compute. reflexivity. Qed.
