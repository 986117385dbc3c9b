(** PropertiesSchemaRuns.v -- C43 and C47 for parsers built from a schema, and C52: from the text of a schema to the events of a log. *)
From Verif Require Import Base LexerModel LexerSpec LogParserModel EventSpec StreamModel RegexModel RegexSpec RegexProofs RegexLang DfaModel RingModel RingSpec ViewModel ReaderSpec FeedSpec PieceSpec
  SchemaModel SchemaSpec SchemaProofs SchemaPaths SchemaUsable SchemaWords SchemaSplit SchemaReads SchemaLines SchemaOrigin.
From Verif Require Import LexerProofs LogParserProofs EventProofs EventMatch ReaderProofs PropertiesReader PropertiesFeed PropertiesPieces PropertiesSchema PropertiesSchemaText SchemaExamples Toy.
From Coq Require Import String.
Local Open Scope list_scope.
Local Notation length := List.length.
Local Notation concat := List.concat.

(** A schema with line-oriented variables: its delimiters include the newline, no pattern matches the empty string ([R{0}] is the only
    way to write one that does, see C07), and timestamps do not mention the newline. *)
Record lines_ok (sc : schema) : Prop := {
  lk_legal : legal sc;
  lk_lines : line_schema sc;
  lk_nonempty : forall name r, In (name, r) (sc_vars sc) -> nullable r = false
}.
Lemma schema_lexer_lines fuel addr sc g : make_parser fuel addr sc = Ret g -> lines_ok sc ->
  usable (lg_cfg g) (lg_nsym g) /\ newline_free (lg_cfg g) /\ one_line (lg_cfg g) /\ sof_quiet (lg_cfg g).
Proof.
  intros H [HL HN He]. destruct (ls_delim _ HN) as (front & lst & E & Hi).
  pose proof (C18_schema_newline_free _ _ _ _ _ _ H HL E Hi He) as Nf. split; [exact (C01_schema_usable _ _ _ _ H HL)|]. split; [exact Nf|]. split.
  - destruct (make_parser_built _ _ _ _ H) as (p & A & ds & ns & HB). exact (b_one_line _ _ _ _ _ _ HB HL HN).
  - exact (nf_sof _ Nf).
Qed.
Lemma schema_no_timestamps fuel addr sc g : make_parser fuel addr sc = Ret g -> legal sc -> (forall r, ~ In (cTimestamp, r) (sc_vars sc)) -> no_timestamps (lg_cfg g).
Proof.
  intros H HL Hno q. destruct (make_parser_built _ _ _ _ H) as (p & A & ds & ns & HB).
  assert (forall i, i = TokenFirstTimestamp \/ i = TokenNewlineTimestamp -> ~ In i (d_ids (c_dfa (lg_cfg g)) q)) as X; [|split; apply X; auto].
  intros i Hi Hin. apply (bu_ids _ _ _ _ _ _ HB) in Hin as (r & Hr). apply (b_rule _ _ _ _ _ _ HB) in Hr.
  destruct Hr as [|r Hr|r Hr|name r i Hr Hne E]; [destruct Hi; discriminate|exact (Hno _ Hr)|exact (Hno _ Hr)|].
  destruct (b_var_id _ _ _ _ _ _ HB HL name r i Hr E) as (_ & _ & H1 & H2 & _). destruct Hi; congruence.
Qed.

(** C43 for a schema: no hypothesis on the lexer is left. *)
Theorem C43_schema_pieces_partial : forall F addr sc g pieces place store k m name bp bpw calls fuel sfuel r rs bpw',
  make_parser F addr sc = Ret g -> lines_ok sc -> stamps_first addr g ->
  pieces <> [] -> (forall i buf, holds (store i buf) buf) -> holds m (concat pieces) -> idle (lg_nsym g) bp -> idle (lg_nsym g) bpw -> enough (concat pieces) calls fuel sfuel ->
  buffer_all name (lg_nsym g) calls fuel sfuel (lg_cfg g) k m (concat pieces) bpw = Ret (r :: rs, bpw') -> r_timestamp r <> None ->
  exists l bp', feed_pieces (report_of name (lg_nsym g)) calls fuel sfuel (lg_cfg g) place store [] pieces (bp_reset (lg_cfg g) bp) = Ret (l, true, bp') /\ idle (lg_nsym g) bp' /\
    map plain_of l = map plain_of (r :: rs).
Proof.
  intros F addr sc g pieces place store k m name bp bpw calls fuel sfuel r rs bpw' Hg Hk Hf Hne Hst Hm Ib Iw He Hw Hts.
  destruct (schema_lexer_lines _ _ _ _ Hg Hk) as (Hus & Hnf & Hl & Hq).
  apply (C43_pieces_partial (lg_cfg g) (lg_nsym g) pieces place store k m name bp bpw calls fuel sfuel r rs bpw'); auto.
  apply (schema_starts_alike F addr sc g Hg (lk_legal _ Hk) (lk_lines _ Hk)); [|exact Hf]. intros x Hx. exact (lk_nonempty _ Hk _ _ Hx).
Qed.
Print Assumptions C43_schema_pieces_partial.

(** C47 and C27 for a schema: a log of any length whose events have at most 7999 bytes each is read to its end, with the BufferParser's events. *)
Theorem C47_schema_events_partial : forall F addr sc g chunk log k m name rp bp calls grow fuel sfuel l bp' texts,
  make_parser F addr sc = Ret g -> lines_ok sc ->
  fills chunk log -> holds m log -> reader_idle (lg_nsym g) rp -> idle (lg_nsym g) bp -> enough log calls fuel sfuel -> len log mod 48000 <> 0 ->
  buffer_all name (lg_nsym g) calls fuel sfuel (lg_cfg g) k m log bp = Ret (l, bp') -> map r_string l = map Ret texts ->
  (forall x, In x texts -> len x <= 7999) ->
  exists rp', read_all chunk name (lg_nsym g) calls grow fuel sfuel (lg_cfg g) log rp = Ret (l, rp').
Proof.
  intros F addr sc g chunk log k m name rp bp calls grow fuel sfuel l bp' texts Hg Hk Hf Hm Hr Hb He Hl Ha Ht Hs.
  destruct (schema_lexer_lines _ _ _ _ Hg Hk) as (Hus & Hnf & Hone & _).
  exact (C47_short_events_partial chunk (lg_cfg g) (lg_nsym g) log k m name rp bp calls grow fuel sfuel l bp' texts Hus Hnf Hone Hf Hm Hr Hb He Hl Ha Ht Hs).
Qed.
Print Assumptions C47_schema_events_partial.
(** C47 and C27 for a schema without timestamps: lines of at most 7997 bytes. *)
Theorem C47_schema_lines_partial : forall F addr sc g chunk log k m name rp bp calls grow fuel sfuel,
  make_parser F addr sc = Ret g -> lines_ok sc -> (forall r, ~ In (cTimestamp, r) (sc_vars sc)) ->
  fills chunk log -> holds m log -> reader_idle (lg_nsym g) rp -> idle (lg_nsym g) bp -> enough log calls fuel sfuel ->
  len log mod 48000 <> 0 -> lines_at_most 7997 log -> ~ In cCharStartOfFile log ->
  exists l rp' bp' texts, read_all chunk name (lg_nsym g) calls grow fuel sfuel (lg_cfg g) log rp = Ret (l, rp') /\
    buffer_all name (lg_nsym g) calls fuel sfuel (lg_cfg g) k m log bp = Ret (l, bp') /\
    map r_string l = map Ret texts /\ concat texts = log.
Proof.
  intros F addr sc g chunk log k m name rp bp calls grow fuel sfuel Hg Hk Hno Hf Hm Hr Hb He Hl Hln Hns.
  destruct (schema_lexer_lines _ _ _ _ Hg Hk) as (Hus & Hnf & Hone & _).
  exact (C47_short_lines_partial chunk (lg_cfg g) (lg_nsym g) log k m name rp bp calls grow fuel sfuel Hus Hnf Hone (schema_no_timestamps _ _ _ _ Hg (lk_legal _ Hk) Hno) Hf Hm Hr Hb He Hl Hln Hns).
Qed.
Print Assumptions C47_schema_lines_partial.

(** Non-vacuity: the schema with the timestamp T[0-9] is one. *)
Example ex_lines_ok : lines_ok ex_schema_ts /\ lines_ok ex_schema /\ (forall r, ~ In (cTimestamp, r) (sc_vars ex_schema)) /\
  forall g, make_parser 100 N.of_nat ex_schema_ts = Ret g -> stamps_first N.of_nat g.
Proof.
  assert (forall sc, sc = ex_schema \/ sc = ex_schema_ts -> line_schema sc) as L.
  { intros sc H. constructor.
    - exists [[44]], [32; 10]. destruct H as [-> | ->]; (split; [reflexivity|right; left; reflexivity]).
    - intros r Hr. destruct H as [-> | ->]; cbn in Hr; repeat (destruct Hr as [Hr|Hr]; [injection Hr; intros; try discriminate|]); try contradiction; subst r.
      split; [cbn; auto using I; try (split; [exact I|discriminate])|]. cbn. intros [X|(lo & hi & [[= <- <-]|[]] & X)]; [discriminate|]. unfold cNewline in X. lia. }
  split; [|split; [|split]].
  - constructor; [exact (proj2 ex_legal)|apply L; auto|]. intros name r H. cbn in H. repeat (destruct H as [[= <- <-]|H]; [reflexivity|]). destruct H.
  - constructor; [exact (proj1 ex_legal)|apply L; auto|]. intros name r H. cbn in H. repeat (destruct H as [[= <- <-]|H]; [reflexivity|]). destruct H.
  - intros r H. cbn in H. repeat (destruct H as [[=]|H]). destruct H.
  - intros g _. left. intros. lia.
Qed.

(** ** C52: from the text of a schema to the events of a log.
    SchemaParser::try_schema_string (SchemaParser.cpp 87-102), then the constructor of BufferParser that takes the AST (BufferParser.cpp 9-15: LogParser.cpp
    33-37). A null AST would be dereferenced. [addr] and [addr']: the memory layouts of the two lexers. *)
Definition parser_of_string (dfuel calls fuel pfuel : nat) (addr : nat -> N) (cons : nat -> N) (b : ibuf) (alloc : N) (F : nat) (addr' : nat -> N) (s : list N) : out logparser :=
  do (o, al) <- try_schema_string dfuel calls fuel pfuel addr cons b alloc s;
  match o with Some sch => make_parser F addr' sch | None => UB end.

(** What a schema must not do: have no variables, name one like an internal token, or have a reversed range in a negated bracket expression. *)
Record sensible (sch : schema) : Prop := {
  sn_some : sc_vars sch <> [];
  sn_names : forall name r, In (name, r) (sc_vars sch) -> ~ In name ["newLine"; "firstTimestamp"; "newLineTimestamp"]%string;
  sn_ranges : forall name r, In (name, r) (sc_vars sch) -> neg_ranges_ok r
}.
Lemma sensible_legal s sch : schema_string s sch -> sensible sch -> legal sch.
Proof.
  intros Hs [S1 S2 S3]. constructor; [exact S1| |exact S3]. intros name r Hi Hf. destruct (proj2 (string_facts _ _ Hs) name r Hi) as (_ & _ & N1 & N2).
  apply (S2 name r Hi). unfold forbidden in Hf. cbn in Hf |- *. destruct Hf as [<-|[<-|[<-|[<-|[<-|[]]]]]]; try contradiction; auto.
Qed.

(** The text of a schema (shorter than 24000 bytes, with room in the static array, see C51) that the language allows gives a parser, or the construction throws: exactly
    if there is no delimiters line or a variable other than timestamp mentions a delimiter. The parser parses every log completely: every call succeeds, the events' texts
    concatenated are the log; and, if the patterns are ones for which the automaton is faithful (C07), a typed token of an event is a word of the schema: with what may precede its
    text in the log it is a word of each of the rules whose ids it carries and of no other. *)
Theorem C52_text_to_events : forall addr addr' s ws sch,
  Forall (fun x => x < 256) s -> len s < 24000 -> splits s ws -> schema_string s sch -> sensible sch ->
  exists F0, forall dfuel F, (F0 <= dfuel)%nat -> (F0 <= F)%nat ->
  forall calls fuel pfuel cons b alloc, room_for ws alloc -> len s + 1 <= N.of_nat fuel -> len s < N.of_nat calls -> 7 * len s + 1 < N.of_nat pfuel ->
  match parser_of_string dfuel calls fuel pfuel addr cons b alloc F addr' s with
  | Ret g => sc_delims sch <> [] /\ ~ mentions_delimiter sch /\
      forall t k m bp calls fuel sfuel, holds m t -> idle (lg_nsym g) bp -> enough t calls fuel sfuel ->
      exists ps bp' texts, parse_all calls fuel sfuel (lg_cfg g) k m t bp = Ret (ps, bp') /\ bp_done bp' = true /\
        map ev_to_string ps = map Ret texts /\ concat texts = t /\
        (faithful_schema sch -> forall p tok ids, In p ps -> In tok (ev_tokens p) -> t_ids tok = Some ids -> ids <> [TokenUncaughtString] ->
           ids <> [] /\ exists pre x, EventSpec.lead pre /\ tok_text (ib_heap (lp_in p)) tok = Ret x /\
             forall i, In i ids <-> schema_word sch (c_delim (lg_cfg g)) (get_symbol_id g) i (pre ++ x))
  | Throw => sc_delims sch = [] \/ mentions_delimiter sch
  | UB | OutOfFuel => False
  end.
Proof.
  intros addr addr' s ws sch Hb Hl Hsp Hs Hse. pose proof (sensible_legal _ _ Hs Hse) as HL. destruct (string_facts _ _ Hs) as (D & V).
  destruct (C51_schema_string addr) as (F1 & T). destruct (C44_construction_terminates addr' sch) as (F2 & M).
  { intros l d H1 H2. pose proof (D l d H1 H2). lia. }
  { intros name r Hi. apply (V name r Hi). }
  exists (Nat.max F1 F2). intros dfuel F Hd HF calls fuel pfuel cons b alloc Hr H1 H2 H3.
  destruct (T dfuel ltac:(lia) calls fuel pfuel cons b alloc s ws Hb Hl Hsp Hr H1 H2 H3) as (T1 & _).
  destruct (proj2 (T1 sch) Hs) as (al & E). unfold parser_of_string. rewrite E. cbn [bind].
  destruct (M F ltac:(lia)) as [((g & Eg) & M1 & M2)|(Eg & M1)]; rewrite Eg; [|exact M1].
  split; [exact M1|]. split; [exact M2|]. clear - Eg HL. intros t k m bp calls fuel sfuel Hm Hi He.
  pose proof (C01_schema_usable _ _ _ _ Eg HL) as Hus.
  destruct (parse_all_spec (lg_cfg g) (lg_nsym g) t k m Hus Hm calls fuel sfuel bp Hi He) as (ps & bp' & P & Hevs & Dn & _).
  destruct (events_texts _ _ t k m Hus Hm 0 ps Hevs) as (texts & X1 & X2 & _).
  exists ps, bp', texts. split; [exact P|]. split; [exact Dn|]. split; [exact X1|]. split; [rewrite X2; apply sub_full|].
  intros Hf p tok ids Hp Htok Hids Hne. apply In_nth_error in Hp as (j & Hp).
  destruct (events_nth _ _ t k m Hus Hm 0 ps Hevs texts j p X1 Hp) as (ei & ei' & fin & Hev & _).
  destruct (evat_match (lg_cfg g) (lg_nsym g) t k m Hus Hm _ _ _ _ tok ids Hev Htok Hids Hne) as (pre & x & L & Tx & Hn & R).
  split; [exact Hn|]. exists pre, x. split; [exact L|]. split; [exact Tx|]. intro i. rewrite <- R. exact (C13_schema_words _ _ _ _ _ _ Eg HL Hf).
Qed.
Print Assumptions C52_text_to_events.

(** Non-vacuity: "delimiters: \n", newline, "int:\d": space and newline are the delimiters, and there is a parser. *)
Example C52_example : exists ws sch, splits (codes "delimiters: \n"%string ++ [10] ++ codes "int:\d"%string) ws /\
  schema_string (codes "delimiters: \n"%string ++ [10] ++ codes "int:\d"%string) sch /\ sensible sch /\ room_for ws 0 /\ faithful_schema sch /\
  sch = mkSchema [[32; 10]] [("int"%string, RGroup false false [(48, 57)])] /\ exists g, make_parser 100 N.of_nat sch = Ret g.
Proof.
  set (ws := (SchemaSyntax.keyword :: [58] :: [[32]] ++ [[92]; [110]]) ++ [[10]] ++ (repeat [32] 0 ++ SchemaSyntax.chars [105;110;116] ++ [58] :: [[92]; [100]])).
  set (sch := mkSchema [[32; 10]] [("int"%string, RGroup false false [(48, 57)])]).
  assert (splits (codes "delimiters: \n"%string ++ [10] ++ codes "int:\d"%string) ws) as S.
  { unfold ws. vm_compute. apply (spl_keyword [58; 32; 92; 110; 10; 105; 110; 116; 58; 92; 100]). repeat (apply spl_byte; [intros r; discriminate|]). constructor. }
  exists ws, sch. split; [exact S|]. split.
  { exists ws, [([105;110;116], RGroup false false [(48, 57)])], [[32; 10]]. split; [exact S|]. split; [|reflexivity].
    change [([105;110;116], RGroup false false [(48, 57)])] with ([] ++ [([105;110;116], RGroup false false [(48, 57)])]).
    apply SchemaSyntax.sch_more_variable; [|left; reflexivity|].
    - apply SchemaSyntax.sch_delimiters. apply (SchemaSyntax.del_more [[32]] [32] [[92]; [110]] 10).
      + constructor. constructor. right. left. reflexivity.
      + apply SchemaSyntax.lit_control. right. left. reflexivity.
    - apply SchemaSyntax.var_line; [|apply SchemaSyntax.pat_one, SchemaSyntax.alt_one, SchemaSyntax.rep_once, SchemaSyntax.prim_digit]. split; [discriminate|]. split; [|reflexivity]. repeat (apply Forall_cons; [unfold SchemaSyntax.alnum, SchemaSyntax.digit; lia|]). apply Forall_nil. }
  split.
  { constructor; [discriminate| |]; intros name r [[= <- <-]|[]]; [intros H; cbn in H; repeat (destruct H as [[=]|H]); destruct H|]. cbn. discriminate. }
  split; [left; vm_compute; discriminate|]. split.
  { intros name r [[= <- <-]|[]]. cbn. split; [|discriminate]. split; [intros lo hi [[= <- <-]|[]]; lia|discriminate]. }
  split; [reflexivity|]. destruct (make_parser 100 N.of_nat sch) as [g| | |] eqn:E; [eauto| | |]; exfalso; vm_compute in E; discriminate.
Qed.
