(** PropertiesSchema.v -- C13-C16, C44, and the lexing and parsing properties for the LogParser of a schema. *)
From Verif Require Import Base LexerModel LexerSpec LogParserModel EventSpec StreamModel RegexModel RegexSpec RegexProofs
  RegexLang DfaModel DfaProofs DfaExact LexerProofs EventProofs SchemaModel SchemaSpec SchemaProofs SchemaPaths SchemaUsable SchemaWords
  PropertiesLexer PropertiesEvents PropertiesRegex.
From Coq Require Import String.
Local Open Scope list_scope.
Local Notation length := List.length.
Local Notation concat := List.concat.

Lemma ment_iff : forall (ds : list N) (tbl : N -> bool) sc front lst,
  sc_delims sc = front ++ [lst] -> ds <> [] -> Sorted.StronglySorted N.lt ds ->
  (forall b, In b ds <-> b < cSizeOfByte /\ tbl b = true) -> tbl = delim_table lst -> (forall d, In d lst -> d < cSizeOfByte) ->
  mentions_delimiter sc <-> exists name r, In (name, r) (sc_vars sc) /\ name <> cTimestamp /\
     existsb (possible (strip_wild ds r)) ds = true.
Proof.
  intros ds tbl sc front lst E Hne Hsort Hmem Etbl Hlt.
  assert (Hext : forall x, existsb (N.eqb x) lst || (x =? 253) = tbl x).
  { assert (G : forall l x, existsb (N.eqb x) l = existsb (fun d => d =? x) l)
      by (intros l x; induction l as [|y l IH]; [reflexivity|]; cbn; rewrite N.eqb_sym, IH; reflexivity).
    intros x. rewrite Etbl, G. reflexivity. }
  assert (Hin : forall b, In b ds <-> In b lst \/ b = cCharStartOfFile).
  { intros b. rewrite Hmem, Etbl, delim_table_in. split; [tauto|]. intros H. split; [|exact H].
    destruct H as [H| ->]; [auto|reflexivity]. }
  assert (Hpm : forall r b, In b ds -> possible (strip_wild ds r) b = true <->
    mentions (fun x => existsb (N.eqb x) lst || (x =? 253)) r b).
  { intros r b Hb. rewrite (possible_mentions ds tbl r b Hne Hsort Hmem Hb). symmetry. apply mentions_ext. exact Hext. }
  unfold mentions_delimiter. split.
  - intros (fr & l2 & name & r & b & E2 & H1 & H2 & H3 & H4). rewrite E in E2. apply app_inj_tail in E2 as (_ & <-).
    exists name, r. split; [exact H1|]. split; [exact H2|]. apply existsb_exists. exists b.
    assert (Hb : In b ds) by (apply Hin; exact H3). split; [exact Hb|]. apply Hpm; assumption.
  - intros (name & r & H1 & H2 & H3). apply existsb_exists in H3 as (b & H3 & H4). exists front, lst, name, r, b.
    split; [exact E|]. split; [exact H1|]. split; [exact H2|]. split; [apply Hin; exact H3|]. apply Hpm; assumption.
Qed.

(** C44: a schema whose delimiters are bytes and whose patterns have no bare integer node gives a parser, or
    construction throws; it always ends. It throws exactly if there is no delimiters line or some variable's
    pattern mentions a delimiter. *)
Theorem C44_construction_terminates : forall addr sc,
  (forall l d, In l (sc_delims sc) -> In d l -> d < 256) ->
  (forall name r, In (name, r) (sc_vars sc) -> no_int r = true) ->
  exists F, forall fuel, (F <= fuel)%nat ->
    ((exists g, make_parser fuel addr sc = Ret g) /\ sc_delims sc <> [] /\ ~ mentions_delimiter sc) \/
    (make_parser fuel addr sc = Throw /\ (sc_delims sc = [] \/ mentions_delimiter sc)).
Proof.
  intros addr sc Hd Hn. destruct (delim_lines_total (sc_delims sc) (fun _ => false) Hd) as (tbl & Ht).
  assert (Hds : forall b, In b (delims_of tbl) <-> tbl b = true /\ b < cSizeOfByte) by (intros b; rewrite delims_of_in; tauto).
  destruct (delim_lines_last _ _ _ Ht) as [(E & Etbl)|(front & lst & E & Etbl & Hlt)].
  { exists 0%nat. intros fuel _. right. split; [|left; exact E]. unfold make_parser, prepare. rewrite Ht. cbn [bind].
    replace (delims_of tbl) with (@nil N); [reflexivity|]. subst tbl. vm_compute. reflexivity. }
  assert (Hlt0 : forall d, In d lst -> d < cSizeOfByte) by (intros d Hin; apply (Hd lst d); [rewrite E; apply in_or_app; right; left; reflexivity|exact Hin]).
  assert (Hne : delims_of tbl <> []).
  { intros E0. assert (X : In cCharStartOfFile (delims_of tbl)); [|rewrite E0 in X; destruct X].
    apply delims_of_in. split; [reflexivity|]. rewrite Etbl. apply delim_table_in. auto. }
  assert (Hment : mentions_delimiter sc <-> exists name r, In (name, r) (sc_vars sc) /\ name <> cTimestamp /\
     existsb (possible (strip_wild (delims_of tbl) r)) (delims_of tbl) = true).
  { apply (ment_iff (delims_of tbl) tbl sc front lst E Hne (delims_of_sorted tbl) (delims_of_in tbl)).
    - rewrite Etbl. reflexivity.
    - exact Hlt0. }
  assert (Hsc : sc_delims sc <> []) by (rewrite E; destruct front; discriminate).
  clear Hds. clearbody tbl || idtac.
  assert (Hprep : (exists p, prepare sc = Ret p) /\ ~ mentions_delimiter sc \/ prepare sc = Throw /\ mentions_delimiter sc).
  { unfold prepare. rewrite Ht. cbn [bind]. rewrite (sym_add_known symtab_init cTokenNewline 7) by reflexivity. cbv zeta beta.
    rewrite Hment. clear Hment Ht Etbl. generalize dependent (delims_of tbl). intros ds Hne. destruct ds as [|d ds]; [congruence|].
    destruct (add_vars_outcome (d :: ds) (sc_vars sc) symtab_init [(7, RLit cNewline)]) as [((s & rules & ->) & H2)|(H1 & H2)].
    - left. cbn [bind]. split; [eauto|]. intros (name & r & A1 & A2 & A3). rewrite (H2 name r A1 A2) in A3. discriminate.
    - right. rewrite H1. cbn [bind]. auto. }
  destruct Hprep as [((p & Hp) & Hno)|(Hp & Hm)].
  - destruct (C07_nfa_exists (pr_rules p) (prepare_no_int sc p Hp Hn)) as (A & HA).
    destruct (nfa_to_dfa_reports addr (pr_rules p) A HA) as (F & HF). exists F. intros fuel Hf. left.
    destruct (HF fuel Hf) as (f & Hf' & _). split; [|auto]. unfold make_parser. rewrite Hp. cbn [bind]. rewrite HA. cbn [bind].
    rewrite Hf'. cbn [bind]. eauto.
  - exists 0%nat. intros fuel _. right. split; [|right; exact Hm]. unfold make_parser. rewrite Hp. reflexivity.
Qed.
Print Assumptions C44_construction_terminates.

(** C15: the delimiters are those of the last delimiters line and the start-of-file byte 0xFD; without any
    line construction throws. *)
Theorem C15_last_delimiters_line : forall fuel addr sc g,
  make_parser fuel addr sc = Ret g ->
  exists front lst, sc_delims sc = front ++ [lst] /\ forall b, c_delim (lg_cfg g) b = true <-> In b lst \/ b = 253.
Proof.
  intros fuel addr sc g H. destruct (make_parser_built _ _ _ _ H) as (p & A & ds & ns & HB).
  destruct (b_last _ _ _ _ _ _ HB) as (front & lst & E & Hb & _). exists front, lst. auto.
Qed.
Print Assumptions C15_last_delimiters_line.
Theorem C15_no_delimiters_throws : forall fuel addr vars, make_parser fuel addr (mkSchema [] vars) = Throw.
Proof. intros. reflexivity. Qed.
Print Assumptions C15_no_delimiters_throws.

(** C16: names and ids are in bijection, ids are 0 .. n-1, the reserved names have their fixed ids, every
    variable has an id (so variables of the same name share one). *)
Theorem C16_symbols_bijective : forall fuel addr sc g,
  make_parser fuel addr sc = Ret g ->
  (forall name i, get_symbol_id g name = Some i <-> get_id_symbol g i = Some name) /\
  (forall i, (exists name, get_id_symbol g i = Some name) <-> i < lg_nsym g) /\
  (forall name r, In (name, r) (sc_vars sc) -> name <> "timestamp"%string -> exists i, get_symbol_id g name = Some i) /\
  Forall (fun x => get_symbol_id g (fst x) = Some (snd x))
    [("$end", 0); ("$UncaughtString", 1); ("int", 2); ("float", 3); ("hex", 4); ("firstTimestamp", 5);
     ("newLineTimestamp", 6); ("newLine", 7)]%string.
Proof.
  intros fuel addr sc g H. destruct (make_parser_built _ _ _ _ H) as (p & A & ds & ns & HB). repeat split.
  - intros E. apply (b_id_name _ _ _ _ _ _ HB) in E. apply (b_name_id _ _ _ _ _ _ HB). exact E.
  - intros E. apply (b_name_id _ _ _ _ _ _ HB) in E. apply (b_id_name _ _ _ _ _ _ HB). exact E.
  - intros (name & E). apply (b_name_id _ _ _ _ _ _ HB) in E. rewrite (b_nsym _ _ _ _ _ _ HB).
    assert (N.to_nat i < length ns)%nat by (apply nth_error_Some; congruence). lia.
  - intros Hi. rewrite (b_nsym _ _ _ _ _ _ HB) in Hi. destruct (nth_error ns (N.to_nat i)) as [name|] eqn:E.
    + exists name. apply (b_name_id _ _ _ _ _ _ HB). exact E.
    + apply nth_error_None in E. lia.
  - intros name r Hi Hne. destruct (po_var _ _ _ _ (bu_prep _ _ _ _ _ _ HB) name r Hi Hne) as (Hn & _).
    apply In_nth_error in Hn as (j & Hj). exists (N.of_nat j). apply (b_id_name _ _ _ _ _ _ HB). rewrite Nat2N.id. exact Hj.
  - pose proof (b_reserved _ _ _ _ _ _ HB) as R.
    repeat (constructor; [first [exact (R 0%nat _ eq_refl)|exact (R 1%nat _ eq_refl)|exact (R 2%nat _ eq_refl)|exact (R 3%nat _ eq_refl)
      |exact (R 4%nat _ eq_refl)|exact (R 5%nat _ eq_refl)|exact (R 6%nat _ eq_refl)|exact (R 7%nat _ eq_refl)]|]). constructor.
Qed.
Print Assumptions C16_symbols_bijective.
(** Adding variables at the end of a schema changes no existing id. *)
Theorem C16_ids_stable : forall fuel1 addr1 fuel2 addr2 lines vars more g1 g2,
  make_parser fuel1 addr1 (mkSchema lines vars) = Ret g1 ->
  make_parser fuel2 addr2 (mkSchema lines (vars ++ more)) = Ret g2 ->
  forall name i, get_symbol_id g1 name = Some i -> get_symbol_id g2 name = Some i.
Proof.
  intros fuel1 addr1 fuel2 addr2 lines vars more g1 g2 H1 H2 name i. unfold get_symbol_id.
  unfold make_parser in H1, H2. apply bind_Ret in H1 as (p1 & P1 & H1). apply bind_Ret in H1 as (A1 & _ & H1).
  apply bind_Ret in H1 as (f1 & _ & [= <-]). apply bind_Ret in H2 as (p2 & P2 & H2). apply bind_Ret in H2 as (A2 & _ & H2).
  apply bind_Ret in H2 as (f2 & _ & [= <-]). cbn [lg_sym]. apply (prepare_longer lines vars more p1 p2 P1 P2).
Qed.
Print Assumptions C16_ids_stable.

(** C14: every string the lexer accepts is the newline, a timestamp after the start of file or a newline, or
    a delimiter followed by a variable's match, which contains no delimiter. *)
Theorem C14_no_delimiter_in_variables : forall fuel addr sc g w i,
  make_parser fuel addr sc = Ret g -> legal sc -> In i (reported (c_dfa (lg_cfg g)) d_root w) ->
  i = TokenNewline /\ w = [cNewline] \/
  i = TokenFirstTimestamp /\ (exists v, w = cCharStartOfFile :: v) \/
  i = TokenNewlineTimestamp /\ (exists v, w = cNewline :: v) \/
  exists name d v, (exists r, In (name, r) (sc_vars sc)) /\ name <> cTimestamp /\ get_symbol_id g name = Some i /\
    w = d :: v /\ c_delim (lg_cfg g) d = true /\ forall b, In b v -> c_delim (lg_cfg g) b = false.
Proof.
  intros fuel addr sc g w i H HL Hi. destruct (make_parser_built _ _ _ _ H) as (p & A & ds & ns & HB).
  exact (b_var_word _ _ _ _ _ _ HB HL w i Hi).
Qed.
Print Assumptions C14_no_delimiter_in_variables.
(** Otherwise construction throws: if a variable's pattern matches a string with a delimiter of the last
    delimiters line (or 0xFD), there is no parser, but an exception (C44). *)
Theorem C14_else_throws : forall addr sc front lst name r w b,
  (forall l d, In l (sc_delims sc) -> In d l -> d < 256) ->
  (forall name r, In (name, r) (sc_vars sc) -> no_int r = true) -> legal sc -> faithful_schema sc ->
  sc_delims sc = front ++ [lst] -> In (name, r) (sc_vars sc) -> name <> cTimestamp ->
  var_matches (fun b => existsb (N.eqb b) lst || (b =? 253)) (star_as_plus r) w -> In b w -> In b lst \/ b = 253 ->
  exists F, forall fuel, (F <= fuel)%nat -> make_parser fuel addr sc = Throw.
Proof.
  intros addr sc front lst name r w b Hd Hn HL Hf E Hi Hne Hw Hb Hdel.
  destruct (C44_construction_terminates addr sc Hd Hn) as (F & HF). exists F. intros fuel Hfu.
  destruct (HF fuel Hfu) as [((g & Hg) & _)|(H & _)]; [exfalso|exact H].
  destruct (make_parser_built _ _ _ _ Hg) as (p & A & ds & ns & HB).
  destruct (b_last _ _ _ _ _ _ HB) as (fr & l2 & E2 & Hcd & Hlt). rewrite E in E2. apply app_inj_tail in E2 as (_ & <-).
  assert (Hext : forall x, existsb (N.eqb x) lst || (x =? 253) = c_delim (lg_cfg g) x).
  { intros x. apply eq_true_iff_eq. rewrite Hcd, orb_true_iff, existsb_exists, N.eqb_eq. split.
    - intros [(y & Hy & Exy)|Ex]; [apply N.eqb_eq in Exy; subst; auto|auto].
    - intros [Hx|Hx]; [left; exists x; split; [exact Hx|apply N.eqb_refl]|auto]. }
  assert (Hw' : var_matches (c_delim (lg_cfg g)) (star_as_plus r) w).
  { revert w Hw Hb. generalize (star_as_plus r). clear -Hext. intros r0 w Hw _. revert w Hw.
    assert (G : forall r0, l_eq (var_matches (fun b => existsb (N.eqb b) lst || (b =? 253)) r0) (var_matches (c_delim (lg_cfg g)) r0)).
    { clear r0. intros r0. induction r0 as [|c|l|wc neg rs|l IHl r IHr|l IHl r IHr|r IH mn mx|r IH t]; cbn [var_matches]; try (intros w; tauto).
      - destruct wc; [|intros w; tauto]. intros w. split; intros (x & -> & H1 & H2); exists x; (split; [reflexivity|]); (split; [exact H1|]);
          [rewrite <- Hext|rewrite Hext]; exact H2.
      - apply l_or_eq; assumption.
      - apply l_cat_eq; assumption.
      - apply l_rep_eq; assumption.
      - exact IH. }
    intros w Hw. apply (G r0 w). exact Hw. }
  destruct (C16_symbols_bijective _ _ _ _ Hg) as (_ & _ & Hid & _). destruct (Hid name r Hi Hne) as (i & Ei).
  assert (Hrep : In i (reported (c_dfa (lg_cfg g)) d_root (cCharStartOfFile :: w))).
  { apply (b_words _ _ _ _ _ _ HB Hf). apply (sw_var _ _ _ name r); auto. exact (b_sof _ _ _ _ _ _ HB). }
  apply (C14_no_delimiter_in_variables _ _ _ _ _ _ Hg HL) in Hrep.
  assert (Hcb : c_delim (lg_cfg g) b = true) by (apply Hcd; exact Hdel).
  destruct (b_var_id _ _ _ _ _ _ HB HL name r i Hi Ei) as (_ & _ & N1 & N2 & N3).
  destruct Hrep as [(X & _)|[(X & _)|[(X & _)|(nm & d & v & _ & _ & _ & [= <- <-] & _ & Hv)]]]; try contradiction.
  rewrite (Hv b Hb) in Hcb. discriminate.
Qed.
Print Assumptions C14_else_throws.

(** C13, and C07-C09 for a whole schema: the lexer of a schema with faithful patterns reports id i for a
    string iff the string is a word of a rule with id i; in a variable, '.' stands for the bytes that are not
    delimiters ([var_matches]). *)
Theorem C13_schema_words : forall fuel addr sc g w i,
  make_parser fuel addr sc = Ret g -> legal sc -> faithful_schema sc ->
  In i (reported (c_dfa (lg_cfg g)) d_root w) <-> schema_word sc (c_delim (lg_cfg g)) (get_symbol_id g) i w.
Proof.
  intros fuel addr sc g w i H HL Hf. destruct (make_parser_built _ _ _ _ H) as (p & A & ds & ns & HB).
  exact (b_words _ _ _ _ _ _ HB Hf w i).
Qed.
Print Assumptions C13_schema_words.
(** The variable "." alone: a delimiter and one byte, which is not a delimiter. *)
Theorem C13_dot_excludes_exactly_delimiters : forall fuel addr sc g name i d b,
  make_parser fuel addr sc = Ret g -> legal sc -> faithful_schema sc ->
  In (name, RGroup true false [(0, cUnicodeMax)]) (sc_vars sc) -> name <> cTimestamp -> get_symbol_id g name = Some i ->
  c_delim (lg_cfg g) d = true -> b < 256 ->
  In i (reported (c_dfa (lg_cfg g)) d_root [d; b]) <-> c_delim (lg_cfg g) b = false.
Proof.
  intros fuel addr sc g name i d b H HL Hf Hi Hne Hid Hd Hb.
  destruct (make_parser_built _ _ _ _ H) as (p & A & ds & ns & HB).
  destruct (b_var_id _ _ _ _ _ _ HB HL name _ i Hi Hid) as (_ & _ & N1 & N2 & N3). split.
  - intros Hr. apply (C14_no_delimiter_in_variables _ _ _ _ _ _ H HL) in Hr.
    destruct Hr as [(X & _)|[(X & _)|[(X & _)|(nm & d' & v & _ & _ & _ & [= <- <-] & _ & Hv)]]]; try contradiction.
    apply Hv. left. reflexivity.
  - intros Hb'. apply (C13_schema_words _ _ _ _ _ _ H HL Hf). apply (sw_var _ _ _ name (RGroup true false [(0, cUnicodeMax)])); auto.
    cbn [star_as_plus var_matches]. exists b. auto.
Qed.
Print Assumptions C13_dot_excludes_exactly_delimiters.

(** * The lexing and parsing properties for the parser of any legal schema *)
(** The hypotheses of C01-C06, C17-C21, C36, C40 and C41 hold for the parser of every legal schema. *)
Theorem C01_schema_usable : forall fuel addr sc g,
  make_parser fuel addr sc = Ret g -> legal sc -> usable (lg_cfg g) (lg_nsym g).
Proof.
  intros fuel addr sc g H HL. destruct (make_parser_built _ _ _ _ H) as (p & A & ds & ns & HB).
  exact (b_usable _ _ _ _ _ _ HB HL).
Qed.
Print Assumptions C01_schema_usable.
Theorem C18_schema_newline_free : forall fuel addr sc g front lst,
  make_parser fuel addr sc = Ret g -> legal sc -> sc_delims sc = front ++ [lst] -> In cNewline lst ->
  (forall name r, In (name, r) (sc_vars sc) -> nullable r = false) -> newline_free (lg_cfg g).
Proof.
  intros fuel addr sc g front lst H HL E Hnl Hn. destruct (make_parser_built _ _ _ _ H) as (p & A & ds & ns & HB).
  apply (b_newline_free _ _ _ _ _ _ HB HL); [|exact Hn].
  destruct (b_last _ _ _ _ _ _ HB) as (fr & l2 & E2 & Hcd & _). rewrite E in E2. apply app_inj_tail in E2 as (_ & <-). apply Hcd. auto.
Qed.
Print Assumptions C18_schema_newline_free.

(** C01 for a schema: parsing a buffer from reset() to done() loses nothing. *)
Theorem C01_lossless_schema : forall F addr sc g t k m bp calls fuel sfuel,
  make_parser F addr sc = Ret g -> legal sc ->
  holds m t -> idle (lg_nsym g) bp -> enough t calls fuel sfuel ->
  exists ps bp' texts, parse_all calls fuel sfuel (lg_cfg g) k m t bp = Ret (ps, bp') /\
    bp_done bp' = true /\ map ev_to_string ps = map Ret texts /\ concat texts = t.
Proof.
  intros F addr sc g t k m bp calls fuel sfuel H HL Hh Hi He.
  destruct (C01_lossless (lg_cfg g) (lg_nsym g) t k m bp calls fuel sfuel (C01_schema_usable _ _ _ _ H HL) Hh Hi He)
    as (ps & bp' & texts & H1 & H2 & _ & H3 & H4). exists ps, bp', texts. auto.
Qed.
Print Assumptions C01_lossless_schema.

(** C04 for a schema: the text of a variable token is, with the byte 0xFD put before it if it was read at the
    start of the log, a word of each rule whose id it carries, and of no other. *)
Theorem C04_tokens_are_schema_words : forall F addr sc g t k m b calls fuel toks tok,
  make_parser F addr sc = Ret g -> legal sc -> faithful_schema sc ->
  stored m t -> len t + 1 < N.of_nat calls -> 2 * len t + 4 <= N.of_nat fuel ->
  lex_all calls fuel (lg_cfg g) k m t b = Ret toks -> In tok toks -> is_var tok ->
  exists ids, t_ids tok = Some ids /\ ids <> [] /\
    ((forall i, In i ids <-> schema_word sc (c_delim (lg_cfg g)) (get_symbol_id g) i (sub t (t_start tok) (t_end tok))) \/
     (t_start tok = 0 /\ forall i, In i ids <->
        schema_word sc (c_delim (lg_cfg g)) (get_symbol_id g) i (cCharStartOfFile :: sub t 0 (t_end tok)))).
Proof.
  intros F addr sc g t k m b calls fuel toks tok H HL Hf Hh Hc Hfu Hr Hin Hv.
  destruct (C04_variable_tokens_are_matches _ _ t k m b calls fuel toks tok (C01_schema_usable _ _ _ _ H HL) Hh Hc Hfu Hr Hin Hv)
    as (q & ids & H1 & H2 & [->|(H3 & H4)] & H5 & _); exists ids; (split; [exact H1|]); (split; [exact H2|]).
  - left. intros i. rewrite <- H5. apply (C13_schema_words _ _ _ _ _ _ H HL Hf).
  - right. split; [exact H3|]. intros i. rewrite <- (C13_schema_words _ _ _ _ _ _ H HL Hf). unfold reported. cbn [run]. rewrite H4.
    rewrite <- H5, H3. reflexivity.
Qed.
Print Assumptions C04_tokens_are_schema_words.

(** C06 for a schema without timestamps whose delimiters include the newline: a delimiter followed by bytes
    that are not, that is accepted and is followed by a delimiter or the end of the log, is a token, and
    carries all the ids reported for it. *)
Theorem C06_matches_are_tokens : forall F addr sc g t k m b calls fuel toks i j,
  make_parser F addr sc = Ret g -> legal sc -> (forall r, ~ In (cTimestamp, r) (sc_vars sc)) ->
  c_delim (lg_cfg g) cNewline = true ->
  stored m t -> len t + 1 < N.of_nat calls -> 2 * len t + 4 <= N.of_nat fuel ->
  lex_all calls fuel (lg_cfg g) k m t b = Ret toks -> occurrence (lg_cfg g) t i j ->
  exists tok, In tok toks /\ t_start tok = i /\ t_end tok = j /\
    t_ids tok = Some (reported (c_dfa (lg_cfg g)) d_root (sub t i j)).
Proof.
  intros F addr sc g t k m b calls fuel toks i j H HL Hts Hnl Hh Hc Hfu Hr Hocc.
  pose proof (C01_schema_usable _ _ _ _ H HL) as Hus.
  destruct (make_parser_built _ _ _ _ H) as (p & A & ds & ns & HB).
  destruct (C06_matches_never_missed_partial _ _ t k m b calls fuel toks i j Hus Hh Hc Hfu Hnl
    (b_no_cross _ _ _ _ _ _ HB HL t (or_introl Hts)) (b_no_cross_sof _ _ _ _ _ _ HB HL t Hts) Hr Hocc) as (tok & Hin & Hv & Hcov & _).
  destruct (C04_variable_tokens_are_matches _ _ t k m b calls fuel toks tok Hus Hh Hc Hfu Hr Hin Hv)
    as (_ & ids & Hids & Hne & _).
  destruct (C05_longest_match _ _ t k m b calls fuel toks tok Hus Hh Hc Hfu Hr Hin Hv) as (q & Hst & Hq & Hlong).
  destruct (C03_tokens_tile_the_input _ _ t k m b calls fuel Hus Hh Hc Hfu) as (body & e & Hr' & _ & _ & He & _ & Htile & _).
  rewrite Hr in Hr'. injection Hr' as ->.
  assert (Hend : t_end tok <= len t).
  { apply in_app_iff in Hin as [Hin|[<-|[]]]; [|lia]. clear -Htile Hin. revert Htile. generalize 0. induction body as [|x l IH]; intros a Ht; [destruct Hin|].
    destruct Ht as (_ & _ & Ht). destruct Hin as [->|Hin]; [|eauto]. clear -Ht. revert Ht. generalize (t_end tok).
    induction l as [|y l IH]; intros a Ht; cbn in Ht; [lia|]. destruct Ht as (_ & Hle & Ht). specialize (IH _ Ht). lia. }
  exists tok. split; [exact Hin|].
  destruct Hocc as (Hij & (Hle & Hrep & Hdj) & (x & Hx & Hdx) & Hfree).
  assert (Hmem : forall a z y, t_start tok <= a -> a < z -> z <= len t -> byte_at t a = Some y -> In y (sub t (t_start tok) z)).
  { intros a z y H1 H2 H3 H4. eapply (in_sub (lg_cfg g) (lg_nsym g) t k m); [|exact H3|exact H4]. lia. }
  assert (Hrep' : reported (c_dfa (lg_cfg g)) q (sub t (t_start tok) (t_end tok)) <> []) by congruence.
  destruct Hst as [->|(H0 & Hsof)].
  2: { exfalso. destruct (b_tail_free _ _ _ _ _ _ HB HL (cCharStartOfFile :: sub t (t_start tok) (t_end tok)) Hts) as (d & v & [= <- <-] & Hv').
       - unfold reported in *. cbn [run]. rewrite Hsof. exact Hrep'.
       - rewrite (Hv' x) in Hdx; [discriminate|]. apply (Hmem i); auto; lia. }
  destruct (b_tail_free _ _ _ _ _ _ HB HL _ Hts Hrep') as (d & v & Ev & Hv').
  assert (Hfree2 : forall a y, t_start tok < a -> a < t_end tok -> byte_at t a = Some y -> c_delim (lg_cfg g) y = false).
  { intros a y H1 H2 H3. apply Hv'. destruct (byte_at_some t (t_start tok)) as (z & Ez); [lia|].
    rewrite (sub_cons t (t_start tok) (t_end tok) z Ez) in Ev by lia. injection Ev as _ <-. eapply (in_sub (lg_cfg g) (lg_nsym g) t k m); [|exact Hend|exact H3]. lia. }
  assert (Ei : t_start tok = i).
  { destruct (N.eq_dec (t_start tok) i) as [->|Hn]; [reflexivity|]. rewrite (Hfree2 i x) in Hdx; [discriminate|lia|lia|exact Hx]. }
  assert (Ej : t_end tok = j).
  { destruct (N.lt_trichotomy (t_end tok) j) as [Hlt|[->|Hgt]]; [|reflexivity|].
    - destruct Hrep. rewrite <- Ei. apply Hlong; auto. lia.
    - exfalso. destruct Hdj as [->|(y & Hy & Hdy)]; [lia|]. rewrite (Hfree2 j y) in Hdy; [discriminate|lia|lia|exact Hy]. }
  split; [exact Ei|]. split; [exact Ej|]. rewrite Hq, Ei, Ej. reflexivity.
Qed.
Print Assumptions C06_matches_are_tokens.
