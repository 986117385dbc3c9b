(** PropertiesReport.v -- C56 and C57: where the parser stops on a wrong input, and what it reports. The specification: sentence (LrReport.v),
    last_line_of, first_line_of and describes (SchemaReport.v). *)
From Verif Require Import Base OrdSet LexerModel LexerSpec LogParserModel RingModel RegexModel GrammarSpec FirstModel LrModel LrTable ParseSpec LrDriver LrSound LrParse
  LrComplete LrMain LrReport ReportModel ReportProofs SchemaModel SchemaActions SchemaGrammar SchemaTable SchemaSafe SchemaRules SchemaSyntax SchemaReads SchemaMeaning SchemaLexer
  SchemaSplit SchemaRoom PropertiesSchemaText SchemaReport.
From Coq Require Import Ascii String.
Local Open Scope list_scope.
Local Open Scope N_scope.

(** ** C56: for any grammar whose table has no conflict, a rejected input is rejected at the first token that cannot continue: what is before it is
    the beginning of a sentence, and no sentence begins with it and the token; or, at the end, the input is the beginning of a sentence but none. *)
Theorem C56_first_error : forall (tok A : Type) (types : tok -> list N) (eof : tok) fuel cfuel g start t root sets gt,
    wf_grammar g start -> productive g -> generate fuel cfuel g = Ret (t, root) ->
    item_sets fuel cfuel g = Ret (sets, gt, root) -> end_conflict g sets = false -> agree types g t ->
    (forall tk X, In X (types tk) -> In X (g_terms g)) -> types eof = [TokenEnd] -> covered types g ->
  forall (rule : N -> option (list (value tok A) -> out A)) resets limit steps inp alloc st tk rest,
    Forall (fun x => ~ In TokenEnd (types x)) inp ->
    parse_run types eof rule resets limit g t steps inp (start_state alloc) = Ret (Rejected st tk rest) ->
  exists pre, (exists r, sentence types g start (pre ++ r)) /\
    ((inp = pre ++ tk :: rest /\ forall r, Forall (fun x => ~ In TokenEnd (types x)) r -> ~ sentence types g start (pre ++ tk :: r)) \/
     (types tk = [TokenEnd] /\ inp = pre /\ ~ sentence types g start pre)).
Proof.
  intros tok A types eof fuel cfuel g start t root sets gt Hwf Hprod Hgen Hs Hc Hag Hty Heof Hcov rule resets limit steps inp alloc st tk rest Hp H.
  destruct (first_error types eof fuel cfuel g start t root Hwf Hgen Hty Heof Hprod sets gt Hs Hc Hag Hcov rule resets limit steps inp alloc st tk rest Hp H)
    as (pre & (r & _ & H1) & H2).
  exists pre. split; [now exists r|]. destruct H2 as [(_ & H2 & H3) | (H2 & H3 & _ & H4)]; auto.
Qed.
Print Assumptions C56_first_error.

(** ** C57: the error message of SchemaParser. *)
(** SchemaParser::generate_schema_ast (SchemaParser.cpp 53-59) with the tokens' line numbers, the static array and the error report
    (LALR1Parser.tpp 631-651). [arr]: what the array holds from earlier calls. *)
Definition report_schema_ast (calls fuel pfuel wfuel : nat) (c : lexcfg) (t : table) (root : option N) (cons : nat -> N) (b : ibuf) (alloc : N)
  (arr : N -> option (cell (tok := ltok) (A := sval))) (s : list N) : out (option schema * N + report) :=
  do (ls, eline) <- schema_lines calls fuel c cons s b;
  do res <- r_parse (fun x : ltok => lexer_types c (fst x)) (SEof, eline) ltext snd (tagged_rule fst schema_rule) schema_resets cSizeOfAllChildren
              schema_grammar t pfuel wfuel root (tagged ls) alloc arr;
  match res with
  | Parsed (VNt _ (Some (VSchema vars delims))) al => Ret (inl (Some (schema_of vars delims), al))
  | Parsed _ al => Ret (inl (None, al))
  | Failed r => Ret (inr r)
  end.
Definition report_schema_string (dfuel calls fuel pfuel wfuel : nat) (addr : nat -> N) (cons : nat -> N) (b : ibuf) (alloc : N)
  (arr : N -> option (cell (tok := ltok) (A := sval))) (s : list N) : out (option schema * N + report) :=
  do c <- schema_lexer dfuel addr;
  do (t, root) <- generate sfuel scfuel schema_grammar;
  report_schema_ast calls fuel pfuel wfuel c t root cons b alloc arr s.

(** The types that the lexer gives the tokens are those of the lexical rules. *)
Lemma well_formed_types {tok} (types types2 : tok -> list N) g : (forall tk X, In X (types tk) -> In X (types2 tk)) ->
  forall tr, well_formed types g tr -> well_formed types2 g tr.
Proof.
  intros H tr. induction tr as [tk X | p ts IH] using tree_ind'; intros W; inversion W; subst; [constructor; auto|].
  econstructor; eauto. rewrite Forall_forall in *. auto.
Qed.
Lemma same_sentences c ws : lexer_ok c -> schema_sentence (lexer_types c) ws <-> schema_sentence stypes ws.
Proof.
  intros Hok. assert (E : forall tk X, In X (lexer_types c tk) <-> In X (stypes tk)).
  { intros [|w] X; [reflexivity|]. exact (lexer_types_ok c Hok w X). }
  split; intros (tr & T1 & T2 & T3); exists tr; (split; [|auto]); (eapply well_formed_types; [|exact T1]); intros tk X; apply E.
Qed.
Lemma same_viable c ws : lexer_ok c -> viable (lexer_types c) ws <-> viable stypes ws.
Proof. intros Hok. split; intros (r & H); exists r; apply (same_sentences c _ Hok); exact H. Qed.
Lemma same_description c ws r : lexer_ok c -> describes (lexer_types c) ws r -> describes stypes ws r.
Proof.
  intros Hok (pre & H1 & H2 & H3 & H4). exists pre. split; [now apply (same_viable c _ Hok)|]. split; [exact H2|]. split; [exact H3|].
  destruct H4 as [(w & post & z & E1 & E2 & E3) | (E1 & E2 & E3)].
  - left. exists w, post, z. split; [exact E1|]. split; [|exact E3]. intros G. apply E2. now apply (same_viable c _ Hok).
  - right. split; [exact E1|]. split; [|exact E3]. intros G. apply E2. now apply (same_sentences c _ Hok).
Qed.

(** try_schema_string and its report: if the text is accepted, or the call is undefined, so is the model with the report; a rejected text either makes
    one of the schema's actions throw, or the message describes the first token that cannot continue -- whatever the static array held. *)
Theorem C57_schema_report : forall addr, exists F, forall dfuel, (F <= dfuel)%nat ->
  forall calls fuel pfuel cons b alloc arr s ws,
    Forall (fun x => x < 256) s -> len s < cStaticByteBuffSize / 2 -> splits s ws -> alloc <= cSizeOfAllChildren ->
    len s + 1 <= N.of_nat fuel -> len s < N.of_nat calls ->
  exists W, forall wfuel, (W <= wfuel)%nat ->
  let result := report_schema_string dfuel calls fuel pfuel wfuel addr cons b alloc arr s in
  match try_schema_string dfuel calls fuel pfuel addr cons b alloc s with
  | Ret x => result = Ret (inl x)
  | UB => result = UB
  | Throw => result = Throw \/ exists r, result = Ret (inr r) /\ describes stypes ws r
  | OutOfFuel => result = OutOfFuel
  end.
Proof.
  intros addr. destruct (schema_lexer_exists addr) as (F & HF). exists F. intros dfuel Hd. destruct (HF dfuel Hd) as (c & Ec & Hok).
  intros calls fuel pfuel cons b alloc arr s ws Hb Hl Hs Ha H1 H2.
  destruct (lines_splits c s Hok Hb calls fuel cons b Hl H1 H2) as (ls & E & Hs' & Hlines).
  pose proof (splits_unique _ _ _ Hs' Hs) as Ews.
  assert (Hls : Forall (fun x => schema_token (fst x) /\ lexer_types c (STok (fst x)) <> []) ls).
  { apply Forall_forall. intros [w k] Hx. assert (Hw : In w ws) by (rewrite <- Ews; now apply (in_map fst) in Hx). cbn [fst].
    pose proof (splits_tokens _ _ Hs) as G. rewrite Forall_forall in G. specialize (G w Hw). split; [exact G|]. intros En.
    assert (Em : schema_matches w = []).
    { destruct (schema_matches w) as [|X r] eqn:Em; [easy|]. assert (HX : In X (lexer_types c (STok w))) by (apply (lexer_types_ok c Hok); rewrite Em; now left).
      now rewrite En in HX. }
    destruct G as [-> | (x & ->)]; [now apply matches_keyword in Em|]. revert Em. apply matches_byte.
    rewrite Forall_forall in Hb. apply Hb. rewrite <- (splits_concat _ _ Hs). apply in_concat. exists [x]. split; [exact Hw|now left]. }
  destruct (schema_report (lexer_types c) eq_refl (lexer_types_ok c Hok) cSizeOfAllChildren pfuel ls (newlines s) alloc arr Hls Ha Hlines) as (W & HW).
  { rewrite Ews. now rewrite (splits_concat _ _ Hs). }
  exists W. intros wfuel Hw. specialize (HW wfuel Hw). cbv zeta in HW. cbv zeta.
  unfold try_schema_string, report_schema_string. rewrite Ec. cbn [bind]. rewrite (proj1 schema_generated). cbn [bind].
  unfold generate_schema_ast, report_schema_ast. rewrite schema_texts_lines, E. cbn [bind]. clear E Hlines. unfold ltok in *.
  destruct (parse (lexer_types c) SEof schema_rule schema_resets cSizeOfAllChildren schema_grammar schema_table pfuel (Some 0) (map STok (map fst ls)) alloc)
    as [[v al]| | |]; cbn [bind].
  - destruct HW as (v' & E1 & E2). rewrite E1. cbn [bind]. subst v. destruct v' as [?|p [[?|? ?|? ?|?|?]|]]; reflexivity.
  - rewrite HW. reflexivity.
  - destruct HW as [HW | (r & HW & D)]; rewrite HW; cbn [bind]; [now left|]. right. exists r. split; [reflexivity|]. rewrite <- Ews. now apply (same_description c).
  - rewrite HW. reflexivity.
Qed.
Print Assumptions C57_schema_report.

(** What the message shows. *)
(** [line] is a whole line of [s], if lines end at \r or \n. *)
Definition whole_line (s line : list N) : Prop :=
  existsb break_byte line = false /\ exists a z, s = a ++ line ++ z /\
    (a = [] \/ exists a' b, a = a' ++ [b] /\ break_byte b = true) /\ (z = [] \/ exists b z', z = b :: z' /\ break_byte b = true).
(** At a token that is not a line break, the message quotes the token's line as it is in the text; the number printed first is that of the line, and
    the second one the position in it. *)
Theorem C57_quoted_line : forall ws r, Forall schema_token ws -> describes stypes ws r ->
  existsb break_byte (rp_token r) = false ->
  exists line, whole_line (List.concat ws) line /\ rp_consumed r ++ rp_token r ++ rp_rest r = line ++ [10] /\
    rp_column r = N.of_nat (List.length (rp_consumed r)) + 1 /\
    exists a z, List.concat ws = a ++ rp_consumed r ++ rp_token r ++ z /\ rp_line r = newlines a + 1 /\ (a = [] \/ exists a' b, a = a' ++ [b] /\ break_byte b = true).
Proof.
  assert (Hnl : forall c, existsb break_byte c = false -> newlines c = 0).
  { unfold newlines. induction c as [|x c IH]; intros H; [reflexivity|]. cbn [existsb filter] in *. apply orb_false_iff in H as [H1 H2].
    unfold break_byte in H1. apply orb_false_iff in H1 as [_ H1]. rewrite N.eqb_sym in H1. rewrite H1. now apply IH. }
  assert (Hna : forall a b, newlines (a ++ b) = newlines a + newlines b).
  { intros a b. unfold newlines. rewrite filter_app, app_length. lia. }
  intros ws r Ht (pre & _ & Hc & (Hb & Hl) & Hcase) Htok.
  assert (Ha : exists a, List.concat pre = a ++ rp_consumed r /\ (a = [] \/ exists a' b, a = a' ++ [b] /\ break_byte b = true)).
  { destruct Hl as [Hl | (a & b & Hl & Hb2)]; [exists []; auto|]. exists (a ++ [b]). rewrite Hl, <- app_assoc. split; [reflexivity|]. right. eauto. }
  destruct Ha as (a & Ea & Ha). destruct Hcase as [(w & post & z & -> & _ & Hw & Hline & Hz & Hr & _) | (-> & _ & Hw & Hline & Hr & _)].
  - subst w. rewrite (is_newline_breaks (rp_token r)) in Hz by (apply Forall_app in Ht as [_ Ht]; clear -Ht; inversion Ht; assumption). rewrite Htok in Hz.
    destruct Hz as [Hz1 Hz2]. rewrite concat_app. cbn [List.concat].
    exists (rp_consumed r ++ rp_token r ++ z). split; [|split; [|split]].
    + split; [rewrite !existsb_app, Hb, Htok, Hz1; reflexivity|]. destruct Hz2 as [Hz2 | (b & y & Hz2 & Hb2)].
      * exists a, []. split; [rewrite Ea, Hz2, app_nil_r, <- app_assoc; reflexivity|]. auto.
      * exists a, (b :: y). split; [rewrite Ea, Hz2, <- !app_assoc; reflexivity|]. split; [exact Ha|]. right. eauto.
    + rewrite Hr, <- !app_assoc. reflexivity.
    + exact Hc.
    + exists a, (List.concat post). split; [rewrite Ea, <- !app_assoc; reflexivity|]. split; [|exact Ha].
      rewrite Hline, concat_app. cbn [List.concat]. rewrite app_nil_r, Ea, !Hna, (Hnl _ Hb), (Hnl _ Htok). lia.
  - rewrite Hw, Hr. cbn [app]. exists (rp_consumed r). split; [|split; [|split]].
    + split; [exact Hb|]. exists a, []. split; [now rewrite app_nil_r|]. auto.
    + reflexivity.
    + exact Hc.
    + exists a, []. rewrite app_nil_r. split; [exact Ea|]. split; [|exact Ha]. rewrite Hline, Ea, Hna, (Hnl _ Hb). lia.
Qed.
Print Assumptions C57_quoted_line.
(** At a newline token the line number is one too large. *)
Theorem C57_newline_line : forall ws r, describes stypes ws r -> rp_token r = [10] ->
  exists pre post, ws = pre ++ [10] :: post /\ rp_line r = newlines (List.concat pre) + 2 /\ last_line_of (List.concat pre) (rp_consumed r) /\ rp_rest r = [10].
Proof.
  intros ws r (pre & _ & _ & Hl & [(w & post & z & -> & _ & Hw & Hline & Hz & Hr & _) | (_ & _ & Hw & _)]) H; [|congruence].
  rewrite H in Hw. subst w. exists pre, post. split; [reflexivity|]. split; [|split; [exact Hl|]].
  - rewrite Hline, concat_app. cbn [List.concat]. rewrite app_nil_r. unfold newlines. rewrite filter_app, app_length.
    change (filter (N.eqb 10) [10]) with [10]. cbn [List.length]. lia.
  - cbn in Hz. now rewrite Hr, Hz.
Qed.
Print Assumptions C57_newline_line.
(** The message says "empty file" if and only if the text ends too early in an empty line, empty or not. *)
Theorem C57_empty_file : forall ws r, Forall schema_token ws -> describes stypes ws r -> rp_expected r = None <->
  viable stypes ws /\ ~ schema_sentence stypes ws /\ rp_token r = [] /\ (ws = [] \/ exists a b, List.concat ws = a ++ [b] /\ break_byte b = true).
Proof.
  intros ws r Ht (pre & Hv & _ & Hl & [(w & post & z & -> & Hn & Hw & Hline & Hz & Hr & He) | (-> & Hs & Hw & Hline & Hr & He)]).
  - split; [easy|]. intros (V & _ & _). elim Hn. destruct V as (q & Hq). exists (post ++ q). rewrite <- app_assoc in *. exact Hq.
  - rewrite He. split.
    + intros E. rewrite E in Hl. split; [exact Hv|]. split; [exact Hs|]. split; [exact Hw|]. destruct Hl as [_ [Hl | (a & b & Hl & Hb)]]; [|eauto].
      left. destruct pre as [|x pre]; [easy|]. exfalso. clear -Hl Ht. cbn [List.concat] in Hl. inversion Ht as [|? ? [-> | (b & ->)] _]; subst; discriminate Hl.
    + intros (_ & _ & _ & [-> | (a & b & E & Hb)]).
      * destruct Hl as [_ [Hl | (a & b & Hl & _)]]; [now rewrite <- Hl|]. destruct a; discriminate Hl.
      * rewrite E in Hl. destruct Hl as [Hb2 [Hl | (a2 & b2 & Hl & _)]].
        -- exfalso. rewrite <- Hl, existsb_app in Hb2. cbn in Hb2. rewrite Hb, orb_true_r in Hb2. discriminate Hb2.
        -- destruct (rp_consumed r) as [|x c] using rev_ind; [reflexivity|]. exfalso. rewrite app_comm_cons, app_assoc in Hl. apply app_inj_tail in Hl as [_ ->].
           rewrite existsb_app in Hb2. cbn in Hb2. rewrite Hb, orb_true_r in Hb2. discriminate Hb2.
Qed.
Print Assumptions C57_empty_file.

(** ** Examples: the message itself. *)
(** m_id_symbol: the names of the symbols (LALR1Parser.tpp 120, 138). Lexer::generate has moved the lexical rules into the NFA (Lexer.tpp 378,
    RegexNFA.hpp 102-104), so that Lexer::get_rule finds none when an error is reported: the characters of the literals are never printed. *)
Definition schema_name (X : N) : list N :=
  match find (fun e => snd e =? X) schema_names with Some e => codes_of (fst e) | None => [] end.
Definition rules_left {R : Type} (rules : list R) : list R := [].
Definition schema_literal (X : N) : option N :=
  match find (fun e => sid (fst e) =? X) (rules_left schema_tokens) with Some (_, LexChar c) => Some c | _ => None end.
Definition report_run (s : list N) : out (option (list string)) :=
  do c <- schema_lexer 300 N.of_nat;
  do x <- report_schema_ast 1000 1000 9000 9000 c schema_table (Some 0) (fun _ => 0) buffer0 0 (fun _ => None) s;
  match x with
  | inl _ => Ret None
  | inr r => Ret (Some (map string_of (let fix split l := match l with [] => [[]] | b :: l' => if b =? 10 then [] :: split l' else
                                             match split l' with w :: ws => (b :: w) :: ws | [] => [[b]] end end in split (message schema_name schema_literal r))))
  end.
Open Scope string_scope.
(** Non-vacuity: a wrong character in the second line. *)
Example C57_example : report_run (lines ["a:b"; "b=c"]) =
  Ret (Some ["Schema:2:2: error: expected 'Rangle','Colon','AlphaNumeric' before '=' token"; "          b=c"; "           ^"; ""]).
Proof. vm_compute. reflexivity. Qed.
(** The line number at a newline: the error is at the end of the first line, but the message says 2, and quotes the newline. *)
Example C57_newline_example : report_run (lines ["a"; "a:b"]) =
  Ret (Some ["Schema:2:2: error: expected 'Rangle','Colon','AlphaNumeric' before '\n' token"; "          a"; ""; "           ^"; ""]).
Proof. vm_compute. reflexivity. Qed.
(** A carriage return alone starts a new column, but not a new line. *)
Example C57_return_example : report_run ((codes "a:b" ++ [13]) ++ codes "c:d")%list =
  Ret (Some ["Schema:1:1: error: expected 'NewLine' before 'c' token"; "          c:d"; "          ^"; ""]).
Proof. vm_compute. reflexivity. Qed.
Close Scope string_scope.

(** ** C58, refuted: the message says "empty file" only for an empty file, and lists the tokens that could follow. *)
(** A text that is not empty. *)
Open Scope string_scope.
Example C58_not_empty : report_run (codes "a:b" ++ [13])%list = report_run [] /\
  report_run [] = Ret (Some ["Schema:1:1: error: empty file"; "          "; "^"; ""]).
Proof. vm_compute. auto. Qed.
Close Scope string_scope.
(** Deciding viability with the parser. *)
Lemma stypes_eof : stypes SEof = [TokenEnd].
Proof. reflexivity. Qed.
Lemma stypes_iff w X : In X (stypes (STok w)) <-> In X (schema_matches w).
Proof. cbn [stypes]. reflexivity. Qed.
Definition ending_of (types : stok -> list N) (ws : toks) : out (ending (tok := stok) (A := unit)) :=
  parse_run types SEof (fun _ => None) (fun _ => false) cSizeOfAllChildren schema_grammar schema_table 1000 (map STok ws) (start_state 0).
Definition stops_at (types : stok -> list N) (ws : toks) : option (stok * list stok) :=
  match ending_of types ws with Ret (Rejected _ tk rest) => Some (tk, rest) | _ => None end.
Definition accepts (types : stok -> list N) (ws : toks) : bool := match ending_of types ws with Ret (Accepted _ _) => true | _ => false end.
Lemma stops_check types pre w : types SEof = [TokenEnd] -> (forall w X, In X (types (STok w)) <-> In X (schema_matches w)) ->
  stops_at types (pre ++ [w]) = Some (STok w, []) -> ~ viable types (pre ++ [w]).
Proof.
  intros H1 H2 H. unfold stops_at, ending_of in H.
  destruct (parse_run types SEof _ _ cSizeOfAllChildren schema_grammar schema_table 1000 (map STok (pre ++ [w])) (start_state 0)) as [[v al|st tk rest]| | |] eqn:E; try discriminate H.
  injection H as -> ->. exact (stops_not_viable types H1 H2 _ _ _ _ _ _ _ _ E).
Qed.
Lemma accepts_check types ws : types SEof = [TokenEnd] -> (forall w X, In X (types (STok w)) <-> In X (schema_matches w)) ->
  accepts types ws = true -> schema_sentence types ws.
Proof.
  intros H1 H2 H. unfold accepts, ending_of in H.
  destruct (parse_run types SEof _ _ cSizeOfAllChildren schema_grammar schema_table 1000 (map STok ws) (start_state 0)) as [[v al|st tk rest]| | |] eqn:E; try discriminate H.
  exact (accepted_sentence types H1 H2 _ _ _ _ _ _ _ _ E).
Qed.
Definition bytes_of (s : list N) : toks := map (fun b => [b]) s.
(** In C57_example > (Rangle) is listed, although nothing that begins with the line a:b and b> is a schema. *)
Theorem C58_listed_but_wrong : ~ viable stypes (bytes_of (codes "a:b" ++ [10] ++ codes "b" ++ [62])).
Proof.
  replace (bytes_of _) with (bytes_of (codes "a:b" ++ [10] ++ codes "b") ++ [[62]]) by (vm_compute; reflexivity).
  apply (stops_check stypes _ _ stypes_eof stypes_iff). vm_compute. reflexivity.
Qed.
Print Assumptions C58_listed_but_wrong.
(** For the text a:b) only the end of the file or of the line is said to be expected, although a:bc is a schema. *)
Open Scope string_scope.
Theorem C58_missing : schema_sentence stypes (bytes_of (codes "a:bc")) /\ schema_sentence stypes (bytes_of (codes "a:b*")) /\ report_run (codes "a:b)") =
  Ret (Some ["Schema:1:4: error: expected '$end','NewLine','CarriageReturn' before ')' token"; "          a:b)"; "             ^"; ""]).
Proof. split; [apply (accepts_check stypes _ stypes_eof stypes_iff); vm_compute; reflexivity|]. split; [apply (accepts_check stypes _ stypes_eof stypes_iff); vm_compute; reflexivity|]. vm_compute. reflexivity. Qed.
Print Assumptions C58_missing.
(** A symbol is listed that is not a token at all (Literal). *)
Example C58_not_a_token : report_run (codes "a:b|") =
  Ret (Some ["Schema:1:5: error: expected 'Lparen','Backslash','Space','Bang','Quotation','Hash','DollarSign','Percent','Ampersand','Apostrophe','Comma','ForwardSlash','Colon','SemiColon','Equal','At','AlphaNumeric','Underscore','Backtick','Tilde','Literal' before '" ++ String "000" "' token";
             "          a:b|"; "              ^"; ""]).
Proof. vm_compute. reflexivity. Qed.
Close Scope string_scope.
