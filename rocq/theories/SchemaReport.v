(** SchemaReport.v -- the error message of SchemaParser for a text that is not a schema. *)
From Verif Require Import Base OrdSet LexerModel LexerSpec LogParserModel RingModel RegexModel GrammarSpec FirstModel LrModel LrSets LrTable ParseSpec LrDriver
  LrSound LrParse LrLookahead LrComplete LrMain LrReport ReportModel ReportProofs SchemaModel SchemaActions SchemaGrammar SchemaTable SchemaSafe SchemaRules
  SchemaSyntax SchemaReads SchemaMeaning SchemaLexer SchemaSplit SchemaRoom.
From Coq Require Import String.
Local Open Scope list_scope.
Local Open Scope N_scope.

(** ** Tokens with more fields than the parser looks at. *)
Section Untag.
  Context {tok tok' A : Type}.
  Variables (f : tok' -> tok) (types : tok -> list N) (eof' : tok').
  Variable rule : N -> option (list (value tok A) -> out A).
  Variables (resets : N -> bool) (limit : N) (g : grammar) (t : table).
  Definition vmap (v : value tok' A) : value tok A := match v with VTok x => VTok (f x) | VNt p a => VNt p a end.
  Definition tagged_rule (p : N) : option (list (value tok' A) -> out A) :=
    match rule p with None => None | Some h => Some (fun vs => h (map vmap vs)) end.
  Notation ds' := (dstate (tok := tok') (A := A)).
  Definition dmap (st : ds') : dstate (tok := tok) (A := A) := mkD (d_states st) (map vmap (d_matches st)) (option_map f (d_next st)) (d_alloc st).
  Definition rmap (r : option (bool * ds')) := match r with Some (b, st) => Some (b, dmap st) | None => None end.
  Definition emap (e : ending (tok := tok') (A := A)) : ending (tok := tok) (A := A) :=
    match e with Accepted v al => Accepted (vmap v) al | Rejected st tk rest => Rejected (dmap st) (f tk) (map f rest) end.
  Lemma reduce_map p tk st : reduce rule resets limit g t p (f tk) (dmap st) = omap dmap (reduce tagged_rule resets limit g t p tk st).
  Proof.
    unfold reduce. cbn [dmap d_alloc d_matches d_states]. rewrite map_length. destruct (_ && (limit <? _)); [reflexivity|].
    destruct (Nat.ltb _ _); [reflexivity|]. rewrite firstn_map, <- map_rev.
    assert (E : match rule p with None => Ret None | Some h => do a <- h (map vmap (rev (firstn (List.length (body_at g p)) (d_matches st)))); Ret (Some a) end =
                match tagged_rule p with None => Ret None | Some h => do a <- h (rev (firstn (List.length (body_at g p)) (d_matches st))); Ret (Some a) end).
    { unfold tagged_rule. destruct (rule p); reflexivity. }
    rewrite E. destruct (match tagged_rule p with None => _ | Some h => _ end) as [ast| | |]; try reflexivity. cbn [bind omap].
    destruct (skipn _ (d_states st)) as [|s ss]; [reflexivity|].
    destruct (action_at g t s _) as [[?|j|?]| | |]; try reflexivity. unfold omap. cbn [bind]. unfold dmap. cbn. now rewrite skipn_map.
  Qed.
  Lemma symbol_map X tk st : parse_symbol rule resets limit g t X (f tk) (dmap st) = omap rmap (parse_symbol tagged_rule resets limit g t X tk st).
  Proof.
    unfold parse_symbol. cbn [dmap d_states]. destruct (d_states st) as [|s ss]; [reflexivity|].
    destruct (action_at g t s X) as [[[|]|j|p]| | |]; try reflexivity. cbn [bind]. fold (dmap st). rewrite reduce_map.
    destruct (reduce tagged_rule resets limit g t p tk st); reflexivity.
  Qed.
  Lemma advance_map Xs tk st : parse_advance rule resets limit g t Xs (f tk) (dmap st) = omap rmap (parse_advance tagged_rule resets limit g t Xs tk st).
  Proof.
    induction Xs as [|X Xs IH]; [reflexivity|]. cbn [parse_advance]. rewrite symbol_map.
    destruct (parse_symbol tagged_rule resets limit g t X tk st) as [[[b st2]|]| | |]; try reflexivity. cbn [bind omap rmap]. exact IH.
  Qed.
  Lemma next_map inp st : get_next_symbol (f eof') (map f inp) (dmap st) = let '(tk, inp', st') := get_next_symbol eof' inp st in (f tk, map f inp', dmap st').
  Proof. unfold get_next_symbol. cbn [dmap d_next]. destruct (d_next st); [reflexivity|]. destruct inp; reflexivity. Qed.
  Theorem run_map : forall fuel inp st, parse_run types (f eof') rule resets limit g t fuel (map f inp) (dmap st) =
    omap emap (parse_run (fun x => types (f x)) eof' tagged_rule resets limit g t fuel inp st).
  Proof.
    induction fuel as [|fuel IH]; intros inp st; [reflexivity|]. cbn [parse_run]. rewrite next_map.
    destruct (get_next_symbol eof' inp st) as [[tk inp'] st']. rewrite advance_map.
    destruct (parse_advance tagged_rule resets limit g t (types (f tk)) tk st') as [[[[|] st2]|]| | |]; try reflexivity; unfold omap; cbn [bind rmap].
    - cbn [dmap d_matches d_alloc]. destruct (d_matches st2) as [|[?|? ?] ?]; reflexivity.
    - rewrite IH. unfold omap. reflexivity.
  Qed.
End Untag.

(** ** Lines of a text. *)
Definition break_byte (b : N) : bool := (b =? 13) || (b =? 10).
(** [c]: what is behind the last \r or \n. *)
Definition last_line_of (s c : list N) : Prop :=
  existsb break_byte c = false /\ (s = c \/ exists a b, s = a ++ b :: c /\ break_byte b = true).
(** [c]: what is before the first \r or \n. *)
Definition first_line_of (s c : list N) : Prop :=
  existsb break_byte c = false /\ (s = c \/ exists b z, s = c ++ b :: z /\ break_byte b = true).
Definition schema_token (w : list N) : Prop := w = keyword \/ exists b, w = [b].
Lemma splits_tokens s ws : splits s ws -> Forall schema_token ws.
Proof. induction 1; constructor; auto; [now left|right; eauto]. Qed.
Lemma is_newline_breaks w : schema_token w -> is_newline w = existsb break_byte w.
Proof. intros [-> | (b & ->)]; [reflexivity|]. cbn. unfold break_byte. now rewrite orb_false_r. Qed.
Lemma has_newline_breaks w : has_newline w = existsb break_byte w.
Proof. unfold has_newline, break_byte. induction w as [|b w IH]; [reflexivity|]. cbn. rewrite IH. f_equal. apply orb_comm. Qed.
Lemma last_line_tokens ws : Forall schema_token ws -> last_line_of (List.concat ws) (last_line ws).
Proof.
  induction ws as [|w ws IH] using rev_ind; intros H; [split; [reflexivity|left; reflexivity]|]. apply Forall_app in H as [H Hw].
  inversion Hw as [|? ? Hw1 _]; subst. rewrite last_line_snoc, concat_app. cbn [List.concat]. rewrite app_nil_r.
  rewrite (is_newline_breaks w Hw1). destruct (existsb break_byte w) eqn:E.
  - destruct Hw1 as [-> | (b & ->)]; [discriminate E|]. split; [reflexivity|]. right. exists (List.concat ws), b. split; [reflexivity|].
    cbn in E. now rewrite orb_false_r in E.
  - destruct (IH H) as [I1 I2]. split; [now rewrite existsb_app, I1, E|]. destruct I2 as [I2 | (a & b & I2 & I3)].
    + left. now rewrite <- I2.
    + right. exists a, b. rewrite I2 at 1. now rewrite <- app_assoc.
Qed.
Lemma last_line_unique s c c' : last_line_of s c -> last_line_of s c' -> c = c'.
Proof.
  assert (G : forall s c c', last_line_of s c -> last_line_of s c' -> (List.length c <= List.length c')%nat -> c = c').
  { clear. intros s c c' [N1 H1] [N2 H2] Hl.
    assert (E1 : exists a, s = a ++ c) by (destruct H1 as [-> | (a & b & -> & _)]; [now exists []|exists (a ++ [b]); now rewrite <- app_assoc]).
    assert (E2 : exists a, s = a ++ c') by (destruct H2 as [-> | (a & b & -> & _)]; [now exists []|exists (a ++ [b]); now rewrite <- app_assoc]).
    destruct E1 as (a1 & E1), E2 as (a2 & E2).
    assert (Hlen : (List.length a1 + List.length c = List.length a2 + List.length c')%nat) by (rewrite <- !app_length, <- E1, <- E2; reflexivity).
    assert (Es : skipn (List.length a2) s = c') by (rewrite E2, skipn_app, skipn_all, Nat.sub_diag; reflexivity).
    assert (E3 : c' = skipn (List.length a2) a1 ++ c).
    { rewrite <- Es, E1, skipn_app. replace (List.length a2 - List.length a1)%nat with 0%nat by lia. reflexivity. }
    destruct H1 as [H1 | (a & b & H1 & Hb)].
    - rewrite H1 in E1. apply (f_equal (@List.length N)) in E1. rewrite app_length in E1. assert (a1 = []) as -> by (destruct a1; [easy|cbn in E1; lia]).
      rewrite E3. now destruct (List.length a2).
    - destruct (skipn (List.length a2) a1) as [|x d] eqn:Ed; [now rewrite E3|]. exfalso.
      assert (Hd : exists d', x :: d = d' ++ [b]).
      { assert (E4 : s = a2 ++ (x :: d) ++ c) by (rewrite E2, E3; reflexivity). rewrite H1 in E4. rewrite (app_assoc a2) in E4.
        change (a ++ b :: c) with (a ++ [b] ++ c) in E4. rewrite app_assoc in E4. apply app_inv_tail in E4.
        destruct (exists_last (l := x :: d) ltac:(easy)) as (d' & y & Ey). exists d'. rewrite Ey in *. rewrite app_assoc in E4. apply app_inj_tail in E4 as [_ ->]. reflexivity. }
      destruct Hd as (d' & Hd). rewrite E3, Hd, !existsb_app in N2. cbn in N2. rewrite Hb in N2. rewrite orb_true_r in N2. discriminate N2. }
  intros H1 H2. destruct (Nat.le_ge_cases (List.length c) (List.length c')) as [L | L]; [eapply G; eauto|symmetry; eapply G; eauto].
Qed.

(** ** The parser of SchemaParser, with tokens that have a line number. *)
Definition ltok : Type := stok * N.
Definition ltext (x : ltok) : list N := match fst x with SEof => [] | STok w => w end.
Definition reduce_check (p : N) (ok : N -> bool) (t : table) : bool :=
  forallb (fun ia => forallb (fun e => match snd e with AReduce q => negb (q =? p) || ok (fst e) | _ => true end) (snd ia)) t.
Lemma reduce_check_ok p ok g t s X : reduce_check p ok t = true -> action_at g t s X = Ret (AReduce p) -> ok X = true.
Proof.
  intros H Ha. unfold action_at in Ha. destruct (row_of t s) as [row|] eqn:Er; [|easy]. destruct (g_nsym g <=? X); [easy|].
  injection Ha as Ha. apply row_of_in in Er. unfold reduce_check in H. rewrite forallb_forall in H. specialize (H _ Er). cbn [snd fst] in H.
  rewrite forallb_forall in H.
  assert (G : In (X, AReduce p) row).
  { clear -Ha. unfold act_at in Ha. induction row as [|[Y b] row IH]; cbn in *; [easy|].
    destruct (N.eqb_spec X Y) as [-> |]; [left; congruence|]. auto. }
  specialize (H _ G). cbn [snd fst] in H. now rewrite N.eqb_refl in H.
Qed.
Lemma reduce_6 s X : action_at schema_grammar schema_table s X = Ret (AReduce 6) -> X = 0 \/ X = 25 \/ X = 28.
Proof.
  intros H. apply (reduce_check_ok 6 (fun X => (X =? 0) || (X =? 25) || (X =? 28))) in H.
  - apply orb_true_iff in H as [H | H]; [apply orb_true_iff in H as [H | H]|]; apply N.eqb_eq in H; auto.
  - vm_cast_no_check (eq_refl true).
Qed.
Lemma head_6 : p_head (prod_at schema_grammar 6) = 57.
Proof. vm_cast_no_check (eq_refl 57). Qed.
Lemma row_3 : action_at schema_grammar schema_table 3 25 = Ret (AShift 104) /\ action_at schema_grammar schema_table 3 28 = Ret (AShift 105) /\
  action_at schema_grammar schema_table 3 0 = Ret (ABool true).
Proof. vm_compute. auto. Qed.
Lemma lex_25 w : In 25 (schema_matches w) -> w = [10].
Proof.
  intros H. apply lexes_iff in H. unfold lexes in H. assert (E : rules_of 25 = [LexChar 10]) by (vm_compute; reflexivity). rewrite E in H.
  now apply (lex_char 10).
Qed.
Lemma lex_28 w : In 28 (schema_matches w) -> w = [13].
Proof.
  intros H. apply lexes_iff in H. unfold lexes in H. assert (E : rules_of 28 = [LexChar 13]) by (vm_compute; reflexivity). rewrite E in H.
  now apply (lex_char 13).
Qed.
Lemma types_cr X : In X (schema_matches [13]) -> X = 28.
Proof. intros H. assert (E : schema_matches [13] = [28]) by (vm_compute; reflexivity). rewrite E in H. now destruct H as [<- | []]. Qed.
(** Every terminal that occurs in a production is the type of a token. *)
Definition cover_check (g : grammar) (ms : list N -> list N) (ws : list (list N)) : bool :=
  forallb (fun p => forallb (fun X => negb (memb X (g_terms g)) || existsb (fun w => memb X (ms w)) ws) (p_body p)) (g_prods g).
Lemma cover_check_ok g ms ws p X : cover_check g ms ws = true -> In p (g_prods g) -> In X (p_body p) -> In X (g_terms g) -> exists w, In X (ms w).
Proof.
  unfold cover_check. intros H Hp HX Ht. rewrite forallb_forall in H. specialize (H p Hp). rewrite forallb_forall in H. specialize (H X HX).
  apply (proj2 (memb_iff X (g_terms g))) in Ht. rewrite Ht in H. cbn [negb orb] in H. apply existsb_exists in H as (w & _ & H). exists w. now apply memb_iff.
Qed.
Lemma schema_covered_words p X : In p (g_prods schema_grammar) -> In X (p_body p) -> In X (g_terms schema_grammar) -> exists w, In X (schema_matches w).
Proof. apply (cover_check_ok schema_grammar schema_matches (keyword :: map (fun b => [b]) bytes7)). vm_cast_no_check (eq_refl true). Qed.

Section Schema.
  Variable types : stok -> list N.
  Hypothesis Heof : types SEof = [TokenEnd].
  Hypothesis Hty : forall w X, In X (types (STok w)) <-> In X (schema_matches w).
  Let Hty1 : forall w X, In X (types (STok w)) -> In X (schema_matches w) := fun w X => proj1 (Hty w X).
  Notation ltypes := (fun x : ltok => types (fst x)).
  Lemma schema_covered : covered types schema_grammar.
  Proof.
    intros p X Hp HX Ht. destruct (schema_covered_words p X Hp HX Ht) as (w & Hw). exists (STok w). split; [now apply Hty|].
    intros G. apply Hty1, schema_match_terms in G. now destruct G.
  Qed.
  Lemma end_token x : In TokenEnd (types x) -> x = SEof.
  Proof. destruct x as [|w]; [easy|]. intros H. apply Hty1, schema_match_terms in H. now destruct H. Qed.
  Lemma schema_settled p tk X s s' j : schema_resets p = true -> In X (ltypes tk) -> action_at schema_grammar schema_table s X = Ret (AReduce p) ->
    action_at schema_grammar schema_table s' (p_head (prod_at schema_grammar p)) = Ret (AShift j) ->
    settled ltypes ltext schema_grammar schema_table j tk.
  Proof.
    intros Hr HX Hact Hgo. apply resets_6 in Hr. subst p. rewrite head_6 in Hgo. apply link in Hgo.
    assert (Hj : j = 3).
    { clear -Hgo. unfold link_ok in Hgo. change (57 =? 57) with true in Hgo. cbv iota in Hgo. apply andb_true_iff in Hgo as [_ H].
      apply andb_true_iff in H as [_ H]. now apply N.eqb_eq. }
    subst j. destruct row_3 as (R1 & R2 & R3). apply reduce_6 in Hact. destruct tk as [tk k]. cbn [fst] in *. destruct Hact as [-> | [-> | ->]].
    - right. cbn [fst]. apply end_token in HX. subst tk. split; [exact Heof|exact R3].
    - left. destruct tk as [|w]; [rewrite Heof in HX; now destruct HX as [[=] | []]|]. apply Hty1, lex_25 in HX. subst w. split; [reflexivity|].
      cbn [fst]. intros Y HY. apply Hty1, types_nl in HY. subst Y. eauto.
    - left. destruct tk as [|w]; [rewrite Heof in HX; now destruct HX as [[=] | []]|]. apply Hty1, lex_28 in HX. subst w. split; [reflexivity|].
      cbn [fst]. intros Y HY. apply Hty1, types_cr in HY. subst Y. eauto.
  Qed.

  (** What the text up to some token can become. *)
  Definition schema_sentence (ws : toks) : Prop := sentence types schema_grammar schema_start (map STok ws).
  Definition viable (ws : toks) : Prop := exists r, schema_sentence (ws ++ r).
  Lemma sentence_texts l : Forall (LrParse.plain types) l -> exists ws, l = map STok ws.
  Proof.
    induction l as [|x l IH]; intros H; [now exists []|]. inversion H as [|? ? Hx Hl]; subst. destruct (IH Hl) as (ws & ->).
    destruct x as [|w]; [|now exists (w :: ws)]. exfalso. apply Hx. rewrite Heof. now left.
  Qed.
  Lemma texts_are_plain (ws : toks) : Forall (LrParse.plain types) (map STok ws).
  Proof. apply Forall_forall. intros x Hx. exact (texts_plain types Hty1 ws x Hx). Qed.
  Lemma map_STok_inj a b : map STok a = map STok b -> a = b.
  Proof. revert b. induction a as [|x a IH]; intros [|y b]; cbn; try easy. intros [= -> E]. f_equal. auto. Qed.

  Notation lrule := (tagged_rule (fst : ltok -> stok) schema_rule).
  Notation lparse limit eline := (r_parse ltypes (SEof, eline) ltext snd lrule schema_resets limit schema_grammar schema_table).
  (** The tokens that follow. *)
  Lemma rest_spec : forall rest : list (list N * N), Forall (fun x => schema_token (fst x) /\ types (STok (fst x)) <> []) rest ->
    exists z, rest_tokens ltypes ltext (map (fun x => (STok (fst x), snd x)) rest) = Ret z /\ first_line_of (List.concat (map fst rest)) z.
  Proof.
    induction rest as [|[w k] rest IH]; intros H; [exists []; split; [reflexivity|]; split; [reflexivity|now left]|].
    inversion H as [|? ? [H1 H2] H3]; subst. cbn [map rest_tokens fst snd] in *. unfold ltext at 1. cbn [fst]. rewrite has_newline_breaks.
    destruct (existsb break_byte w) eqn:E.
    - exists []. split; [reflexivity|]. split; [reflexivity|]. right. destruct H1 as [-> | (b & ->)]; [discriminate E|].
      exists b, (List.concat (map fst rest)). split; [reflexivity|]. cbn in E. now rewrite orb_false_r in E.
    - unfold at_end_token. cbn [fst]. destruct (types (STok w)) as [|X r] eqn:Et; [easy|]. cbn [bind].
      destruct (N.eqb_spec X TokenEnd) as [-> | _].
      { exfalso. assert (G : In TokenEnd (types (STok w))) by (rewrite Et; now left). now apply end_token in G. }
      destruct (IH H3) as (z & Ez & Hz1 & Hz2). rewrite Ez. cbn [bind]. exists (w ++ z). split; [reflexivity|].
      split; [now rewrite existsb_app, E, Hz1|]. cbn [List.concat]. destruct Hz2 as [Hz2 | (b & y & Hz2 & Hb)].
      + left. now rewrite Hz2.
      + right. exists b, y. rewrite Hz2, <- app_assoc. auto.
  Qed.
  (** What the report says of a text with the tokens [ws]. *)
  Definition describes (ws : toks) (r : report) : Prop :=
    exists pre, viable pre /\ rp_column r = N.of_nat (List.length (rp_consumed r)) + 1 /\ last_line_of (List.concat pre) (rp_consumed r) /\
    ((exists w post z, ws = pre ++ w :: post /\ ~ viable (pre ++ [w]) /\ rp_token r = w /\ rp_line r = newlines (List.concat (pre ++ [w])) + 1 /\
        (if is_newline w then z = [] else first_line_of (List.concat post) z) /\ rp_rest r = z ++ [10] /\ rp_expected r <> None) \/
     (ws = pre /\ ~ schema_sentence pre /\ rp_token r = [] /\ rp_line r = newlines (List.concat pre) + 1 /\ rp_rest r = [10] /\
      (rp_expected r = None <-> rp_consumed r = []))).

  Lemma row_0 : exists row, row_of schema_table 0 = Some row.
  Proof. assert (E : match row_of schema_table 0 with Some _ => true | None => false end = true) by (vm_compute; reflexivity). destruct (row_of schema_table 0); [eauto|discriminate E]. Qed.
  Definition tagged (ls : list (list N * N)) : list ltok := map (fun x => (STok (fst x), snd x)) ls.
  Lemma tagged_texts ls : map fst (tagged ls) = map STok (map fst ls).
  Proof. unfold tagged. now rewrite !map_map. Qed.
  Lemma tagged_ltext ls : map ltext (tagged ls) = map fst ls.
  Proof. unfold tagged. now rewrite map_map. Qed.
  Lemma tagged_inv l ls a b : tagged ls = a ++ b -> exists la lb, ls = la ++ lb /\ a = tagged la /\ b = tagged lb /\ l = l :> N.
  Proof. unfold tagged. intros H. apply map_eq_app in H. destruct H as (la & lb & -> & <- & <-). now exists la, lb. Qed.
  Theorem schema_report limit steps ls eline alloc arr :
    Forall (fun x => schema_token (fst x) /\ types (STok (fst x)) <> []) ls -> alloc <= limit ->
    (forall p w k q, ls = p ++ (w, k) :: q -> k = newlines (List.concat (map fst p) ++ w)) -> eline = newlines (List.concat (map fst ls)) ->
    exists F, forall wfuel, (F <= wfuel)%nat ->
    let result := lparse limit eline steps wfuel (Some 0) (tagged ls) alloc arr in
    match parse types SEof schema_rule schema_resets limit schema_grammar schema_table steps (Some 0) (map STok (map fst ls)) alloc with
    | Ret (v, al) => exists v', result = Ret (Parsed v' al) /\ vmap fst v' = v
    | Throw => result = Throw \/ exists r, result = Ret (Failed r) /\ describes (map fst ls) r
    | UB => result = UB
    | OutOfFuel => result = OutOfFuel
    end.
  Proof.
    intros Hls Hal Hlines Heline.
    pose proof (run_map (fst : ltok -> stok) types (SEof, eline) schema_rule schema_resets limit schema_grammar schema_table steps (tagged ls) (start_state alloc)) as M.
    change (dmap fst (start_state alloc)) with (start_state (tok := stok) (A := sval) alloc) in M. cbn [fst] in M. rewrite tagged_texts in M.
    rewrite parse_is_run, M. clear M. cbn [r_parse].
    set (st0 := mkRS (tok := ltok) (A := sval) [0] [] None alloc arr).
    pose proof (fun wfuel => loop_forget ltypes (SEof, eline) ltext snd lrule schema_resets limit schema_grammar schema_table wfuel steps (tagged ls) st0) as L.
    change (forget st0) with (start_state (tok := ltok) (A := sval) alloc) in L. unfold r_parse. fold st0.
    destruct (parse_run ltypes (SEof, eline) lrule schema_resets limit schema_grammar schema_table steps (tagged ls) (start_state alloc)) as [[v al|st tk rest]| | |] eqn:Erun;
      unfold omap; cbn [bind emap].
    1: { exists 0%nat. intros wfuel _. exists v. split; [exact (L wfuel)|reflexivity]. }
    2: { exists 0%nat. intros wfuel _. exact (L wfuel). }
    2: { exists 0%nat. intros wfuel _. left. exact (L wfuel). }
    2: { exists 0%nat. intros wfuel _. exact (L wfuel). }
    clear L.
    destruct (generate_rows sfuel scfuel schema_grammar schema_start schema_table (Some 0) schema_wf schema_productive
                (proj1 schema_generated)) as (sets & T1 & T2 & _ & T3).
    assert (Hlt : forall (tk : ltok) X, In X (ltypes tk) -> In X (g_terms schema_grammar)) by (intros x X; apply (types_terms types Heof Hty1)).
    assert (Hpl : Forall (LrParse.plain ltypes) (tagged ls)).
    { apply Forall_forall. intros x Hx. unfold tagged in Hx. apply in_map_iff in Hx. destruct Hx as ([w k] & <- & _). intros G. cbn [fst] in G. now apply end_token in G. }
    destruct (run_reads ltypes (SEof, eline) ltext lrule schema_resets limit scfuel schema_grammar schema_start schema_table sets schema_wf T1 T2 Hlt Heof
                schema_settled snd steps (tagged ls) st0 [] (tagged ls) st tk rest) as (st2 & ts & l' & R1 & R2 & R3 & R4 & R5 & R6 & R7 & R8).
    - split; constructor.
    - now left.
    - exact Hpl.
    - split; [exact Hal|]. left. constructor.
    - intros x Hx. unfold tagged in Hx. apply in_map_iff in Hx. destruct Hx as (y & <- & Hy). rewrite Forall_forall in Hls. apply (Hls y Hy).
    - exact Erun.
    - destruct schema_generated as [Hg (sets1 & gt & Hs & Hc)].
      pose proof (run_map (fst : ltok -> stok) types (SEof, eline) schema_rule schema_resets limit schema_grammar schema_table steps (tagged ls) (start_state alloc)) as M.
      change (dmap fst (start_state alloc)) with (start_state (tok := stok) (A := sval) alloc) in M. cbn [fst] in M. rewrite tagged_texts, Erun in M. unfold omap in M. cbn [bind emap] in M.
      destruct (first_error types SEof sfuel scfuel schema_grammar schema_start schema_table (Some 0) schema_wf Hg (types_terms types Heof Hty1) Heof
                  schema_productive sets1 gt Hs Hc (schema_agree types Heof Hty1) schema_covered schema_rule schema_resets limit steps
                  (map STok (map fst ls)) alloc _ _ _ (texts_are_plain _) M) as (pre & (r & V1 & V2) & V3).
      destruct (reads_walk ltypes (SEof, eline) ltext lrule schema_resets limit scfuel schema_grammar _ _ _ _ R7 R6) as (F & HF). exists F. intros wfuel Hw. right. rewrite R2. clear R2.
      unfold report_error. rewrite R4, (HF wfuel Hw). cbn [bind rev]. rewrite app_nil_r.
      assert (Hrow : exists s ss row, r_states st2 = s :: ss /\ row_of schema_table s = Some row).
      { destruct R3 as [R3 _]. rewrite R1 in R3. cbn [forget d_states] in R3. clear -R3 T3. inversion R3 as [E|s ss ts0 K C tr j H1 H2 H3 H4 H5]; subst.
        - destruct row_0 as (row & Er). exists 0, [], row. auto.
        - destruct (T3 _ _ H4) as (row & Er). exists j, (s :: ss), row. auto. }
      destruct Hrow as (s & ss & row & Es & Er). unfold listed. rewrite Es, Er.
      destruct (sentence_texts r V1) as (rt & ->). cbn [map] in R5. change (consumed []) with (@nil ltok) in R5. cbn [app] in R5.
      destruct R8 as [[R8 ->] | (R8 & -> & ->)].
      + (* at a token *)
        assert (exists la w k lb, ls = la ++ (w, k) :: lb /\ consumed ts = tagged la /\ tk = (STok w, k) /\ rest = tagged lb) as (la & w & k & lb & E1 & E2 & E3 & E4).
        { destruct (tagged_inv 0 ls _ _ R5) as (la & lb & -> & E2 & E3 & _). destruct lb as [|[w k] lb]; [discriminate E3|]. cbn in E3. injection E3 as -> ->.
          exists la, w, k, lb. split; [reflexivity|]. split; [exact E2|]. split; reflexivity. }
        subst tk rest. cbn [fst] in V3.
        destruct V3 as [(V3 & V4 & V5) | (V3 & _)].
        2:{ exfalso. assert (G : In TokenEnd (types (STok w))) by (rewrite V3; left; reflexivity). apply end_token in G. discriminate G. }
        assert (Epre : pre = map STok (map fst la)).
        { rewrite E1, tagged_texts in V4. rewrite map_app in V4. cbn [map fst] in V4. rewrite map_app in V4. cbn [map] in V4.
          apply (app_inv_tail (STok w :: map STok (map fst lb))). rewrite <- V4. reflexivity. }
        assert (Hw1 : schema_token w /\ types (STok w) <> []).
        { rewrite Forall_forall in Hls. apply (Hls (w, k)). rewrite E1. apply in_or_app. right. left. reflexivity. }
        assert (Hlb : Forall (fun x => schema_token (fst x) /\ types (STok (fst x)) <> []) lb).
        { rewrite E1 in Hls. apply Forall_app in Hls as [_ Hls]. clear -Hls. inversion Hls. assumption. }
        destruct (rest_spec lb Hlb) as (z & Ez & Hz).
        assert (Hend : at_end_token ltypes (STok w, k) = Ret false).
        { unfold at_end_token. cbn [fst]. destruct (types (STok w)) as [|X rX] eqn:Et; [destruct Hw1 as [_ Hw1]; elim Hw1; reflexivity|]. f_equal. apply N.eqb_neq. intros ->.
          assert (G : In TokenEnd (types (STok w))) by (rewrite Et; left; reflexivity). apply end_token in G. discriminate G. }
        unfold rest_of_line. rewrite Hend. cbn [bind]. change (ltext (STok w, k)) with w. rewrite has_newline_breaks, orb_false_r.
        fold (tagged lb) in Ez. rewrite Ez. cbn [bind snd].
        assert (Hq : quoted ltext ts = last_line (map fst la)) by (unfold quoted; rewrite E2, tagged_ltext; reflexivity).
        rewrite Hq.
        set (rr := if existsb break_byte w then Ret [10] else Ret (z ++ [10])).
        assert (Err : rr = Ret ((if is_newline w then [] else z) ++ [10])).
        { unfold rr. rewrite (is_newline_breaks w (proj1 Hw1)). destruct (existsb break_byte w); reflexivity. }
        rewrite Err. cbn [bind andb]. eexists. split; [reflexivity|].
        exists (map fst la). split; [exists rt; unfold schema_sentence; rewrite map_app, <- Epre; exact V2|]. cbn [rp_column rp_consumed].
        split; [reflexivity|]. split.
        { apply last_line_tokens. rewrite E1 in Hls. apply Forall_app in Hls as [Hls _]. apply Forall_forall. intros x Hx. apply in_map_iff in Hx.
          destruct Hx as (y & <- & Hy). rewrite Forall_forall in Hls. apply (Hls y Hy). }
        left. exists w, (map fst lb), (if is_newline w then [] else z). cbn [rp_token rp_line rp_rest rp_expected].
        split; [rewrite E1, map_app; reflexivity|]. split.
        { intros (r & Hv). unfold schema_sentence in Hv. rewrite <- app_assoc, map_app in Hv. cbn [app map] in Hv. rewrite <- Epre in Hv.
          exact (V5 (map STok r) (texts_are_plain r) Hv). }
        split; [reflexivity|]. split.
        { rewrite (Hlines la w k lb E1), concat_app. cbn [List.concat]. rewrite app_nil_r. reflexivity. }
        split; [destruct (is_newline w); [reflexivity|exact Hz]|]. split; [reflexivity|discriminate].
      + (* at the end *)
        rewrite app_nil_r in R5. destruct V3 as [(V3 & _) | (V3 & V4 & _ & V5)].
        { exfalso. apply V3. rewrite R8. left. reflexivity. }
        assert (Et : fst tk = SEof) by (apply end_token; rewrite V3; left; reflexivity).
        assert (Htk : tk = (SEof, eline)).
        { assert (G : tk = (SEof, eline) \/ In tk (tagged ls)).
          { apply (run_token ltypes (SEof, eline) lrule schema_resets limit schema_grammar schema_table (fun x => x = (SEof, eline) \/ In x (tagged ls)) (or_introl eq_refl)
                     steps (tagged ls) (start_state alloc) st tk []); [right; assumption|discriminate|exact Erun]. }
          destruct G as [G | G]; [exact G|]. unfold tagged in G. apply in_map_iff in G. destruct G as (y & <- & _). discriminate Et. }
        subst tk. unfold rest_of_line, at_end_token. cbn [fst]. rewrite Heof. change (TokenEnd =? TokenEnd) with true. cbn [bind]. rewrite orb_true_r. cbn [bind snd].
        assert (Hq : quoted ltext ts = last_line (map fst ls)) by (unfold quoted; rewrite <- R5, tagged_ltext; reflexivity).
        rewrite Hq. change (ltext (SEof, eline)) with (@nil N).
        assert (Hll : last_line_of (List.concat (map fst ls)) (last_line (map fst ls))).
        { apply last_line_tokens. apply Forall_forall. intros x Hx. apply in_map_iff in Hx.
          destruct Hx as (y & <- & Hy). rewrite Forall_forall in Hls. apply (Hls y Hy). }
        cbn [andb]. destruct (last_line (map fst ls)) as [|b0 lw] eqn:Ell; cbn [bind]; (eexists; split; [reflexivity|]); exists (map fst ls);
          (split; [exists rt; unfold schema_sentence; rewrite map_app, V4; exact V2|]); cbn [rp_column rp_consumed]; (split; [reflexivity|]); (split; [exact Hll|]); right;
          cbn [rp_token rp_line rp_rest rp_expected]; (split; [reflexivity|]);
          (split; [intros G; apply V5; unfold schema_sentence in G; rewrite <- V4; exact G|]); (split; [reflexivity|]); (split; [rewrite Heline; reflexivity|]); (split; [reflexivity|]); (split; [intros; solve [reflexivity|discriminate]|intros; solve [reflexivity|discriminate]]).
  Qed.
  (** Deciding viability with the parser. *)
  Lemma stops_not_viable {A} (rule : N -> option (list (value stok A) -> out A)) resets limit steps alloc st pre w :
    parse_run types SEof rule resets limit schema_grammar schema_table steps (map STok (pre ++ [w])) (start_state alloc) = Ret (Rejected st (STok w) []) ->
    ~ viable (pre ++ [w]).
  Proof.
    intros E (r & Hr). destruct schema_generated as [Hg (sets & gt & Hs & Hc)].
    destruct (first_error types SEof sfuel scfuel schema_grammar schema_start schema_table (Some 0) schema_wf Hg (types_terms types Heof Hty1) Heof
                schema_productive sets gt Hs Hc (schema_agree types Heof Hty1) schema_covered rule resets limit steps
                (map STok (pre ++ [w])) alloc st (STok w) [] (texts_are_plain (pre ++ [w])) E) as (p & _ & [(_ & Ep & Hn) | (Et & _)]).
    - apply (Hn (map STok r) (texts_are_plain r)). rewrite map_app in Ep. cbn [map] in Ep. apply app_inj_tail in Ep as [<- _].
      unfold schema_sentence in Hr. rewrite <- app_assoc, map_app in Hr. cbn [app map] in Hr. exact Hr.
    - assert (G : In TokenEnd (types (STok w))) by (rewrite Et; left; reflexivity). apply end_token in G. discriminate G.
  Qed.
  Lemma accepted_sentence {A} (rule : N -> option (list (value stok A) -> out A)) resets limit steps alloc v al ws :
    parse_run types SEof rule resets limit schema_grammar schema_table steps (map STok ws) (start_state alloc) = Ret (Accepted v al) -> schema_sentence ws.
  Proof.
    intros E. destruct (schema_parse_sound types Heof Hty1 rule resets limit steps ws alloc v al) as (tr & T1 & T2 & T3 & _).
    - rewrite parse_is_run, E. reflexivity.
    - exists tr. auto.
  Qed.
End Schema.
