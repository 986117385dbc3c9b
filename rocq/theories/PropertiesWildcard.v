(** PropertiesWildcard.v -- C53, C54: Lexer::scan_with_wildcard. *)
From Verif Require Import Base LexerModel LexerSpec LogParserModel EventSpec StreamModel RegexModel RegexSpec RegexProofs RegexLang DfaModel
  SchemaModel SchemaSpec SchemaProofs SchemaPaths SchemaUsable SchemaWords WildcardModel.
From Verif Require Import LexerProofs DfaExact PropertiesSchema SchemaExamples Toy WildcardProofs.
From Coq Require Import String.
Local Open Scope list_scope.
Local Notation length := List.length.

(** The text as the automaton reads it: after the start-of-file character if it was prepended. *)
Definition lead_in (sof : bool) : list N := if sof then [cCharStartOfFile] else [].
(** The text of a search: no newline but, without the start-of-file character, at its beginning. *)
Definition line_text (sof : bool) (w : list N) : Prop := (sof = true -> ~ In cNewline w) /\ ~ In cNewline (tl w).

Lemma search_answer c n sof wildcard b k m w fuel wfuel : wf_cfg c -> states (c_dfa c) n -> stored m w -> line_text sof w ->
  len w < N.of_nat fuel -> (257 * n + 1 < wfuel)%nat ->
  match run (c_dfa c) d_root (lead_in sof) with
  | Some q0 => answer c w (User k) q0 wildcard (if wildcard =? cQuestion then forall x, x < 256 -> reported (c_dfa c) q0 (w ++ [x]) <> []
                      else if wildcard =? cStar then forall v, nondelim c v -> reported (c_dfa c) q0 (w ++ v) <> [] else True)
      (wildcard_search fuel wfuel c sof wildcard b k m (len w))
  | None => wildcard_search fuel wfuel c sof wildcard b k m (len w) = UB
  end.
Proof.
  intros Hwf Hst Hm (Hl1 & Hl2) Hf Hw. set (b0 := ib_set_storage b k m (len w) 0 true).
  assert (Hb : static_buf w (User k) b0).
  { constructor; try reflexivity; cbn; try discriminate; try lia. intros p Hp. unfold heap_set. cbn. rewrite Nat.eqb_refl. apply Hm. exact Hp. }
  assert (Hinv : forall q0 l, (q0 < n)%nat -> l_last_match_pos l = 0 -> l_start_pos l = 0 -> l_line l = 0 -> l_last_match_line l = 0 -> l_match l = false -> winv c w (User k) n q0 q0 l b0).
  { intros q0 l Hq H1 H2 H3 H4 H5. constructor; auto; congruence. }
  assert (Hnl : forall q0, (sof = false -> q0 = d_root) -> forall p, byte_at w p = Some cNewline -> p = 0 /\ q0 = d_root).
  { intros q0 Hq p Hp. destruct (N.eq_dec p 0) as [->|Hne].
    - split; [reflexivity|]. apply Hq. destruct sof; [|reflexivity]. exfalso. apply (Hl1 eq_refl). unfold byte_at in Hp. eapply nth_error_In; exact Hp.
    - exfalso. apply Hl2. unfold byte_at in Hp. replace (N.to_nat p) with (S (N.to_nat (p - 1))) in Hp by lia. destruct w as [|y w']; [discriminate|]. cbn [nth_error tl] in *. eapply nth_error_In; exact Hp. }
  destruct sof; cbn [lead_in run].
  - destruct (d_next (c_dfa c) d_root cCharStartOfFile) as [q0|] eqn:E; unfold wildcard_search, scan_with_wildcard; fold b0; cbn [prepend_sof l_asked l_prev lex_reset]; rewrite E.
    + apply (wild_loop_spec c w (User k) n Hwf Hst wildcard q0 wfuel Hw).
      * apply Hnl. discriminate.
      * apply Hinv; try reflexivity. exact (proj2 Hst _ _ _ E).
      * change (ib_pos b0) with 0. lia.
    + destruct (N.eq_dec (ib_pos b0) (len w)) as [He|He].
      * rewrite (gnc_end _ _ _ Hb He). reflexivity.
      * destruct (byte_at_some w (ib_pos b0)) as (x & Hx); [change (ib_pos b0) with 0 in *; lia|]. rewrite (gnc_byte _ _ _ x Hb Hx). reflexivity.
  - unfold wildcard_search, scan_with_wildcard. fold b0. cbn [l_asked lex_reset l_match].
    apply (wild_loop_spec c w (User k) n Hwf Hst wildcard d_root wfuel Hw).
    * apply Hnl. reflexivity.
    * apply Hinv; try reflexivity. exact (proj1 Hst).
    * change (ib_pos b0) with 0. lia.
Qed.
Lemma lead_run d sof q0 : run d d_root (lead_in sof) = Some q0 -> forall v, run d d_root (lead_in sof ++ v) = run d q0 v.
Proof. intros H v. rewrite run_app, H. reflexivity. Qed.
Lemma lead_reported d sof q0 : run d d_root (lead_in sof) = Some q0 -> forall v, reported d d_root (lead_in sof ++ v) = reported d q0 v.
Proof. intros H v. unfold reported. rewrite (lead_run _ _ _ H). reflexivity. Qed.

(** C53. The search for text w followed by '*', by any lexer with finitely many states, ends; the result is one token that covers the text; it carries the ids reported for the text if the
    text, whatever follows it that is no delimiter, is accepted; else it is static text. The search is undefined (an assertion fails) exactly if the automaton
    cannot read the text. *)
Theorem C53_star : forall c n sof b k m w fuel wfuel,
  wf_cfg c -> states (c_dfa c) n -> stored m w -> line_text sof w -> len w < N.of_nat fuel -> (257 * n + 1 < wfuel)%nat ->
  match wildcard_search fuel wfuel c sof cStar b k m (len w) with
  | Ret (Some tok, _, _) => t_start tok = 0 /\ t_end tok = len w /\ t_sid tok = User k /\
      ((forall v, nondelim c v -> reported (c_dfa c) d_root (lead_in sof ++ w ++ v) <> []) /\ t_ids tok = Some (reported (c_dfa c) d_root (lead_in sof ++ w)) /\ t_line tok = newlines w (len w) \/
       (exists v, nondelim c v /\ reported (c_dfa c) d_root (lead_in sof ++ w ++ v) = []) /\ t_ids tok = Some [TokenUncaughtString] /\ t_line tok = 0) /\
      run (c_dfa c) d_root (lead_in sof ++ w) <> None
  | UB => run (c_dfa c) d_root (lead_in sof ++ w) = None
  | _ => False
  end.
Proof.
  intros c n sof b k m w fuel wfuel Hwf Hst Hm Hl Hf Hw. pose proof (search_answer c n sof cStar b k m w fuel wfuel Hwf Hst Hm Hl Hf Hw) as H.
  destruct (run (c_dfa c) d_root (lead_in sof)) as [q0|] eqn:E.
  2: { rewrite H. rewrite run_app, E. reflexivity. }
  change (cStar =? cQuestion) with false in H. change (cStar =? cStar) with true in H. cbv iota in H.
  rewrite (lead_run _ _ _ E), (lead_reported _ _ _ E).
  assert (HV : forall v, reported (c_dfa c) d_root (lead_in sof ++ w ++ v) = reported (c_dfa c) q0 (w ++ v)) by (intros v; apply lead_reported; exact E).
  destruct (wildcard_search fuel wfuel c sof cStar b k m (len w)) as [[[[tok|] l'] b']| | |]; cbn [answer] in H.
  - destruct H as (R & S1 & S2 & S3 & T). split; [exact S1|]. split; [exact S2|]. split; [exact S3|]. split; [|exact R].
    destruct T as [(T1 & _ & T2 & T3)|(T1 & T2 & T3)]; [left|right]; (split; [|split; [exact T2|exact T3]]).
    + intros v Hv. rewrite HV. exact (T1 v Hv).
    + clear - T1 HV Hst E R Hw.
      destruct (run (c_dfa c) q0 w) as [q|] eqn:R'; [|congruence].
      assert (Hq : (q < n)%nat).
      { assert (X : run (c_dfa c) d_root (lead_in sof ++ w) = Some q) by (rewrite (lead_run _ _ _ E); exact R').
        destruct (lead_in sof ++ w) as [|z u] using rev_ind; [cbn in X; injection X as <-; exact (proj1 Hst)|]. rewrite run_snoc in X. destruct (run (c_dfa c) d_root u); [|discriminate]. exact (proj2 Hst _ _ _ X). }
      pose proof (any_string_start c n Hst q wfuel Hq Hw) as Y.
      assert (RQ : forall v, reported (c_dfa c) q0 (w ++ v) = reported (c_dfa c) q v) by (intros v; unfold reported; rewrite run_app, R'; reflexivity).
      destruct (any_string_loop wfuel c [] [Some q]) as [[|]| | |]; try (destruct Y; fail).
      * exfalso. apply T1. split; [intros v Hv; rewrite RQ; exact (Y v Hv)|]. specialize (Y [] ltac:(intros x [])). rewrite <- RQ, app_nil_r in Y. exact Y.
      * destruct Y as (v & Hv & Y). exists v. split; [exact Hv|]. rewrite HV, RQ. exact Y.
  - exact H.
  - destruct H as [H|(X & _)]; [exact H|discriminate].
  - exact H.
  - exact H.
Qed.
Print Assumptions C53_star.

(** The automaton of a parser built from a schema has finitely many states. *)
Lemma make_parser_states fuel addr sc g : make_parser fuel addr sc = Ret g -> exists n, states (c_dfa (lg_cfg g)) n.
Proof.
  unfold make_parser. intros H. apply bind_Ret in H as (p & Hp & H). apply bind_Ret in H as (A & HA & H). apply bind_Ret in H as (f & Hf & [= <-]).
  destruct (nfa_to_dfa_run addr A (nfa_of_rules_bytes _ _ HA)) as (F & HF). destruct (HF (Nat.max F fuel) ltac:(lia)) as (f' & Hf' & Hs & _).
  rewrite (nfa_to_dfa_mono _ (Nat.max F fuel) _ _ _ Hf) in Hf' by lia. injection Hf' as <-. exists (length (f_states f)). exact Hs.
Qed.

(** C53 for a schema: nothing is assumed of the lexer. The search with '*' ends (the search over the automaton needs a number of steps that depends on the schema only);
    it returns the text with the ids of exactly the rules of which it is a word if whatever may follow it that is no delimiter leaves it a word of some rule; else static text. *)
Theorem C53_schema_star : forall F addr sc g, make_parser F addr sc = Ret g -> legal sc -> faithful_schema sc ->
  exists W, forall sof b k m w fuel wfuel, stored m w -> line_text sof w -> len w < N.of_nat fuel -> (W < wfuel)%nat ->
  let word i u := schema_word sc (c_delim (lg_cfg g)) (get_symbol_id g) i (lead_in sof ++ u) in
  match wildcard_search fuel wfuel (lg_cfg g) sof cStar b k m (len w) with
  | Ret (Some tok, _, _) => t_start tok = 0 /\ t_end tok = len w /\
      ((forall v, nondelim (lg_cfg g) v -> exists i, word i (w ++ v)) /\ (exists ids, t_ids tok = Some ids /\ forall i, In i ids <-> word i w) \/
       (exists v, nondelim (lg_cfg g) v /\ forall i, ~ word i (w ++ v)) /\ t_ids tok = Some [TokenUncaughtString])
  | UB => forall i v, ~ word i (w ++ v)
  | _ => False
  end.
Proof.
  intros F addr sc g Hg HL Hf. destruct (make_parser_states _ _ _ _ Hg) as (n & Hn). exists (257 * n + 1)%nat.
  intros sof b k m w fuel wfuel Hm Hl Hfu Hw word. pose proof (C01_schema_usable _ _ _ _ Hg HL) as Hus.
  assert (W : forall i u, In i (reported (c_dfa (lg_cfg g)) d_root (lead_in sof ++ u)) <-> word i u) by (intros i u; exact (C13_schema_words _ _ _ _ _ _ Hg HL Hf)).
  assert (W0 : forall u, reported (c_dfa (lg_cfg g)) d_root (lead_in sof ++ u) = [] <-> forall i, ~ word i u).
  { intros u. split; [intros E i Hi; apply W in Hi; rewrite E in Hi; destruct Hi|]. intros H. destruct (reported _ _ _) as [|i ids] eqn:E; [reflexivity|]. exfalso. apply (H i). apply W. rewrite E. left. reflexivity. }
  pose proof (C53_star (lg_cfg g) n sof b k m w fuel wfuel (us_wf _ _ Hus) Hn Hm Hl Hfu Hw) as H.
  destruct (wildcard_search _ _ _ _ _ _ _ _ _) as [[[[tok|] l'] b']| | |]; [| |intros i v Hi|exact H|exact H].
  - destruct H as (S1 & S2 & _ & T & _). split; [exact S1|]. split; [exact S2|]. destruct T as [(T1 & T2 & _)|((v & Hv & T1) & T2 & _)].
    + left. split; [|eexists; split; [exact T2|intros i; apply W]]. intros v Hv. specialize (T1 v Hv). destruct (reported _ _ _) as [|i ids] eqn:E; [congruence|]. exists i. apply W. rewrite E. left. reflexivity.
    + right. split; [|exact T2]. exists v. split; [exact Hv|]. apply W0. exact T1.
  - exact H.
  - apply W in Hi. unfold reported in Hi. rewrite app_assoc, run_app, H in Hi. destruct Hi.
Qed.
Print Assumptions C53_schema_star.

(** C54. The wildcard '?', any lexer: a token covers the text; with ids they are those of the text and every byte that may follow is accepted. But the search is undefined not only if
    the automaton cannot read the text: also if there is a byte that it cannot read after the text. *)
Theorem C54_question_partial : forall c n sof b k m w fuel wfuel,
  wf_cfg c -> states (c_dfa c) n -> stored m w -> line_text sof w -> len w < N.of_nat fuel -> (257 * n + 1 < wfuel)%nat ->
  match wildcard_search fuel wfuel c sof cQuestion b k m (len w) with
  | Ret (Some tok, _, _) => t_start tok = 0 /\ t_end tok = len w /\
      ((forall x, x < 256 -> reported (c_dfa c) d_root (lead_in sof ++ w ++ [x]) <> []) /\ reported (c_dfa c) d_root (lead_in sof ++ w) <> [] /\ t_ids tok = Some (reported (c_dfa c) d_root (lead_in sof ++ w)) \/
       ~ ((forall x, x < 256 -> reported (c_dfa c) d_root (lead_in sof ++ w ++ [x]) <> []) /\ reported (c_dfa c) d_root (lead_in sof ++ w) <> []) /\ t_ids tok = Some [TokenUncaughtString])
  | UB => exists u, (u = [] \/ exists x, x < 256 /\ u = [x]) /\ run (c_dfa c) d_root (lead_in sof ++ w ++ u) = None
  | _ => False
  end.
Proof.
  intros c n sof b k m w fuel wfuel Hwf Hst Hm Hl Hf Hw. pose proof (search_answer c n sof cQuestion b k m w fuel wfuel Hwf Hst Hm Hl Hf Hw) as H.
  destruct (run (c_dfa c) d_root (lead_in sof)) as [q0|] eqn:E.
  2: { rewrite H. exists []. split; [left; reflexivity|]. rewrite run_app, E. reflexivity. }
  change (cQuestion =? cQuestion) with true in H. cbv iota in H. rewrite (lead_reported _ _ _ E).
  assert (HV : forall v, reported (c_dfa c) d_root (lead_in sof ++ w ++ v) = reported (c_dfa c) q0 (w ++ v)) by (intros v; apply lead_reported; exact E).
  destruct (wildcard_search fuel wfuel c sof cQuestion b k m (len w)) as [[[[tok|] l'] b']| | |]; cbn [answer] in H.
  - destruct H as (R & S1 & S2 & S3 & T). split; [exact S1|]. split; [exact S2|].
    destruct T as [(T1 & T4 & T2 & T3)|(T1 & T2 & T3)]; [left|right].
    + split; [intros x Hx; rewrite HV; exact (T1 x Hx)|]. split; [exact T4|exact T2].
    + split; [|exact T2]. intros (X & Y). apply T1. split; [|exact Y]. intros x Hx. rewrite <- HV. exact (X x Hx).
  - exact H.
  - destruct H as [H|(_ & x & Hx & H)].
    + exists []. split; [left; reflexivity|]. rewrite app_nil_r, (lead_run _ _ _ E). exact H.
    + exists [x]. split; [right; exists x; auto|]. rewrite (lead_run _ _ _ E). exact H.
  - exact H.
  - exact H.
Qed.
Print Assumptions C54_question_partial.

(** So, with a schema without timestamps, a search with '?' never recognises a variable: for no text that the automaton reads at all is there a token with ids. *)
Theorem C54_question_useless : forall F addr sc g, make_parser F addr sc = Ret g -> legal sc -> (forall r, ~ In (cTimestamp, r) (sc_vars sc)) ->
  exists W, forall sof b k m w fuel wfuel tok l' b', stored m w -> line_text sof w -> lead_in sof ++ w <> [] -> len w < N.of_nat fuel -> (W < wfuel)%nat ->
  wildcard_search fuel wfuel (lg_cfg g) sof cQuestion b k m (len w) = Ret (Some tok, l', b') -> t_ids tok = Some [TokenUncaughtString].
Proof.
  intros F addr sc g Hg HL Hts. destruct (make_parser_states _ _ _ _ Hg) as (n & Hn). exists (257 * n + 1)%nat.
  intros sof b k m w fuel wfuel tok l' b' Hm Hl Hne Hfu Hw Hr. pose proof (C01_schema_usable _ _ _ _ Hg HL) as Hus.
  pose proof (C54_question_partial (lg_cfg g) n sof b k m w fuel wfuel (us_wf _ _ Hus) Hn Hm Hl Hfu Hw) as H. rewrite Hr in H.
  destruct H as (_ & _ & [(H & _)|(_ & H)]); [exfalso|exact H].
  destruct (make_parser_built _ _ _ _ Hg) as (p & A & ds & ns & HB). pose proof (b_sof _ _ _ _ _ _ HB) as Hd.
  specialize (H cCharStartOfFile ltac:(unfold cCharStartOfFile; lia)). unfold reported in H. rewrite app_assoc in H.
  destruct (lead_in sof ++ w) as [|x v]; [congruence|]. destruct (run (c_dfa (lg_cfg g)) d_root ((x :: v) ++ [cCharStartOfFile])) as [q|] eqn:E; [|congruence].
  destruct (b_stops _ _ _ _ _ _ HB HL x (v ++ [cCharStartOfFile]) q cCharStartOfFile E) as ((r & X) & _); [apply in_app_iff; right; left; reflexivity|exact Hd|exact (Hts _ X)].
Qed.
Print Assumptions C54_question_useless.

(** Non-vacuity, with the schema of SchemaExamples.v (int:[0-9]+, kv:k.+): " kx" and '*' is a kv; " 12" and '*' is static text, because of " 12x"; " k" with '*'
    is static text as well, as a kv needs one more byte; for "k" it is undefined, as no rule begins so. *)
Definition ids_found (r : scan_res) : option (option (list N)) := match r with Ret (Some tok, _, _) => Some (t_ids tok) | _ => None end.
Example C53_example : match make_parser 100 N.of_nat ex_schema with
  | Ret g => let find w := ids_found (wildcard_search 10 8000 (lg_cfg g) false cStar (lp_in (bp_lp (bp_init 9))) 0 (buf_of w) (len w)) in
      get_symbol_id g "kv" = Some 8 /\ find [32; 107; 120] = Some (Some [8]) /\ find [32; 49; 50] = Some (Some [TokenUncaughtString]) /\
      find [32; 107] = Some (Some [TokenUncaughtString]) /\ find [107] = None
  | _ => False
  end.
Proof. vm_compute. auto 10. Qed.

(** '?' is refuted: for " kx" every byte that is no delimiter may follow, and one that is ends the variable: the search dereferences a null pointer. *)
Theorem C54_refuted : exists sc g, make_parser 100 N.of_nat sc = Ret g /\ legal sc /\ faithful_schema sc /\
  (forall v, nondelim (lg_cfg g) v -> reported (c_dfa (lg_cfg g)) d_root ([32; 107; 120] ++ v) <> []) /\
  wildcard_search 10 8000 (lg_cfg g) false cQuestion (lp_in (bp_lp (bp_init 9))) 0 (buf_of [32; 107; 120]) 3 = UB.
Proof.
  destruct (make_parser 100 N.of_nat ex_schema) as [g| | |] eqn:E; [|exfalso; vm_compute in E; discriminate ..].
  exists ex_schema, g. split; [exact E|]. split; [exact (proj1 ex_legal)|]. split; [exact (proj1 ex_faithful)|]. split.
  - intros v Hv. assert (I : get_symbol_id g "kv" = Some 8 /\ c_delim (lg_cfg g) 32 = true /\ c_delim (lg_cfg g) 120 = false).
    { pose proof E as E'. vm_compute in E'. injection E' as <-. vm_compute. auto. }
    destruct I as (I1 & I2 & I3). intros X.
    assert (W : schema_word ex_schema (c_delim (lg_cfg g)) (get_symbol_id g) 8 (32 :: [107] ++ 120 :: v)).
    { apply (sw_var _ _ _ "kv"%string (RCat (RLit 107) (RMult dot 1 0))); [right; left; reflexivity|discriminate|exact I1|exact I2|].
      cbn [star_as_plus var_matches]. exists [107], (120 :: v). split; [reflexivity|]. split; [split; [reflexivity|unfold cSizeOfByte; lia]|].
      assert (G : forall u, nondelim (lg_cfg g) u -> l_pow (fun w => exists b, w = [b] /\ b < cSizeOfByte /\ c_delim (lg_cfg g) b = false) (length u) u).
      { induction u as [|z u IHu]; intros Hu; [reflexivity|]. cbn [length l_pow]. exists [z], u. split; [reflexivity|]. split; [exists z; split; [reflexivity|apply Hu; left; reflexivity]|].
        apply IHu. intros y Hy. apply Hu. right. exact Hy. }
      exists (length (120 :: v)). split; [apply G; intros y [<-|Hy]; [split; [lia|exact I3]|apply Hv, Hy]|]. cbn [length]. split; [lia|left; reflexivity]. }
    apply (C13_schema_words _ _ _ _ _ _ E (proj1 ex_legal) (proj1 ex_faithful)) in W. change ([32; 107; 120] ++ v) with (32 :: [107] ++ 120 :: v) in X. rewrite X in W. destruct W.
  - pose proof E as E'. vm_compute in E'. injection E' as <-. vm_compute. reflexivity.
Qed.
Print Assumptions C54_refuted.
