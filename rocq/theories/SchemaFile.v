(** SchemaFile.v -- the schema parser's rules look at the text of their last child only; schema files. *)
From Verif Require Import Base LexerModel LexerSpec LogParserModel RingModel RingSpec RegexModel GrammarSpec FirstModel LrModel ParseSpec LrDriver LrSound
  LrParse LrRoom LrSafe SchemaModel SchemaActions SchemaGrammar SchemaTable SchemaSafe SchemaRules SchemaSyntax SchemaReads SchemaMeaning SchemaLexer SchemaSplit
  SchemaRoom PropertiesSchemaText FileModel FileLex FileParse.
Local Open Scope list_scope.
Local Open Scope N_scope.

(** Which child's text a rule looks at. *)
Definition looks (k : srule) : option nat :=
  match k with
  | new_identifier_rule | regex_literal_rule | regex_new_integer_rule => Some 0%nat
  | existing_identifier_rule | regex_cancel_literal_rule | regex_existing_integer_rule => Some 1%nat
  | _ => None
  end.
Definition looks_last (k : srule) (body : list N) : bool :=
  match looks k with Some i => Nat.eqb (length body) (S i) | None => true end.
Lemma looks_check : forallb (fun p => match nth_error schema_rules p with Some k => looks_last k (body_at schema_grammar (N.of_nat p)) | None => true end)
  (seq 0 (length schema_rules)) = true.
Proof. vm_cast_no_check (eq_refl true). Qed.
Notation kid := (value stok sval).
Lemma weak_nth (us vs : list kid) : Forall2 weak us vs -> forall u i,
  nth_error (us ++ [u]) i = nth_error (vs ++ [u]) i \/
  (exists w w', nth_error (us ++ [u]) i = Some (VTok (STok w)) /\ nth_error (vs ++ [u]) i = Some (VTok (STok w')) /\ (i < length us)%nat).
Proof.
  intros H u. induction H as [|x y us vs Hxy H IH]; intros i; [left; reflexivity|].
  destruct i as [|i]; cbn [app nth_error length].
  - destruct x as [[|w]|p a], y as [[|w']|q a']; cbn in Hxy; try contradiction; [right; exists w, w'; split; [reflexivity|split; [reflexivity|lia]]|].
    destruct Hxy as [-> ->]. left. reflexivity.
  - destruct (IH i) as [E | (w & w' & E1 & E2 & L)]; [left; exact E|right]. exists w, w'. split; [exact E1|split; [exact E2|lia]].
Qed.
Lemma ast_weak (us vs : list kid) u i : Forall2 weak us vs -> ast_at (us ++ [u]) i = ast_at (vs ++ [u]) i.
Proof. intros H. unfold ast_at. destruct (weak_nth us vs H u i) as [-> | (w & w' & -> & -> & _)]; reflexivity. Qed.
Lemma regex_weak (us vs : list kid) u i : Forall2 weak us vs -> regex_at (us ++ [u]) i = regex_at (vs ++ [u]) i.
Proof. intros H. unfold regex_at. now rewrite (ast_weak us vs u i H). Qed.
Lemma ident_weak (us vs : list kid) u i : Forall2 weak us vs -> ident_at (us ++ [u]) i = ident_at (vs ++ [u]) i.
Proof. intros H. unfold ident_at. now rewrite (ast_weak us vs u i H). Qed.
Lemma schema_weak (us vs : list kid) u i : Forall2 weak us vs -> schema_at (us ++ [u]) i = schema_at (vs ++ [u]) i.
Proof. intros H. unfold schema_at. now rewrite (ast_weak us vs u i H). Qed.
Lemma delims_weak (us vs : list kid) u i : Forall2 weak us vs -> delims_at (us ++ [u]) i = delims_at (vs ++ [u]) i.
Proof. intros H. unfold delims_at. now rewrite (ast_weak us vs u i H). Qed.
Lemma int_weak (us vs : list kid) u i : Forall2 weak us vs -> int_at (us ++ [u]) i = int_at (vs ++ [u]) i.
Proof. intros H. unfold int_at. now rewrite (regex_weak us vs u i H). Qed.
Lemma group_weak (us vs : list kid) u i : Forall2 weak us vs -> group_at (us ++ [u]) i = group_at (vs ++ [u]) i.
Proof. intros H. unfold group_at. now rewrite (regex_weak us vs u i H). Qed.
Lemma char_weak (us vs : list kid) u i : Forall2 weak us vs -> length us = i -> char_at (us ++ [u]) i = char_at (vs ++ [u]) i.
Proof.
  intros H Hl. unfold char_at, tok_at. destruct (weak_nth us vs H u i) as [-> | (w & w' & _ & _ & L)]; [reflexivity|lia].
Qed.
(** schema_var_rule's token: only its line is used. *)
Lemma skip_weak {X} (us vs : list kid) u i (f : out X) : Forall2 weak us vs -> (do _ <- tok_at (us ++ [u]) i; f) = (do _ <- tok_at (vs ++ [u]) i; f).
Proof. intros H. unfold tok_at. destruct (weak_nth us vs H u i) as [-> | (w & w' & -> & -> & _)]; reflexivity. Qed.
Lemma act_last k (us vs : list kid) u : Forall2 weak us vs -> (forall i, looks k = Some i -> length us = i) -> act k (us ++ [u]) = act k (vs ++ [u]).
Proof.
  intros H Hl.
  destruct k; cbn [act]; cbn [looks] in Hl;
    repeat (first [rewrite (ast_weak us vs u _ H) | rewrite (regex_weak us vs u _ H) | rewrite (ident_weak us vs u _ H) | rewrite (schema_weak us vs u _ H)
      | rewrite (delims_weak us vs u _ H) | rewrite (int_weak us vs u _ H) | rewrite (group_weak us vs u _ H)
      | rewrite (char_weak us vs u _ H (Hl _ eq_refl))]); try reflexivity.
  destruct (ident_at (vs ++ [u]) 1); cbn [bind]; try reflexivity. apply skip_weak. exact H.
Qed.
Lemma rule_last p f (us vs : list kid) u : schema_rule p = Some f -> S (length us) = length (body_at schema_grammar p) -> Forall2 weak us vs ->
  f (us ++ [u]) = f (vs ++ [u]).
Proof.
  intros Hf Hlen H. unfold schema_rule in Hf. destruct (nth_error schema_rules (N.to_nat p)) as [k|] eqn:Ek; [|discriminate].
  assert (f = act k) as -> by (destruct k; congruence).
  apply act_last; [exact H|]. intros i Hi. pose proof looks_check as C. rewrite forallb_forall in C. specialize (C (N.to_nat p)).
  rewrite Ek, N2Nat.id in C. unfold looks_last in C. rewrite Hi in C.
  assert (Hin : In (N.to_nat p) (seq 0 (length schema_rules))).
  { apply in_seq. split; [lia|]. apply nth_error_Some. rewrite Ek. discriminate. }
  specialize (C Hin). apply Nat.eqb_eq in C. lia.
Qed.

(** Leaves that no reduced node with a rule covers: at most as many as no variable line covers. *)
Lemma resets_ruled p : schema_resets p = true -> ruled schema_rule p = true.
Proof. unfold schema_resets, ruled, schema_rule. destruct (nth_error schema_rules (N.to_nat p)) as [[]|]; try discriminate; reflexivity. Qed.
Lemma fresh_less (tr : tree stok) : fresh (ruled schema_rule) tr <= fresh schema_resets tr.
Proof.
  induction tr as [tk X|p ts IH] using tree_ind'; [apply N.le_refl|]. cbn [fresh].
  destruct (ruled schema_rule p) eqn:Er; [destruct (schema_resets p); lia|].
  assert (Es : schema_resets p = false) by (destruct (schema_resets p) eqn:E; [rewrite (resets_ruled p E) in Er; discriminate|reflexivity]). rewrite Es.
  clear Er Es. induction IH as [|x ts Hx _ IHt]; cbn [fold_right]; [lia|]. lia.
Qed.
Lemma fresh_all_less (ts : list (tree stok)) : fresh_all (ruled schema_rule) ts <= fresh_all schema_resets ts.
Proof. induction ts as [|x ts IH]; unfold fresh_all in *; cbn [fold_right]; [lia|]. pose proof (fresh_less x). lia. Qed.
Lemma fresh_all_app f (a b : list (tree stok)) : fresh_all f (a ++ b) = fresh_all f a + fresh_all f b.
Proof. induction a as [|x a IH]; [reflexivity|]. unfold fresh_all in *. cbn [app fold_right]. rewrite IH. lia. Qed.
Lemma fresh_all_consumed f (ts : list (tree stok)) : fresh_all f ts <= N.of_nat (length (consumed ts)).
Proof.
  assert (G : fresh_all f (rev ts) = fresh_all f ts).
  { induction ts as [|x ts IH]; [reflexivity|]. cbn [rev]. rewrite fresh_all_app, IH. unfold fresh_all. cbn [fold_right]. lia. }
  rewrite <- G. unfold consumed. rewrite map_length. generalize (rev ts). clear. intros ts.
  induction ts as [|x ts IH]; unfold fresh_all in *; cbn [fold_right flat_map]; [lia|]. rewrite app_length. pose proof (fresh_yield (fun _ => []) (fun w X (H : In X []) => False_ind _ H) f x). lia.
Qed.

Section Lexer.
  Variable c : lexcfg.
  Hypothesis Hok : lexer_ok c.
  Hypothesis Hsh : shallow c.
  Notation types := (lexer_types c).
  Lemma file_fresh (ws : toks) alloc : room_for ws alloc -> forall ss (ts : list (tree stok)) l, linked types schema_grammar schema_table ss ts ->
    map STok ws = consumed ts ++ l -> 10 * fresh_all (ruled schema_rule) ts <= 20000.
  Proof.
    intros [Hr | [Ho Ha]] ss ts l Hl E.
    - pose proof (fresh_all_consumed (ruled schema_rule) ts) as F. apply (f_equal (@length stok)) in E. rewrite map_length, app_length in E.
      change cSizeOfAllChildren with 10000 in Hr. lia.
    - pose proof (fresh_all_less ts) as F.
      pose proof (schema_fresh types (fun w X => proj1 (lexer_types_ok c Hok w X)) 713 ws ss ts l Ho Hl E). lia.
  Qed.
  (** The schema parser on a file does what it does on the tokens of its bytes. *)
  Theorem file_tokens sf fuel b alloc s br ws : Forall (fun x => x < 256) s -> len s mod cStaticByteBuffSize <> 0 -> splits s ws -> room_for ws alloc ->
    len s + 1 <= N.of_nat sf -> (forall i, i < cStaticByteBuffSize -> exists x, ib_heap b Static i = Some x) ->
    file_parse schema_rule schema_resets cSizeOfAllChildren schema_grammar schema_table c file_fill fuel sf (Some 0) b (mkFile s br) alloc =
    relabel (parse types SEof schema_rule schema_resets cSizeOfAllChildren schema_grammar schema_table fuel (Some 0) (map STok ws) alloc).
  Proof.
    intros Hb Hmod Hs Hr Hsf Hmem. pose proof (file_parse_reader schema_rule schema_resets cSizeOfAllChildren schema_grammar schema_table c sf fuel (Some 0) b alloc (mkFile s br) (len s) (N.le_refl (len s))) as E.
    refine (eq_trans E _). clear E. change (fl_rest (mkFile s br)) with s.
    destruct (generate_rows sfuel scfuel schema_grammar schema_start schema_table (Some 0) schema_wf schema_productive
                (proj1 schema_generated)) as (sets & T1 & T2 & _ & T3).
    apply (file_parse_sim schema_rule schema_resets cSizeOfAllChildren scfuel schema_grammar schema_start schema_table sets schema_wf T1 T2 c s Hok Hsh Hb Hmod
             (types_terms types eq_refl (fun w X => proj1 (lexer_types_ok c Hok w X))) rule_last (map STok ws) (file_fresh ws alloc Hr) (fun _ => len s));
      [intros k; apply N.le_refl|exact Hsf|exact Hmem|exact Hs|reflexivity].
  Qed.
End Lexer.
