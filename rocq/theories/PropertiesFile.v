(** PropertiesFile.v -- C59: SchemaParser::try_schema_file on files of any length, read through the ring buffer while the parser runs. The
    specification is that of C51 (schema_string: SchemaSyntax.v, SchemaSplit.v). *)
From Verif Require Import Base LexerModel LexerSpec LogParserModel RingModel RegexModel GrammarSpec LrModel ParseSpec LrDriver SchemaModel
  SchemaActions SchemaGrammar SchemaTable SchemaSafe SchemaRules SchemaSyntax SchemaReads SchemaMeaning SchemaLexer SchemaSplit SchemaRoom PropertiesSchemaText
  LrSound LrTable LrSets FileModel FileLex FileParse SchemaFile FileMultiple.
From Coq Require Import Ascii String.
Local Open Scope list_scope.
Local Open Scope N_scope.

(** The input buffer's own storage, whatever is in it. *)
Definition storage_exists (b : ibuf) : Prop := forall i, i < cStaticByteBuffSize -> exists x, ib_heap b Static i = Some x.

(** ** An empty file. *)
Lemma empty_scan c sf b : exists tk l, scan (S sf) c lex_reset (ib_set_fin (ib_reset b) true) = Ret (Some tk, l, ib_set_full (ib_set_fin (ib_reset b) true) true) /\
  t_ids tk = Some [TokenEnd] \/ is_accepting (c_dfa c) d_root = true.
Proof.
  destruct (is_accepting (c_dfa c) d_root) eqn:Ea; [exists (mkToken 0 0 Static 0 0 None), lex_reset; right; reflexivity|].
  eexists _, _. left. unfold scan. cbn [l_asked l_match lex_reset]. cbn [scan_loop].
  change (get_next_character (ib_set_fin (ib_reset b) true)) with (Ret (Some (cCharEOF, ib_set_full (ib_set_fin (ib_reset b) true) true))). cbv beta iota.
  rewrite Ea, Bool.andb_false_r. change (cCharEOF =? cNewline) with false. cbn [bind].
  change (ib_full (ib_set_full (ib_set_fin (ib_reset b) true) true)) with true. cbv beta iota. split; reflexivity.
Qed.
Lemma root_silent c : lexer_ok c -> is_accepting (c_dfa c) d_root = false.
Proof. intros H. unfold is_accepting. now rewrite (split_root c H). Qed.
Lemma start_refuses : action_at schema_grammar schema_table 0 TokenEnd = Ret (ABool false).
Proof. vm_compute. reflexivity. Qed.
Lemma empty_file c sf fuel b br alloc : lexer_ok c ->
  file_parse schema_rule schema_resets cSizeOfAllChildren schema_grammar schema_table c file_fill (S fuel) (S sf) (Some 0) b (mkFile [] br) alloc = Throw.
Proof.
  intros Hok. cbn [file_parse file_loop]. change (file_fill (ib_reset b) (mkFile [] br)) with (ib_set_fin (ib_reset b) true, mkFile [] br).
  cbv beta iota. unfold file_next. cbn [LrDriver.d_next].
  destruct (empty_scan c sf b) as (tk & l & [(E & Et) | E]); [|rewrite (root_silent c Hok) in E; discriminate].
  rewrite E. cbn [bind]. rewrite Et. cbn [file_advance]. unfold file_symbol. cbn [d_states]. rewrite start_refuses. reflexivity.
Qed.
Lemma empty_no_schema : forall vars delims, ~ schema_text [] vars delims.
Proof.
  assert (G : forall w vars delims, schema_text w vars delims -> w <> []).
  { intros w vars delims H. induction H as [w H|w n r H|w d H|w vs ds b H IH Hb|w vs ds b c H IH Hb Hc|w vs ds b v n r H IH Hb Hv|w vs ds b d cs H IH Hb Hd];
      try discriminate.
    - destruct H. intros E. apply app_eq_nil in E as [_ E]. apply app_eq_nil in E as [_ E]. discriminate E.
    - intros E. apply app_eq_nil in E as [E _]. contradiction.
    - intros E. apply app_eq_nil in E as [E _]. contradiction.
    - intros E. apply app_eq_nil in E as [E _]. contradiction.
    - intros E. apply app_eq_nil in E as [E _]. contradiction. }
  intros vars delims H. exact (G _ _ _ H eq_refl).
Qed.

(** ** C59. try_schema_file makes of a file exactly what C51 says of its bytes, for files of any length that is no positive multiple of 48000,
    whatever the parser's buffer was used for before and in whatever order the heap allocates the NFA's states. *)
Theorem C59_schema_file_partial : forall addr, exists F, forall dfuel, (F <= dfuel)%nat ->
  forall fuel pfuel b alloc f ws,
    Forall (fun x => x < 256) (fl_rest f) -> (len (fl_rest f) mod cStaticByteBuffSize <> 0 \/ fl_rest f = []) -> splits (fl_rest f) ws -> room_for ws alloc ->
    storage_exists b -> len (fl_rest f) + 1 <= N.of_nat fuel -> 7 * len (fl_rest f) + 1 < N.of_nat pfuel ->
  let result := try_schema_file dfuel fuel pfuel addr b alloc (Some f) in
  (forall sch, (exists al, result = Ret (Some sch, al)) <-> schema_string (fl_rest f) sch) /\
  match result with
  | Ret (Some _, _) => True
  | Ret (None, _) => False
  | Throw => True
  | UB => exists m, infix m ws /\ bad m
  | OutOfFuel => False
  end.
Proof.
  intros addr. destruct (schema_lexer_shallow addr) as (F & HF). exists F. intros dfuel Hd. destruct (HF dfuel Hd) as (c & Ec & Hok & Hsh).
  intros fuel pfuel b alloc [s br] ws Hb Hmod Hs Hr Hm H1 H2 result. cbn [fl_rest] in *. unfold result, try_schema_file. rewrite Ec. cbn [bind].
  rewrite (proj1 schema_generated). cbn [bind]. clear Ec result.
  destruct (list_eq_dec N.eq_dec s []) as [-> | Hne].
  - destruct fuel as [|fuel]; [cbn in H1; lia|]. destruct pfuel as [|pfuel]; [cbn in H2; lia|]. rewrite (empty_file c fuel pfuel b br alloc Hok). cbn [bind].
    split; [|exact Logic.I]. intros sch. split; [intros (al & [=])|]. intros (ws2 & vars & delims & S1 & S2 & _). exfalso.
    assert (ws2 = []) as -> by (apply (splits_unique [] ws2 []); [exact S1|constructor]). exact (empty_no_schema _ _ S2).
  - destruct Hmod as [Hmod | Hmod]; [|contradiction].
    rewrite (file_tokens c Hok Hsh fuel pfuel b alloc s br ws Hb Hmod Hs Hr H1 Hm).
    assert (Hn : (7 * N.of_nat (List.length ws) + 1 < N.of_nat pfuel)) by (pose proof (splits_length _ _ Hs); unfold len in *; lia).
    destruct (C50_schema_tokens (lexer_types c) eq_refl (lexer_types_ok c Hok) pfuel ws alloc Hr Hn) as [M1 M2].
    destruct (parse (lexer_types c) SEof schema_rule schema_resets cSizeOfAllChildren schema_grammar schema_table pfuel (Some 0) (map STok ws) alloc)
      as [[v al]| | |]; cbn [relabel bind].
    + destruct M2 as (p & vars & delims & ->). cbn [relabel bind]. split; [|exact Logic.I]. intros sch. split.
      * intros (al' & [= <- <-]). exists ws, vars, delims. split; [exact Hs|]. split; [|reflexivity]. apply M1. eauto.
      * intros (ws2 & vars2 & delims2 & S1 & S2 & ->). rewrite (splits_unique _ _ _ S1 Hs) in S2. apply M1 in S2.
        destruct S2 as (p2 & al2 & [= _ <- <- _]). eauto.
    + split; [|exact M2]. intros sch. split; [intros (al & [=])|].
      intros (ws2 & vars2 & delims2 & S1 & S2 & ->). rewrite (splits_unique _ _ _ S1 Hs) in S2. apply M1 in S2. destruct S2 as (p2 & al2 & [=]).
    + split; [|exact Logic.I]. intros sch. split; [intros (al & [=])|].
      intros (ws2 & vars2 & delims2 & S1 & S2 & ->). rewrite (splits_unique _ _ _ S1 Hs) in S2. apply M1 in S2. destruct S2 as (p2 & al2 & [=]).
    + contradiction.
Qed.
Print Assumptions C59_schema_file_partial.
(** A file that cannot be opened is an exception. *)
Theorem C59_missing_file : forall dfuel fuel pfuel addr b alloc, try_schema_file dfuel fuel pfuel addr b alloc None = Throw.
Proof. reflexivity. Qed.
(** Refuted: a file whose length is a positive multiple of 48000 is never accepted, whatever is in it. *)
Definition accepts_check (t : table) : bool :=
  forallb (fun ia => forallb (fun e => match snd e with ABool true => fst e =? TokenEnd | _ => true end) (snd ia)) t.
Lemma schema_accepts_check : accepts_check schema_table = true.
Proof. vm_cast_no_check (eq_refl true). Qed.
Lemma accepts_end t : accepts_check t = true -> forall g s X, action_at g t s X = Ret (ABool true) -> X = TokenEnd.
Proof.
  intros H g s X Ha. unfold action_at in Ha. destruct (row_of t s) as [row|] eqn:Er; [|discriminate]. destruct (g_nsym g <=? X); [discriminate|].
  injection Ha as Ha. apply row_of_in in Er. unfold accepts_check in H. rewrite forallb_forall in H. specialize (H _ Er). cbn [snd fst] in H.
  rewrite forallb_forall in H.
  assert (G : In (X, ABool true) row).
  { clear -Ha. unfold act_at in Ha. induction row as [|[Y b] row IH]; cbn in *; [discriminate|].
    destruct (X =? Y) eqn:E; [apply N.eqb_eq in E; left; congruence|]. auto. }
  specialize (H _ G). cbn [snd fst] in H. now apply N.eqb_eq in H.
Qed.
Lemma reports_no_end c : lexer_ok c -> forall w, ~ In TokenEnd (reported (c_dfa c) d_root w).
Proof. intros H w G. apply (lo_reports c H) in G. apply schema_match_terms in G as [_ G]. apply G. reflexivity. Qed.
Lemma file_never c sf fuel b f alloc v : lexer_ok c -> fl_rest f <> [] -> len (fl_rest f) mod cStaticByteBuffSize = 0 ->
  file_parse schema_rule schema_resets cSizeOfAllChildren schema_grammar schema_table c file_fill fuel sf (Some 0) b f alloc <> Ret v.
Proof.
  intros Hok Hne Hmod.
  assert (D : len (fl_rest f) = 48000 * (len (fl_rest f) / 48000)).
  { pose proof (N.div_mod (len (fl_rest f)) 48000 ltac:(discriminate)) as D. change cStaticByteBuffSize with 48000 in Hmod. rewrite Hmod, N.add_0_r in D. exact D. }
  assert (K : 0 < len (fl_rest f) / 48000).
  { destruct (N.eq_0_gt_0_cases (len (fl_rest f) / 48000)) as [Z | Z]; [|exact Z]. rewrite Z, N.mul_0_r in D. exfalso. apply Hne. revert D. unfold len.
    destruct (fl_rest f); [reflexivity|discriminate]. }
  exact (parse_never c (lo_delims c Hok) (reports_no_end c Hok) schema_rule schema_resets cSizeOfAllChildren schema_grammar schema_table
           (accepts_end _ schema_accepts_check schema_grammar) sf fuel (Some 0) b f alloc v _ D K).
Qed.
Theorem C59_multiple : forall addr, exists F, forall dfuel, (F <= dfuel)%nat ->
  forall fuel pfuel b alloc f, fl_rest f <> [] -> len (fl_rest f) mod cStaticByteBuffSize = 0 ->
  forall sch, try_schema_file dfuel fuel pfuel addr b alloc (Some f) <> Ret sch.
Proof.
  intros addr. destruct (schema_lexer_shallow addr) as (F & HF). exists F. intros dfuel Hd. destruct (HF dfuel Hd) as (c & Ec & Hok & Hsh).
  intros fuel pfuel b alloc f Hne Hmod sch. unfold try_schema_file. rewrite Ec. cbn [bind].
  rewrite (proj1 schema_generated). cbn [bind]. pose proof (fun v => file_never c fuel pfuel b f alloc v Hok Hne Hmod) as N.
  destruct (file_parse schema_rule schema_resets cSizeOfAllChildren schema_grammar schema_table c file_fill pfuel fuel (Some 0) b f alloc) as [[v al]| | |];
    cbn [bind]; [elim (N _ eq_refl)|discriminate|discriminate|discriminate].
Qed.
Print Assumptions C59_multiple.
(** Refuted: an I/O error is taken for the end of the file. *)
Theorem C59_io_error : forall dfuel fuel pfuel addr b alloc s,
  try_schema_file dfuel fuel pfuel addr b alloc (Some (mkFile s true)) = try_schema_file dfuel fuel pfuel addr b alloc (Some (mkFile s false)).
Proof.
  intros. unfold try_schema_file. destruct (schema_lexer dfuel addr) as [c| | |]; cbn [bind]; [|reflexivity|reflexivity|reflexivity].
  destruct (generate sfuel scfuel schema_grammar) as [[t root]| | |]; cbn [bind]; [|reflexivity|reflexivity|reflexivity].
  assert (E : file_parse schema_rule schema_resets cSizeOfAllChildren schema_grammar t c file_fill pfuel fuel root b (mkFile s true) alloc =
              file_parse schema_rule schema_resets cSizeOfAllChildren schema_grammar t c file_fill pfuel fuel root b (mkFile s false) alloc).
  { refine (eq_trans (file_parse_reader schema_rule schema_resets cSizeOfAllChildren schema_grammar t c fuel pfuel root b alloc (mkFile s true) (len s) (N.le_refl (len s))) _).
    symmetry. exact (file_parse_reader schema_rule schema_resets cSizeOfAllChildren schema_grammar t c fuel pfuel root b alloc (mkFile s false) (len s) (N.le_refl (len s))). }
  rewrite E. reflexivity.
Qed.
Print Assumptions C59_io_error.

(** ** Examples. *)
Definition used_buffer : ibuf := mkIbuf (fun s i => match s with Static => Some 97 | _ => None end) Static 0%nat cStaticByteBuffSize 500 700 true true false 3.
Example used_storage : storage_exists used_buffer.
Proof. intros i _. exists 97. reflexivity. Qed.
(** A file of three lines, run. *)
Definition run_file (f : file) : out (option schema * N) :=
  do c <- schema_lexer 300 N.of_nat;
  do (v, al) <- file_parse schema_rule schema_resets cSizeOfAllChildren schema_grammar schema_table c file_fill (N.to_nat 2000) (N.to_nat 2000) (Some 0) used_buffer f 0;
  match v with
  | VNt _ (Some (VSchema vars delims)) => Ret (Some (schema_of vars delims), al)
  | _ => Ret (None, al)
  end.
Lemma run_file_is f : try_schema_file 300 (N.to_nat 2000) (N.to_nat 2000) N.of_nat used_buffer 0 (Some f) = run_file f.
Proof. unfold try_schema_file, run_file. now rewrite (proj1 schema_generated). Qed.
Example C59_example : exists al, run_file (mkFile (lines ["// c"; "delimiters: ,"; "t:a|b"]%string) false) =
  Ret (Some (mkSchema [[32; 44]] [("t"%string, ROr (RLit 97) (RLit 98))]), al).
Proof. eexists. vm_compute. reflexivity. Qed.
(** After an I/O error in the third line, half of it is silently taken for the whole. *)
Example C59_example_io : exists al, run_file (mkFile (lines ["// c"; "delimiters: ,"]%string ++ codes "t:a") true) =
  Ret (Some (mkSchema [[32; 44]] [("t"%string, RLit 97)]), al).
Proof. eexists. vm_compute. reflexivity. Qed.
(** A file of k + 1 lines a:b, for any k. *)
Definition ab : list N := [97; 58; 98].
Definition abs (k : nat) : list N := ab ++ List.concat (repeat (10 :: ab) k) ++ [10].
Lemma abs_variable : variable (chars (ab)) [97] (RLit 98).
Proof.
  apply (var_line 0 [[97]] [97] [[98]] (RLit 98)).
  - split; [discriminate|]. split; [|reflexivity]. constructor; [|constructor]. unfold alnum. lia.
  - apply pat_one, alt_one, rep_once, prim_literal, lit_plain. left. unfold alnum. lia.
Qed.
Lemma abs_text k : schema_text (chars (abs k)) (repeat ([97], RLit 98) (S k)) [].
Proof.
  unfold abs, chars. rewrite app_assoc, map_app. apply sch_empty_line; [|left; reflexivity].
  induction k as [|k IH].
  - cbn [repeat List.concat]. rewrite app_nil_r. apply sch_variable, abs_variable.
  - replace (repeat (10 :: ab) (S k)) with (repeat (10 :: ab) k ++ [10 :: ab]) by (rewrite <- repeat_cons; reflexivity).
    rewrite concat_app, app_assoc, map_app. replace (repeat ([97], RLit 98) (S (S k))) with (repeat ([97], RLit 98) (S k) ++ [([97], RLit 98)]) by (rewrite <- repeat_cons; reflexivity).
    exact (sch_more_variable _ _ _ [[10]] _ _ _ IH (or_introl eq_refl) abs_variable).
Qed.
Lemma abs_bytes k : Forall (fun x => In x [97; 58; 98; 10]) (abs k).
Proof.
  unfold abs. apply Forall_app. split; [repeat (apply Forall_cons; [cbn; auto 6|]); apply Forall_nil|]. apply Forall_app. split; [|repeat (apply Forall_cons; [cbn; auto 6|]); apply Forall_nil].
  induction k as [|k IH]; cbn [repeat List.concat]; [constructor|]. apply Forall_app. split; [repeat (apply Forall_cons; [cbn; auto 6|]); apply Forall_nil|exact IH].
Qed.
Lemma abs_len k : len (abs k) = 4 * N.of_nat (S k).
Proof.
  unfold abs, len. rewrite !app_length.
  assert (G : List.length (List.concat (repeat (10 :: ab) k)) = (4 * k)%nat).
  { induction k as [|k IH]; cbn [repeat List.concat]; [reflexivity|]. rewrite app_length, IH. cbn. lia. }
  rewrite G. cbn. lia.
Qed.
Lemma plain_splits s : Forall (fun x => x <> 100) s -> splits s (chars s).
Proof. induction 1 as [|x s Hx H IH]; [constructor|]. cbn. constructor; [|exact IH]. intros r E. injection E as E _. contradiction. Qed.
Lemma abs_splits k : splits (abs k) (chars (abs k)).
Proof. apply plain_splits. eapply Forall_impl; [|apply abs_bytes]. cbn. intros x H ->. intuition discriminate. Qed.
(** A checker for often that stops early. *)
Fixpoint soon_nl (m : toks) : bool := match m with [] => false | x :: r => if teq [10] x then true else soon_nl r end.
Fixpoint soon_line (m : toks) : bool :=
  match m with
  | [] => false
  | x :: m' => if (if teq x [10] then match m' with c :: v => if starts_variable c then soon_nl v else false | [] => false end else false) then true else soon_line m'
  end.
Lemma soon_nl_is m : soon_nl m = existsb (teq [10]) m.
Proof. induction m as [|x m IH]; cbn; [reflexivity|]. destruct (teq [10] x); cbn; auto. Qed.
Lemma soon_line_is m : soon_line m = variable_line_check m.
Proof.
  induction m as [|x m IH]; cbn [soon_line variable_line_check]; [reflexivity|]. rewrite IH. destruct (teq x [10]); [|reflexivity].
  destruct m as [|c v]; [reflexivity|]. rewrite soon_nl_is. destruct (starts_variable c); cbn [andb]; [|reflexivity]. destruct (existsb (teq [10]) v); reflexivity.
Qed.
Fixpoint soon_often (k : nat) (inp : toks) : bool :=
  match inp with
  | [] => true
  | _ :: r => if match skipn k inp with [] => true | _ => soon_line (firstn (S k) inp) end then soon_often k r else false
  end.
Lemma soon_often_ok k inp : soon_often k inp = true -> often_check k inp = true.
Proof.
  induction inp as [|x inp IH]; [reflexivity|]. cbn [soon_often]. intros H.
  change (often_check k (x :: inp)) with (((List.length (x :: inp) <=? k)%nat || variable_line_check (firstn (S k) (x :: inp))) && often_check k inp).
  destruct (skipn k (x :: inp)) as [|y l] eqn:E.
  - apply (f_equal (@List.length _)) in E. rewrite skipn_length in E. cbn [List.length] in E.
    destruct (Nat.leb_spec (List.length (x :: inp)) k) as [L|L]; [|cbn [List.length] in L; lia]. cbn [orb andb]. exact (IH H).
  - destruct (soon_line (firstn (S k) (x :: inp))) eqn:El; [|discriminate]. rewrite soon_line_is in El. rewrite El, Bool.orb_true_r. exact (IH H).
Qed.
Lemma abs_room : room_for (chars (abs (N.to_nat 12000))) 5000 /\ room_for (chars (abs (N.to_nat 11999))) 5000.
Proof.
  split; right; (split; [|discriminate]); change 713 with (N.of_nat (N.to_nat 713)); apply often_check_ok, soon_often_ok; vm_cast_no_check (eq_refl true).
Qed.
Lemma abs_meaning k : schema_string (abs k) (schema_of (repeat ([97], RLit 98) (S k)) []).
Proof. exists (chars (abs k)), (repeat ([97], RLit 98) (S k)), []. split; [apply abs_splits|]. split; [apply abs_text|reflexivity]. Qed.
Lemma abs_small k : Forall (fun x => x < 256) (abs k).
Proof. eapply Forall_impl; [|apply abs_bytes]. cbn. intros x H. intuition (subst; reflexivity). Qed.
(** A file of 48004 bytes, which does not fit in the buffer, is accepted as 12001 variables; without its last line it is a schema of 48000 bytes
    that is not accepted. *)
Example C59_long_file : exists F, forall dfuel, (F <= dfuel)%nat ->
  (exists al, try_schema_file dfuel (N.to_nat 48005) (N.to_nat 336040) N.of_nat used_buffer 5000 (Some (mkFile (abs (N.to_nat 12000)) false)) =
     Ret (Some (schema_of (repeat ([97], RLit 98) (N.to_nat 12001)) []), al)) /\ len (abs (N.to_nat 12000)) = 48004.
Proof.
  destruct (C59_schema_file_partial N.of_nat) as (F & HF). exists F. intros dfuel Hd.
  assert (El : len (abs (N.to_nat 12000)) = 48004) by (rewrite abs_len; lia). split; [|exact El].
  destruct (HF dfuel Hd (N.to_nat 48005) (N.to_nat 336040) used_buffer 5000 (mkFile (abs (N.to_nat 12000)) false) (chars (abs (N.to_nat 12000)))) as [M _].
  - apply abs_small.
  - left. cbn [fl_rest]. rewrite El. discriminate.
  - apply abs_splits.
  - exact (proj1 abs_room).
  - exact used_storage.
  - cbn [fl_rest]. rewrite El. lia.
  - cbn [fl_rest]. rewrite El. lia.
  - apply M. replace (N.to_nat 12001) with (S (N.to_nat 12000)) by lia. apply abs_meaning.
Qed.
Example C59_multiple_example : let s := abs (N.to_nat 11999) in
  len s = 48000 /\ (exists sch, schema_string s sch) /\ (exists ws, splits s ws /\ room_for ws 5000) /\
  exists F, forall dfuel, (F <= dfuel)%nat -> forall fuel pfuel sch, try_schema_file dfuel fuel pfuel N.of_nat used_buffer 5000 (Some (mkFile s false)) <> Ret sch.
Proof.
  intros s. assert (El : len s = 48000) by (unfold s; rewrite abs_len; lia). split; [exact El|]. split; [eexists; apply abs_meaning|].
  split; [eexists; split; [apply abs_splits|exact (proj2 abs_room)]|].
  destruct (C59_multiple N.of_nat) as (F & HF). exists F. intros dfuel Hd fuel pfuel. apply (HF dfuel Hd); cbn [fl_rest].
  - intros E. rewrite E in El. discriminate El.
  - rewrite El. reflexivity.
Qed.
