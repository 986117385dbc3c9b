(** SchemaSplit.v -- what the lexer of SchemaParser makes of a text. *)
From Verif Require Import Base LexerModel LexerSpec LogParserModel LexerProofs RingModel RegexModel RegexSpec RegexProofs RegexLang DfaModel DfaProofs
  DfaExact PropertiesRegex GrammarSpec SchemaModel SchemaGrammar SchemaTable SchemaSyntax SchemaLexer StreamProofs.
From Coq Require Import String Permutation.
Local Open Scope list_scope.
Local Open Scope N_scope.

(** ** The patterns mean what lex_match says. *)
Definition rule_ok (r : lexrule) : bool :=
  match r with
  | LexChar c => c <? 256
  | LexRange lo hi => (lo <=? hi) && (hi <? 256)
  | LexChain l => negb (match l with [] => true | _ => false end) && forallb (fun c => c <? 256) l
  | LexNotIn cs => negb (match cs with [] => true | _ => false end)
  end.
Lemma chain_plain w : forall r, star_as_plus (chain_regex r w) = chain_regex (star_as_plus r) w.
Proof. induction w as [|b w IH]; intros r; cbn [chain_regex]; [easy|]. rewrite IH. reflexivity. Qed.
Lemma chain_faithful w : forall r, faithful r -> faithful (chain_regex r w).
Proof. induction w as [|b w IH]; intros r H; cbn [chain_regex]; [easy|]. apply IH. split; [exact H|exact Logic.I]. Qed.
Lemma chain_no_int w : forall r, no_int r = true -> no_int (chain_regex r w) = true.
Proof. induction w as [|b w IH]; intros r H; cbn [chain_regex]; [easy|]. apply IH. cbn. now rewrite H. Qed.
Lemma chain_matches w : forallb (fun c => c <? 256) w = true -> forall r x,
  matches (chain_regex r w) x <-> exists y, matches r y /\ x = y ++ w.
Proof.
  induction w as [|b w IH]; cbn [forallb chain_regex]; intros Hw r x.
  - split; [intros H; exists x; now rewrite app_nil_r|]. intros (y & H & ->). now rewrite app_nil_r.
  - apply andb_true_iff in Hw as [Hb Hw]. apply N.ltb_lt in Hb. rewrite IH by easy. split.
    + intros (y & (u & v & -> & Hu & -> & _) & ->). exists u. split; [easy|]. now rewrite <- app_assoc.
    + intros (y & Hy & ->). exists (y ++ [b]). rewrite <- app_assoc. split; [|easy]. exists y, [b]. cbn. unfold cSizeOfByte. auto.
Qed.
Lemma rule_faithful r : rule_ok r = true -> faithful (star_as_plus (rule_regex r)) /\ no_int (rule_regex r) = true.
Proof.
  destruct r as [c|lo hi|[|b l]|cs]; cbn [rule_ok rule_regex]; intros H; try easy.
  - cbn. unfold ranges_ok. split; [|easy]. apply andb_true_iff in H as [H1 H2]. apply N.leb_le in H1. split; [|easy].
    intros a z [[= <- <-]|[]]. exact H1.
  - rewrite chain_plain. split; [now apply chain_faithful|now apply chain_no_int].
  - cbn. split; [|easy]. split.
    + intros a z Hi. apply in_map_iff in Hi as (c & [= <- <-] & _). lia.
    + destruct cs; easy.
Qed.
Lemma rule_matches r w : rule_ok r = true -> matches (star_as_plus (rule_regex r)) w <-> lex_match r w = true.
Proof.
  destruct r as [c|lo hi|[|b l]|cs]; cbn [rule_ok rule_regex lex_match]; intros H; try easy.
  - apply N.ltb_lt in H. cbn. split.
    + intros [-> _]. apply N.eqb_refl.
    + destruct w as [|b [|? ?]]; try easy. intros E. apply N.eqb_eq in E as ->. unfold cSizeOfByte. auto.
  - apply andb_true_iff in H as [H1 H2]. apply N.leb_le in H1. apply N.ltb_lt in H2. cbn. unfold in_ranges. split.
    + intros (b & -> & _ & a & z & [[= <- <-]|[]] & Hb). apply andb_true_iff. now rewrite !N.leb_le.
    + destruct w as [|b [|? ?]]; try easy. intros E. apply andb_true_iff in E as [E1 E2]. apply N.leb_le in E1, E2.
      exists b. unfold cSizeOfByte. split; [easy|]. split; [lia|]. exists lo, hi. split; [now left|lia].
  - apply andb_true_iff in H as [_ H]. cbn [forallb] in H. apply andb_true_iff in H as [Hb H]. apply N.ltb_lt in Hb.
    rewrite chain_plain, chain_matches by easy. cbn [star_as_plus matches]. destruct (list_eq_dec N.eq_dec (b :: l) w) as [<- | Hne].
    + split; [easy|]. intros _. exists [b]. unfold cSizeOfByte. auto.
    + split; [|easy]. intros (y & (-> & _) & ->). now elim Hne.
  - cbn. split.
    + intros (b & -> & Hb & Hn). unfold cSizeOfByte in Hb. apply andb_true_iff. split; [now apply N.ltb_lt|].
      apply negb_true_iff. destruct (memb b cs) eqn:E; [|easy]. elim Hn. apply memb_iff in E.
      exists b, b. split; [now apply (in_map (fun c => (c, c)))|lia].
    + destruct w as [|b [|? ?]]; try easy. intros E. apply andb_true_iff in E as [E1 E2]. apply N.ltb_lt in E1.
      exists b. unfold cSizeOfByte. split; [easy|]. split; [easy|]. intros (lo & hi & Hi & Hr).
      apply in_map_iff in Hi as (c & [= <- <-] & Hc). assert (c = b) as -> by lia.
      apply memb_iff in Hc. now rewrite Hc in E2.
Qed.
Lemma tokens_ok : forallb (fun e => rule_ok (snd e)) schema_tokens = true.
Proof. vm_compute. reflexivity. Qed.

(** ** The lexer exists, and reports the types of schema_matches. *)
Lemma reported_matches (rules : list (string * lexrule)) (ids : string -> N) addr :
  forallb (fun e => rule_ok (snd e)) rules = true ->
  exists F, forall dfuel, (F <= dfuel)%nat -> exists A f,
    nfa_of_rules (map (fun e => (ids (fst e), rule_regex (snd e))) rules) = Ret A /\ nfa_to_dfa dfuel addr A = Ret f /\
    forall w X, In X (reported (dfa_of f) d_root w) <->
      In X (map (fun e => ids (fst e)) (filter (fun e => lex_match (snd e) w) rules)).
Proof.
  intros Hok. rewrite forallb_forall in Hok. set (L := map _ rules).
  assert (HL : forall i r, In (i, r) L -> exists e, In e rules /\ i = ids (fst e) /\ r = rule_regex (snd e)).
  { intros i r H. unfold L in H. apply in_map_iff in H as (e & [= <- <-] & He). now exists e. }
  destruct (C07_nfa_exists L) as (A & HA).
  { intros i r H. destruct (HL i r H) as (e & He & _ & ->). now apply rule_faithful, Hok. }
  destruct (C08_dfa_equals_nfa addr L A HA) as (F & HF). exists F. intros dfuel Hd. destruct (HF dfuel Hd) as (f & E & Hf).
  exists A, f. split; [easy|]. split; [easy|]. intros w X. destruct (Hf w) as [H _]. rewrite H.
  rewrite (C07_patterns_match_partial L A HA).
  - split.
    + intros (r & Hr & Hm). destruct (HL X r Hr) as (e & He & -> & ->). apply in_map_iff. exists e. split; [easy|].
      apply filter_In. split; [easy|]. apply rule_matches; [now apply Hok|exact Hm].
    + intros Hi. apply in_map_iff in Hi as (e & <- & He). apply filter_In in He as [He Hm]. exists (rule_regex (snd e)). split.
      * unfold L. apply in_map_iff. now exists e.
      * apply rule_matches; [now apply Hok|exact Hm].
  - intros i r Hi. destruct (HL i r Hi) as (e & He & _ & ->). now apply rule_faithful, Hok.
Qed.
(** What is known of a lexer that schema_lexer builds. *)
Record lexer_ok (c : lexcfg) : Prop := {
  lo_delims : c_has_delims c = false;
  lo_reports : forall w X, In X (reported (c_dfa c) d_root w) <-> In X (schema_matches w) }.
Theorem schema_lexer_exists addr : exists F, forall dfuel, (F <= dfuel)%nat ->
  exists c, schema_lexer dfuel addr = Ret c /\ lexer_ok c.
Proof.
  destruct (reported_matches schema_tokens SchemaTable.sid addr tokens_ok) as (F & HF). exists F. intros dfuel Hd.
  destruct (HF dfuel Hd) as (A & f & E1 & E2 & E3). eexists. split.
  - unfold schema_lexer, schema_lex_rules. rewrite E1. cbn [bind]. rewrite E2. cbn [bind]. reflexivity.
  - constructor; [reflexivity|exact E3].
Qed.

(** ** Texts and tokens. The keyword wherever it stands, otherwise one byte. *)
Inductive splits : list N -> toks -> Prop :=
| spl_end : splits [] []
| spl_keyword : forall s ws, splits s ws -> splits (keyword ++ s) (keyword :: ws)
| spl_byte : forall b s ws, (forall r, b :: s <> keyword ++ r) -> splits s ws -> splits (b :: s) ([b] :: ws).
Lemma splits_concat s ws : splits s ws -> List.concat ws = s.
Proof. induction 1 as [|s ws _ IH|b s ws _ _ IH]; cbn [List.concat]; [easy| |]; now rewrite IH. Qed.
Lemma splits_unique s ws ws' : splits s ws -> splits s ws' -> ws = ws'.
Proof.
  intros H. revert ws'. induction H as [|s ws H IH|b s ws Hk H IH]; intros ws' H'.
  - now inversion H'.
  - inversion H' as [|s' w' G|b s' w' G1 G2]; subst.
    + f_equal. now apply IH.
    + now elim (G1 s).
  - inversion H' as [|s' w' G|b' s' w' G1 G2]; subst.
    + now elim (Hk s').
    + f_equal. now apply IH.
Qed.
Lemma splits_exists s : exists ws, splits s ws.
Proof.
  remember (List.length s) as k eqn:E. assert (Hk : (List.length s <= k)%nat) by lia. clear E. revert s Hk.
  induction k as [|k IH]; intros s Hk.
  - destruct s; [|cbn in Hk; lia]. exists []. constructor.
  - destruct s as [|b s]; [exists []; constructor|].
    destruct (list_eq_dec N.eq_dec (firstn 10 (b :: s)) keyword) as [E|E].
    + assert (F : b :: s = keyword ++ skipn 10 (b :: s)) by (rewrite <- E; symmetry; apply firstn_skipn).
      destruct (IH (skipn 10 (b :: s))) as (ws & Hws); [rewrite skipn_length; cbn [List.length] in *; lia|].
      rewrite F. exists (keyword :: ws). now constructor.
    + destruct (IH s) as (ws & Hws); [cbn in Hk; lia|]. exists ([b] :: ws). constructor; [|easy].
      intros r F. apply E. rewrite F. reflexivity.
Qed.

(** A match is one byte or the keyword. *)
Lemma matches_byte b : b < 256 -> schema_matches [b] <> [].
Proof.
  intros H. destruct (N.le_gt_cases 128 b) as [G|G].
  - rewrite (matches_high b) by lia. discriminate.
  - assert (K : forallb (fun x => match schema_matches [x] with [] => false | _ => true end) bytes7 = true) by (vm_compute; reflexivity).
    rewrite forallb_forall in K. specialize (K b). intros E. rewrite E in K. apply (Bool.diff_false_true). apply K.
    unfold bytes7. apply in_map_iff. exists (N.to_nat b). split; [lia|]. apply in_seq. lia.
Qed.
Lemma matches_keyword : schema_matches keyword <> [].
Proof. vm_compute. discriminate. Qed.
Lemma matches_some w : schema_matches w <> [] -> w = keyword \/ exists b, w = [b].
Proof.
  intros H. destruct (list_eq_dec N.eq_dec w keyword) as [-> |Hk]; [now left|right].
  destruct w as [|b [|b' w]].
  - elim H. now apply matches_other.
  - now exists b.
  - elim H. apply matches_other; easy.
Qed.
Lemma empty_iff {A} (l m : list A) : (forall x, In x l <-> In x m) -> l = [] <-> m = [].
Proof.
  intros H. split; intros ->.
  - destruct m as [|x m]; [easy|]. elim (proj2 (H x) (or_introl eq_refl)).
  - destruct l as [|x l]; [easy|]. elim (proj1 (H x) (or_introl eq_refl)).
Qed.

(** ** SchemaParser::try_schema_string (SchemaParser.cpp 87-102, 53-59 and LALR1Parser.tpp 631-665): tokens, their texts when the
    semantic rules ask for them, the parser. Simplification: the lexer runs to the end of the text before the parser starts -- the code
    calls it when the parser needs a token; they share only the consumed position, which is arbitrary here ([cons]). *)
Definition lexer_types (c : lexcfg) (tk : stok) : list N :=
  match tk with SEof => [TokenEnd] | STok w => reported (c_dfa c) d_root w end.
Fixpoint tok_texts (h : heap) (ts : list token) : out (list (list N)) :=
  match ts with
  | [] => Ret []
  | tok :: r => match t_ids tok with
                | Some [0] => Ret []
                | _ => do w <- tok_text h tok; do ws <- tok_texts h r; Ret (w :: ws)
                end
  end.
Definition schema_texts (calls fuel : nat) (c : lexcfg) (cons : nat -> N) (s : list N) (b : ibuf) : out (list (list N)) :=
  do (ts, b') <- schema_lex calls fuel c s cons lex_reset (ib_reset b); tok_texts (ib_heap b') ts.

(** The same with the tokens' line numbers (Token::m_line), and the line number of the end token. *)
Fixpoint tok_lines (h : heap) (ts : list token) : out (list (list N * N) * N) :=
  match ts with
  | [] => Ret ([], 0)
  | tok :: r => match t_ids tok with
                | Some [0] => Ret ([], t_line tok)
                | _ => do w <- tok_text h tok; do (l, e) <- tok_lines h r; Ret ((w, t_line tok) :: l, e)
                end
  end.
Definition schema_lines (calls fuel : nat) (c : lexcfg) (cons : nat -> N) (s : list N) (b : ibuf) : out (list (list N * N) * N) :=
  do (ts, b') <- schema_lex calls fuel c s cons lex_reset (ib_reset b); tok_lines (ib_heap b') ts.
Lemma texts_lines h ts : tok_texts h ts = do (l, _) <- tok_lines h ts; Ret (map fst l).
Proof.
  induction ts as [|tok ts IH]; [reflexivity|]. cbn [tok_texts tok_lines].
  assert (G : (do w <- tok_text h tok; do ws <- tok_texts h ts; Ret (w :: ws)) =
              (do (l, _) <- do w <- tok_text h tok; do (l, e) <- tok_lines h ts; Ret ((w, t_line tok) :: l, e); Ret (map fst l))).
  { destruct (tok_text h tok); cbn [bind]; try reflexivity. rewrite IH. destruct (tok_lines h ts) as [[l e]| | |]; reflexivity. }
  destruct (t_ids tok) as [[|[|i] [|j r]]|]; auto.
Qed.
Lemma schema_texts_lines calls fuel c cons s b :
  schema_texts calls fuel c cons s b = do (l, _) <- schema_lines calls fuel c cons s b; Ret (map fst l).
Proof.
  unfold schema_texts, schema_lines. destruct (schema_lex calls fuel c s cons lex_reset (ib_reset b)) as [[ts b']| | |]; try reflexivity.
  cbn [bind]. apply texts_lines.
Qed.
(** The number of newlines in a text. *)
Definition newlines (w : list N) : N := N.of_nat (List.length (filter (N.eqb 10) w)).

Lemma str_fill_reset s b : len s < cStaticByteBuffSize / 2 -> sbuf s (str_fill s (ib_reset b)).
Proof.
  intros H. unfold str_fill. change (read_is_safe (ib_reset b)) with true. cbv iota.
  change (ib_size (ib_reset b)) with cStaticByteBuffSize. unfold str_read. fold (len s).
  destruct (N.ltb_spec (len s) (cStaticByteBuffSize / 2)) as [H1|H1]; [|lia].
  destruct (N.eqb_spec (len s) 0) as [E|E].
  - assert (s = []) as -> by (destruct s; [easy|unfold len in E; cbn in E; lia]). constructor; cbn; auto; try lia.
  - assert (F : firstn (N.to_nat (len s)) s = s) by (apply firstn_all2; unfold len; lia). rewrite F.
    constructor; cbn [ib_fill ib_fin ib_last ib_size ib_heap ib_active ib_lrfh ib_reset negb]; fold (len s).
    + change (cStaticByteBuffSize / 2) with 24000 in *. destruct (N.ltb_spec (len s) 24000); [easy|lia].
    + change (cStaticByteBuffSize / 2) with 24000 in *. change cStaticByteBuffSize with 48000.
      destruct (N.ltb_spec 48000 (0 + len s)); lia.
    + exact H.
    + intros p Hp. unfold heap_set. cbn [sid_eqb]. unfold mem_write. fold (len s). destruct (N.ltb_spec p (0 + len s)); [|lia].
      destruct (N.leb_spec 0 p); [|lia]. cbn [andb]. unfold byte_at. now rewrite N.sub_0_r.
    + easy.
Qed.

(** ** The tokens of a text. *)
Section Split.
  Variables (c : lexcfg) (t : list N).
  Hypothesis Hc : lexer_ok c.
  Hypothesis Hbytes : Forall (fun b => b < 256) t.
  Notation n := (len t).
  Notation d := (c_dfa c).
  Lemma rep_empty w : reported d d_root w = [] <-> schema_matches w = [].
  Proof. apply empty_iff. intros X. apply (lo_reports c Hc). Qed.
  Lemma byte_small p x : byte_at t p = Some x -> x < 256.
  Proof. intros H. rewrite Forall_forall in Hbytes. apply Hbytes. eapply nth_error_In, H. Qed.
  Lemma split_root : d_ids d d_root = [].
  Proof. change (d_ids d d_root) with (reported d d_root []). apply rep_empty, matches_other; easy. Qed.
  Lemma split_some a : a < n -> exists e, a < e <= n /\ reported d d_root (sub t a e) <> [].
  Proof.
    intros H. exists (a + 1). split; [lia|]. destruct (byte_at_some t a H) as (x & Hx). rewrite (sub_one t a x Hx).
    intros E. apply rep_empty in E. revert E. apply matches_byte. exact (byte_small _ _ Hx).
  Qed.
  Lemma split_end w : reported d d_root w <> [TokenEnd].
  Proof.
    intros E. assert (G : In TokenEnd (schema_matches w)) by (apply (lo_reports c Hc); rewrite E; now left).
    now apply schema_match_terms in G.
  Qed.
  (** From longest matches to splits. *)
  Lemma skipn_sub a e : a <= e -> e <= n -> skipn (N.to_nat a) t = sub t a e ++ skipn (N.to_nat e) t.
  Proof.
    intros H1 H2. unfold sub. rewrite <- (firstn_skipn (N.to_nat (e - a)) (skipn (N.to_nat a) t)) at 1. f_equal.
    rewrite LexerProofs.skipn_skipn'. f_equal. lia.
  Qed.
  Definition text_of (tok : token) : list N := sub t (t_start tok) (t_end tok).
  Lemma covers_splits a ts : covers c t a ts -> a <= n ->
    exists us tok, ts = us ++ [tok] /\ t_ids tok = Some [TokenEnd] /\ t_start tok = n /\ t_end tok = n /\
      splits (skipn (N.to_nat a) t) (map text_of us) /\
      Forall (fun u => t_start u < t_end u <= n /\ t_ids u = Some (reported d d_root (text_of u))) us.
  Proof.
    induction 1 as [tok H1 H2 H3|a e tok r H1 H2 H3 H4 H5 H6 H7 IH]; intros Ha.
    - exists [], tok. split; [easy|]. split; [easy|]. split; [easy|]. split; [easy|]. split; [|constructor].
      rewrite skipn_all2 by (unfold len; lia). constructor.
    - destruct (IH ltac:(lia)) as (us & tk & -> & E1 & E2 & E3 & E4 & E5). exists (tok :: us), tk.
      split; [easy|]. split; [easy|]. split; [easy|]. split; [easy|].
      assert (Et : text_of tok = sub t a e) by (unfold text_of; now rewrite H1, H2).
      split; [|constructor; [rewrite Et, H1, H2; auto|exact E5]]. cbn [map]. rewrite Et.
      rewrite (skipn_sub a e) by lia.
      assert (Hm : schema_matches (sub t a e) <> []) by (intros E; apply H5, rep_empty, E).
      destruct (matches_some _ Hm) as [-> | (b & Eb)]; [now constructor|].
      rewrite Eb. cbn [app]. constructor; [|exact E4]. intros z Ez.
      assert (El : e - a = 1) by (rewrite <- (sub_length t a e) by lia; now rewrite Eb).
      assert (Es : skipn (N.to_nat a) t = keyword ++ z) by (rewrite (skipn_sub a e) by lia; rewrite Eb; exact Ez).
      assert (Hlen : a + 10 <= n).
      { assert (L : List.length (skipn (N.to_nat a) t) = (10 + List.length z)%nat) by (rewrite Es; reflexivity).
        rewrite skipn_length in L. unfold len. lia. }
      assert (Ek : sub t a (a + 10) = keyword).
      { unfold sub. rewrite Es. replace (N.to_nat (a + 10 - a)) with 10%nat by lia. reflexivity. }
      specialize (H6 (a + 10) ltac:(lia)). rewrite Ek in H6. apply rep_empty in H6. now apply matches_keyword in H6.
  Qed.

  Lemma lex_first calls fuel cons l b : sbuf t (str_fill t b) ->
    schema_lex (S calls) fuel c t cons l b = schema_lex (S calls) fuel c t cons l (str_fill t b).
  Proof. intros H. cbn [schema_lex]. now rewrite (str_fill_done t t (str_fill t b)). Qed.
  Lemma texts_done h us tok sd : t_ids tok = Some [TokenEnd] -> (forall p, p < n -> h sd p = byte_at t p) ->
    Forall (fun u => t_start u < t_end u <= n /\ t_ids u = Some (reported d d_root (text_of u))) us ->
    Forall (fun u => t_sid u = sd) us -> tok_texts h (us ++ [tok]) = Ret (map text_of us).
  Proof.
    intros Ht Hm Hu Hs. induction us as [|u us IH].
    - cbn. rewrite Ht. reflexivity.
    - inversion Hu as [|? ? [U1 U2] Hu']; subst. inversion Hs as [|? ? S1 Hs']; subst. cbn [app tok_texts map].
      assert (Ew : tok_text h u = Ret (text_of u)).
      { unfold tok_text, text_of. destruct (N.leb_spec (t_start u) (t_end u)); [|lia].
        rewrite (StreamProofs.read_range_byte _ t) by (auto; lia). do 2 f_equal. lia. }
      rewrite Ew, (IH Hu' Hs'). cbn [bind]. rewrite U2. pose proof (split_end (text_of u)) as He.
      destruct (reported d d_root (text_of u)) as [|[|i] [|j r]]; try reflexivity. now elim He.
  Qed.

  (** The lexer's tokens are the text's, and their types are those reported for their texts. *)
  Theorem lex_splits calls fuel cons b : len t < cStaticByteBuffSize / 2 -> n + 1 <= N.of_nat fuel -> n < N.of_nat calls ->
    exists ts b' us tok, schema_lex calls fuel c t cons lex_reset (ib_reset b) = Ret (ts, b') /\ ts = us ++ [tok] /\
      t_ids tok = Some [TokenEnd] /\
      Forall (fun u => exists w, tok_text (ib_heap b') u = Ret w /\ t_ids u = Some (lexer_types c (STok w))) us /\
      exists ws, tok_texts (ib_heap b') ts = Ret ws /\ splits t ws.
  Proof.
    intros Hn Hf Hk. destruct calls as [|calls]; [lia|]. pose proof (str_fill_reset t b Hn) as Hb. rewrite lex_first by exact Hb.
    assert (Hbt : between t 0 lex_reset (str_fill t (ib_reset b))).
    { unfold between. cbn [lex_reset l_asked l_match l_last_match_pos]. split; [easy|]. split; [easy|]. split; [easy|].
      unfold str_fill. change (read_is_safe (ib_reset b)) with true. cbv iota. unfold ib_fill.
      split; [destruct (str_read _ _); reflexivity|]. split; [destruct (str_read _ _); reflexivity|]. split; [exact Hb|]. reflexivity. }
    destruct (schema_lex_covers c t (lo_delims c Hc) split_root split_some split_end fuel t cons Hf (S calls) 0 lex_reset _
                ltac:(lia) Hbt ltac:(lia)) as (ts & b' & E & Hcov & Hsid & Hheap & Hlines).
    destruct (covers_splits 0 ts Hcov ltac:(lia)) as (us & tok & Ets & T1 & T2 & T3 & T4 & T5).
    assert (Hm : forall p, p < n -> ib_heap b' (ib_active (str_fill t (ib_reset b))) p = byte_at t p).
    { rewrite Hheap. apply (sb_mem t _ Hb). }
    assert (Hs : Forall (fun u => t_sid u = ib_active (str_fill t (ib_reset b))) us).
    { apply Forall_forall. intros u Hu. apply Hsid; [rewrite Ets; apply in_or_app; now left|].
      rewrite Forall_forall in T5. destruct (T5 u Hu) as [_ ->]. intros [= X]. now apply split_end in X. }
    exists ts, b', us, tok. split; [exact E|]. split; [exact Ets|]. split; [exact T1|]. split.
    - rewrite Forall_forall in *. intros u Hu. destruct (T5 u Hu) as [U1 U2]. exists (text_of u). split; [|exact U2].
      unfold tok_text, text_of. destruct (N.leb_spec (t_start u) (t_end u)); [|lia]. rewrite (Hs u Hu).
      rewrite (StreamProofs.read_range_byte _ t) by (auto; lia). do 2 f_equal. lia.
    - exists (map text_of us). split; [rewrite Ets; now apply (texts_done _ us tok _ T1 Hm)|]. exact T4.
  Qed.
  (** The line number of a token is the number of newlines up to its end. *)
  Lemma covers_text : forall p a u q, covers c t a (p ++ u :: q) -> a <= n -> t_ids u <> Some [TokenEnd] ->
    sub t a (t_end u) = List.concat (map text_of p) ++ text_of u /\ a <= t_end u.
  Proof.
    induction p as [|x p IH]; intros a u q H Ha Hu; cbn [app map List.concat] in *.
    - inversion H as [tok E1 E2 E3 E4 | a' e tok r E1 E2 E3 E4 E5 E6 E7]; subst; [now elim Hu|]. split; [reflexivity|lia].
    - inversion H as [tok E1 E2 E3 E4 | a' e tok r E1 E2 E3 E4 E5 E6 E7]; subst.
      + destruct p; discriminate.
      + destruct (IH _ _ _ E7 ltac:(lia) Hu) as [I1 I2]. split; [|lia]. rewrite <- app_assoc, <- I1. unfold text_of. apply sub_app; lia.
  Qed.
  Lemma lines_done h us tok sd : t_ids tok = Some [TokenEnd] -> (forall p, p < n -> h sd p = byte_at t p) ->
    Forall (fun u => t_start u < t_end u <= n /\ t_ids u = Some (reported d d_root (text_of u))) us ->
    Forall (fun u => t_sid u = sd) us -> tok_lines h (us ++ [tok]) = Ret (map (fun u => (text_of u, t_line u)) us, t_line tok).
  Proof.
    intros Ht Hm Hu Hs. induction us as [|u us IH].
    - cbn. rewrite Ht. reflexivity.
    - inversion Hu as [|? ? [U1 U2] Hu']; subst. inversion Hs as [|? ? S1 Hs']; subst. cbn [app tok_lines map].
      assert (Ew : tok_text h u = Ret (text_of u)).
      { unfold tok_text, text_of. destruct (N.leb_spec (t_start u) (t_end u)); [|lia].
        rewrite (StreamProofs.read_range_byte _ t) by (auto; lia). do 2 f_equal. lia. }
      rewrite Ew, (IH Hu' Hs'). cbn [bind]. rewrite U2. pose proof (split_end (text_of u)) as He.
      destruct (reported d d_root (text_of u)) as [|[|i] [|j r]]; try reflexivity. now elim He.
  Qed.
  Theorem lines_splits calls fuel cons b : len t < cStaticByteBuffSize / 2 -> n + 1 <= N.of_nat fuel -> n < N.of_nat calls ->
    exists ls, schema_lines calls fuel c cons t b = Ret (ls, newlines t) /\ splits t (map fst ls) /\
      forall p w k q, ls = p ++ (w, k) :: q -> k = newlines (List.concat (map fst p) ++ w).
  Proof.
    intros Hn Hf Hk. unfold schema_lines. destruct calls as [|calls]; [lia|]. pose proof (str_fill_reset t b Hn) as Hb. rewrite lex_first by exact Hb.
    assert (Hbt : between t 0 lex_reset (str_fill t (ib_reset b))).
    { unfold between. cbn [lex_reset l_asked l_match l_last_match_pos]. split; [easy|]. split; [easy|]. split; [easy|].
      unfold str_fill. change (read_is_safe (ib_reset b)) with true. cbv iota. unfold ib_fill.
      split; [destruct (str_read _ _); reflexivity|]. split; [destruct (str_read _ _); reflexivity|]. split; [exact Hb|]. reflexivity. }
    destruct (schema_lex_covers c t (lo_delims c Hc) split_root split_some split_end fuel t cons Hf (S calls) 0 lex_reset _
                ltac:(lia) Hbt ltac:(lia)) as (ts & b' & E & Hcov & Hsid & Hheap & Hlines).
    destruct (covers_splits 0 ts Hcov ltac:(lia)) as (us & tok & Ets & T1 & T2 & T3 & T4 & T5).
    assert (Hm : forall p, p < n -> ib_heap b' (ib_active (str_fill t (ib_reset b))) p = byte_at t p).
    { rewrite Hheap. apply (sb_mem t _ Hb). }
    assert (Hs : Forall (fun u => t_sid u = ib_active (str_fill t (ib_reset b))) us).
    { apply Forall_forall. intros u Hu. apply Hsid; [rewrite Ets; apply in_or_app; now left|].
      rewrite Forall_forall in T5. destruct (T5 u Hu) as [_ ->]. intros [= X]. now apply split_end in X. }
    rewrite E. cbn [bind]. rewrite Ets, (lines_done _ us tok _ T1 Hm T5 Hs).
    exists (map (fun u => (text_of u, t_line u)) us). split; [|split].
    - do 2 f_equal. rewrite (Hlines tok), T3 by (rewrite Ets; apply in_or_app; right; now left). unfold nlc, newlines, sub. cbn [N.to_nat skipn].
      rewrite firstn_all2 by (unfold len; lia). reflexivity.
    - rewrite map_map. cbn [fst]. exact T4.
    - intros p w k q Eq. apply map_eq_app in Eq. destruct Eq as (pu & qu & Eus & Ep & Eq). destruct qu as [|u qu]; [discriminate Eq|].
      cbn [map] in Eq. injection Eq as Ew Ek Eq. rewrite <- Ek, <- Ew, <- Ep, map_map. cbn [fst].
      assert (Hu : In u us) by (rewrite Eus; apply in_or_app; right; now left).
      rewrite (Hlines u) by (rewrite Ets; apply in_or_app; now left). unfold nlc, newlines.
      assert (Hc2 : covers c t 0 (pu ++ u :: (qu ++ [tok]))) by (rewrite Ets, Eus, <- app_assoc in Hcov; exact Hcov).
      rewrite (proj1 (covers_text pu 0 u _ Hc2 ltac:(lia) ltac:(rewrite Forall_forall in T5; rewrite (proj2 (T5 u Hu)); intros [= X]; now apply split_end in X))).
      reflexivity.
  Qed.
  Theorem texts_splits calls fuel cons b : len t < cStaticByteBuffSize / 2 -> n + 1 <= N.of_nat fuel -> n < N.of_nat calls ->
    exists ws, schema_texts calls fuel c cons t b = Ret ws /\ splits t ws.
  Proof.
    intros Hn Hf Hk. destruct (lex_splits calls fuel cons b Hn Hf Hk) as (ts & b' & us & tok & E & _ & _ & _ & ws & Ew & Hw).
    exists ws. split; [|exact Hw]. unfold schema_texts. rewrite E. exact Ew.
  Qed.
End Split.
