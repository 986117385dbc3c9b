(** SchemaLexer.v -- the lexer of SchemaParser: from the text of a schema to tokens. *)
From Verif Require Import Base LexerModel LexerSpec LogParserModel LexerProofs RingModel RegexModel RegexSpec RegexProofs RegexLang DfaModel DfaProofs
  DfaExact PropertiesRegex GrammarSpec SchemaModel SchemaGrammar SchemaTable SchemaSyntax.
From Coq Require Import String Permutation.
Local Open Scope list_scope.
Local Open Scope N_scope.

(** ** Model. *)
(** The patterns of the lexical rules: Parser.tpp 33-36 (add_token), LALR1Parser.tpp 77-110 (add_token_group, add_token_chain: the
    characters are concatenated from the left), SchemaParser.cpp 446, 451-453, 474-478 (RegexASTGroup(min, max) is not negated, the
    default group is). *)
Fixpoint chain_regex (r : regex) (w : list N) : regex :=
  match w with [] => r | b :: w' => chain_regex (RCat r (RLit b)) w' end.
Definition rule_regex (r : lexrule) : regex :=
  match r with
  | LexChar c => RLit c
  | LexRange lo hi => RGroup false false [(lo, hi)]
  | LexChain [] => REmpty
  | LexChain (b :: w) => chain_regex (RLit b) w
  | LexNotIn cs => RGroup false true (map (fun c => (c, c)) cs)
  end.
(** m_rules, in the order of the add_rule calls, with the ids of the names (Parser.tpp 18-31). *)
Definition schema_lex_rules : list (N * regex) := map (fun e => (SchemaTable.sid (fst e), rule_regex (snd e))) schema_tokens.
(** Lexer.tpp 376-389: generate. Without set_delimiters m_has_delimiters is false (Lexer.hpp 154, 158). *)
Definition schema_lexer (dfuel : nat) (addr : nat -> N) : out lexcfg :=
  do A <- nfa_of_rules schema_lex_rules; do f <- nfa_to_dfa dfuel addr A; Ret (mkCfg (dfa_of f) (fun _ => false) false).

(** LALR1Parser.tpp 631-650 and 667-684: parse reads if that is safe, then asks the lexer for a token, until the end token; an
    error of scan is thrown. The source is that of try_schema_string (SchemaParser.cpp 87-102). Between two tokens the driver may set
    the consumed position (LALR1Parser.tpp 735-743): [cons] is any sequence of values it may set it to. *)
Definition str_fill (s : list N) (b : ibuf) : ibuf :=
  if read_is_safe b then ib_fill b (str_read s (ib_size b / 2)) else b.
Fixpoint schema_lex (calls fuel : nat) (c : lexcfg) (s : list N) (cons : nat -> N) (l : lex) (b : ibuf) : out (list token * ibuf) :=
  match calls with
  | O => OutOfFuel
  | S calls' =>
    do (ot, l', b') <- scan fuel c l (str_fill s b);
    match ot with
    | None => Throw
    | Some tok =>
      match t_ids tok with
      | Some [0] => Ret ([tok], b')                    (* SymbolId::TokenEnd *)
      | _ => do (r, b2) <- schema_lex calls' fuel c s cons l' (ib_set_cons b' (cons calls')); Ret (tok :: r, b2)
      end
    end
  end.

(** ** Longest matches. *)
Section Munch.
  Variables (c : lexcfg) (t : list N).
  Hypothesis Hnd : c_has_delims c = false.
  Notation d := (c_dfa c).
  Hypothesis Hroot : d_ids d d_root = [].
  Notation n := (len t).
  (** From every position inside the text something matches, and it is not reported as the end. *)
  Notation rep a e := (reported d d_root (sub t a e)).
  Hypothesis Hsome : forall a, a < n -> exists e, a < e <= n /\ rep a e <> [].
  Hypothesis Hend : forall w, reported d d_root w <> [TokenEnd].

  Record sbuf (b : ibuf) : Prop := {
    sb_fin : ib_fin b = true;
    sb_last : ib_last b = n;
    sb_size : n < ib_size b / 2;
    sb_mem : forall p, p < n -> ib_heap b (ib_active b) p = byte_at t p;
    sb_lrfh : t <> [] -> ib_lrfh b = true }.
  Lemma sbuf_frame b b' : sbuf b -> ib_fin b' = ib_fin b -> ib_last b' = ib_last b -> ib_size b' = ib_size b ->
    ib_heap b' = ib_heap b -> ib_active b' = ib_active b -> ib_lrfh b' = ib_lrfh b -> sbuf b'.
  Proof.
    intros [] E1 E2 E3 E4 E5 E6. constructor; [congruence|congruence|now rewrite E3|rewrite E4, E5; auto|rewrite E6; auto].
  Qed.
  Lemma gnc_end b : sbuf b -> ib_pos b = n -> get_next_character b = Ret (Some (cCharEOF, ib_set_full b true)).
  Proof. intros [] H. unfold get_next_character. now rewrite sb_fin0, sb_last0, H, N.eqb_refl. Qed.
  Lemma gnc_byte b x : sbuf b -> byte_at t (ib_pos b) = Some x ->
    get_next_character b = Ret (Some (x, ib_set_pos b (ib_pos b + 1))).
  Proof.
    intros [] Hx. pose proof (byte_at_lt _ _ _ Hx) as Hlt. unfold get_next_character. rewrite sb_fin0, sb_last0, (sb_mem0 _ Hlt), Hx.
    destruct (N.eqb_spec (ib_pos b) n); [lia|]. rewrite sb_lrfh0 by (intros ->; cbn in Hlt; lia).
    destruct (N.eqb_spec (ib_pos b) (ib_size b / 2)); [lia|]. cbn [andb orb negb].
    destruct (N.eqb_spec (ib_pos b + 1) (ib_size b)) as [E|]; [|easy].
    exfalso. pose proof (N.div_le_upper_bound (ib_size b) 2 (ib_size b / 2) ltac:(lia)).
    pose proof (N.div_mod (ib_size b) 2 ltac:(lia)). pose proof (N.mod_lt (ib_size b) 2 ltac:(lia)). lia.
  Qed.

  (** Lines: the number of newlines before a position. *)
  Definition nlc (p : N) : N := N.of_nat (List.length (filter (N.eqb cNewline) (sub t 0 p))).
  Lemma nlc_step p x : byte_at t p = Some x -> nlc (p + 1) = nlc p + (if x =? cNewline then 1 else 0).
  Proof.
    intros H. unfold nlc. rewrite (sub_snoc t 0 p x) by (auto; lia). rewrite filter_app, app_length. cbn [filter].
    rewrite (N.eqb_sym cNewline x). destruct (x =? cNewline); cbn [List.length]; lia.
  Qed.

  (** What is known in the middle of a match that began at [a]. *)
  Definition best (a p : N) (l : lex) : Prop :=
    if l_match l then exists e, l_match_pos l = e /\ a < e < p /\ l_ids l = Some (rep a e) /\ rep a e <> [] /\
                       forall e', e < e' < p -> rep a e' = []
    else forall e', a < e' < p -> rep a e' = [].
  Record going (a : N) (q : nat) (l : lex) (b : ibuf) : Prop := {
    go_buf : sbuf b;
    go_full : ib_full b = false;
    go_pos : a <= ib_pos b <= n;
    go_run : run d d_root (sub t a (ib_pos b)) = Some q;
    go_start : l_start_pos l = a;
    go_last : l_last_match_pos l = a;
    go_asked : l_asked l = false;
    go_best : best a (ib_pos b) l;
    go_line : l_line l = nlc (ib_pos b);
    go_mline : l_match l = true -> l_match_line l = nlc (l_match_pos l) }.
  (** The result: the longest match. *)
  Definition munched (a : N) (r : scan_res) (b : ibuf) : Prop :=
    exists e tok l' b', r = Ret (Some tok, l', b') /\ a < e <= n /\ rep a e <> [] /\ (forall e', e < e' <= n -> rep a e' = []) /\
      t_start tok = a /\ t_end tok = e /\ t_ids tok = Some (rep a e) /\ t_sid tok = ib_active b /\ t_bufsz tok = ib_size b /\
      l_asked l' = false /\ l_match l' = false /\ l_last_match_pos l' = e /\
      ib_pos b' = e /\ ib_full b' = false /\ sbuf b' /\ ib_heap b' = ib_heap b /\ ib_active b' = ib_active b /\
      t_line tok = nlc e /\ l_line l' = nlc e.

  (** Taking into account that the current state may accept. *)
  Lemma best_accept a q l b : going a q l b ->
    let p := ib_pos b in
    let l1 := if is_accepting d q then lex_set_match l (d_ids d q) p (l_line l) else l in
    l_start_pos l1 = a /\ l_last_match_pos l1 = a /\ l_asked l1 = false /\
    if l_match l1 then exists e, l_match_pos l1 = e /\ a < e <= p /\ l_ids l1 = Some (rep a e) /\ rep a e <> [] /\
                         forall e', e < e' <= p -> rep a e' = []
    else forall e', a < e' <= p -> rep a e' = [].
  Proof.
    intros [Hb Hf Hp Hr Hs Hl Ha Hbest _ _] p l1.
    assert (Er : rep a p = d_ids d q) by (unfold reported, p; now rewrite Hr).
    destruct (is_accepting d q) eqn:Eacc.
    - apply is_accepting_spec in Eacc. unfold l1, lex_set_match. cbn. split; [easy|]. split; [easy|]. split; [easy|].
      exists p. split; [easy|]. assert (a <> p).
      { intros ->. rewrite <- Er in Eacc. unfold reported in Eacc. rewrite sub_nil in Eacc. cbn in Eacc. congruence. }
      split; [fold p in Hp; lia|]. split; [now rewrite Er|]. split; [now rewrite Er|]. intros; lia.
    - assert (E0 : d_ids d q = []).
      { unfold is_accepting in Eacc. now destruct (d_ids d q). }
      unfold l1. split; [easy|]. split; [easy|]. split; [easy|]. unfold best in Hbest. destruct (l_match l).
      + destruct Hbest as (e & H1 & H2 & H3 & H4 & H5). exists e. split; [easy|]. split; [fold p in H2; lia|]. split; [easy|].
        split; [easy|]. intros e' He. destruct (N.eq_dec e' p) as [-> |]; [congruence|]. apply H5. fold p. lia.
      + intros e' He. destruct (N.eq_dec e' p) as [-> |]; [congruence|]. apply Hbest. fold p. lia.
  Qed.
  Lemma line_accept a q l b : going a q l b ->
    let l1 := if is_accepting d q then lex_set_match l (d_ids d q) (ib_pos b) (l_line l) else l in
    l_line l1 = nlc (ib_pos b) /\ (l_match l1 = true -> l_match_line l1 = nlc (l_match_pos l1)).
  Proof. intros G l1. unfold l1. destruct (is_accepting d q); cbn; split; try apply G. intros _. apply G. Qed.
  (** Nothing matches behind a stop. *)
  Lemma stuck a q x p e : run d d_root (sub t a p) = Some q -> a <= p -> byte_at t p = Some x -> d_next d q x = None ->
    p < e -> e <= n -> rep a e = [].
  Proof.
    intros Hr Hap Hx Hn Hpe Hen. unfold reported. rewrite (sub_app t a (p + 1) e) by lia. rewrite run_app.
    rewrite (sub_snoc t a p x) by easy. rewrite run_app, Hr. cbn [run]. now rewrite Hn.
  Qed.

  Lemma take_munched a l1 b0 b1 e :
    l_start_pos l1 = a -> l_last_match_pos l1 = a -> l_asked l1 = false -> l_match l1 = true -> l_match_pos l1 = e ->
    a < e <= n -> l_ids l1 = Some (rep a e) -> rep a e <> [] -> (forall e', e < e' <= n -> rep a e' = []) ->
    sbuf b1 -> ib_heap b1 = ib_heap b0 -> ib_active b1 = ib_active b0 -> ib_size b1 = ib_size b0 -> l_match_line l1 = nlc e ->
    munched a (let b2 := ib_set_pos (ib_set_full b1 false) (l_match_pos l1) in
               let l4 := lex_restore_line l1 in
               if negb (l_last_match_pos l4 =? l_start_pos l4) then
                 Ret (Some (mk_tok b2 (l_last_match_pos l4) (l_start_pos l4) (l_last_match_line l4)
                              cTokenUncaughtStringTypes), l4, b2)
               else
                 Ret (Some (mk_tok b2 (l_start_pos l4) (l_match_pos l4) (l_match_line l4) (l_ids l4)), lex_take l4, b2)) b0.
  Proof.
    intros H1 H2 H3 H4 H5 H6 H7 H8 H9 H10 H11 H12 H13 H14. cbn -[n nlc]. rewrite H1, H2, N.eqb_refl. cbn [negb].
    exists e. eexists. eexists. eexists. split; [reflexivity|]. cbn. rewrite H5.
    repeat (split; [easy|]). split; [|easy].
    now apply (sbuf_frame b1).
  Qed.

  Lemma scan_loop_munch : forall fuel a q l b, a < n -> going a q l b -> n - ib_pos b + 1 <= N.of_nat fuel ->
    munched a (scan_loop fuel c q l b) b.
  Proof.
    induction fuel as [|fuel IH]; intros a q l b Han G Hfu; [lia|].
    pose proof (best_accept a q l b G) as B. pose proof (line_accept a q l b G) as BL. cbn zeta in B, BL.
    destruct G as [Hb Hf Hp Hr Hs Hl Ha Hbest Hline Hmline]. cbn [scan_loop].
    rewrite Hnd. cbn [negb andb]. destruct (N.eq_dec (ib_pos b) n) as [Epos | Epos].
    - rewrite (gnc_end b Hb Epos). cbn [ib_full ib_set_full]. rewrite !orb_true_r. cbn [andb].
      change (cCharEOF =? cNewline) with false. cbv iota. cbn [bind].
      set (l1 := if is_accepting d q then lex_set_match l (d_ids d q) (ib_pos b) (l_line l) else l) in *.
      destruct B as (B1 & B2 & B3 & B4). rewrite Epos in B4. destruct (l_match l1) eqn:Em.
      + destruct B4 as (e & E1 & E2 & E3 & E4 & E5).
        apply (take_munched a l1 b (ib_set_full b true) e); auto; [now apply (sbuf_frame b)|]. rewrite <- E1. now apply BL.
      + exfalso. destruct (Hsome a Han) as (e & He & Hne). apply Hne, B4. lia.
    - destruct (byte_at_some t (ib_pos b)) as [x Hx]; [lia|]. rewrite (gnc_byte b x Hb Hx). cbn [ib_full ib_set_pos].
      rewrite Hf, !orb_true_r. cbn [andb].
      set (l1 := if is_accepting d q then lex_set_match l (d_ids d q) (ib_pos b) (l_line l) else l) in *.
      assert (S : forall (l2 : lex), l_start_pos l2 = l_start_pos l1 -> l_last_match_pos l2 = l_last_match_pos l1 ->
                l_asked l2 = l_asked l1 -> l_match l2 = l_match l1 -> l_match_pos l2 = l_match_pos l1 -> l_ids l2 = l_ids l1 ->
                l_match_line l2 = l_match_line l1 -> l_line l2 = nlc (ib_pos b + 1) ->
                munched a (match d_next d q x with
                           | Some m => scan_loop fuel c m l2 (ib_set_pos b (ib_pos b + 1))
                           | None =>
                             if l_match l2 then
                               let b2 := ib_set_pos (ib_set_full (ib_set_pos b (ib_pos b + 1)) false) (l_match_pos l2) in
                               let l4 := lex_restore_line l2 in
                               if negb (l_last_match_pos l4 =? l_start_pos l4) then
                                 Ret (Some (mk_tok b2 (l_last_match_pos l4) (l_start_pos l4) (l_last_match_line l4)
                                              cTokenUncaughtStringTypes), l4, b2)
                               else
                                 Ret (Some (mk_tok b2 (l_start_pos l4) (l_match_pos l4) (l_match_line l4) (l_ids l4)), lex_take l4, b2)
                             else UB
                           end) b).
      { intros l2 F1 F2 F3 F4 F5 F6 F7 F8. destruct B as (B1 & B2 & B3 & B4). destruct BL as [BL1 BL2]. destruct (d_next d q x) as [m|] eqn:En.
        - assert (G : going a m l2 (ib_set_pos b (ib_pos b + 1))).
          { constructor; cbn; try congruence; try lia.
            - now apply (sbuf_frame b).
            - rewrite (sub_snoc t a (ib_pos b) x) by easy. rewrite run_app, Hr. cbn. now rewrite En.
            - unfold best. rewrite F4. destruct (l_match l1).
              + destruct B4 as (e & E1 & E2 & E3 & E4 & E5). exists e. split; [congruence|]. split; [lia|].
                split; [congruence|]. split; [easy|]. intros e' He. apply E5. lia.
              + intros e' He. apply B4. lia.
            - rewrite F4, F5, F7. exact BL2. }
          destruct (IH a m l2 (ib_set_pos b (ib_pos b + 1)) Han G ltac:(cbn; lia)) as (e & tok & l' & b' & M).
          exists e, tok, l', b'. exact M.
        - assert (Z : forall e', ib_pos b < e' <= n -> rep a e' = []) by (intros e' He; apply (stuck a q x (ib_pos b) e'); easy).
          rewrite F4. destruct (l_match l1) eqn:Em.
          + destruct B4 as (e & E1 & E2 & E3 & E4 & E5).
            apply (take_munched a l2 b (ib_set_pos b (ib_pos b + 1)) e); auto; try congruence; try lia.
            * intros e' He. destruct (N.le_gt_cases e' (ib_pos b)); [apply E5; lia|apply Z; lia].
            * now apply (sbuf_frame b).
            * rewrite F7, <- E1. now apply BL2.
          + exfalso. destruct (Hsome a Han) as (e & He & Hne). apply Hne.
            destruct (N.le_gt_cases e (ib_pos b)); [apply B4; lia|apply Z; lia]. }
      assert (S' : forall l2, l_start_pos l2 = l_start_pos l1 -> l_last_match_pos l2 = l_last_match_pos l1 ->
                l_asked l2 = l_asked l1 -> l_match l2 = l_match l1 -> l_match_pos l2 = l_match_pos l1 -> l_ids l2 = l_ids l1 ->
                d_next d q x = None -> l_match l2 = true).
      { intros l2 F1 F2 F3 F4 F5 F6 En. rewrite F4. destruct B as (_ & _ & _ & B4). destruct (l_match l1); [easy|].
        exfalso. destruct (Hsome a Han) as (e & He & Hne). apply Hne.
        destruct (N.le_gt_cases e (ib_pos b)); [apply B4; lia|]. apply (stuck a q x (ib_pos b) e); easy. }
      pose proof (nlc_step (ib_pos b) x Hx) as Hst. destruct (x =? cNewline); cbn [bind].
      + pose proof (S (lex_inc_line l1) eq_refl eq_refl eq_refl eq_refl eq_refl eq_refl eq_refl ltac:(cbn; rewrite (proj1 BL); now rewrite Hst)) as R.
        pose proof (S' (lex_inc_line l1) eq_refl eq_refl eq_refl eq_refl eq_refl eq_refl) as R'.
        destruct (d_next d q x) as [m|]; [exact R|]. rewrite (R' eq_refl) in *. exact R.
      + pose proof (S l1 eq_refl eq_refl eq_refl eq_refl eq_refl eq_refl eq_refl ltac:(rewrite (proj1 BL), Hst; lia)) as R.
        pose proof (S' l1 eq_refl eq_refl eq_refl eq_refl eq_refl eq_refl) as R'.
        destruct (d_next d q x) as [m|]; [exact R|]. rewrite (R' eq_refl) in *. exact R.
  Qed.

  Definition between (a : N) (l : lex) (b : ibuf) : Prop :=
    l_asked l = false /\ l_match l = false /\ l_last_match_pos l = a /\ ib_pos b = a /\ ib_full b = false /\ sbuf b /\ l_line l = nlc a.
  Lemma scan_munch fuel a l b : a < n -> between a l b -> n + 1 <= N.of_nat fuel -> munched a (scan fuel c l b) b.
  Proof.
    intros Han (H1 & H2 & H3 & H4 & H5 & H6 & H7) Hf. unfold scan. rewrite H1, H2. apply scan_loop_munch; [easy| |lia].
    constructor; cbn; auto; try lia.
    - now rewrite H4, sub_nil.
    - unfold best. cbn. rewrite H2. intros; lia.
    - now rewrite H4.
    - rewrite H2. discriminate.
  Qed.
  Lemma scan_end fuel l b : between n l b -> exists tok l', scan (S fuel) c l b = Ret (Some tok, l', ib_set_full b true) /\
    t_start tok = n /\ t_end tok = n /\ t_ids tok = Some [TokenEnd] /\ t_line tok = nlc n.
  Proof.
    intros (H1 & H2 & H3 & H4 & H5 & H6 & H7). unfold scan. rewrite H1, H2. cbn [scan_loop]. rewrite (gnc_end b H6 H4).
    assert (E : is_accepting d d_root = false) by (unfold is_accepting; now rewrite Hroot). rewrite E, andb_false_r.
    change (cCharEOF =? cNewline) with false. cbv iota. cbn. rewrite H2, H3, H4, N.eqb_refl. cbn.
    eexists. eexists. split; [reflexivity|]. cbn. auto.
  Qed.

  (** All tokens. *)
  Lemma str_fill_done s b : sbuf b -> str_fill s b = b.
  Proof. intros []. unfold str_fill, read_is_safe. now rewrite sb_fin0. Qed.
  Inductive covers : N -> list token -> Prop :=
  | cov_end : forall tok, t_start tok = n -> t_end tok = n -> t_ids tok = Some [TokenEnd] -> covers n [tok]
  | cov_tok : forall a e tok r, t_start tok = a -> t_end tok = e -> a < e <= n -> t_ids tok = Some (rep a e) -> rep a e <> [] ->
      (forall e', e < e' <= n -> rep a e' = []) -> covers e r -> covers a (tok :: r).
  Lemma schema_lex_covers fuel s cons : n + 1 <= N.of_nat fuel -> forall calls a l b, a <= n -> between a l b -> n - a < N.of_nat calls ->
    exists toks b', schema_lex calls fuel c s cons l b = Ret (toks, b') /\ covers a toks /\
      (forall tok, In tok toks -> t_ids tok <> Some [TokenEnd] -> t_sid tok = ib_active b) /\ ib_heap b' = ib_heap b /\
      (forall tok, In tok toks -> t_line tok = nlc (t_end tok)).
  Proof.
    intros Hf. induction calls as [|calls IH]; intros a l b Ha Hb Hc; [lia|]. cbn [schema_lex].
    rewrite str_fill_done by apply Hb. destruct (N.eq_dec a n) as [-> | Hne].
    - destruct fuel as [|fuel]; [lia|]. destruct (scan_end fuel l b Hb) as (tok & l' & E & T1 & T2 & T3 & T4). rewrite E. cbn [bind].
      rewrite T3. change TokenEnd with 0. cbv iota. exists [tok]. eexists. split; [reflexivity|]. split; [now constructor|].
      split; [intros tok' [<- | []] H; elim H; exact T3|]. split; [easy|]. intros tok' [<- | []]. now rewrite T4, T2.
    - destruct (scan_munch fuel a l b ltac:(lia) Hb Hf) as (e & tok & l' & b' & E & M1 & M2 & M3 & M4 & M5 & M6 & M7 & M8 & M9 & M10 & M11 & M12 & M13 & M14 & M15 & M16 & M17 & M18).
      rewrite E. cbn [bind].
      assert (Hbt : between e l' (ib_set_cons b' (cons calls))).
      { unfold between. cbn. repeat (split; [easy|]). split; [now apply (sbuf_frame b')|exact M18]. }
      destruct (IH e l' _ ltac:(lia) Hbt ltac:(lia)) as (toks & b2 & R1 & R2 & R3 & R4 & R5).
      rewrite R1. cbn [bind]. exists (tok :: toks), b2. split.
      + rewrite M6. pose proof (Hend (sub t a e)) as HE. destruct (rep a e) as [|i [|j ids]]; [easy| |now destruct i].
        destruct i; [|easy]. elim HE. reflexivity.
      + split; [now apply (cov_tok a e)|]. split; [|split; [rewrite R4; exact M15|]].
        * intros tok' [<- | Hin] Hn; [easy|]. rewrite (R3 tok' Hin Hn). exact M16.
        * intros tok' [<- | Hin]; [now rewrite M17, M5|exact (R5 tok' Hin)].
  Qed.
End Munch.
