(** SchemaWords.v -- the lexer of an accepted schema reports exactly the schema's words. *)
From Verif Require Import Base LexerModel LexerSpec LogParserModel EventSpec RegexModel RegexSpec RegexProofs RegexLang
  DfaModel DfaProofs DfaExact LexerProofs SchemaModel SchemaProofs SchemaPaths SchemaUsable SchemaSpec.
From Coq Require Import String Permutation Sorted.
Local Open Scope list_scope.
Local Notation length := List.length.

Lemma strip_star ds r : star_as_plus (strip_wild ds r) = strip_wild ds (star_as_plus r).
Proof.
  induction r as [|c|l|wc neg rs|l IHl r IHr|l IHl r IHr|r IH mn mx|r IH t]; cbn [strip_wild star_as_plus]; try reflexivity; try congruence.
  - destruct wc; cbn [negb]; [|reflexivity]. destruct ds; reflexivity.
  - destruct l as [|c|l|wc neg rs|l1 l2|l1 l2|l mn mx|l t]; cbn [strip_wild]; try exact IHr;
      try (cbn [strip_wild star_as_plus] in *; rewrite ?IHl, IHr; reflexivity).
    destruct wc; cbn [negb]; [|cbn; rewrite IHr; reflexivity]. destruct ds; cbn; rewrite IHr; reflexivity.
Qed.
Lemma strip_tags ds r : pos_tags (strip_wild ds r) = pos_tags r.
Proof.
  induction r as [|c|l|wc neg rs|l IHl r IHr|l IHl r IHr|r IH mn mx|r IH t]; cbn [strip_wild pos_tags]; try congruence.
  destruct wc; cbn [negb]; [|reflexivity]. destruct ds; reflexivity.
Qed.
Lemma strip_trail ds r : has_trail (strip_wild ds r) = has_trail r.
Proof.
  induction r as [|c|l|wc neg rs|l IHl r IHr|l IHl r IHr|r IH mn mx|r IH t]; cbn [strip_wild has_trail]; rewrite ?strip_tags, ?IHl, ?IHr, ?IH; try reflexivity.
  destruct wc; cbn [negb]; [|reflexivity]. destruct ds; reflexivity.
Qed.
Lemma strip_no_int ds r : no_int (strip_wild ds r) = no_int r.
Proof.
  induction r as [|c|l|wc neg rs|l IHl r IHr|l IHl r IHr|r IH mn mx|r IH t]; cbn [strip_wild no_int]; try congruence.
  destruct wc; cbn [negb]; [|reflexivity]. destruct ds; reflexivity.
Qed.
Lemma star_wild_plain r : wild_plain r -> wild_plain (star_as_plus r).
Proof.
  induction r as [|c|l|wc neg rs|l IHl r IHr|l IHl r IHr|r IH mn mx|r IH t]; cbn [wild_plain star_as_plus]; auto.
  - intros (H1 & H2). destruct l; cbn [wild_plain]; auto.
  - intros (H1 & H2). auto.
Qed.
Lemma strip_faithful ds r : StronglySorted N.lt ds -> (forall d, In d ds -> d <= cUnicodeMax) -> wild_plain r ->
  faithful r -> faithful (strip_wild ds r).
Proof.
  intros Hs Hm. induction r as [|c|l|wc neg rs|l IHl r IHr|l IHl r IHr|r IH mn mx|r IH t]; cbn [strip_wild faithful wild_plain];
    rewrite ?strip_tags, ?strip_trail; try tauto.
  intros Hw H. destruct wc; cbn [negb]; [|exact H]. destruct ds as [|d ds]; [exact H|]. split; [apply wild_ranges_ok; assumption|].
  rewrite Hw by reflexivity. discriminate.
Qed.

Lemma l_or_eq {A} (L M L' M' : lang A) : l_eq L L' -> l_eq M M' -> l_eq (l_or L M) (l_or L' M').
Proof. intros H1 H2 w. unfold l_or. rewrite (H1 w), (H2 w). tauto. Qed.
Lemma l_cat_eq {A} (L M L' M' : lang A) : l_eq L L' -> l_eq M M' -> l_eq (l_cat L M) (l_cat L' M').
Proof.
  intros H1 H2 w. split; intros (u & v & -> & Hu & Hv); exists u, v; (split; [reflexivity|]); split;
    try (apply (H1 u); exact Hu); apply (H2 v); exact Hv.
Qed.
Lemma l_pow_eq {A} (L M : lang A) k : l_eq L M -> l_eq (l_pow L k) (l_pow M k).
Proof. intros H. induction k as [|k IH]; cbn [l_pow]; [intros w; tauto|apply l_cat_eq; assumption]. Qed.
Lemma l_rep_eq {A} (L M : lang A) a b : l_eq L M -> l_eq (l_rep L a b) (l_rep M a b).
Proof. intros H w. split; intros (k & Hk & Hr); exists k; (split; [apply (l_pow_eq _ _ k H w); exact Hk|exact Hr]). Qed.

(** The pattern with the delimiters taken out of '.' means what the schema documents. *)
Lemma strip_matches ds delim r : ds <> [] -> StronglySorted N.lt ds -> (forall b, In b ds <-> b < cSizeOfByte /\ delim b = true) ->
  wild_plain r -> l_eq (matches (strip_wild ds r)) (var_matches delim r).
Proof.
  intros Hne Hs Hd. assert (Hm : forall d, In d ds -> d <= cUnicodeMax) by (intros d H; apply Hd in H; unfold cSizeOfByte, cUnicodeMax in *; lia).
  induction r as [|c|l|wc neg rs|l IHl r IHr|l IHl r IHr|r IH mn mx|r IH t]; cbn [strip_wild var_matches wild_plain]; intros Hw.
  - intros w; cbn; tauto.
  - intros w; cbn; tauto.
  - intros w; cbn; tauto.
  - destruct wc; cbn [negb]; [|intros w; cbn [matches]; tauto]. rewrite (Hw eq_refl). destruct ds as [|d0 ds0] eqn:E0; [congruence|].
    rewrite <- E0 in *. intros w. cbn [matches group_has]. split; intros (b & -> & Hb & H); exists b; (split; [reflexivity|]); (split; [exact Hb|]).
    + apply wild_ranges_spec in H as (_ & H); auto. destruct (delim b) eqn:E; [|reflexivity]. destruct H. apply Hd. auto.
    + apply wild_ranges_spec; auto. split; [unfold cSizeOfByte, cUnicodeMax in *; lia|]. intros Hi. apply Hd in Hi as (_ & Hi). congruence.
  - apply l_or_eq; [apply IHl|apply IHr]; tauto.
  - apply l_cat_eq; [apply IHl|apply IHr]; tauto.
  - apply l_rep_eq, IH, Hw.
  - apply IH, Hw.
Qed.

Lemma possible_mentions ds delim r b : ds <> [] -> StronglySorted N.lt ds -> (forall b, In b ds <-> b < cSizeOfByte /\ delim b = true) ->
  In b ds -> possible (strip_wild ds r) b = true <-> mentions delim r b.
Proof.
  intros Hne Hs Hd Hb. assert (Hm : forall d, In d ds -> d <= cUnicodeMax) by (intros d H; apply Hd in H; unfold cSizeOfByte, cUnicodeMax in *; lia).
  assert (Hdb : delim b = true) by (apply Hd; exact Hb).
  induction r as [|c|l|wc neg rs|l IHl r IHr|l IHl r IHr|r IH mn mx|r IH t]; cbn [strip_wild possible mentions].
  - split; [discriminate|tauto].
  - rewrite N.eqb_eq. split; congruence.
  - rewrite existsb_exists. split; intros (d & H1 & H2); exists d; (split; [exact H1|]); [apply N.eqb_eq in H2; congruence|apply N.eqb_eq; congruence].
  - destruct wc; cbn [negb].
    + destruct ds as [|d0 ds0] eqn:E0; [congruence|]. rewrite <- E0 in *. cbn [possible].
      assert (X : in_rangesb (wild_ranges ds) b = false).
      { destruct (in_rangesb (wild_ranges ds) b) eqn:E; [|reflexivity]. apply in_rangesb_spec in E. apply wild_ranges_spec in E as (_ & E); auto. contradiction. }
      rewrite X. destruct neg; cbn; rewrite Hdb; tauto || (split; discriminate).
    + cbn [possible]. pose proof (in_rangesb_spec rs b) as X. unfold group_has. destruct neg; [|exact X]. rewrite negb_true_iff, <- not_true_iff_false. tauto.
  - rewrite orb_true_iff, IHl, IHr. tauto.
  - rewrite orb_true_iff, IHl, IHr. tauto.
  - exact IH.
  - exact IH.
Qed.
Lemma mentions_ext f g r b : (forall x, f x = g x) -> mentions f r b <-> mentions g r b.
Proof.
  intros H. induction r as [|c|l|wc neg rs|l IHl r IHr|l IHl r IHr|r IH mn mx|r IH t]; cbn [mentions]; try tauto.
  destruct wc; [|tauto]. rewrite H. tauto.
Qed.

Section Built.
Variables (sc : schema) (g : logparser) (p : prepared) (A : nfa) (ds : list N) (ns : list string).
Hypothesis HB : built sc g p A ds ns.
Hypothesis HL : legal sc.
Let c := lg_cfg g.

Lemma full_as_matches r w : faithful (star_as_plus r) -> img (full r) w <-> matches (star_as_plus r) w.
Proof.
  intros Hf. rewrite <- (full_matches _ Hf w). unfold img. split; intros (v & E & Hv); exists v; (split; [exact E|]);
    apply (full_star_as_plus r v); exact Hv.
Qed.
Theorem b_words : faithful_schema sc -> forall w i, In i (reported (c_dfa c) d_root w) <->
  schema_word sc (c_delim c) (get_symbol_id g) i w.
Proof.
  intros Hf w i. unfold c. rewrite (b_rep _ _ _ _ _ _ HB w i).
  assert (Hlit : forall d, d < cSizeOfByte -> forall r v, img (full (RCat (RLit d) r)) v <-> exists u, v = d :: u /\ img (full r) u).
  { intros d Hd r v. rewrite img_full_first by exact I. cbn [first_ok]. split.
    - intros (x & u & -> & -> & _ & Hu). eauto.
    - intros (u & -> & Hu). exists d, u. auto. }
  assert (Hgrp : forall r v, img (full (RCat (group_of ds) r)) v <-> exists d u, v = d :: u /\ c_delim (lg_cfg g) d = true /\ img (full r) u).
  { intros r v. rewrite img_full_first by exact I. split; intros (d & u & -> & H); exists d, u; (split; [reflexivity|]).
    - destruct H as (H1 & H2 & H3). split; [|exact H3]. apply (b_delims _ _ _ _ _ _ HB). apply group_of_first; [|exact H1].
      unfold cSizeOfByte, cUnicodeMax in *; lia.
    - destruct H as (H1 & H2). pose proof (b_delim_lt _ _ _ _ _ _ HB d H1) as Hlt. split; [|auto].
      apply group_of_first; [unfold cSizeOfByte, cUnicodeMax in *; lia|]. apply (b_delims _ _ _ _ _ _ HB). exact H1. }
  assert (Hvar : forall name r v, In (name, r) (sc_vars sc) ->
     img (full (strip_wild ds r)) v <-> var_matches (c_delim (lg_cfg g)) (star_as_plus r) v).
  { intros name r v Hi. destruct (Hf name r Hi) as (F1 & F2).
    assert (Hs := b_ds_sorted _ _ _ _ _ _ HB). assert (Hm := b_ds_max _ _ _ _ _ _ HB).
    rewrite full_as_matches by (rewrite strip_star; apply strip_faithful; auto using star_wild_plain). rewrite strip_star.
    apply strip_matches; auto using star_wild_plain. apply (po_ne _ _ _ _ (bu_prep _ _ _ _ _ _ HB)). apply (b_delims_in _ _ _ _ _ _ HB). }
  assert (B1 : cCharStartOfFile < cSizeOfByte) by reflexivity. assert (B2 : cNewline < cSizeOfByte) by reflexivity.
  split.
  - intros (r & Hk & Hw). destruct Hk as [|r Hi|r Hi|name r i Hi Hne E].
    + apply (img_full_byte (RLit cNewline)) in Hw as (x & -> & Hx & _); [|exact I]. cbn in Hx. subst. constructor.
    + apply Hlit in Hw as (u & -> & Hu); [|exact B1]. apply (sw_first _ _ _ r); [exact Hi|]. apply full_as_matches; [|exact Hu]. apply (Hf _ _ Hi).
    + apply Hlit in Hw as (u & -> & Hu); [|exact B2]. apply (sw_newline_ts _ _ _ r); [exact Hi|]. apply full_as_matches; [|exact Hu]. apply (Hf _ _ Hi).
    + apply Hgrp in Hw as (d & u & -> & Hd & Hu). apply (sw_var _ _ _ name r); auto. apply (Hvar name); assumption.
  - intros Hw. destruct Hw as [|r v Hi Hv|r v Hi Hv|name r i d v Hi Hne E Hd Hv].
    + exists (RLit cNewline). split; [constructor|]. apply (img_full_byte (RLit cNewline)); [exact I|]. exists cNewline. cbn. auto.
    + exists (RCat (RLit cCharStartOfFile) r). split; [constructor; exact Hi|]. apply Hlit; [exact B1|]. exists v. split; [reflexivity|].
      apply full_as_matches; [apply (Hf _ _ Hi)|exact Hv].
    + exists (RCat (RLit cNewline) r). split; [constructor; exact Hi|]. apply Hlit; [exact B2|]. exists v. split; [reflexivity|].
      apply full_as_matches; [apply (Hf _ _ Hi)|exact Hv].
    + exists (RCat (group_of ds) (strip_wild ds r)). split; [apply (rk_var _ _ _ name); auto|]. apply Hgrp. exists d, v. split; [reflexivity|].
      split; [exact Hd|]. apply (Hvar name); assumption.
Qed.

(** What is reported begins with a delimiter and contains no other, unless it is a timestamp or the newline. *)
Theorem b_var_word w i : In i (reported (c_dfa c) d_root w) ->
  i = TokenNewline /\ w = [cNewline] \/
  i = TokenFirstTimestamp /\ (exists v, w = cCharStartOfFile :: v) \/
  i = TokenNewlineTimestamp /\ (exists v, w = cNewline :: v) \/
  exists name d v, (exists r, In (name, r) (sc_vars sc)) /\ name <> cTimestamp /\ get_symbol_id g name = Some i /\
    w = d :: v /\ c_delim c d = true /\ forall b, In b v -> c_delim c b = false.
Proof.
  unfold c. intros Hi. apply (b_rep _ _ _ _ _ _ HB) in Hi as (r & Hk & Hw). destruct Hk as [|r H|r H|name r i H Hne E].
  - apply (img_full_byte (RLit cNewline)) in Hw as (x & -> & Hx & _); [|exact I]. cbn in Hx. subst. auto.
  - apply img_full_first in Hw as (x & v & -> & Hx & _); [|exact I]. cbn in Hx. subst. eauto.
  - apply img_full_first in Hw as (x & v & -> & Hx & _); [|exact I]. cbn in Hx. subst. eauto 10.
  - apply img_full_first in Hw as (x & v & -> & Hx & Hlt & Hv); [|exact I]. right; right; right. exists name, x, v.
    split; [eauto|]. split; [exact Hne|]. split; [exact E|]. split; [reflexivity|]. split.
    + apply (b_delims _ _ _ _ _ _ HB). apply group_of_first; [|exact Hx]. unfold cSizeOfByte, cUnicodeMax in *; lia.
    + intros b Hb. pose proof (img_full_possible _ _ (b_ranges _ _ _ _ _ _ HB HL name r H) Hv b Hb) as X.
      destruct (c_delim (lg_cfg g) b) eqn:Ed; [|reflexivity]. rewrite (b_no_delim _ _ _ _ _ _ HB name r b H Hne Ed) in X. discriminate.
Qed.

(** Without timestamp variables, what follows the first byte of an accepted word has no delimiter. *)
Lemma b_tail_free w : (forall r, ~ In (cTimestamp, r) (sc_vars sc)) -> reported (c_dfa c) d_root w <> [] ->
  exists d v, w = d :: v /\ forall b, In b v -> c_delim c b = false.
Proof.
  intros Hts Hr. destruct (reported (c_dfa c) d_root w) as [|i l] eqn:E; [congruence|].
  assert (Hi : In i (reported (c_dfa c) d_root w)) by (rewrite E; left; reflexivity).
  unfold c in Hi. pose proof Hi as Hi'. apply (b_rep _ _ _ _ _ _ HB) in Hi' as (r & Hk & _).
  apply b_var_word in Hi as [(_ & ->)|[(_ & v & ->)|[(_ & v & ->)|(name & d & v & _ & _ & _ & -> & _ & Hv)]]].
  - exists cNewline, []. split; [reflexivity|intros b []].
  - exists cCharStartOfFile, v. split; [reflexivity|]. intros b Hb. destruct (c_delim c b) eqn:Ed; [exfalso|reflexivity].
    unfold reported in E. destruct (run (c_dfa c) d_root (cCharStartOfFile :: v)) as [q|] eqn:Er; [|discriminate].
    destruct (b_stops _ _ _ _ _ _ HB HL _ _ _ _ Er Hb Ed) as ((x & Hx) & _). exact (Hts _ Hx).
  - exists cNewline, v. split; [reflexivity|]. intros b Hb. destruct (c_delim c b) eqn:Ed; [exfalso|reflexivity].
    unfold reported in E. destruct (run (c_dfa c) d_root (cNewline :: v)) as [q|] eqn:Er; [|discriminate].
    destruct (b_stops _ _ _ _ _ _ HB HL _ _ _ _ Er Hb Ed) as ((x & Hx) & _). exact (Hts _ Hx).
  - eauto.
Qed.
End Built.

(** * Construction *)
Lemma add_vars_rules ds vars : forall s rules s' rules', add_vars ds vars s rules = Ret (s', rules') ->
  (forall i r, In (i, r) rules -> no_int r = true) -> (forall name r, In (name, r) vars -> no_int r = true) ->
  forall i r, In (i, r) rules' -> no_int r = true.
Proof.
  induction vars as [|(name & r) vars IH]; intros s rules s' rules' H H1 H2; cbn [add_vars] in H.
  - injection H as _ <-. exact H1.
  - assert (Hr : no_int r = true) by (apply (H2 name); left; reflexivity).
    assert (H2' : forall name r, In (name, r) vars -> no_int r = true) by (intros; apply (H2 name0); right; assumption).
    destruct (String.eqb name cTimestamp).
    + destruct (sym_add s cTokenFirstTimestamp) as (s1 & i1). destruct (sym_add s1 cTokenNewlineTimestamp) as (s2 & i2).
      apply (IH _ _ _ _ H); [|exact H2']. intros i x Hi. apply in_app_iff in Hi as [Hi|[[= _ <-]|[[= _ <-]|[]]]]; eauto.
    + destruct (existsb _ ds); [discriminate|]. destruct (sym_add s name) as (s1 & i1).
      apply (IH _ _ _ _ H); [|exact H2']. intros i x Hi. apply in_app_iff in Hi as [Hi|[[= _ <-]|[]]]; eauto.
      cbn [no_int group_of andb]. rewrite strip_no_int. exact Hr.
Qed.
Lemma prepare_no_int sc p : prepare sc = Ret p -> (forall name r, In (name, r) (sc_vars sc) -> no_int r = true) ->
  forall i r, In (i, r) (pr_rules p) -> no_int r = true.
Proof.
  unfold prepare. intros H Hn. apply bind_Ret in H as (tbl & Ht & H). destruct (sym_add symtab_init cTokenNewline) as (s0 & i0).
  destruct (delims_of tbl) as [|d ds]; [discriminate|]. apply bind_Ret in H as ((s & rules) & Hv & [= <-]). cbn [pr_rules].
  apply (add_vars_rules _ _ _ _ _ _ Hv); [|exact Hn]. intros i r [[= _ <-]|[]]. reflexivity.
Qed.
(** add_vars either succeeds or throws, and throws only for a pattern that mentions a delimiter. *)
Lemma add_vars_outcome ds vars : forall s rules,
  (exists s' rules', add_vars ds vars s rules = Ret (s', rules')) /\
    (forall name r, In (name, r) vars -> name <> cTimestamp -> existsb (possible (strip_wild ds r)) ds = false) \/
  add_vars ds vars s rules = Throw /\
    (exists name r, In (name, r) vars /\ name <> cTimestamp /\ existsb (possible (strip_wild ds r)) ds = true).
Proof.
  induction vars as [|(name & r) vars IH]; intros s rules; cbn [add_vars].
  - left. split; [eauto|]. intros name r [].
  - destruct (String.eqb_spec name cTimestamp) as [->|Hne].
    + destruct (sym_add s cTokenFirstTimestamp) as (s1 & i1). destruct (sym_add s1 cTokenNewlineTimestamp) as (s2 & i2).
      destruct (IH s2 (rules ++ [(i1, RCat (RLit cCharStartOfFile) r); (i2, RCat (RLit cNewline) r)])) as [(H1 & H2)|(H1 & n & x & H2 & H3)].
      * left. split; [exact H1|]. intros n x [[= <- <-]|Hi] Hn; [congruence|eauto].
      * right. split; [exact H1|]. exists n, x. split; [right; exact H2|exact H3].
    + destruct (existsb (possible (strip_wild ds r)) ds) eqn:E.
      * right. split; [reflexivity|]. exists name, r. split; [left; reflexivity|]. auto.
      * destruct (sym_add s name) as (s1 & i1).
        destruct (IH s1 (rules ++ [(i1, RCat (group_of ds) (strip_wild ds r))])) as [(H1 & H2)|(H1 & n & x & H2 & H3)].
        { left. split; [exact H1|]. intros n x [[= <- <-]|Hi] Hn; [exact E|eauto]. }
        { right. split; [exact H1|]. exists n, x. split; [right; exact H2|exact H3]. }
Qed.
Lemma delim_lines_total lines : forall tbl0, (forall l d, In l lines -> In d l -> d < cSizeOfByte) ->
  exists tbl, add_delimiter_lines lines tbl0 = Ret tbl.
Proof.
  induction lines as [|l lines IH]; intros tbl0 H; cbn [add_delimiter_lines]; [eauto|].
  unfold add_delimiters. replace (forallb (fun d => d <? cSizeOfByte) l) with true.
  - cbn [bind]. apply IH. intros l' d Hl Hd. apply (H l'); [right; exact Hl|exact Hd].
  - symmetry. apply forallb_forall. intros d Hd. apply N.ltb_lt. apply (H l); [left; reflexivity|exact Hd].
Qed.

(** * Longer schemas *)
Lemma add_vars_app ds v1 v2 : forall s rules,
  add_vars ds (v1 ++ v2) s rules = (do (s1, r1) <- add_vars ds v1 s rules; add_vars ds v2 s1 r1).
Proof.
  induction v1 as [|(name & r) v1 IH]; intros s rules; cbn [add_vars app]; [reflexivity|].
  destruct (String.eqb name cTimestamp).
  - destruct (sym_add s cTokenFirstTimestamp) as (s1 & i1). destruct (sym_add s1 cTokenNewlineTimestamp) as (s2 & i2). apply IH.
  - destruct (existsb _ ds); [reflexivity|]. destruct (sym_add s name) as (s1 & i1). apply IH.
Qed.
Lemma sym_is_fun s ns ns' : sym_is s ns -> sym_is s ns' -> ns = ns'.
Proof.
  intros (_ & E & _) (_ & E' & _). rewrite E in E'. clear E.
  assert (H : forall ns ns' k, number k ns = number k ns' -> ns = ns').
  { induction ns0 as [|x l IH]; intros [|y l'] k H; cbn in H; try discriminate; [reflexivity|]. injection H as -> H. f_equal. eauto. }
  eauto.
Qed.
Lemma prepare_inv sc p : prepare sc = Ret p ->
  exists tbl s rules, add_delimiter_lines (sc_delims sc) (fun _ => false) = Ret tbl /\
    add_vars (delims_of tbl) (sc_vars sc) symtab_init [(TokenNewline, RLit cNewline)] = Ret (s, rules) /\ p = mkPrep tbl s rules.
Proof.
  unfold prepare. intros H. apply bind_Ret in H as (tbl & Ht & H).
  rewrite (sym_add_known symtab_init cTokenNewline 7) in H by reflexivity. cbv zeta beta in H.
  destruct (delims_of tbl) as [|d ds] eqn:Ed; [discriminate|].
  apply bind_Ret in H as ((s & rules) & Hv & H). injection H as <-. exists tbl, s, rules. rewrite Ed. auto.
Qed.
Lemma prepare_longer lines v1 v2 p1 p2 : prepare (mkSchema lines v1) = Ret p1 -> prepare (mkSchema lines (v1 ++ v2)) = Ret p2 ->
  forall name i, id_of (sy_id (pr_sym p1)) name = Some i -> id_of (sy_id (pr_sym p2)) name = Some i.
Proof.
  intros H1 H2. apply prepare_inv in H1 as (tbl & s1 & r1 & Ht & Hv1 & ->). apply prepare_inv in H2 as (tbl2 & s2 & r2 & Ht2 & Hv2 & ->).
  cbn [sc_delims sc_vars] in *. rewrite Ht in Ht2. injection Ht2 as <-. generalize dependent (delims_of tbl). intros ds Hv1 Hv2.
  rewrite add_vars_app in Hv2. apply bind_Ret in Hv2 as ((s1' & r1') & Hv1' & Hv2).
  rewrite Hv1 in Hv1'. injection Hv1' as <- <-. cbn [pr_sym]. intros name i.
  destruct (add_vars_spec _ _ _ _ _ _ _ sym_init (prefix_refl _) Hv1) as (ns1 & S1 & P1 & _).
  destruct (add_vars_spec _ _ _ _ _ _ _ S1 P1 Hv2) as (ns2 & S2 & P2 & _).
  apply (id_of_prefix s1 ns1 s2 ns2); assumption.
Qed.
