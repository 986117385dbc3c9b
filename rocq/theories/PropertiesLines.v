(** PropertiesLines.v -- C68: the error messages of LogParser::add_rules. The specification is LineSpec.v (which line a variable is on; the texts of the messages), mentions of
    SchemaSpec.v (what a pattern mentions). *)
From Verif Require Import Base OrdSet LexerModel LexerSpec LogParserModel RingModel RegexModel RegexSpec GrammarSpec LrModel LrTable ParseSpec LrDriver
  ReportModel SchemaModel SchemaSpec SchemaProofs SchemaUsable SchemaWords SchemaActions SchemaGrammar SchemaTable SchemaSafe SchemaRules SchemaSyntax
  SchemaLexer SchemaSplit SchemaRoom SchemaReport SerializeModel PropertiesSchema PropertiesSchemaText LineModel LineSpec LineProofs LineTexts.
From Coq Require Import String Sorted.
Local Open Scope list_scope.
Local Open Scope N_scope.

(** The delimiters: those of the last delimiters line and 0xFD. *)
Definition is_delimiter (lst : list N) (d : N) : bool := existsb (N.eqb d) lst || (d =? 253).
(** [r] mentions no delimiter; [d] is the least delimiter that [r] mentions. *)
Definition clean (lst : list N) (r : regex) : Prop := forall d, is_delimiter lst d = true -> ~ mentions (is_delimiter lst) r d.
Definition least_mentioned (lst : list N) (r : regex) (d : N) : Prop :=
  is_delimiter lst d = true /\ mentions (is_delimiter lst) r d /\ forall d', is_delimiter lst d' = true -> mentions (is_delimiter lst) r d' -> d <= d'.

Lemma delims_spec (lst : list N) : (forall d, In d lst -> d < cSizeOfByte) -> forall b, In b (delims_of (delim_table lst)) <-> is_delimiter lst b = true.
Proof.
  intros Hlt b. rewrite delims_of_in, delim_table_in. unfold is_delimiter. rewrite orb_true_iff, existsb_exists, N.eqb_eq. split.
  - intros (_ & [H | ->]); [left; exists b; split; [exact H|apply N.eqb_refl]|right; reflexivity].
  - intros [(x & Hx & Ex) | ->]; [apply N.eqb_eq in Ex; subst x; split; [apply Hlt; exact Hx|left; exact Hx]|split; [reflexivity|right; reflexivity]].
Qed.
Lemma delims_ne (lst : list N) : (forall b, In b (delims_of (delim_table lst)) <-> is_delimiter lst b = true) -> delims_of (delim_table lst) <> [].
Proof.
  generalize (delims_of (delim_table lst)). intros ds Hin ->. assert (X : is_delimiter lst 253 = true) by (unfold is_delimiter; rewrite N.eqb_refl; apply orb_true_r).
  apply (proj2 (Hin 253)) in X. destruct X.
Qed.
Lemma table_spec (lst : list N) x : delim_table lst x = is_delimiter lst x.
Proof. unfold delim_table, is_delimiter. f_equal. induction lst as [|y l IH]; [reflexivity|]. cbn. rewrite N.eqb_sym, IH. reflexivity. Qed.
Lemma possible_spec (lst : list N) : delims_of (delim_table lst) <> [] -> forall r b, In b (delims_of (delim_table lst)) ->
  possible (strip_wild (delims_of (delim_table lst)) r) b = true <-> mentions (is_delimiter lst) r b.
Proof.
  intros Hne r b Hb. pose proof (mentions_ext (delim_table lst) (is_delimiter lst) r b (table_spec lst)) as M.
  pose proof (possible_mentions (delims_of (delim_table lst)) (delim_table lst) r b Hne (delims_of_sorted (delim_table lst)) (delims_of_in (delim_table lst)) Hb) as P.
  exact (iff_trans P M).
Qed.
Section Messages.
Variables (path : list N) (file : option (list N)).
Local Notation lined_rules_from := (LineModel.lined_rules_from path file).
Local Notation add_lined_rules := (LineModel.add_lined_rules path file).
Local Notation delimiter_message := (LineModel.delimiter_message path file).
Lemma message_spec (lst ds : list N) (lvs : list (list N * regex * N)) m :
  (forall b, In b ds <-> is_delimiter lst b = true) ->
  (forall r b, In b ds -> possible (strip_wild ds r) b = true <-> mentions (is_delimiter lst) r b) ->
  (exists before n r k after d, lvs = before ++ (n, r, k) :: after /\ string_of n <> cTimestamp /\
    In d ds /\ possible (strip_wild ds r) d = true /\
    (forall d', In d' ds -> d' < d -> possible (strip_wild ds r) d' = false) /\
    (forall n' r' k', In (n', r', k') before -> string_of n' <> cTimestamp -> forall d', In d' ds -> possible (strip_wild ds r') d' = false) /\
    m = delimiter_message k n d) ->
  exists before name r line after d, lvs = before ++ (name, r, line) :: after /\
    (forall n r' k, In (n, r', k) before -> string_of n <> "timestamp"%string -> clean lst r') /\
    string_of name <> "timestamp"%string /\ least_mentioned lst r d /\ m = delimiter_message line name d.
Proof.
  intros Hin Hpm (before & n & r & k & after & d & E1 & E2 & E3 & E4 & E5 & E6 & E7).
  exists before, n, r, k, after, d. split; [exact E1|]. split; [|split; [exact E2|split; [|exact E7]]].
  - intros n' r' k' Hb Hn d' Hd' Hm. apply (proj2 (Hin d')) in Hd'. specialize (E6 n' r' k' Hb Hn d' Hd'). apply (proj2 (Hpm r' d' Hd')) in Hm.
    rewrite Hm in E6. discriminate E6.
  - split; [exact (proj1 (Hin d) E3)|]. split; [exact (proj1 (Hpm r d E3) E4)|]. intros d' Hd' Hm. apply (proj2 (Hin d')) in Hd'.
    destruct (N.lt_ge_cases d' d) as [Hl | Hl]; [|exact Hl]. specialize (E5 d' Hd' Hl). apply (proj2 (Hpm r d' Hd')) in Hm. rewrite Hm in E5. discriminate E5.
Qed.
Lemma from_cases tbl lst lvs m : tbl = delim_table lst -> (forall d, In d lst -> d < cSizeOfByte) -> lined_rules_from tbl (delims_of tbl) lvs = Ret (inr m) ->
  exists before name r line after d, lvs = before ++ (name, r, line) :: after /\
    (forall n r' k, In (n, r', k) before -> string_of n <> "timestamp"%string -> clean lst r') /\
    string_of name <> "timestamp"%string /\ least_mentioned lst r d /\ m = delimiter_message line name d.
Proof.
  intros -> Hlt H. pose proof (delims_spec lst Hlt) as Hin. pose proof (delims_ne lst Hin) as Hne. pose proof (possible_spec lst Hne) as Hpm.
  destruct (lined_from_message path file (delim_table lst) (delims_of (delim_table lst)) lvs m (delims_of_sorted _) H) as [(E0 & _) | Hmsg]; [elim (Hne E0)|].
  exact (message_spec lst (delims_of (delim_table lst)) lvs m Hin Hpm Hmsg).
Qed.
Lemma from_none lvs m : lined_rules_from (fun _ => false) (delims_of (fun _ => false)) lvs = Ret (inr m) -> m = no_delimiters_message.
Proof.
  intros H. destruct (lined_from_message path file _ _ lvs m (delims_of_sorted _) H) as [(_ & E0) | (b & n & r & k & a & d & _ & _ & Hin & _)]; [exact E0|].
  apply (proj1 (delims_of_in _ d)) in Hin. destruct Hin as (_ & Hin). discriminate Hin.
Qed.
Lemma message_cases sc : (forall l d, In l (ls_delims sc) -> In d l -> d < 256) ->
  match add_lined_rules sc with
  | Ret (inl _) => True
  | Ret (inr m) => (ls_delims sc = [] /\ m = no_delimiters_message) \/
       exists front lst before name r line after d, ls_delims sc = front ++ [lst] /\ ls_vars sc = before ++ (name, r, line) :: after /\
         (forall n r' k, In (n, r', k) before -> string_of n <> "timestamp"%string -> clean lst r') /\
         string_of name <> "timestamp"%string /\ least_mentioned lst r d /\ m = delimiter_message line name d
  | _ => False
  end.
Proof.
  intros Hd. destruct (delim_lines_total (ls_delims sc) (fun _ => false) Hd) as (tbl & Ht). rewrite lined_rules_eq, Ht. cbn [bind].
  pose proof (delim_lines_last _ _ _ Ht) as HL. clear Ht.
  destruct (lined_from_total path file tbl (delims_of tbl) (ls_vars sc)) as (x & Ex). rewrite Ex. destruct x as [p|m]; [exact Logic.I|].
  destruct HL as [(E & Etbl)|(front & lst & E & Etbl & Hlt)].
  - left. split; [exact E|]. rewrite Etbl in Ex. exact (from_none _ _ Ex).
  - right. destruct (from_cases tbl lst _ _ Etbl Hlt Ex) as (before & n & r & k & after & d & M).
    exists front, lst, before, n, r, k, after, d. exact (conj E M).
Qed.
End Messages.
(** ** add_rules on an AST. The run is that of SchemaModel.v; where that one throws, the message is the one for a schema without delimiters, or it
    names the first variable (timestamps aside) that mentions a delimiter, its line and the least such delimiter. *)
Theorem C68_message : forall path file sc, (forall l d, In l (ls_delims sc) -> In d l -> d < 256) ->
  match add_lined_rules path file sc with
  | Ret (inl p) => prepare (unlined_schema sc) = Ret p
  | Ret (inr m) => prepare (unlined_schema sc) = Throw /\
      ((ls_delims sc = [] /\ blames_schema m) \/
       exists front lst before name r line after d, ls_delims sc = front ++ [lst] /\ ls_vars sc = before ++ (name, r, line) :: after /\
         (forall n r' k, In (n, r', k) before -> string_of n <> "timestamp"%string -> clean lst r') /\
         string_of name <> "timestamp"%string /\ least_mentioned lst r d /\ blames path file m (line + 1) name d)
  | _ => False
  end.
Proof.
  intros path file sc Hd. pose proof (lined_rules_same path file sc) as HS. pose proof (message_cases path file sc Hd) as HC.
  destruct (add_lined_rules path file sc) as [[p|m]| | |]; [exact HS|split; [exact HS|]|exact HC|exact HS|exact HS].
  destruct HC as [(E & ->) | (front & lst & before & n & r & k & after & d & E1 & E2 & E3 & E4 & E5 & ->)]; [left; exact (conj E no_delimiters_blames)|right].
  exists front, lst, before, n, r, k, after, d. exact (conj E1 (conj E2 (conj E3 (conj E4 (conj E5 (delimiter_blames path file k n d)))))).
Qed.
Print Assumptions C68_message.

Lemma lined_plain c ls eline pfuel alloc :
  parse (lexer_types c) SEof schema_rule schema_resets cSizeOfAllChildren schema_grammar schema_table pfuel (Some 0) (map STok (map fst ls)) alloc =
  omap (fun r => (unlined (fst r), snd r))
    (parse (fun x : ltok => lexer_types c (fst x)) (SEof, eline) lined_rule schema_resets cSizeOfAllChildren schema_grammar schema_table pfuel (Some 0) (tagged ls) alloc).
Proof.
  rewrite <- tagged_texts.
  assert (E : forall o : out (lchild * N), omap (fun r => (unlined (fst r), snd r)) o = omap (fun r => (vfor fst fst (fst r), snd r)) o)
    by (intros [[v al]| | |]; try reflexivity; unfold omap; cbn [bind fst snd]; now rewrite unlined_vfor).
  rewrite E. exact (parse_for (fst : ltok -> stok) fst (lexer_types c) (SEof, eline) schema_rule lined_rule schema_resets cSizeOfAllChildren schema_grammar schema_table
                lined_rule_ok pfuel (Some 0) (tagged ls) alloc).
Qed.
(** ** The line numbers of a schema's text: try_schema_string returns the same with and without them, and they are those of LineSpec.v. *)
Theorem C68_lines : forall addr, exists F, forall dfuel, (F <= dfuel)%nat ->
  forall calls fuel pfuel cons b alloc s ws,
    Forall (fun x => x < 256) s -> len s < cStaticByteBuffSize / 2 -> splits s ws ->
    len s + 1 <= N.of_nat fuel -> len s < N.of_nat calls ->
  let result := lined_schema_string dfuel calls fuel pfuel addr cons b alloc s in
  try_schema_string dfuel calls fuel pfuel addr cons b alloc s = omap (fun x => (option_map unlined_schema (fst x), snd x)) result /\
  forall x al, result = Ret (x, al) -> exists sc, x = Some sc /\ lined_text ws (ls_vars sc) (ls_delims sc).
Proof.
  intros addr. destruct (schema_lexer_exists addr) as (F & HF). exists F. intros dfuel Hd. destruct (HF dfuel Hd) as (c & Ec & Hok).
  intros calls fuel pfuel cons b alloc s ws Hb Hl Hs H1 H2 result.
  destruct (lines_splits c s Hok Hb calls fuel cons b Hl H1 H2) as (ls & E & Hs' & Hlines).
  pose proof (splits_unique _ _ _ Hs' Hs) as Ews. unfold result, try_schema_string, lined_schema_string. clear result. rewrite Ec. cbn [bind].
  rewrite (proj1 schema_generated). cbn [bind]. unfold generate_schema_ast. rewrite schema_texts_lines, E. cbn [bind]. clear E.
  pose proof (lined_parse (lexer_types c) eq_refl (fun w X => proj1 (lexer_types_ok c Hok w X)) cSizeOfAllChildren pfuel ls (newlines s) alloc) as HL.
  rewrite (lined_plain c ls (newlines s) pfuel alloc). rewrite <- Ews. revert HL.
  generalize (parse (fun x : ltok => lexer_types c (fst x)) (SEof, newlines s) lined_rule schema_resets cSizeOfAllChildren schema_grammar schema_table pfuel (Some 0)
              (tagged ls) alloc). intros o HL. destruct o as [[v al]| | |]; cbn [omap bind].
  - destruct (HL v al Hlines eq_refl) as (p & vs & ds & L & -> & EL & HT). unfold omap. cbn [bind fst snd unlined option_map]. split.
    + unfold unlined_schema. cbn [option_map ls_vars ls_delims]. rewrite with_lines_fst by exact EL. reflexivity.
    + intros x al' [= <- <-]. eexists. split; [reflexivity|]. exact HT.
  - split; [reflexivity|intros x al [=]].
  - split; [reflexivity|intros x al [=]].
  - split; [reflexivity|intros x al [=]].
Qed.
Print Assumptions C68_lines.
(** In a text, each variable stands on a line of its own, and its number counts the newlines before that line. *)
Theorem C68_where : forall ws lvs ds, lined_text ws lvs ds -> forall before n r k after, lvs = before ++ (n, r, k) :: after ->
  exists pre v post, ws = pre ++ v ++ post /\ variable v n r /\ k = newlines (List.concat pre) /\
    (pre = [] \/ exists p b, pre = p ++ b /\ line_break b) /\ (post = [] \/ exists b q, post = b ++ q /\ line_break b).
Proof.
  assert (X : forall (w x : toks) b q, x = b ++ q -> line_break b -> forall n r k,
    (exists pre v post, w = pre ++ v ++ post /\ variable v n r /\ k = newlines (List.concat pre) /\
      (pre = [] \/ exists p b, pre = p ++ b /\ line_break b) /\ (post = [] \/ exists b q, post = b ++ q /\ line_break b)) ->
    exists pre v post, w ++ x = pre ++ v ++ post /\ variable v n r /\ k = newlines (List.concat pre) /\
      (pre = [] \/ exists p b, pre = p ++ b /\ line_break b) /\ (post = [] \/ exists b q, post = b ++ q /\ line_break b)).
  { intros w x b q Ex Hb n r k (pre & v & post & -> & H1 & H2 & H3 & H4). exists pre, v, (post ++ x). split; [now rewrite <- !app_assoc|].
    split; [exact H1|]. split; [exact H2|]. split; [exact H3|]. right. destruct H4 as [-> | (b' & q' & -> & Hb')]; [exists b, q; split; [exact Ex|exact Hb]|].
    exists b', (q' ++ x). split; [now rewrite <- app_assoc|exact Hb']. }
  induction 1 as [w Hw|w n0 r0 Hw|w d Hw|w vs ds b H IH Hb|w vs ds b c H IH Hb Hc|w vs ds b v n0 r0 H IH Hb Hv|w vs ds b d cs H IH Hb Hd];
    intros before n r k after E.
  - now destruct before.
  - destruct before as [|? [|? ?]]; try discriminate E. injection E as <- <- <- _. exists [], w, []. split; [now rewrite app_nil_r|]. split; [exact Hw|].
    split; [reflexivity|]. split; left; reflexivity.
  - now destruct before.
  - apply (X w b b []); [now rewrite app_nil_r|exact Hb|]. eapply IH; exact E.
  - eapply (X w _ b); [reflexivity|exact Hb|]. eapply IH; exact E.
  - destruct after as [|a after _] using rev_ind.
    + apply app_inj_tail in E as [_ E]. injection E as <- <- <-. exists (w ++ b), v, []. split; [now rewrite app_nil_r, <- app_assoc|]. split; [exact Hv|].
      split; [reflexivity|]. split; [right; eauto|left; reflexivity].
    + eapply (X w _ b); [reflexivity|exact Hb|]. rewrite app_comm_cons, app_assoc in E. apply app_inj_tail in E as [E _]. eapply IH; exact E.
  - eapply (X w _ b); [reflexivity|exact Hb|]. eapply IH; exact E.
Qed.
Print Assumptions C68_where.

(** ** From the text of a schema to the message: SchemaParser::try_schema_string and add_rules. *)
Definition construct (path : list N) (file : option (list N)) (dfuel calls fuel pfuel : nat) (addr : nat -> N) (cons : nat -> N) (b : ibuf) (alloc : N) (s : list N) : out (prepared + list N) :=
  do (x, al) <- lined_schema_string dfuel calls fuel pfuel addr cons b alloc s;
  match x with Some sc => add_lined_rules path file sc | None => UB end.
Lemma delimiters_bytes ws vs ds : schema_text ws vs ds -> Forall (fun w => Forall (fun x => x < 256) w) ws -> forall l d, In l ds -> In d l -> d < 256.
Proof.
  assert (HL : forall w r, literal w r -> forall c, r = RLit c -> Forall (fun w => Forall (fun x => x < 256) w) w -> c < 256).
  { apply (literal_m (fun w r => forall c, r = RLit c -> Forall (fun w => Forall (fun x => x < 256) w) w -> c < 256)
             (fun w r => forall c, r = RLit c -> Forall (fun w => Forall (fun x => x < 256) w) w -> c < 256)
             (fun w r => forall c, r = RLit c -> Forall (fun w => Forall (fun x => x < 256) w) w -> c < 256)
             (fun w r => forall c, r = RLit c -> Forall (fun w => Forall (fun x => x < 256) w) w -> c < 256)
             (fun w r => forall c, r = RLit c -> Forall (fun w => Forall (fun x => x < 256) w) w -> c < 256)
             (fun _ _ _ => True) (fun _ _ => True)); try (intros; exact Logic.I); try (intros; discriminate).
    - intros b _ c [= <-] H. inversion H as [|? ? H1 _]; subst. now inversion H1.
    - intros b _ c [= <-] H. inversion H as [|? ? _ H1]; subst. inversion H1 as [|? ? H2 _]; subst. now inversion H2.
    - intros l b Hc c [= <-] _. unfold control in Hc. cbn in Hc. repeat (destruct Hc as [[= <- <-] | Hc]; [reflexivity|]). destruct Hc.
    - intros w r _ IH c E H. inversion H as [|? ? _ H1]; subst. apply Forall_app in H1 as [H1 _]. eauto.
    - intros w r _ IH c E H. eauto.
    - intros w r _ IH c E H. eauto.
    - intros w r _ IH c E H. eauto.
    - intros w r wk k wm m _ _ _ _ c E. destruct (k =? 0); discriminate E.
    - intros w r _ IH c E H. eauto. }
  assert (HD : forall w l, delimiters w l -> Forall (fun w => Forall (fun x => x < 256) w) w -> forall d, In d l -> d < 256).
  { induction 1 as [w c Hc|w1 l w2 c _ IH Hc]; intros H d Hd.
    - destruct Hd as [<- | []]. exact (HL _ _ Hc c eq_refl H).
    - apply Forall_app in H as [H1 H2]. apply in_app_or in Hd as [Hd | [<- | []]]; [auto|]. exact (HL _ _ Hc c eq_refl H2). }
  induction 1 as [w Hw|w n r Hw|w d Hw|w vs ds b _ IH Hb|w vs ds b c _ IH Hb Hc|w vs ds b v n r _ IH Hb Hv|w vs ds b d cs _ IH Hb Hd]; intros H l x Hl Hx.
  - destruct Hl.
  - destruct Hl.
  - destruct Hl as [<- | []]. inversion H as [|? ? _ H1]; subst. inversion H1 as [|? ? _ H2]; subst. exact (HD _ _ Hw H2 x Hx).
  - apply Forall_app in H as [H _]. eauto.
  - apply Forall_app in H as [H _]. eauto.
  - apply Forall_app in H as [H _]. eauto.
  - apply Forall_app in H as [H H']. apply in_app_or in Hl as [Hl | [<- | []]]; [eauto|]. apply Forall_app in H' as [_ H'].
    inversion H' as [|? ? _ H1]; subst. inversion H1 as [|? ? _ H2]; subst. exact (HD _ _ Hd H2 x Hx).
Qed.
(** If the schema's text is accepted and construction fails, the message is the one for a schema without delimiters line, or it names the first
    variable whose pattern mentions a delimiter, the number of the line of the text on which that variable stands (the first line has number 1), and
    the least delimiter that it mentions. *)
Theorem C68_schema_error : forall addr, exists F, forall dfuel, (F <= dfuel)%nat ->
  forall path file calls fuel pfuel cons b alloc s ws m,
    Forall (fun x => x < 256) s -> len s < cStaticByteBuffSize / 2 -> splits s ws ->
    len s + 1 <= N.of_nat fuel -> len s < N.of_nat calls ->
    construct path file dfuel calls fuel pfuel addr cons b alloc s = Ret (inr m) ->
  exists vars delims, schema_text ws vars delims /\
    ((delims = [] /\ blames_schema m) \/
     exists front lst before name r after d pre v post, delims = front ++ [lst] /\ vars = before ++ (name, r) :: after /\
       (forall n r', In (n, r') before -> string_of n <> "timestamp"%string -> clean lst r') /\
       string_of name <> "timestamp"%string /\ least_mentioned lst r d /\
       ws = pre ++ v ++ post /\ variable v name r /\
       (pre = [] \/ exists p b, pre = p ++ b /\ line_break b) /\ (post = [] \/ exists b q, post = b ++ q /\ line_break b) /\
       blames path file m (1 + newlines (List.concat pre)) name d).
Proof.
  intros addr. destruct (C68_lines addr) as (F & HF). exists F. intros dfuel Hd path file calls fuel pfuel cons b alloc s ws m Hb Hl Hs H1 H2 H.
  destruct (HF dfuel Hd calls fuel pfuel cons b alloc s ws Hb Hl Hs H1 H2) as (_ & G). unfold construct in H.
  destruct (lined_schema_string dfuel calls fuel pfuel addr cons b alloc s) as [[x al]| | |]; try discriminate H. cbn [bind] in H.
  destruct (G x al eq_refl) as (sc & -> & HT). clear G. pose proof (lined_forget _ _ _ HT) as HS. exists (map fst (ls_vars sc)), (ls_delims sc). split; [exact HS|].
  assert (Hws : Forall (fun w => Forall (fun x => x < 256) w) ws).
  { apply Forall_forall. intros w Hw. apply Forall_forall. intros y Hy. rewrite Forall_forall in Hb. apply Hb. rewrite <- (splits_concat _ _ Hs).
    apply in_concat. eauto. }
  pose proof (C68_message path file sc (delimiters_bytes _ _ _ HS Hws)) as HM. rewrite H in HM. destruct HM as (_ & [HM | HM]); [now left|right].
  destruct HM as (front & lst & before & name & r & line & after & d & E1 & E2 & E3 & E4 & E5 & E6).
  destruct (C68_where ws _ _ HT before name r line after E2) as (pre & v & post & W1 & W2 & -> & W3 & W4).
  exists front, lst, (map fst before), name, r, (map fst after), d, pre, v, post. split; [exact E1|]. split; [now rewrite E2, map_app|]. rewrite N.add_comm in E6. split; [|exact (conj E4 (conj E5 (conj W1 (conj W2 (conj W3 (conj W4 E6))))))].
  intros n r' Hin. apply in_map_iff in Hin as ([[n' r''] k] & E & Hin). cbn in E. injection E as -> ->. eapply E3; exact Hin.
Qed.
Print Assumptions C68_schema_error.
(** Non-vacuity: the third line's variable mentions both delimiters; the fourth line is not reached. *)
Definition construct_run (path : list N) (file : option (list N)) (s : list N) : out (prepared + list N) :=
  do c <- schema_lexer 300 N.of_nat;
  do (ls, eline) <- schema_lines 1000 1000 c (fun _ => 0) s buffer0;
  do (v, al) <- parse (fun x : ltok => lexer_types c (fst x)) (SEof, eline) lined_rule schema_resets cSizeOfAllChildren schema_grammar schema_table 9000 (Some 0) (tagged ls) 0;
  match v with VNt _ (Some (VSchema vars delims, lns)) => add_lined_rules path file (mkLschema delims (with_lines vars lns)) | _ => UB end.
Lemma construct_run_is path file s : construct path file 300 1000 1000 9000 N.of_nat (fun _ => 0) buffer0 0 s = construct_run path file s.
Proof.
  unfold construct, lined_schema_string, construct_run. rewrite (proj1 schema_generated). destruct (schema_lexer 300 N.of_nat) as [c| | |]; try reflexivity. cbn [bind].
  destruct (schema_lines 1000 1000 c (fun _ => 0) s buffer0) as [[ls e]| | |]; try reflexivity. cbn [bind].
  destruct (parse (fun x : ltok => lexer_types c (fst x)) (SEof, e) lined_rule schema_resets cSizeOfAllChildren schema_grammar schema_table 9000 (Some 0) (tagged ls) 0)
    as [[[?|? [[[?|? ?|? ?|?|?] ?]|]] ?]| | |]; reflexivity.
Qed.
Example C68_example :
  match construct_run [] None (lines ["// c"; "delimiters: ,"; "v:a(,| )"; "w:,"]%string), construct_run [] None (codes "v:a"%string), construct_run [] None (lines ["delimiters: ,"; "v:a"]%string) with
  | Ret (inr m), Ret (inr m'), Ret (inl _) =>
      m = text (":3: error: 'v' has regex pattern which contains delimiter ' '.")%string ++ [10] /\ m' = no_delimiters_message
  | _, _, _ => False
  end.
Proof. vm_compute. split; reflexivity. Qed.
