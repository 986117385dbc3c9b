(** PropertiesMessage.v -- C70, C73: the message of a rejected schema as a user reads it: the text that std::exception::what() shows. The specification is
    below (numerals: LineSpec.v; describes: SchemaReport.v; whole_line: PropertiesReport.v). *)
From Verif Require Import Base OrdSet LexerModel GrammarSpec LrModel LrTable ParseSpec LrDriver LrReport ReportModel ReportProofs RegexModel SchemaModel SchemaActions
  SchemaGrammar SchemaTable SchemaRules SchemaSyntax SchemaLexer SchemaSplit SchemaReport SerializeModel PropertiesSchemaText PropertiesReport LineModel LineSpec LineTexts.
From Coq Require Import String Ascii DecimalString.
Local Open Scope list_scope.
Local Open Scope N_scope.

(** ** Specification. *)
(** What a C string shows of a text: the bytes before the first zero byte. *)
Fixpoint shown (m : list N) : list N := match m with [] => [] | b :: m' => if b =? 0 then [] else b :: shown m' end.
(** 'x','y','z' *)
Fixpoint comma_list (l : list (list N)) : list N :=
  match l with
  | [] => []
  | x :: r => bytes "'" ++ x ++ bytes "'" ++ match r with [] => [] | _ => bytes "," ++ comma_list r end
  end.
Definition expectation (l : list (list N)) : list N := match l with [] => bytes "expected" | _ => bytes "expected " ++ comma_list l end.
(** The offending byte, as it is printed. *)
Definition printed (b : N) : list N :=
  if b =? 9 then bytes "\t" else if b =? 10 then bytes "\n" else if b =? 11 then bytes "\v" else if b =? 12 then bytes "\f" else if b =? 13 then bytes "\r" else [b].
Definition position (r : report) (p : list N) : Prop :=
  exists ln col, decimal ln (rp_line r) /\ decimal col (rp_column r) /\ p = bytes "Schema:" ++ ln ++ bytes ":" ++ col ++ bytes ": error: ".

(** ** The text of the message. *)
Lemma decimal_dec n : ReportModel.decimal n = dec n.
Proof.
  unfold ReportModel.decimal, dec. pose proof (dec_decimal n) as (H & _). unfold dec in H.
  assert (E : forall u, codes_of (NilEmpty.string_of_uint u) = uint_codes u).
  { unfold codes_of. induction u as [|u IH|u IH|u IH|u IH|u IH|u IH|u IH|u IH|u IH|u IH]; [reflexivity|..]; cbn [NilEmpty.string_of_uint list_ascii_of_string map uint_codes];
    rewrite IH; reflexivity. }
  rewrite <- E. unfold NilZero.string_of_uint. destruct (N.to_uint n) eqn:En; try reflexivity. cbn in H. congruence.
Qed.
Lemma expected_list name literal l : (forall X, literal X = None) ->
  removelast (codes_of "expected " ++ flat_map (entry name literal) l) = expectation (map name l).
Proof.
  intros HL. destruct l as [|x l]; [reflexivity|]. cbn [map]. unfold expectation.
  assert (G : forall l y, exists z, flat_map (entry name literal) (y :: l) = comma_list (map name (y :: l)) ++ [z]).
  { clear x l. induction l as [|x l IH]; intros y.
    - exists 44. cbn [flat_map map comma_list]. unfold entry. rewrite HL, !app_nil_r, <- !app_assoc. reflexivity.
    - destruct (IH x) as (z & E). exists z. change (flat_map (entry name literal) (y :: x :: l)) with (entry name literal y ++ flat_map (entry name literal) (x :: l)). rewrite E.
      unfold entry. rewrite HL. cbn [map comma_list]. rewrite <- !app_assoc. reflexivity. }
  destruct (G l x) as (z & ->). rewrite app_assoc, removelast_last. reflexivity.
Qed.
Lemma printed_unescape b : unescape b = printed b.
Proof.
  unfold printed. destruct (N.eqb_spec b 9) as [-> | H1]; [reflexivity|]. destruct (N.eqb_spec b 10) as [-> | H2]; [reflexivity|].
  destruct (N.eqb_spec b 11) as [-> | H3]; [reflexivity|]. destruct (N.eqb_spec b 12) as [-> | H4]; [reflexivity|].
  destruct (N.eqb_spec b 13) as [-> | H5]; [reflexivity|].
  destruct b as [|p]; [reflexivity|]. do 4 (destruct p as [p|p|]; try reflexivity; try congruence).
Qed.
Lemma no_literals X : schema_literal X = None.
Proof. reflexivity. Qed.
(** The whole message. *)
Lemma message_text r : exists p, position r p /\ message schema_name schema_literal r =
  match rp_expected r with
  | None => p ++ bytes "empty file" ++ [10] ++ repeat 32 10 ++ (rp_consumed r ++ rp_token r ++ rp_rest r) ++ bytes "^" ++ [10]
  | Some l => p ++ (expectation (map schema_name l) ++ bytes " before '" ++ printed (hd 0 (rp_token r)) ++ bytes "' token") ++ [10] ++
              repeat 32 10 ++ (rp_consumed r ++ rp_token r ++ rp_rest r) ++ repeat 32 (10 + List.length (rp_consumed r)) ++ bytes "^" ++ [10]
  end.
Proof.
  exists (bytes "Schema:" ++ dec (rp_line r) ++ bytes ":" ++ dec (rp_column r) ++ bytes ": error: "). split.
  - exists (dec (rp_line r)), (dec (rp_column r)). split; [apply dec_decimal|]. split; [apply dec_decimal|reflexivity].
  - unfold message. rewrite !decimal_dec. destruct (rp_expected r) as [l|].
    + rewrite (expected_list _ _ _ no_literals), printed_unescape, (Nat.add_comm 10 (List.length _)). rewrite <- !app_assoc. reflexivity.
    + rewrite <- !app_assoc. reflexivity.
Qed.
(** ** What is shown. *)
Lemma shown_all m : ~ In 0 m -> shown m = m.
Proof.
  induction m as [|b m IH]; intros H; [reflexivity|]. cbn [shown]. destruct (N.eqb_spec b 0) as [-> | _]; [exfalso; apply H; now left|].
  f_equal. apply IH. intros Hi. apply H. now right.
Qed.
Lemma shown_cut a z : ~ In 0 a -> shown (a ++ 0 :: z) = a.
Proof.
  induction a as [|b a IH]; intros H; [reflexivity|]. cbn [app shown]. destruct (N.eqb_spec b 0) as [-> | _]; [exfalso; apply H; now left|].
  f_equal. apply IH. intros Hi. apply H. now right.
Qed.
Lemma not_in_app (a b : list N) : ~ In 0 a -> ~ In 0 b -> ~ In 0 (a ++ b).
Proof. intros H1 H2 H. apply in_app_or in H as [H | H]; auto. Qed.
Lemma no_zero (a : list N) : forallb (fun b => negb (b =? 0)) a = true -> ~ In 0 a.
Proof. intros H Hi. rewrite forallb_forall in H. specialize (H 0 Hi). discriminate H. Qed.
Lemma numeral_shown ds n : decimal ds n -> ~ In 0 ds.
Proof. intros (_ & H & _) Hi. rewrite Forall_forall in H. specialize (H 0 Hi). lia. Qed.
Lemma position_shown r p : position r p -> ~ In 0 p.
Proof.
  intros (a & b & Ha & Hb & ->). apply not_in_app; [apply no_zero; reflexivity|]. apply not_in_app; [exact (numeral_shown _ _ Ha)|].
  apply not_in_app; [apply no_zero; reflexivity|]. apply not_in_app; [exact (numeral_shown _ _ Hb)|]. apply no_zero. reflexivity.
Qed.
Lemma name_shown X : ~ In 0 (schema_name X).
Proof.
  unfold schema_name. destruct (find _ schema_names) as [e|] eqn:E; [|intros []]. apply find_some in E as [E _].
  assert (G : forallb (fun e => forallb (fun b => negb (b =? 0)) (codes_of (fst e))) schema_names = true) by (vm_compute; reflexivity).
  rewrite forallb_forall in G. apply no_zero. exact (G e E).
Qed.
Lemma list_shown l : ~ In 0 (comma_list (map schema_name l)).
Proof.
  induction l as [|x l IH]; [intros []|]. cbn [map comma_list]. apply not_in_app; [apply no_zero; reflexivity|]. apply not_in_app; [apply name_shown|].
  apply not_in_app; [apply no_zero; reflexivity|]. destruct (map schema_name l); [intros []|]. apply not_in_app; [apply no_zero; reflexivity|exact IH].
Qed.
Lemma expectation_shown l : ~ In 0 (expectation (map schema_name l)).
Proof.
  unfold expectation. pose proof (list_shown l) as H. destruct (map schema_name l); [apply no_zero; reflexivity|].
  apply not_in_app; [apply no_zero; reflexivity|exact H].
Qed.
Lemma printed_shown b : b <> 0 -> ~ In 0 (printed b).
Proof.
  intros Hb. unfold printed. repeat match goal with |- context [if ?x then _ else _] => destruct x; [apply no_zero; reflexivity|] end.
  intros [E | []]. congruence.
Qed.
Lemma spaces_shown k : ~ In 0 (repeat 32 k).
Proof. intros H. apply repeat_spec in H. discriminate H. Qed.

(** ** C70, the part that holds: if the message is about a token, not a line break, and the token's line contains no zero byte, the user reads where
    the token is, what is expected before it, its line, and below it a ^ under its first byte. *)
Theorem C70_what_partial : forall ws r, Forall schema_token ws -> describes stypes ws r -> rp_token r <> [] -> existsb break_byte (rp_token r) = false ->
  ~ In 0 (rp_consumed r ++ rp_token r ++ rp_rest r) ->
  exists p l line a b w z, position r p /\ rp_expected r = Some l /\ whole_line (List.concat ws) line /\
    line = a ++ (b :: w) ++ z /\ rp_token r = b :: w /\ rp_column r = N.of_nat (List.length a) + 1 /\
    shown (message schema_name schema_literal r) =
      p ++ expectation (map schema_name l) ++ bytes " before '" ++ printed b ++ bytes "' token" ++ [10] ++
      repeat 32 10 ++ line ++ [10] ++
      repeat 32 10 ++ repeat 32 (List.length a) ++ bytes "^" ++ [10].
Proof.
  intros ws r Ht Hd Htok Hbr Hz. destruct (C57_quoted_line ws r Ht Hd Hbr) as (line & HL & El & Hc & _).
  assert (He : rp_expected r <> None).
  { intros E. apply (proj1 (C57_empty_file ws r Ht Hd)) in E as (_ & _ & E & _). contradiction. }
  destruct (rp_expected r) as [l|] eqn:Ee; [|congruence]. clear He. destruct (message_text r) as (p & Hp & Em). rewrite Ee in Em.
  destruct (rp_token r) as [|b w] eqn:Et; [congruence|]. cbn [hd] in Em.
  assert (Hrest : exists z, rp_rest r = z ++ [10]).
  { destruct Hd as (pre & _ & _ & _ & [(w' & post & z & _ & _ & _ & _ & _ & Hr & _) | (_ & _ & _ & _ & Hr & _)]); [eauto|]. exists []. exact Hr. }
  destruct Hrest as (z & Er). rewrite Er in *.
  assert (El2 : line = rp_consumed r ++ (b :: w) ++ z).
  { rewrite !app_assoc in El. apply app_inj_tail in El as [El _]. rewrite <- El, <- !app_assoc. reflexivity. }
  exists p, l, line, (rp_consumed r), b, w, z. split; [exact Hp|]. split; [reflexivity|]. split; [exact HL|]. split; [exact El2|]. split; [reflexivity|]. split; [exact Hc|].
  rewrite Em, shown_all.
  - rewrite El2, repeat_app, <- !app_assoc. rewrite <- ?app_assoc. reflexivity.
  - assert (Hb0 : b <> 0) by (intros ->; apply Hz; apply in_or_app; right; now left).
    apply not_in_app; [exact (position_shown _ _ Hp)|]. apply not_in_app.
    { apply not_in_app; [apply expectation_shown|]. apply not_in_app; [apply no_zero; reflexivity|]. apply not_in_app; [exact (printed_shown b Hb0)|apply no_zero; reflexivity]. }
    apply not_in_app; [apply no_zero; reflexivity|]. apply not_in_app; [apply spaces_shown|]. apply not_in_app; [exact Hz|]. apply not_in_app; [apply spaces_shown|].
    apply no_zero. reflexivity.
Qed.
Print Assumptions C70_what_partial.
(** If the message is about a line break (a carriage return or a newline that may not stand there): what stands before it on its line is quoted, with the
    line break itself and an empty line after it, and then the ^ under the place of the line break. The line number is one too large at a newline. *)
Theorem C70_line_break_partial : forall ws r, Forall schema_token ws -> describes stypes ws r -> rp_token r <> [] -> existsb break_byte (rp_token r) = true ->
  ~ In 0 (rp_consumed r) ->
  exists p l pre b post, position r p /\ rp_expected r = Some l /\ ws = pre ++ [b] :: post /\ rp_token r = [b] /\ (b = 10 \/ b = 13) /\
    last_line_of (List.concat pre) (rp_consumed r) /\ rp_column r = N.of_nat (List.length (rp_consumed r)) + 1 /\
    rp_line r = newlines (List.concat pre) + (if b =? 10 then 2 else 1) /\
    shown (message schema_name schema_literal r) =
      p ++ expectation (map schema_name l) ++ bytes " before '" ++ (if b =? 10 then bytes "\n" else bytes "\r") ++ bytes "' token" ++ [10] ++
      repeat 32 10 ++ rp_consumed r ++ [b] ++ [10] ++
      repeat 32 10 ++ repeat 32 (List.length (rp_consumed r)) ++ bytes "^" ++ [10].
Proof.
  intros ws r Ht Hd Htok Hbr Hz.
  assert (He : rp_expected r <> None).
  { intros E. apply (proj1 (C57_empty_file ws r Ht Hd)) in E as (_ & _ & E & _). contradiction. }
  destruct (rp_expected r) as [l|] eqn:Ee; [|congruence]. clear He. destruct (message_text r) as (p & Hp & Em). rewrite Ee in Em.
  destruct Hd as (pre & _ & Hc & Hl & [(w & post & z & -> & _ & Hw & Hline & Hzz & Hr & _) | (_ & _ & Hw & _)]); [|contradiction].
  assert (Hsw : schema_token w) by (apply Forall_app in Ht as [_ Ht]; clear -Ht; inversion Ht; assumption). subst w.
  assert (Hb : exists b, rp_token r = [b] /\ (b = 10 \/ b = 13)).
  { destruct Hsw as [E | (b & E)]; rewrite E in Hbr |- *; [discriminate Hbr|]. exists b. split; [reflexivity|].
    cbn in Hbr. rewrite orb_false_r in Hbr. unfold break_byte in Hbr. apply orb_true_iff in Hbr as [Hbr | Hbr]; apply N.eqb_eq in Hbr; auto. }
  destruct Hb as (b & Eb & Hb). rewrite (is_newline_breaks (rp_token r) Hsw), Hbr in Hzz. subst z. cbn [app] in Hr.
  exists p, l, pre, b, post. split; [exact Hp|]. split; [reflexivity|]. split; [now rewrite Eb|]. split; [exact Eb|]. split; [exact Hb|]. split; [exact Hl|]. split; [exact Hc|]. split.
  - rewrite Hline, Eb, concat_app. cbn [List.concat]. rewrite app_nil_r. unfold newlines. rewrite filter_app, app_length. cbn [filter]. rewrite (N.eqb_sym 10 b).
    destruct (b =? 10); cbn [List.length]; lia.
  - rewrite Em, Eb, Hr. cbn [hd].
    assert (Epr : printed b = if b =? 10 then bytes "\n" else bytes "\r") by (destruct Hb as [-> | ->]; reflexivity). rewrite <- Epr.
    rewrite shown_all.
    + rewrite repeat_app, <- !app_assoc. reflexivity.
    + assert (Hb0 : b <> 0) by (destruct Hb as [-> | ->]; discriminate).
      apply not_in_app; [exact (position_shown _ _ Hp)|]. apply not_in_app.
      { apply not_in_app; [apply expectation_shown|]. apply not_in_app; [apply no_zero; reflexivity|]. apply not_in_app; [exact (printed_shown b Hb0)|apply no_zero; reflexivity]. }
      apply not_in_app; [apply no_zero; reflexivity|]. apply not_in_app; [apply spaces_shown|]. apply not_in_app.
      { apply not_in_app; [exact Hz|]. apply not_in_app; [intros [E | []]; congruence|apply no_zero; reflexivity]. }
      apply not_in_app; [apply spaces_shown|]. apply no_zero. reflexivity.
Qed.
Print Assumptions C70_line_break_partial.
(** If the quoted line contains a zero byte, the user reads the line up to it, and no ^. *)
Theorem C70_zero_byte_refuted : forall ws r a z, Forall schema_token ws -> describes stypes ws r -> rp_token r <> [] -> hd 0 (rp_token r) <> 0 ->
  rp_consumed r ++ rp_token r ++ rp_rest r = a ++ 0 :: z -> ~ In 0 a ->
  exists p l, position r p /\ rp_expected r = Some l /\
    shown (message schema_name schema_literal r) =
      p ++ expectation (map schema_name l) ++ bytes " before '" ++ printed (hd 0 (rp_token r)) ++ bytes "' token" ++ [10] ++ repeat 32 10 ++ a.
Proof.
  intros ws r a z Ht Hd Htok Hb0 El Ha.
  assert (He : rp_expected r <> None).
  { intros E. apply (proj1 (C57_empty_file ws r Ht Hd)) in E as (_ & _ & E & _). contradiction. }
  destruct (rp_expected r) as [l|] eqn:Ee; [|congruence]. destruct (message_text r) as (p & Hp & Em). rewrite Ee, El in Em.
  exists p, l. split; [exact Hp|]. split; [reflexivity|]. rewrite Em.
  match goal with |- shown ?m = ?q => assert (E : exists y, m = q ++ 0 :: y) by (eexists; rewrite <- !app_assoc; cbn [app]; rewrite <- ?app_assoc; cbn [app]; reflexivity) end.
  destruct E as (y & ->). apply shown_cut.
  apply not_in_app; [exact (position_shown _ _ Hp)|]. apply not_in_app; [apply expectation_shown|]. apply not_in_app; [apply no_zero; reflexivity|].
  apply not_in_app; [exact (printed_shown _ Hb0)|]. apply not_in_app; [apply no_zero; reflexivity|]. apply not_in_app; [apply no_zero; reflexivity|].
  apply not_in_app; [apply spaces_shown|exact Ha].
Qed.
Print Assumptions C70_zero_byte_refuted.
(** Refuted for a text that ends too early in a line that is not empty (and for a zero byte as the offending token): the first character of the missing token is printed as a zero byte, and the
    user reads nothing after it: no line, no ^. *)
Theorem C70_end_refuted : forall ws r l, describes stypes ws r -> hd 0 (rp_token r) = 0 -> rp_expected r = Some l ->
  exists p, position r p /\ shown (message schema_name schema_literal r) = p ++ expectation (map schema_name l) ++ bytes " before '".
Proof.
  intros ws r l _ Et Ee. destruct (message_text r) as (p & Hp & Em). rewrite Ee, Et in Em. exists p. split; [exact Hp|]. rewrite Em. change (printed 0) with [0].
  match goal with |- shown ?m = _ => assert (E : exists z, m = (p ++ expectation (map schema_name l) ++ bytes " before '") ++ 0 :: z) by (eexists; rewrite <- !app_assoc; reflexivity) end.
  destruct E as (z & ->). apply shown_cut. apply not_in_app; [exact (position_shown _ _ Hp)|]. apply not_in_app; [apply expectation_shown|apply no_zero; reflexivity].
Qed.
Print Assumptions C70_end_refuted.
(** C73: all there is to read, for every rejected text. [quoted]: the token's whole line (up to the next \r or \n) and a newline; or, at a line break, the
    line up to it, the line break and a newline. *)
Theorem C73_message : forall ws r, Forall schema_token ws -> describes stypes ws r ->
  exists p quoted, position r p /\ quoted = rp_consumed r ++ rp_token r ++ rp_rest r /\
    (existsb break_byte (rp_token r) = false -> exists line, whole_line (List.concat ws) line /\ quoted = line ++ [10]) /\
    (existsb break_byte (rp_token r) = true -> exists pre b post, ws = pre ++ [b] :: post /\ rp_token r = [b] /\ last_line_of (List.concat pre) (rp_consumed r) /\
       quoted = rp_consumed r ++ [b; 10]) /\
    let text := shown (message schema_name schema_literal r) in
    match rp_expected r with
    | None => text = p ++ bytes "empty file" ++ [10] ++ repeat 32 10 ++ [10] ++ bytes "^" ++ [10]
    | Some l =>
        let before := p ++ expectation (map schema_name l) ++ bytes " before '" in
        let rest := printed (hd 0 (rp_token r)) ++ bytes "' token" ++ [10] ++ repeat 32 10 in
        (hd 0 (rp_token r) = 0 /\ text = before) \/
        (hd 0 (rp_token r) <> 0 /\ exists a z, quoted = a ++ 0 :: z /\ ~ In 0 a /\ text = before ++ rest ++ a) \/
        (hd 0 (rp_token r) <> 0 /\ ~ In 0 quoted /\ text = before ++ rest ++ quoted ++ repeat 32 10 ++ repeat 32 (List.length (rp_consumed r)) ++ bytes "^" ++ [10])
    end.
Proof.
  intros ws r Ht Hd. destruct (message_text r) as (p & Hp & Em).
  exists p, (rp_consumed r ++ rp_token r ++ rp_rest r). split; [exact Hp|]. split; [reflexivity|]. split; [|split].
  - intros Hbr. destruct (C57_quoted_line ws r Ht Hd Hbr) as (line & HL & El & _). eauto.
  - intros Hbr. destruct Hd as (pre & _ & _ & Hl & [(w & post & z & -> & _ & Hw & _ & Hzz & Hr & _) | (_ & _ & Hw & _)]); [|rewrite Hw in Hbr; discriminate Hbr].
    assert (Hsw : schema_token w) by (apply Forall_app in Ht as [_ Ht]; clear -Ht; inversion Ht; assumption). subst w.
    rewrite (is_newline_breaks (rp_token r) Hsw), Hbr in Hzz. subst z. cbn [app] in Hr.
    destruct Hsw as [E | (b & E)]; [rewrite E in Hbr; discriminate Hbr|]. exists pre, b, post. split; [now rewrite E|]. split; [exact E|]. split; [exact Hl|]. rewrite E, Hr. reflexivity.
  - cbv zeta. destruct (rp_expected r) as [l|] eqn:Ee.
    + destruct (N.eq_dec (hd 0 (rp_token r)) 0) as [H0 | H0].
      * left. split; [exact H0|]. rewrite Em, H0. change (printed 0) with [0].
        match goal with |- shown ?m = ?q => assert (E : exists y, m = q ++ 0 :: y) by (eexists; rewrite <- !app_assoc; reflexivity) end.
        destruct E as (y & ->). apply shown_cut. apply not_in_app; [exact (position_shown _ _ Hp)|]. apply not_in_app; [apply expectation_shown|apply no_zero; reflexivity].
      * right. destruct (in_dec N.eq_dec 0 (rp_consumed r ++ rp_token r ++ rp_rest r)) as [Hi | Hi].
        -- left. split; [exact H0|]. assert (Hne : rp_token r <> []) by (intros E; rewrite E in H0; now destruct H0).
           assert (Hs : exists a z, rp_consumed r ++ rp_token r ++ rp_rest r = a ++ 0 :: z /\ ~ In 0 a).
           { generalize dependent (rp_consumed r ++ rp_token r ++ rp_rest r). clear. intros q _ Hi. induction q as [|x q IH]; [destruct Hi|].
             destruct (N.eq_dec x 0) as [-> | Hx]; [exists [], q; split; [reflexivity|intros []]|]. destruct Hi as [Hi | Hi]; [congruence|].
             destruct (IH Hi) as (a & z & -> & Ha). exists (x :: a), z. split; [reflexivity|]. intros [E | E]; [congruence|auto]. }
           destruct Hs as (a & z & Hq & Ha). exists a, z. split; [exact Hq|]. split; [exact Ha|]. rewrite Em, Hq.
           match goal with |- shown ?m = ?q => assert (E : exists y, m = q ++ 0 :: y) by (eexists; rewrite <- !app_assoc; cbn [app]; rewrite <- ?app_assoc; cbn [app]; reflexivity) end.
           destruct E as (y & ->). apply shown_cut. apply not_in_app; [apply not_in_app; [exact (position_shown _ _ Hp)|apply not_in_app; [apply expectation_shown|apply no_zero; reflexivity]]|].
           apply not_in_app; [|exact Ha]. apply not_in_app; [exact (printed_shown _ H0)|]. apply not_in_app; [apply no_zero; reflexivity|]. apply not_in_app; [apply no_zero; reflexivity|apply spaces_shown].
        -- right. split; [exact H0|]. split; [exact Hi|]. rewrite Em, shown_all.
           ++ rewrite repeat_app, <- !app_assoc. reflexivity.
           ++ apply not_in_app; [exact (position_shown _ _ Hp)|]. apply not_in_app.
              { apply not_in_app; [apply expectation_shown|]. apply not_in_app; [apply no_zero; reflexivity|]. apply not_in_app; [exact (printed_shown _ H0)|apply no_zero; reflexivity]. }
              apply not_in_app; [apply no_zero; reflexivity|]. apply not_in_app; [apply spaces_shown|]. apply not_in_app; [exact Hi|]. apply not_in_app; [apply spaces_shown|]. apply no_zero. reflexivity.
    + destruct Hd as (pre & _ & _ & _ & [(w & post & z & _ & _ & _ & _ & _ & _ & He) | (_ & _ & Hw & _ & Hr & He)]); [congruence|].
      rewrite Em, Hw, Hr. destruct He as [He _]. rewrite (He Ee). cbn [app]. apply shown_all.
      apply not_in_app; [exact (position_shown _ _ Hp)|]. apply no_zero. reflexivity.
Qed.
Print Assumptions C73_message.
(** Non-vacuity. *)
Definition shown_run (s : list N) : out (option (list N)) :=
  do c <- schema_lexer 300 N.of_nat;
  do x <- report_schema_ast 1000 1000 9000 9000 c schema_table (Some 0) (fun _ => 0) buffer0 0 (fun _ => None) s;
  match x with inl _ => Ret None | inr r => Ret (Some (shown (message schema_name schema_literal r))) end.
Example C70_example : shown_run (codes "a:b" ++ [10] ++ codes "b=c") =
  Ret (Some (bytes "Schema:2:2: error: expected 'Rangle','Colon','AlphaNumeric' before '=' token" ++ [10] ++ bytes "          b=c" ++ [10] ++ bytes "           ^" ++ [10])).
Proof. vm_compute. reflexivity. Qed.
Example C70_example_end : shown_run (codes "a:b" ++ [10] ++ codes "bc") =
  Ret (Some (bytes "Schema:2:3: error: expected 'Rangle','Colon','AlphaNumeric' before '")).
Proof. vm_compute. reflexivity. Qed.
(** A variable without a pattern on the first line: the message is about the newline. *)
Example C70_example_break : shown_run (codes "ab" ++ [10] ++ codes "c:d") =
  Ret (Some (bytes "Schema:2:3: error: expected 'Rangle','Colon','AlphaNumeric' before '\n' token" ++ [10] ++ bytes "          ab" ++ [10] ++ [10] ++ bytes "            ^" ++ [10])).
Proof. vm_compute. reflexivity. Qed.
