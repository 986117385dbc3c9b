(** PropertiesEventsExact.v -- C62 and C63, the exact counterparts of C18 and C21. *)
From Verif Require Import Base LexerModel LexerSpec LogParserModel EventSpec StreamModel.
From Verif Require Import LexerProofs LogParserProofs StreamProofs EventProofs EventExact Toy ToyTs RegexModel RegexSpec RegexLang SchemaModel SchemaProofs SchemaPaths SchemaUsable SchemaSpec PropertiesSchema.

(** What the parser makes of a text without timestamps: a line reaches to the first newline after its first byte,
    so that a blank line is merged with the line after it. After a final newline there is one more, empty, line. *)
Inductive split_lines : list N -> list (list N) -> Prop :=
| sl_nil : split_lines [] [[]]
| sl_last : forall x u, ~ In cNewline u -> split_lines (x :: u) [x :: u]
| sl_line : forall x u rest ls, ~ In cNewline u -> split_lines rest ls ->
    split_lines (x :: u ++ cNewline :: rest) ((x :: u ++ [cNewline]) :: ls).

Lemma in_sub_inv t a b x : In x (sub t a b) -> exists i, a <= i < b /\ byte_at t i = Some x.
Proof.
  unfold sub. intros H. apply In_nth_error in H as (j & Hj).
  assert (Hl : (j < N.to_nat (b - a))%nat).
  { assert (K : (j < length (firstn (N.to_nat (b - a)) (skipn (N.to_nat a) t)))%nat) by (apply nth_error_Some; congruence).
    rewrite firstn_length in K. lia. }
  rewrite nth_error_firstn_lt in Hj by exact Hl. rewrite nth_error_skipn in Hj.
  exists (a + N.of_nat j). split; [lia|]. unfold byte_at. rewrite <- Hj. f_equal. lia.
Qed.

(** C62, one event: an event without timestamp that is not the last one is either a single newline right before an
    event with a timestamp, or consists of a byte, bytes other than newlines, and a newline; the last one has a
    newline at most as its first byte. *)
Theorem C62_event_exact : forall c nsym t k m bp calls fuel sfuel ps bp' j p s,
  usable c nsym -> holds m t -> idle nsym bp -> enough t calls fuel sfuel ->
  newline_free c -> (forall i, In i (reported (c_dfa c) d_root [cNewline]) -> i = TokenNewline) -> ~ In cCharStartOfFile t ->
  parse_all calls fuel sfuel c k m t bp = Ret (ps, bp') -> nth_error ps j = Some p -> ev_timestamp p = None ->
  ev_to_string p = Ret s ->
  match nth_error ps (S j) with
  | None => ~ In cNewline (tl s)
  | Some p' => (s = [cNewline] /\ ev_timestamp p' <> None) \/ exists x u, s = x :: u ++ [cNewline] /\ ~ In cNewline u
  end.
Proof.
  intros c nsym t k m bp calls fuel sfuel ps bp' j p s Hus Hh Hi He Hnf Hnl Hns Hr Hp Hts Hs.
  destruct (parse_all_spec c nsym t k m Hus Hh calls fuel sfuel bp Hi He) as (ps0 & bp0 & Hr0 & Hevs & Hd & Hi').
  rewrite Hr in Hr0. injection Hr0 as <- <-.
  destruct (events_texts c nsym t k m Hus Hh 0 ps Hevs) as (texts & Htx & _).
  destruct (events_nth c nsym t k m Hus Hh 0 ps Hevs texts j p Htx Hp) as (ei & ei' & fin & Hev & _ & _ & Hle & Hn).
  rewrite (evat_text c nsym t k m Hus Hh _ _ _ _ Hev) in Hs. injection Hs as <-.
  pose proof (evat_line c nsym t k m Hus Hh Hnf Hns Hnl _ _ _ _ Hev Hts) as HL.
  destruct (nth_error ps (S j)) as [p'|].
  - destruct Hn as (-> & Hlt & (ei2 & fin2 & Hev2) & Hlink). destruct HL as [(-> & Hb & Hst & Hit)|(H2 & Hb & Hno)].
    + left. split; [apply sub_one; exact Hb|]. intros Hnone. pose proof (evat_ts c nsym t k m _ _ _ _ Hev2) as Hts2.
      rewrite Hnone in Hts2. exact (Hts2 _ (Hlink Hst) Hit).
    + right. destruct (byte_at_some t ei) as [x Hx]; [lia|]. exists x, (sub t (ei + 1) (ei' - 1)). split.
      * rewrite (sub_cons t ei ei' x Hx) by lia. f_equal. rewrite <- (sub_one t (ei' - 1) cNewline Hb).
        replace (ei' - 1 + 1) with ei' by lia. apply sub_app; lia.
      * intros Hin. apply in_sub_inv in Hin as (i & Hir & Hib). apply (Hno i); [lia|exact Hib].
  - subst fin. destruct HL as (-> & Hno). destruct (N.eq_dec ei (len t)) as [->|]; [rewrite sub_nil; cbn [tl]; intros []|].
    destruct (byte_at_some t ei) as [x Hx]; [lia|]. rewrite (sub_cons t ei _ x Hx) by lia. cbn [tl].
    intros Hin. apply in_sub_inv in Hin as (i & Hir & Hib). apply (Hno i); [lia|exact Hib].
Qed.
Print Assumptions C62_event_exact.

(** C62, the whole log: if no event has a timestamp, the events' texts are the lines of the log in the sense of
    [split_lines], which determines them. *)
Theorem C62_lines_exact : forall c nsym t k m bp calls fuel sfuel ps bp' texts,
  usable c nsym -> holds m t -> idle nsym bp -> enough t calls fuel sfuel ->
  newline_free c -> (forall i, In i (reported (c_dfa c) d_root [cNewline]) -> i = TokenNewline) -> ~ In cCharStartOfFile t ->
  parse_all calls fuel sfuel c k m t bp = Ret (ps, bp') -> (forall p, In p ps -> ev_timestamp p = None) ->
  map ev_to_string ps = map Ret texts -> split_lines t texts.
Proof.
  intros c nsym t k m bp calls fuel sfuel ps bp' texts Hus Hh Hi He Hnf Hnl Hns Hr Hts Htx.
  destruct (parse_all_spec c nsym t k m Hus Hh calls fuel sfuel bp Hi He) as (ps0 & bp0 & Hr0 & Hevs & Hd & Hi').
  rewrite Hr in Hr0. injection Hr0 as <- <-.
  enough (G : forall e ps, events c t k m nsym e ps -> (forall p, In p ps -> ev_timestamp p = None) -> e <= len t ->
            forall texts, map ev_to_string ps = map Ret texts -> split_lines (sub t e (len t)) texts).
  { rewrite <- (sub_full t). apply (G 0 ps Hevs Hts ltac:(lia) texts Htx). }
  clear - Hus Hh Hnf Hns Hnl. intros e ps Hevs. induction Hevs as [e p Hev|e p e' p' ps Hev Hlt Hlink Hr IH]; intros Hts He texts Htx.
  - destruct texts as [|s texts]; [discriminate|]. cbn in Htx. injection Htx as Hs Htx. destruct texts; [|discriminate].
    rewrite (evat_text c nsym t k m Hus Hh _ _ _ _ Hev) in Hs. injection Hs as <-.
    destruct (evat_line c nsym t k m Hus Hh Hnf Hns Hnl _ _ _ _ Hev (Hts p (or_introl eq_refl))) as (_ & Hno).
    destruct (N.eq_dec e (len t)) as [->|]; [rewrite sub_nil; constructor|]. destruct (byte_at_some t e) as [x Hx]; [lia|].
    rewrite (sub_cons t e _ x Hx) by lia. apply sl_last. intros Hin. apply in_sub_inv in Hin as (i & Hir & Hib). apply (Hno i); [lia|exact Hib].
  - destruct texts as [|s texts]; [discriminate|]. rewrite map_cons in Htx. injection Htx as Hs Htx.
    rewrite (evat_text c nsym t k m Hus Hh _ _ _ _ Hev) in Hs. injection Hs as <-.
    pose proof (chle c nsym t k m Hus Hh _ _ _ (evat_chain c nsym t k m Hus Hh _ _ _ _ Hev)) as Hle.
    destruct (evat_line c nsym t k m Hus Hh Hnf Hns Hnl _ _ _ _ Hev (Hts p (or_introl eq_refl))) as [(-> & Hb & Hst & Hit)|(H2 & Hb & Hno)].
    + exfalso. assert (Hev2 : exists ei2 fin2, event_at c t k m nsym (e + 1) p' ei2 fin2) by (inversion Hr; subst; eauto). destruct Hev2 as (ei2 & fin2 & Hev2).
      pose proof (evat_ts c nsym t k m _ _ _ _ Hev2) as Hts2. rewrite (Hts p' (or_intror (or_introl eq_refl))) in Hts2.
      exact (Hts2 _ (Hlink Hst) Hit).
    + destruct (byte_at_some t e) as [x Hx]; [lia|].
      assert (E1 : sub t e e' = x :: sub t (e + 1) (e' - 1) ++ [cNewline]).
      { rewrite (sub_cons t e e' x Hx) by lia. f_equal. rewrite <- (sub_one t (e' - 1) cNewline Hb).
        replace (e' - 1 + 1) with e' by lia. apply sub_app; lia. }
      rewrite (sub_app t e e' (len t)) by lia. rewrite E1. cbn [app]. rewrite <- app_assoc. cbn [app]. apply sl_line.
      * intros Hin. apply in_sub_inv in Hin as (i & Hir & Hib). apply (Hno i); [lia|exact Hib].
      * apply IH; [intros q Hq; apply Hts; right; exact Hq|lia|exact Htx].
Qed.
Print Assumptions C62_lines_exact.
(** [split_lines] is a function of the text. *)
Theorem C62_split_lines_unique : forall t l1 l2, split_lines t l1 -> split_lines t l2 -> l1 = l2.
Proof.
  assert (A : forall (u v r s : list N), ~ In cNewline u -> ~ In cNewline v -> u ++ cNewline :: r = v ++ cNewline :: s -> u = v /\ r = s).
  { induction u as [|x u IH]; intros [|y v] r s Hu Hv E; cbn in *.
    - injection E as ->. auto.
    - injection E as <- _. exfalso. auto.
    - injection E as -> _. exfalso. auto.
    - injection E as -> E. apply IH in E as (-> & ->); auto. }
  intros t l1 l2 H1. revert l2. induction H1 as [|x u Hu|x u rest ls Hu H1 IH]; intros l2 H2.
  - inversion H2; reflexivity.
  - inversion H2 as [|y v Hv|y v rest' ls' Hv H3]; subst; [reflexivity|]. exfalso. apply Hu. apply in_or_app. right. left. reflexivity.
  - inversion H2 as [|y v Hv|y v rest' ls' Hv H3]; subst; [exfalso; apply Hv; apply in_or_app; right; left; reflexivity|].
    match goal with E : _ ++ _ :: _ = _ ++ _ :: _ |- _ => apply A in E as (-> & ->); [|assumption|assumption] end. rewrite (IH _ H3). reflexivity.
Qed.
Print Assumptions C62_split_lines_unique.
Example C62_example_lines : split_lines [97; 10; 10; 98; 10] [[97; 10]; [10; 98; 10]; []].
Proof. apply (sl_line 97 [] [10; 98; 10]); [intros []|]. apply (sl_line 10 [98] []); [intros [H|[]]; discriminate|]. constructor. Qed.
(** Non-vacuity: the toy schema, and the events of that log. *)
Example C62_example_toy : (forall i, In i (reported (c_dfa toy) d_root [cNewline]) -> i = TokenNewline) /\
  exists ps bp', parse_all 102 102 210 toy 0 (buf_of [97;10;10;98;10]) [97;10;10;98;10] (bp_init toy_nsym) = Ret (ps, bp') /\
    map ev_to_string ps = map Ret [[97; 10]; [10; 98; 10]; []] /\ (forall p, In p ps -> ev_timestamp p = None).
Proof.
  split; [vm_compute; intros i [<-|[]]; reflexivity|]. do 2 eexists. split; [vm_compute; reflexivity|]. split; [vm_compute; reflexivity|].
  intros p [<-|[<-|[<-|[]]]]; vm_compute; reflexivity.
Qed.

(** C63: is_multiline() is true if and only if the event has a timestamp and some token other than the
    first and the last one begins with a newline. *)
Theorem C63_multiline_exact : forall c nsym t k m bp calls fuel sfuel ps bp' p,
  usable c nsym -> holds m t -> idle nsym bp -> enough t calls fuel sfuel ->
  parse_all calls fuel sfuel c k m t bp = Ret (ps, bp') -> In p ps ->
  (ev_multiline p = true <-> ev_timestamp p <> None /\
    exists t0 l1 tok l2, ev_tokens p = t0 :: l1 ++ tok :: l2 /\ l2 <> [] /\ tok_delimiter (ib_heap (lp_in p)) tok = Ret cNewline).
Proof.
  intros c nsym t k m bp calls fuel sfuel ps bp' p Hus Hh Hi He Hr Hp.
  destruct (parse_all_spec c nsym t k m Hus Hh calls fuel sfuel bp Hi He) as (ps0 & bp0 & Hr0 & Hevs & Hd & Hi').
  rewrite Hr in Hr0. injection Hr0 as <- <-.
  destruct (events_texts c nsym t k m Hus Hh 0 ps Hevs) as (texts & Htx & _).
  apply In_nth_error in Hp as (j & Hp).
  destruct (events_nth c nsym t k m Hus Hh 0 ps Hevs texts j p Htx Hp) as (ei & ei' & fin & Hev & _).
  exact (evat_multi_exact c nsym t k m Hus Hh _ _ _ _ Hev).
Qed.
Print Assumptions C63_multiline_exact.

(** C62 for a schema: legal, with the newline among its delimiters, and no variable that matches the empty string. *)
Theorem C62_schema_lines : forall F addr sc g front lst t k m bp calls fuel sfuel ps bp' texts,
  make_parser F addr sc = Ret g -> legal sc -> sc_delims sc = front ++ [lst] -> In cNewline lst ->
  (forall name r, In (name, r) (sc_vars sc) -> nullable r = false) -> ~ In cCharStartOfFile t ->
  holds m t -> idle (lg_nsym g) bp -> enough t calls fuel sfuel ->
  parse_all calls fuel sfuel (lg_cfg g) k m t bp = Ret (ps, bp') -> (forall p, In p ps -> ev_timestamp p = None) ->
  map ev_to_string ps = map Ret texts -> split_lines t texts.
Proof.
  intros F addr sc g front lst t k m bp calls fuel sfuel ps bp' texts H HL E Hnl Hn Hns Hh Hi He Hr Hts Htx.
  refine (C62_lines_exact (lg_cfg g) (lg_nsym g) t k m bp calls fuel sfuel ps bp' texts (C01_schema_usable _ _ _ _ H HL) Hh Hi He _ _ Hns Hr Hts Htx).
  - exact (C18_schema_newline_free F addr sc g front lst H HL E Hnl Hn).
  - destruct (make_parser_built _ _ _ _ H) as (p & A & ds & ns & HB). exact (b_newline_only _ _ _ _ _ _ HB Hn).
Qed.
Print Assumptions C62_schema_lines.
