(** EventLines.v -- the line numbers of the tokens of events. *)
From Verif Require Import Base LexerModel LexerSpec LogParserModel EventSpec StreamModel LexerProofs LogParserProofs StreamProofs EventProofs ReaderSpec PropertiesReader.

Lemma in_sub_at (t : list N) a b p x : a <= p < b -> b <= len t -> byte_at t p = Some x -> In x (sub t a b).
Proof.
  intros Hp Hb Hx. apply nth_error_In with (n := N.to_nat (p - a)).
  pose proof (byte_at_sub t a b (p - a) ltac:(lia)) as E. unfold byte_at in *. rewrite E. rewrite <- Hx. f_equal. lia.
Qed.
Section Lines.
Variables (c : lexcfg) (nsym : N) (t : list N) (k : nat) (m : mem).
Hypothesis Hus : usable c nsym.
Hypothesis Hh : holds m t.
Hypothesis Hnl : c_delim c cNewline = true.
Hypothesis Hone : one_line c.
Let n := len t.
Let K := User k.

(** Proof vocabulary, no code: the token's line number counts the newlines before its end. *)
Definition good_line (tok : token) : Prop := t_line tok = newlines t (t_end tok).

Lemma lexed_line tok : lexed c t k tok -> good_line tok.
Proof.
  intros (z & Hok & Hne). unfold good_line. remember (t_start tok) as E eqn:HE. destruct Hok as [e line ids Hv Hz|e line Hr Hd Hl Hf Hn|line HE2 Hl]; cbn in *.
  - exact (vt_line _ _ _ _ _ _ Hv Hnl).
  - rewrite (Hl Hnl). symmetry. apply newlines_eq; [lia|]. intros p Hp. exact (Hn Hnl p Hp).
  - now destruct Hne.
Qed.
Lemma tail_no_newline tok : lexed c t k tok -> t_start tok < t_end tok -> forall p, t_start tok < p < t_end tok -> byte_at t p <> Some cNewline.
Proof.
  intros Hl Hlt p Hp. destruct (lexed_cases c t k tok Hl) as (_ & _ & _ & Hle & [(ids & Hi & Hv)|(_ & _ & Hn)]).
  - intros Hb. destruct (vt_state _ _ _ _ _ _ Hv) as (q & Hst & Hrep & _).
    assert (Hrun : exists q', run (c_dfa c) q (sub t (t_start tok) (t_end tok)) = Some q').
    { unfold reported in Hrep. destruct (run (c_dfa c) q _) as [q'|]; [now exists q'|]. exfalso. now apply (vt_ids _ _ _ _ _ _ Hv). }
    destruct Hrun as (q' & Hrun). destruct (byte_at_some t (t_start tok)) as [x Hx]; [lia|].
    assert (Hin : In cNewline (sub t (t_start tok + 1) (t_end tok))) by (apply (in_sub_at t _ _ p); auto; lia).
    rewrite (sub_cons t _ _ x Hx) in Hrun by lia. destruct Hst as [-> | [_ Hsof]].
    + exact (Hone _ _ Hrun Hin).
    + apply (Hone (cCharStartOfFile :: x :: sub t (t_start tok + 1) (t_end tok)) q'); [cbn [run]; rewrite Hsof; exact Hrun|]. now right.
  - apply Hn; [exact Hnl|lia].
Qed.
Lemma only_line tok : lexed c t k tok -> t_start tok < t_end tok -> byte_at t (t_start tok) = Some cNewline -> good_line (only_newline tok).
Proof.
  intros Hl Hlt Hb. unfold good_line. cbn. rewrite (lexed_line tok Hl : t_line tok = _). apply newlines_eq; [lia|].
  intros p Hp. apply (tail_no_newline tok Hl Hlt). lia.
Qed.
Lemma shape_lines ts e toks e' fin nxt : event_shape c t k ts e toks e' fin nxt -> Forall good_line toks.
Proof.
  intros H. destruct H as [|tok H1 H2|ts e t0 body E tl e' fin nxt H1 H2 H3 H4 H5]; [constructor|..].
  - destruct (lexed_nt c t k m nsym (us_wf _ _ Hus) (proj1 Hh) (us_ids _ _ Hus) (us_nsym _ _ Hus) tok H1 H2) as (Hb & Hlt).
    constructor; [now apply only_line|constructor].
  - constructor.
    { destruct H1 as [H1 _|tok0 H1 _ Hb _ ->]; [now apply lexed_line|]. unfold good_line. cbn. exact (lexed_line tok0 H1). }
    apply Forall_app. split.
    { eapply Forall_impl; [|exact H3]. intros tok (H & _). now apply lexed_line. }
    destruct H5 as [|tok _ H _ _|tok H Hlt Hb _]; [constructor|constructor; [now apply lexed_line|constructor]|constructor; [now apply only_line|constructor]].
Qed.
Lemma events_lines e ps : events c t k m nsym e ps ->
  chain t k e (concat (map ev_tokens ps)) n /\ Forall (fun p => ib_heap (lp_in p) K = m /\ Forall good_line (ev_tokens p)) ps.
Proof.
  induction 1 as [e p H|e p e' p' ps H Hlt Hlink Hr [IH1 IH2]].
  - split; [cbn; rewrite app_nil_r; exact (evat_chain c nsym t k m Hus Hh _ _ _ _ H)|]. constructor; [|constructor].
    split; [exact (ea_heap _ _ _ _ _ _ _ _ _ H)|]. destruct (ea_shape _ _ _ _ _ _ _ _ _ H) as (nxt & Hs & _). exact (shape_lines _ _ _ _ _ _ Hs).
  - split.
    + cbn [map concat]. pose proof (evat_chain c nsym t k m Hus Hh _ _ _ _ H) as H1.
      cbn [map concat] in IH1. clear - H1 IH1. induction H1; cbn [app]; [exact IH1|]. constructor; auto.
    + constructor; [|exact IH2]. split; [exact (ea_heap _ _ _ _ _ _ _ _ _ H)|]. destruct (ea_shape _ _ _ _ _ _ _ _ _ H) as (nxt & Hs & _). exact (shape_lines _ _ _ _ _ _ Hs).
Qed.
(** Texts along a chain. *)
Lemma chain_prefix a toks e : chain t k a toks e -> forall pre tok post, toks = pre ++ tok :: post ->
  concat (map (fun q => sub t (t_start q) (t_end q)) (pre ++ [tok])) = sub t a (t_end tok).
Proof.
  induction 1 as [a Ha|q toks e H1 H2 H3 H4 IH]; intros pre tok post E; [destruct pre; discriminate E|].
  destruct pre as [|p pre]; injection E as -> ->.
  - cbn. now rewrite app_nil_r.
  - cbn [app map concat]. rewrite (IH pre tok post eq_refl). symmetry. apply sub_app; [exact H2|].
    assert (G : forall a l e', chain t k a l e' -> forall x, In x l -> a <= t_end x).
    { clear. induction 1 as [|y l e' A1 A2 A3 A4 IH]; intros x Hx; [destruct Hx|]. destruct Hx as [<- | Hx]; [exact A2|]. specialize (IH x Hx). lia. }
    apply (G _ _ _ H4). apply in_app_iff. right. now left.
Qed.
Lemma chain_parts a toks e : chain t k a toks e -> Forall (fun q => t_sid q = K /\ t_start q <= t_end q /\ t_end q <= n) toks.
Proof. induction 1; constructor; auto. Qed.

Lemma report_lines name calls fuel sfuel bp : idle nsym bp -> enough t calls fuel sfuel ->
  exists rs bp' toks, buffer_all name nsym calls fuel sfuel c k m t bp = Ret (rs, bp') /\
    concat (map r_tokens rs) = map (fun q => (Ret (fst (fst q)), snd (fst q), snd q)) toks /\
    concat (map (fun q => fst (fst q)) toks) = t /\
    forall pre w ids line post, toks = pre ++ (w, ids, line) :: post ->
      line = N.of_nat (count_occ N.eq_dec (concat (map (fun q => fst (fst q)) pre) ++ w) cNewline).
Proof.
  intros Hi He. destruct (parse_all_spec c nsym t k m Hus Hh calls fuel sfuel bp Hi He) as (ps & bp' & Hr & Hev & _).
  destruct (events_lines _ _ Hev) as (Hch & Hall).
  pose proof (buffer_all_map name nsym calls fuel sfuel c k m t bp) as Eb. rewrite Hr in Eb. cbn [bind] in Eb.
  set (g := fun q => (sub t (t_start q) (t_end q), t_ids q, t_line q)).
  exists (map (report_of name nsym) ps), bp', (map g (concat (map ev_tokens ps))). split; [exact Eb|].
  assert (Hpt : Forall (fun q => t_sid q = K /\ t_start q <= t_end q /\ t_end q <= n) (concat (map ev_tokens ps))) by exact (chain_parts _ _ _ Hch).
  split; [|split].
  - rewrite map_map. clear Hch Eb Hr Hev. induction ps as [|p ps IH]; [reflexivity|]. cbn [map concat] in *. apply Forall_app in Hpt as [P1 P2].
    pose proof (Forall_inv Hall) as [A1 A2]. pose proof (Forall_inv_tail Hall) as A3. rewrite !map_app, <- (IH A3 P2). f_equal. cbn [report_of r_tokens].
    change (ob_tokens (lp_out p)) with (ev_tokens p). rewrite map_map. apply map_ext_in. intros tok Ht. rewrite Forall_forall in P1. destruct (P1 tok Ht) as (B1 & B2 & B3).
    unfold shown, g. cbn [fst snd]. rewrite (tok_text_sub c t k m nsym (proj1 Hh) (us_ids _ _ Hus) (us_nsym _ _ Hus) _ tok A1 B1 B2 B3). reflexivity.
  - rewrite map_map. cbn [g fst]. destruct (concat (map ev_tokens ps)) as [|q0 l0] eqn:El.
    + inversion Hch. cbn. destruct t; [reflexivity|]. unfold n in *. unfold len in *. cbn in *. lia.
    + destruct (exists_last (l := q0 :: l0) ltac:(discriminate)) as (pre & tok & Ep). rewrite Ep in *.
      rewrite (chain_prefix _ _ _ Hch pre tok [] eq_refl).
      assert (t_end tok = n) as ->; [|apply sub_full].
      clear - Hch. remember (pre ++ [tok]) as l eqn:E. revert pre E. induction Hch as [|q toks e H1 H2 H3 H4 IH]; intros pre E; [destruct pre; discriminate E|].
      destruct pre as [|p pre]; injection E as -> ->; [now inversion H4|]. now apply (IH pre).
  - intros pre w ids line post E. apply map_eq_app in E as (pre2 & l2 & E1 & <- & E2). destruct l2 as [|tok post2]; [discriminate E2|]. cbn [map] in E2.
    injection E2 as <- <- <- _.
    assert (Hg : good_line tok).
    { assert (In tok (concat (map ev_tokens ps))) as Hin by (rewrite E1; apply in_app_iff; right; now left).
      apply in_concat in Hin as (l & Hl & Hin). apply in_map_iff in Hl as (p & <- & Hp). rewrite Forall_forall in Hall. destruct (Hall p Hp) as [_ G]. rewrite Forall_forall in G. now apply G. }
    pose proof (chain_prefix _ _ _ Hch pre2 tok post2 E1) as Hp. rewrite map_app, concat_app in Hp. cbn [map concat] in Hp. rewrite app_nil_r in Hp.
    rewrite map_map. cbn [g fst]. rewrite Hp. rewrite Hg. unfold newlines. f_equal. f_equal. unfold sub. rewrite N.sub_0_r. reflexivity.
Qed.
End Lines.
