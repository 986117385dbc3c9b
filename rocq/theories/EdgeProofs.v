(** EdgeProofs.v -- a buffer without and with one readable byte behind its text: which calls read that byte. *)
From Verif Require Import Base LexerModel LexerSpec LogParserModel EventSpec StreamModel LexerProofs LogParserProofs StreamProofs EventProofs ReaderSpec.

(** The same array with one more byte. *)
Definition padded (m : mem) (n x : N) : mem := fun i => if i =? n then Some x else m i.

(** Proof vocabulary, no code: the same buffer with other storages. *)
Definition with_heap (h : heap) (b : ibuf) : ibuf :=
  mkIbuf h (ib_active b) (ib_dyn b) (ib_size b) (ib_pos b) (ib_last b) (ib_lrfh b) (ib_fin b) (ib_full b) (ib_cons b).
(** Proof vocabulary, no code: the same parser with other storages. *)
Definition with_mem (h : heap) (p : lparser) : lparser := lp_set_lexin p (lp_lex p) (with_heap h (lp_in p)).

Lemma chain_bounds t k a toks e : chain t k a toks e -> a <= e <= len t.
Proof. induction 1; lia. Qed.
Lemma existsb_nth_map {A B} (f : B -> bool) (g : A -> B) l : existsb f (map g l) = existsb (fun i => f (g i)) l.
Proof. induction l as [|a l IH]; [reflexivity|]. cbn. now rewrite IH. Qed.

Section Edge.
Variables (c : lexcfg) (K : sid) (h : heap) (m' : mem).
Hypothesis Hle : forall i, h K i = None \/ h K i = m' i.
Definition on_gnc (r : out (option (N * ibuf))) : out (option (N * ibuf)) :=
  match r with Ret (Some (x, b)) => Ret (Some (x, with_heap h b)) | Ret None => Ret None | UB => UB | Throw => Throw | OutOfFuel => OutOfFuel end.
Definition at_mem (b : ibuf) : Prop := ib_active b = K /\ ib_heap b K = m'.
Lemma gnc_mem b x b1 : at_mem b -> get_next_character b = Ret (Some (x, b1)) -> at_mem b1.
Proof.
  intros [H1 H2] H. unfold get_next_character in H. destruct (ib_fin b && _); [injection H as _ <-; now split|].
  destruct (_ || _); [discriminate|]. destruct (ib_heap b _ _); [|discriminate]. injection H as _ <-. now split.
Qed.
Lemma gnc_edge b : at_mem b -> get_next_character (with_heap h b) = UB \/ get_next_character (with_heap h b) = on_gnc (get_next_character b).
Proof.
  intros [H1 H2]. unfold get_next_character. cbn [with_heap ib_fin ib_pos ib_last ib_lrfh ib_size ib_heap ib_active].
  destruct (ib_fin b && _); [now right|]. destruct (_ || _); [now right|]. rewrite H1, H2.
  destruct (Hle (ib_pos b)) as [-> | ->]; [now left|]. destruct (m' (ib_pos b)); now right.
Qed.
Definition on_skip (r : out (option N * ibuf)) : out (option N * ibuf) :=
  match r with Ret (o, b) => Ret (o, with_heap h b) | UB => UB | Throw => Throw | OutOfFuel => OutOfFuel end.
Lemma skip_edge fuel : forall ch prev b, at_mem b ->
  (skip_loop fuel c ch prev (with_heap h b) = UB \/ skip_loop fuel c ch prev (with_heap h b) = on_skip (skip_loop fuel c ch prev b)) /\
  (forall o b', skip_loop fuel c ch prev b = Ret (o, b') -> at_mem b').
Proof.
  induction fuel as [|fuel IH]; intros ch prev b Hb; cbn [skip_loop]; [split; [now right|discriminate]|].
  change (ib_full (with_heap h b)) with (ib_full b). destruct (negb (ib_full b) && _); [|split; [now right|intros o b' [= _ <-]; exact Hb]].
  destruct (gnc_edge b Hb) as [-> | ->].
  - split; [now left|]. destruct (get_next_character b) as [[(ch', b1)|]| | |] eqn:E; try discriminate.
    + apply (IH _ _ _ (gnc_mem _ _ _ Hb E)).
    + intros o b' [= _ <-]. exact Hb.
  - destruct (get_next_character b) as [[(ch', b1)|]| | |] eqn:E; cbn [on_gnc]; try (split; [now right|discriminate]).
    + exact (IH ch' (ib_pos b) b1 (gnc_mem _ _ _ Hb E)).
    + split; [now right|]. intros o b' [= _ <-]. exact Hb.
Qed.
Definition on_scan (r : scan_res) : scan_res :=
  match r with Ret (o, l, b) => Ret (o, l, with_heap h b) | UB => UB | Throw => Throw | OutOfFuel => OutOfFuel end.
Lemma scan_loop_edge fuel : forall q l b, at_mem b ->
  scan_loop fuel c q l (with_heap h b) = UB \/ scan_loop fuel c q l (with_heap h b) = on_scan (scan_loop fuel c q l b).
Proof.
  induction fuel as [|fuel IH]; intros q l b Hb; [now right|]. cbn [scan_loop]. change (ib_pos (with_heap h b)) with (ib_pos b).
  destruct (gnc_edge b Hb) as [-> | ->]; [now left|].
  destruct (get_next_character b) as [[(ch, b1)|]| | |] eqn:E; cbn [on_gnc]; try now right.
  pose proof (gnc_mem _ _ _ Hb E) as Hb1.
  change (ib_full (with_heap h b1)) with (ib_full b1). change (ib_pos (with_heap h b1)) with (ib_pos b1).
  match goal with |- context [bind ?X _] => destruct X as [(next2, l3)| | |] end; cbn [bind]; try now right.
  assert (G : forall F, (forall b2, at_mem b2 -> forall o, F o (with_heap h b2) = UB \/ F o (with_heap h b2) = on_scan (F o b2)) ->
    let run b1 := match skip_loop fuel c ch (ib_pos b) b1 with UB => UB | Throw => Throw | OutOfFuel => OutOfFuel
            | Ret (None, b2) => Ret (None, lex_ask l3 q, b2) | Ret (Some prev', b2) => F prev' b2 end in
    run (with_heap h b1) = UB \/ run (with_heap h b1) = on_scan (run b1)).
  { intros F HF. cbv zeta. destruct (skip_edge fuel ch (ib_pos b) b1 Hb1) as [[-> | ->] Hs]; [now left|].
    destruct (skip_loop fuel c ch (ib_pos b) b1) as [(o, b2)| | |]; cbn [on_skip]; try now right.
    destruct o as [prev'|]; [|now right]. apply HF. exact (Hs _ _ eq_refl). }
  assert (G2 := G (fun prev' b2 => scan_loop fuel c d_root (lex_set_start l3 prev') (ib_set_pos b2 prev'))).
  cbv zeta in G2. assert (G3 := G2 (fun b2 (H2 : at_mem b2) o => IH d_root (lex_set_start l3 o) (ib_set_pos b2 o) H2)). clear G G2.
  destruct (ib_full b1), next2 as [nx|]; try (exact (IH _ _ _ Hb1));
    (destruct (l_match l3); [destruct (negb _); now right|]); cbn [andb];
    try exact G3; (destruct (l_start_pos l3 =? ib_pos b1); [destruct (negb _); now right|exact G3]).
Qed.
Lemma scan_edge fuel l b : at_mem b -> scan fuel c l (with_heap h b) = UB \/ scan fuel c l (with_heap h b) = on_scan (scan fuel c l b).
Proof.
  intros Hb. unfold scan. destruct (l_asked l).
  - destruct (l_prev l); [now apply scan_loop_edge|]. destruct (gnc_edge b Hb) as [-> | ->]; [now left|].
    destruct (get_next_character b) as [[(ch, b1)|]| | |]; now right.
  - destruct (l_match l); [now right|]. now apply scan_loop_edge.
Qed.
End Edge.

Section Parser.
Variables (c : lexcfg) (t : list N) (k : nat) (m : mem) (x nsym : N) (h : heap).
Let n := len t.
Let K := User k.
Let m' := padded m n x.
Hypothesis Hwf : wf_cfg c.
Hypothesis Hm : forall p, p < n -> m p = byte_at t p.
Hypothesis Hnone : m n = None.
Hypothesis Hsym : forall q i, In i (d_ids (c_dfa c) q) -> i < nsym.
Hypothesis Hsym2 : 1 < nsym.
Hypothesis Hh : h K = m.
Let LB := lex_between c t K.
Lemma pad_at : m' n = Some x.
Proof. unfold m', padded. rewrite N.eqb_refl. reflexivity. Qed.
Lemma pad_other i : i <> n -> m' i = m i.
Proof. intros H. unfold m', padded. destruct (N.eqb_spec i n); [contradiction|reflexivity]. Qed.
Lemma pad_le i : h K i = None \/ h K i = m' i.
Proof. rewrite Hh. destruct (N.eq_dec i n) as [->|H]; [now left|right]. symmetry. now apply pad_other. Qed.
Lemma pad_stored p : p < n -> m' p = byte_at t p.
Proof. intros H. rewrite pad_other by lia. now apply Hm. Qed.
Lemma static_heap b : static_buf t K b -> static_buf t K (with_heap h b).
Proof. intros [H1 H2 H3 H4 H5 H6 H7 H8]. constructor; auto. intros p Hp. cbn. rewrite Hh. now apply Hm. Qed.
Lemma LB_heap E l b : LB E l b -> LB E l (with_heap h b).
Proof. intros HB. destruct HB; [eapply lb_sof|apply lb_begin|eapply lb_match|apply lb_end]; eauto using static_heap. Qed.
(** One scan. *)
Lemma scan_same sfuel E l b : (scan_fuel t <= sfuel)%nat -> LB E l b -> ib_heap b K = m' ->
  exists tok l' b', scan sfuel c l b = Ret (Some tok, l', b') /\ scan sfuel c l (with_heap h b) = Ret (Some tok, l', with_heap h b') /\
    ib_heap b' K = m' /\ l_asked l' = false /\ token_ok c t K (l_asked l) E tok /\ LB (t_end tok) l' b'.
Proof.
  intros Hs HB Hb. destruct (scan_spec c t K Hwf sfuel E l b Hs HB) as (tok & l' & b' & Hr & (Hfr & _) & Ha & Hok & HB').
  destruct (scan_spec c t K Hwf sfuel E l _ Hs (LB_heap _ _ _ HB)) as (tok2 & l2 & b2 & Hr2 & _).
  assert (Ab : at_mem K m' b) by (split; [exact (sb_active _ _ _ (LB_static c t k _ _ _ HB))|exact Hb]).
  destruct (scan_edge c K h m' pad_le sfuel l b Ab) as [E2 | E2]; [congruence|]. rewrite Hr in E2. cbn [on_scan] in E2.
  exists tok, l', b'. split; [exact Hr|]. split; [exact E2|]. split; [congruence|]. auto.
Qed.
Lemma char_same tok g : t_sid tok = K -> t_bufsz tok = n * 2 -> t_start tok < n -> g K = m' -> tok_char h tok 0 = tok_char g tok 0.
Proof.
  intros H1 H2 H3 Hg. unfold tok_char. rewrite H1, Hh, Hg, H2, N.add_0_r. destruct (N.ltb_spec (t_start tok) (n * 2)); [|lia].
  rewrite pad_other by lia. reflexivity.
Qed.
Lemma char_end tok : t_sid tok = K -> t_bufsz tok = n * 2 -> t_start tok = n -> tok_char h tok 0 = UB.
Proof.
  intros H1 H2 H3. unfold tok_char. rewrite H1, Hh, H2, H3, N.add_0_r.
  destruct (N.ltb_spec n (n * 2)) as [_ | H]; [rewrite Hnone; reflexivity|]. replace (0 - (n * 2 - n)) with n by lia. rewrite Hnone. reflexivity.
Qed.
Definition loop_edge_post (p : lparser) (r0 r : out (option paction * lparser)) : Prop :=
  match r with
  | Ret (Some ActCompressAndFinish, q) =>
      ob_has_ts (lp_out q) = ob_has_ts (lp_out p) /\ ob_pos (lp_out p) <= ob_pos (lp_out q) /\
      (if ob_has_ts (lp_out p) then r0 = Ret (Some ActCompressAndFinish, with_mem h q) else r0 = UB)
  | Ret (oa, q) => r0 = Ret (oa, with_mem h q)
  | _ => True
  end.
Lemma loop_edge sfuel (Hsf : (scan_fuel t <= sfuel)%nat) fuel : forall p E,
  LB E (lp_lex p) (lp_in p) -> l_asked (lp_lex p) = false -> ib_heap (lp_in p) K = m' ->
  loop_edge_post p (parse_loop fuel sfuel c (with_mem h p)) (parse_loop fuel sfuel c p).
Proof.
  induction fuel as [|fuel IH]; intros p E HB Hask Hheap; [exact I|]. cbn [parse_loop]. unfold get_next_symbol.
  change (lp_lex (with_mem h p)) with (lp_lex p). change (lp_in (with_mem h p)) with (with_heap h (lp_in p)).
  destruct (scan_same sfuel E _ _ Hsf HB Hheap) as (tok & l' & b' & -> & -> & Hb' & Ha' & Hok & HB'). cbn [bind].
  rewrite Hask in Hok. destruct (token_cases _ _ _ _ _ _ Hok) as (H1 & H2 & H3 & H4 & H5 & Hc). fold n in H2, H5.
  cbn [lp_set_out lp_set_lexin lp_out lp_in with_mem ob_set_curr ob_set_token ob_has_ts ib_heap with_heap].
  set (ts := ob_has_ts (lp_out p)).
  destruct (tok_type tok) as [ty| | |] eqn:Ety; cbn [bind]; try exact I.
  assert (Hcase : (E = n /\ t_ids tok = cTokenEndTypes) \/ E < n).
  { destruct Hc as [(ids & _ & _ & Hlt) | [(_ & Hlt & _) | (Hi & HE & _)]]; [right; specialize (Hlt eq_refl); lia|right; lia|left; auto]. }
  destruct Hcase as [[HE Hi] | HE].
  - assert (ty = TokenEnd) as -> by (unfold tok_type in Ety; rewrite Hi in Ety; cbn in Ety; congruence).
    rewrite (char_end tok H1 H2) by lia. change (TokenEnd =? TokenEnd) with true.
    assert (Hch : exists y, tok_char (ib_heap b') tok 0 = Ret y).
    { unfold tok_char. rewrite H1, Hb', H2, H3, HE, N.add_0_r.
      destruct (N.ltb_spec n (n * 2)) as [_ | H]; [rewrite pad_at; eauto|]. replace (0 - (n * 2 - n)) with n by lia. rewrite pad_at; eauto. }
    destruct Hch as (y & ->). change (TokenEnd =? TokenNewlineTimestamp) with false. rewrite andb_false_r. cbn [bind].
    unfold loop_edge_post. fold ts. destruct ts eqn:Ets; cbn [negb bind]; (split; [exact Ets|split; [cbn; lia|reflexivity]]).
  - rewrite (char_same tok (ib_heap b') H1 H2) by (auto; lia).
    match goal with |- context [bind ?X _] => destruct X as [found| | |] end; cbn [bind]; try exact I.
    destruct (ty =? TokenEnd) eqn:Ee.
    { exfalso. apply N.eqb_eq in Ee. subst ty. destruct (lexed_of c t k Hwf _ _ _ Hok) as [[_ H] | H]; [fold n in H; lia|].
      destruct (lexed_type c t k nsym Hwf Hsym Hsym2 tok H) as (ty & E1 & E2 & _). congruence. }
    destruct (negb ts && (ty =? TokenNewline)); [reflexivity|]. destruct found; [reflexivity|].
    match goal with |- loop_edge_post p (parse_loop _ _ _ ?P) (parse_loop _ _ _ ?Q) => change P with (with_mem h Q); pose proof (IH Q (t_end tok)) as G end.
    specialize (G HB' Ha' Hb'). unfold loop_edge_post in *.
    match goal with |- match ?X with _ => _ end => destruct X as [([[| |]|], q)| | |]; try exact G; try exact I end.
    destruct G as (G1 & G2 & G3). cbn [lp_set_out lp_out] in G1, G2, G3.
    assert (A1 : forall o : obuf, ob_has_ts (ob_advance o) = ob_has_ts o) by (intros o; unfold ob_advance; destruct (ob_pos o + 1 =? ob_size o); reflexivity).
    assert (A2 : forall o : obuf, ob_pos (ob_advance o) = ob_pos o + 1) by (intros o; unfold ob_advance; destruct (ob_pos o + 1 =? ob_size o); reflexivity).
    rewrite A1 in G1, G3. rewrite A2 in G2. cbn in G1, G2, G3. split; [exact G1|]. split; [lia|exact G3].
Qed.
(** * parse *)
Definition parse_edge_post (r0 r : out (option paction * lparser)) : Prop :=
  match r with
  | Ret (Some ActCompressAndFinish, q) =>
      match ob_tokens (lp_out q) with
      | [] => r0 = Ret (Some ActCompressAndFinish, with_mem h q)
      | _ => if ob_has_ts (lp_out q) then r0 = Ret (Some ActCompressAndFinish, with_mem h q) else r0 = UB
      end
  | Ret (oa, q) => r0 = Ret (oa, with_mem h q)
  | _ => True
  end.
Lemma tokens_some o : ob_has_ts o = false -> 2 <= ob_pos o -> ob_tokens o <> [].
Proof.
  intros H1 H2 E. unfold ob_tokens in E. apply map_eq_nil in E. unfold ob_first in E. rewrite H1 in E.
  assert (In 1 (indices 1 (ob_pos o))) by (apply in_indices; lia). rewrite E in H. destruct H.
Qed.
Lemma first_edge sfuel (Hsf : (scan_fuel t <= sfuel)%nat) fuel p tok E :
  LB E (lp_lex p) (lp_in p) -> l_asked (lp_lex p) = false -> ib_heap (lp_in p) K = m' -> ob_has_ts (lp_out p) = false ->
  parse_edge_post (parse_first fuel sfuel c (with_mem h p) tok) (parse_first fuel sfuel c p tok).
Proof.
  intros HB Ha Hb Ho. unfold parse_first. destruct (tok_type tok) as [ty| | |]; cbn [bind]; try exact I.
  destruct (ty =? TokenEnd).
  - unfold parse_edge_post. cbn [lp_out lp_set_out]. unfold ob_tokens, ob_first. cbn. rewrite Ho. reflexivity.
  - cbn [with_mem lp_set_lexin lp_out].
    match goal with |- context [parse_loop fuel sfuel c (lp_set_start (lp_set_out p ?O) false ?T)] =>
      pose proof (loop_edge sfuel Hsf fuel (lp_set_start (lp_set_out p O) false T) E HB Ha Hb) as G;
      change (lp_set_start (lp_set_out (lp_set_lexin p (lp_lex p) (with_heap h (lp_in p))) O) false (lp_start_tok (lp_set_lexin p (lp_lex p) (with_heap h (lp_in p)))))
        with (with_mem h (lp_set_start (lp_set_out p O) false T)) end.
    unfold parse_edge_post, loop_edge_post in *.
    match goal with |- match ?X with _ => _ end => destruct X as [([[| |]|], q)| | |]; try exact G; try exact I end.
    destruct G as (G1 & G2 & G3). cbn [lp_set_start lp_set_out lp_out] in G1, G2, G3.
    destruct ((ty =? TokenFirstTimestamp) || (ty =? TokenNewlineTimestamp)); cbn in G1, G2, G3.
    + rewrite G1. destruct (ob_tokens (lp_out q)); exact G3.
    + rewrite G1. destruct (ob_tokens (lp_out q)) eqn:Et; [|exact G3]. exfalso. exact (tokens_some _ G1 G2 Et).
Qed.
Lemma parse_edge sfuel (Hsf : (scan_fuel t <= sfuel)%nat) fuel p e :
  out_fresh (lp_out p) -> at_event c t k e p -> ib_heap (lp_in p) K = m' ->
  parse_edge_post (parse fuel sfuel c (with_mem h p)) (parse fuel sfuel c p).
Proof.
  intros (Ho1 & Ho2 & Ho3) Hae Hb. unfold parse. change (lp_out (with_mem h p)) with (lp_out p). rewrite Ho1, N.eqb_refl.
  destruct Hae as [Hst HB|tok0 Hst Hlex Hnnl Hb0 Hlt He Hst2 Hask HB].
  - cbn [lp_set_out lp_has_start with_mem lp_set_lexin]. rewrite Hst. unfold get_next_symbol. cbn [lp_set_out lp_lex lp_in lp_set_lexin].
    change (lp_lex (with_mem h p)) with (lp_lex p). change (lp_in (with_mem h p)) with (with_heap h (lp_in p)).
    destruct (scan_same sfuel e _ _ Hsf HB Hb) as (tok & l' & b' & -> & -> & Hb' & Ha' & Hok & HB'). cbn [bind lp_out lp_set_lexin lp_set_out ob_has_ts ob_set_delims].
    rewrite Ho2. destruct (tok_type tok) as [ty| | |]; cbn [bind]; try exact I. destruct (ty =? TokenNewlineTimestamp); [reflexivity|].
    match goal with |- parse_edge_post (parse_first _ _ _ ?P _) (parse_first _ _ _ ?Q _) => change P with (with_mem h Q) end.
    apply (first_edge sfuel Hsf fuel _ tok (t_end tok)); auto.
  - cbn [lp_set_out lp_has_start with_mem lp_set_lexin]. rewrite Hst. cbn [lp_start_tok].
    match goal with |- parse_edge_post (parse_first _ _ _ ?P _) (parse_first _ _ _ ?Q _) => change P with (with_mem h Q) end.
    apply (first_edge sfuel Hsf fuel _ (lp_start_tok p) (t_end tok0)); auto.
Qed.
(** * Metadata *)
Lemma meta_loop_edge g o : g K = m' -> forall is nl occ res, Forall (fun i => t_sid (ob_act o i) = K /\ t_start (ob_act o i) <= n) is ->
  meta_loop g o is nl occ = Ret res ->
  meta_loop h o is nl occ = if existsb (fun i => t_start (ob_act o i) =? n) is then UB else Ret res.
Proof.
  intros Hg. induction is as [|i is IH]; intros nl occ res Hall H; [exact H|]. pose proof (Forall_inv Hall) as [H1 H2]. pose proof (Forall_inv_tail Hall) as H3. cbn [meta_loop existsb] in *.
  destruct (tok_type (ob_act o i)) as [ty| | |]; cbn [bind] in *; try discriminate H.
  destruct (occ_add occ ty i) as [occ'| | |]; cbn [bind] in *; try discriminate H.
  unfold tok_delimiter in *. rewrite H1, Hh in *. rewrite Hg in H. destruct (N.eqb_spec (t_start (ob_act o i)) n) as [E | E].
  - rewrite E, Hnone. reflexivity.
  - rewrite pad_other in H by exact E. destruct (m (t_start (ob_act o i))); [|discriminate H]. cbn [bind] in *. cbn [orb]. exact (IH _ _ _ H3 H).
Qed.
Definition starts_end (tok : token) : bool := t_start tok =? n.
Lemma metadata_edge q q2 : ib_heap (lp_in q) K = m' -> Forall (fun tok => t_sid tok = K /\ t_start tok <= n) (ob_tokens (lp_out q)) ->
  generate_metadata q = Ret q2 ->
  generate_metadata (with_mem h q) = if existsb starts_end (ob_tokens (lp_out q)) then UB else Ret (with_mem h q2).
Proof.
  intros Hq Hall H. unfold generate_metadata in *. cbn [with_mem lp_set_lexin lp_in with_heap ib_heap lp_out lp_occ].
  destruct (meta_loop (ib_heap (lp_in q)) (lp_out q) _ 0 (lp_occ q)) as [(nl, occ)| | |] eqn:E; cbn [bind] in H; try discriminate H.
  unfold ob_tokens in Hall. rewrite Forall_map in Hall.
  rewrite (meta_loop_edge _ _ Hq _ _ _ _ Hall E). unfold ob_tokens.
  rewrite (existsb_nth_map starts_end (ob_act (lp_out q))). destruct (existsb _ _); [reflexivity|]. cbn [bind]. injection H as <-. reflexivity.
Qed.
End Parser.

(** * Events and runs *)
Section Runs.
Variables (c : lexcfg) (t : list N) (k : nat) (m : mem) (x nsym : N).
Let n := len t.
Let K := User k.
Let m' := padded m n x.
Hypothesis Hus : usable c nsym.
Hypothesis Hm : stored m t.
Hypothesis Hnone : m n = None.
Lemma padded_holds : holds m' t.
Proof.
  split; [|exists x; apply pad_at]. intros p Hp. unfold m', padded. destruct (N.eqb_spec p n); [unfold n in *; lia|]. now apply Hm.
Qed.
Let Hwf := us_wf _ _ Hus.
Let Hm' : forall p, p < len t -> m' p = byte_at t p := proj1 padded_holds.
Let Hend' : exists y, m' (len t) = Some y := proj2 padded_holds.
Let Hsym := us_ids _ _ Hus.
Let Hsym2 := us_nsym _ _ Hus.
Lemma shape_starts ts e toks e' fin nxt : event_shape c t k ts e toks e' fin nxt -> (existsb (starts_end t) toks = true <-> toks <> [] /\ e = n).
Proof.
  assert (L : forall tok, t_start tok < n -> starts_end t tok = false) by (intros tok H; unfold starts_end; apply N.eqb_neq; fold n; lia).
  assert (R : forall tok, lexed c t k tok -> t_end tok <= n) by (intros tok H; apply (lexed_range c t k nsym tok H)).
  assert (Z : forall tl E f z b, ending c t k ts E tl f z b -> existsb (starts_end t) tl = false).
  { intros tl E f z b [|tok _ H1 H2 _|tok H1 H2 _ _]; [reflexivity|..]; cbn [existsb]; rewrite orb_false_r; apply L; specialize (R tok H1); cbn; lia. }
  intros H. destruct H as [|tok H1 H2|ts e t0 body E tl e' fin nxt H1 H2 H3 H4 H5].
  - split; [discriminate|]. intros [H _]. now destruct H.
  - destruct (lexed_nt c t k m' nsym Hwf Hm' Hsym Hsym2 tok H1 H2) as (Hb & Hlt). apply byte_at_lt in Hb. fold n in Hb.
    cbn [existsb]. rewrite (L (only_newline tok)) by (cbn; exact Hb). split; [discriminate|]. intros [_ He]. lia.
  - destruct (first_sid c t k m' nsym Hm' Hsym Hsym2 _ _ H1) as (_ & Hs & _). cbn [existsb]. rewrite existsb_app, (Z _ _ _ _ _ H5), orb_false_r.
    assert (B : existsb (starts_end t) body = false).
    { apply not_true_iff_false. intros G. apply existsb_exists in G as (tok & G1 & G2). rewrite Forall_forall in H3. destruct (H3 tok G1) as (A1 & A2 & _).
      rewrite L in G2; [discriminate|]. specialize (R tok A1). lia. }
    rewrite B, orb_false_r. unfold starts_end. rewrite N.eqb_eq, Hs. fold n. split; [intros ->; split; [discriminate|reflexivity]|tauto].
Qed.
(** Proof vocabulary, no code: the two parsers differ only in their input buffers. *)
Definition agree (p0 p : lparser) : Prop := p0 = lp_set_lexin p (lp_lex p) (lp_in p0).
(** What makes the last event read behind the text. *)
Definition reads_behind (p : lparser) : bool :=
  match ob_tokens (lp_out p) with [] => false | toks => negb (ob_has_ts (lp_out p)) || existsb (starts_end t) toks end.
Lemma step_edge sfuel (Hsf : (scan_fuel t <= sfuel)%nat) fuel (Hf : n < N.of_nat fuel) bp0 bp e off :
  ready c t k m' nsym e off (bp_lp bp) -> agree (bp_lp bp0) (bp_lp bp) -> bp_done bp = false -> bp_done bp0 = false ->
  exists bp1 e', parse_next_event fuel sfuel c k m' n off true bp = Ret (true, ib_pos (lp_in (bp_lp bp1)), bp1) /\
    event_at c t k m' nsym e (bp_lp bp1) e' (bp_done bp1) /\
    (if bp_done bp1 then e' = n else ready c t k m' nsym e' (ib_pos (lp_in (bp_lp bp1))) (bp_lp bp1) /\ e < e') /\
    if bp_done bp1 && reads_behind (bp_lp bp1) then parse_next_event fuel sfuel c k m n off true bp0 = UB
    else exists h, h K = m /\ parse_next_event fuel sfuel c k m n off true bp0 =
           Ret (true, ib_pos (lp_in (bp_lp bp1)), mkBp (with_mem h (bp_lp bp1)) (bp_done bp1)).
Proof.
  intros Hre Hag Hd Hd0.
  destruct (parse_next_event_spec c t k m' nsym Hwf Hm' Hend' Hsym Hsym2 sfuel Hsf fuel bp e off Hre Hd Hf) as (bp1 & e' & Hr & Hev & Hle & _ & Hnx).
  exists bp1, e'. split; [exact Hr|]. split; [exact Hev|]. split; [exact Hnx|].
  destruct (ea_shape _ _ _ _ _ _ _ _ _ Hev) as (nxt & Hsh & _).
  pose proof (shape_starts _ _ _ _ _ _ Hsh) as Hst.
  assert (Hin : Forall (fun tok => t_sid tok = K /\ t_start tok <= n) (ob_tokens (lp_out (bp_lp bp1)))).
  { apply shape_ev with (nsym := nsym) (m := m') in Hsh; auto. eapply Forall_impl; [|exact Hsh]. intros tok (A1 & A2 & _). auto. }
  assert (Hnd : bp_done bp1 = false -> existsb (starts_end t) (ob_tokens (lp_out (bp_lp bp1))) = false).
  { intros E. rewrite E in Hnx. destruct Hnx as [_ Hlt]. apply not_true_iff_false. rewrite Hst. intros [_ Q]. unfold n in Q. lia. }
  unfold parse_next_event in *. set (h := heap_set (ib_heap (ib_reset (lp_in (bp_lp bp0)))) K m).
  assert (Hh : h K = m) by (unfold h, heap_set, K; cbn; now rewrite Nat.eqb_refl).
  destruct bp as [p dn]. destruct bp0 as [p0 dn0]. cbn [bp_lp bp_done] in *. subst dn dn0.
  match type of Hr with context [parse_and_generate_metadata _ _ _ ?P] => set (p1 := P) in * end.
  match goal with |- context [parse_and_generate_metadata _ _ _ ?P] => assert (Ep : P = with_mem h p1) end.
  { rewrite Hag. reflexivity. }
  rewrite Ep. clear Ep. unfold parse_and_generate_metadata in *.
  assert (Hheap : ib_heap (lp_in p1) K = m') by (cbn; unfold heap_set, K; cbn; now rewrite Nat.eqb_refl).
  assert (Hpe : parse_edge_post h (parse fuel sfuel c (with_mem h p1)) (parse fuel sfuel c p1)).
  { apply (parse_edge c t k m x nsym h Hwf Hm Hnone Hsym Hsym2 Hh sfuel Hsf fuel p1 e); auto.
    - cbn. split; [reflexivity|]. split; [reflexivity|]. vm_compute; reflexivity.
    - destruct Hre as [Hae _]. destruct Hae as [Hst0 HB|tok0 Hst0 Hlex Hnnl Hb Hlt He Hst2 Hask HB].
      + apply ae_lex; cbn; auto.
      + apply (ae_start _ _ _ _ _ tok0); cbn; auto. }
  destruct (parse fuel sfuel c p1) as [([a|], q)| | |]; cbn [bind] in Hr; try discriminate Hr.
  destruct (generate_metadata q) as [q2| | |] eqn:Eg; cbn [bind] in Hr; try discriminate Hr.
  assert (Eq : lp_out q2 = lp_out q /\ lp_in q2 = lp_in q).
  { unfold generate_metadata in Eg. destruct (meta_loop _ _ _ _ _) as [(nl, occ)| | |]; cbn [bind] in Eg; try discriminate Eg. injection Eg as <-. now split. }
  destruct Eq as [Eo Ei]. injection Hr as _ Hb1. 
  assert (E1 : bp_lp bp1 = q2) by (rewrite <- Hb1; reflexivity). rewrite E1 in *.
  assert (Hq : ib_heap (lp_in q) K = m') by (rewrite <- Ei; exact (ea_heap _ _ _ _ _ _ _ _ _ Hev)).
  rewrite Eo in *. pose proof (metadata_edge t k m x h Hnone Hh q q2 Hq Hin Eg) as Hme.
  assert (Hgo : parse fuel sfuel c (with_mem h p1) = Ret (Some a, with_mem h q) -> existsb (starts_end t) (ob_tokens (lp_out q)) = false ->
     exists h0, h0 K = m /\ (do (oa, p2) <- (do (oa, p1) <- parse fuel sfuel c (with_mem h p1);
         match oa with Some a0 => do p2 <- generate_metadata p1; Ret (Some a0, p2) | None => Ret (None, p1) end);
         match oa with Some a0 => Ret (true, ib_pos (lp_in p2), mkBp p2 match a0 with ActCompressAndFinish => true | _ => false end)
         | None => Ret (false, if ob_pos (lp_out p2) =? 0 then off else t_start (ob_act (lp_out p2) 0), bp_reset c (mkBp p2 false)) end) =
       Ret (true, ib_pos (lp_in q2), mkBp (with_mem h0 q2) (bp_done bp1))).
  { intros Hp Hx. exists h. split; [exact Hh|]. rewrite Hp. cbn [bind]. rewrite Hme, Hx. cbn [bind]. rewrite <- Hb1. reflexivity. }
  unfold reads_behind. rewrite Eo. unfold parse_edge_post in Hpe.
  assert (Hdone : bp_done bp1 = match a with ActCompressAndFinish => true | _ => false end) by (rewrite <- Hb1; reflexivity).
  rewrite Hdone in Hgo |- *. destruct a; cbn [bind andb] in *.
  - apply Hgo; [exact Hpe|]. apply Hnd. exact Hdone.
  - apply Hgo; [exact Hpe|]. apply Hnd. exact Hdone.
  - destruct (ob_tokens (lp_out q)) as [|tok toks] eqn:Et; [apply Hgo; [exact Hpe|reflexivity]|].
    destruct (ob_has_ts (lp_out q)); cbn [negb orb].
    + destruct (existsb (starts_end t) (tok :: toks)) eqn:Ex.
      * rewrite Hpe. cbn [bind]. rewrite Hme. reflexivity.
      * apply Hgo; [exact Hpe|reflexivity].
    + rewrite Hpe. reflexivity.
Qed.
(** Proof vocabulary, no code: the parser after an event, in the two runs. *)
Definition same (p0 p : lparser) : Prop := exists h e e' fin, h K = m /\ p0 = with_mem h p /\ event_at c t k m' nsym e p e' fin.
Lemma drive_edge sfuel (Hsf : (scan_fuel t <= sfuel)%nat) fuel (Hf : n < N.of_nat fuel) calls : forall bp0 bp e off,
  ready c t k m' nsym e off (bp_lp bp) -> agree (bp_lp bp0) (bp_lp bp) -> bp_done bp = false -> bp_done bp0 = false -> n - e < N.of_nat calls ->
  exists qs p e1 bp1, drive (fun p => p) calls fuel sfuel c k m' n off bp = Ret (qs ++ [p], bp1) /\ event_at c t k m' nsym e1 p n true /\
    if reads_behind p then drive (fun p => p) calls fuel sfuel c k m n off bp0 = UB
    else exists ps0 bp2, drive (fun p => p) calls fuel sfuel c k m n off bp0 = Ret (ps0, bp2) /\ Forall2 same ps0 (qs ++ [p]) /\
         bp_done bp2 = true /\ idle nsym bp2.
Proof.
  induction calls as [|calls IH]; intros bp0 bp e off Hre Hag Hd Hd0 Hc; [lia|]. cbn [drive].
  destruct (step_edge sfuel Hsf fuel Hf bp0 bp e off Hre Hag Hd Hd0) as (bp1 & e' & -> & Hev & Hnx & Hr). cbn [bind].
  destruct (bp_done bp1) eqn:Ed; cbn [andb] in Hr.
  - subst e'. exists [], (bp_lp bp1), e, bp1. split; [reflexivity|]. split; [exact Hev|].
    destruct (reads_behind (bp_lp bp1)); [rewrite Hr; reflexivity|]. destruct Hr as (h & Hh & ->). cbn [bind bp_lp bp_done].
    eexists _, _. split; [reflexivity|]. split; [constructor; [|constructor]; exists h, e, n, true; auto|]. split; [reflexivity|].
    split; cbn.
    + destruct (ea_shape _ _ _ _ _ _ _ _ _ Hev) as (nxt & Hsh & Hnt). assert (nxt = None) as ->; [|exact Hnt].
      inversion Hsh; subst; auto. match goal with H : ending _ _ _ _ _ _ true _ |- _ => inversion H; subst; auto | H : ending _ _ _ _ _ _ _ true _ |- _ => inversion H; subst; auto end.
    + destruct (ea_occ _ _ _ _ _ _ _ _ _ Hev) as (Ho & _). lia.
  - destruct Hnx as [Hre' Hlt]. destruct Hr as (h & Hh & ->). cbn [bind bp_lp bp_done].
    destruct (IH (mkBp (with_mem h (bp_lp bp1)) false) bp1 e' _ Hre' eq_refl Ed eq_refl) as (qs & p & e1 & bp2 & -> & Hl & Hr2); [pose proof (chain_bounds _ _ _ _ _ (evat_chain c nsym t k m' Hus padded_holds _ _ _ _ Hev)); unfold n in *; lia|]. cbn [bind].
    exists (bp_lp bp1 :: qs), p, e1, bp2. split; [reflexivity|]. split; [exact Hl|].
    destruct (reads_behind p); [rewrite Hr2; reflexivity|]. destruct Hr2 as (ps0 & bp3 & -> & HF & Hz). cbn [bind].
    eexists _, _. split; [reflexivity|]. split; [cbn [app]; constructor; [exists h, e, e', false; auto|exact HF]|exact Hz].
Qed.
(** * What the user sees *)
Lemma chain_in a toks e : chain t k a toks e -> forall tok, In tok toks -> t_sid tok = K /\ t_start tok <= t_end tok /\ t_end tok <= n.
Proof. induction 1 as [|tok toks e H1 H2 H3 H4 IH]; intros q Hq; [destruct Hq|]. destruct Hq as [<- | Hq]; auto. Qed.
Lemma concat_out_ext {A} (f g : A -> out (list N)) l : (forall a, In a l -> f a = g a) -> concat_out (map f l) = concat_out (map g l).
Proof. intros H. f_equal. now apply map_ext_in. Qed.
Lemma forallb_ext_in {A} (f g : A -> bool) l : (forall a, In a l -> f a = g a) -> forallb f l = forallb g l.
Proof. induction l as [|a l IH]; intros H; [reflexivity|]. cbn. rewrite H by now left. f_equal. apply IH. intros b Hb. apply H. now right. Qed.
Lemma logtype_same name h g l : h K = m -> g K = m' -> (forall tok, In tok l -> t_sid tok = K /\ t_start tok < n /\ tok_text h tok = tok_text g tok) ->
  logtype_loop h name l = logtype_loop g name l.
Proof.
  intros Hh Hg. induction l as [|tok l IH]; intros H; [reflexivity|]. cbn [logtype_loop].
  destruct (H tok (or_introl eq_refl)) as (H1 & H2 & H3). rewrite H3.
  assert (Ed : tok_delimiter h tok = tok_delimiter g tok).
  { unfold tok_delimiter. rewrite H1, Hh, Hg. unfold m', padded. destruct (N.eqb_spec (t_start tok) n); [lia|reflexivity]. }
  rewrite Ed, IH by (intros q Hq; apply H; now right). reflexivity.
Qed.
Lemma report_same name p0 p : same p0 p -> report_of name nsym p0 = report_of name nsym p.
Proof.
  intros (h & e & e' & fin & Hh & -> & Hev). pose proof (evat_chain c nsym t k m' Hus padded_holds _ _ _ _ Hev) as Hch.
  pose proof (chain_in _ _ _ Hch) as Hin. pose proof (ea_heap _ _ _ _ _ _ _ _ _ Hev) as Hg.
  assert (Htx : forall tok, In tok (ev_tokens p) -> tok_text h tok = tok_text (ib_heap (lp_in p)) tok).
  { intros tok Ht. destruct (Hin tok Ht) as (A1 & A2 & A3). rewrite (tok_text_sub c t k m nsym Hm Hsym Hsym2 h tok Hh A1 A2 A3).
    symmetry. apply (tok_text_sub c t k m' nsym Hm' Hsym Hsym2); auto. }
  assert (Hsh : forall tok, In tok (ev_tokens p) -> shown (with_mem h p) tok = shown p tok).
  { intros tok Ht. unfold shown. cbn. rewrite (Htx tok Ht). reflexivity. }
  assert (Hslot : forall i, ob_first (lp_out p) <= i < ob_pos (lp_out p) -> In (ob_act (lp_out p) i) (ev_tokens p)).
  { intros i Hi. rewrite tokens_slots. apply in_map, in_indices, Hi. }
  unfold report_of. f_equal.
  - unfold ev_to_string. cbn [with_mem lp_set_lexin lp_in with_heap ib_heap lp_out]. apply concat_out_ext. exact Htx.
  - change (ob_tokens (lp_out (with_mem h p))) with (ev_tokens p). apply map_ext_in. exact Hsh.
  - unfold ev_timestamp. change (lp_out (with_mem h p)) with (lp_out p). destruct (ob_has_ts (lp_out p)) eqn:Ets; [|reflexivity]. cbn [option_map]. f_equal.
    apply Hsh, Hslot. pose proof (evat_ts c nsym t k m' _ _ _ _ Hev) as Hhd. unfold ev_timestamp in Hhd. rewrite Ets in Hhd. destruct Hhd as (Hhd & _).
    rewrite tokens_slots in Hhd. unfold ob_first in *. rewrite Ets in *. destruct (N.eq_dec (ob_pos (lp_out p)) 0) as [E|E]; [rewrite E in Hhd; discriminate Hhd|lia].
  - apply map_ext_in. intros id Hid. apply in_seq in Hid. unfold ev_variables. change (lp_occ (with_mem h p)) with (lp_occ p). change (lp_out (with_mem h p)) with (lp_out p).
    destruct (ea_occ _ _ _ _ _ _ _ _ _ Hev) as (Hl & Ho). specialize (Ho (N.of_nat id)).
    destruct (nth_error (lp_occ p) (N.to_nat (N.of_nat id))) as [l|] eqn:El; [|reflexivity]. cbn [bind]. f_equal. apply map_ext_in. intros tok Ht.
    apply in_map_iff in Ht as (i & <- & Hi). apply Hsh, Hslot. rewrite (nth_error_nth _ _ [] El) in Ho. rewrite Ho in Hi. apply filter_In in Hi as [Hi _]. now apply in_indices.
  - change (ob_tokens (lp_out (with_mem h p))) with (ev_tokens p). change (ob_tokens (lp_out p)) with (ev_tokens p).
    assert (En : forallb (not_empty (with_mem h p)) (ev_tokens p) = forallb (not_empty p) (ev_tokens p)).
    { apply forallb_ext_in. intros tok Ht. unfold not_empty. cbn. rewrite (Htx tok Ht). reflexivity. }
    rewrite En. destruct (forallb (not_empty p) (ev_tokens p)) eqn:Ea; [|reflexivity]. f_equal. unfold ev_logtype. cbn [with_mem lp_set_lexin lp_in with_heap ib_heap lp_out].
    apply logtype_same; auto. intros tok Ht. apply in_map_iff in Ht as (i & <- & Hi). apply in_indices in Hi.
    assert (Hi2 : In (ob_act (lp_out p) i) (ev_tokens p)).
    { apply Hslot. unfold ob_first. destruct (ob_has_ts (lp_out p)); lia. }
    destruct (Hin _ Hi2) as (A1 & A2 & A3). split; [exact A1|]. split; [|exact (Htx _ Hi2)].
    rewrite forallb_forall in Ea. specialize (Ea _ Hi2). unfold not_empty in Ea.
    rewrite (tok_text_sub c t k m' nsym Hm' Hsym Hsym2 _ _ Hg A1 A2 A3) in Ea.
    destruct (N.eq_dec (t_start (ob_act (lp_out p) i)) (t_end (ob_act (lp_out p) i))) as [E|E]; [|lia].
    rewrite E in Ea. unfold sub in Ea. rewrite N.sub_diag in Ea. discriminate Ea.
Qed.
Lemma behind_meaning e p : event_at c t k m' nsym e p n true ->
  (reads_behind p = true <-> ev_tokens p <> [] /\ (ev_timestamp p = None \/ ev_to_string p = Ret [])).
Proof.
  intros Hev. rewrite (evat_text c nsym t k m' Hus padded_holds _ _ _ _ Hev).
  destruct (ea_shape _ _ _ _ _ _ _ _ _ Hev) as (nxt & Hsh & _). pose proof (shape_starts _ _ _ _ _ _ Hsh) as Hst.
  pose proof (evat_chain c nsym t k m' Hus padded_holds _ _ _ _ Hev) as Hch. pose proof (chain_bounds _ _ _ _ _ Hch) as Hle.
  unfold reads_behind, ev_timestamp, ev_tokens in *. destruct (ob_tokens (lp_out p)) as [|tok toks]; [split; [discriminate|intros [H _]; now destruct H]|].
  rewrite orb_true_iff, negb_true_iff, Hst.
  assert (Hs : @Ret (list N) (sub t e n) = Ret [] <-> e = n).
  { split; [|intros ->; unfold sub; rewrite N.sub_diag; reflexivity]. intros [= H]. destruct (N.eq_dec e n) as [E|E]; [exact E|exfalso].
    assert (A : len (sub t e n) = n - e) by (apply sub_length; unfold n in *; lia). rewrite H in A. cbn in A. unfold n in *. lia. }
  split.
  - intros [H|[_ H]]; (split; [discriminate|]); [left; now rewrite H|right; now apply Hs].
  - intros [_ [H|H]]; [left; now destruct (ob_has_ts (lp_out p))|right; split; [discriminate|now apply Hs]].
Qed.
Lemma parse_all_edge name calls fuel sfuel bp : idle nsym bp -> enough t calls fuel sfuel ->
  exists qs p bp1, parse_all calls fuel sfuel c k m' t bp = Ret (qs ++ [p], bp1) /\
    let behind := ev_tokens p <> [] /\ (ev_timestamp p = None \/ ev_to_string p = Ret []) in
    (behind /\ parse_all calls fuel sfuel c k m t bp = UB) \/
    (~ behind /\ exists ps0 bp2, parse_all calls fuel sfuel c k m t bp = Ret (ps0, bp2) /\
       map (report_of name nsym) ps0 = map (report_of name nsym) (qs ++ [p]) /\ bp_done bp2 = true /\ idle nsym bp2).
Proof.
  intros [Hi1 Hi2] [He1 He2 He3]. unfold parse_all.
  destruct (drive_edge sfuel ltac:(unfold scan_fuel; lia) fuel He2 calls (bp_reset c bp) (bp_reset c bp) 0 0
     (reset_ready c t k m' nsym Hm' Hsym Hsym2 bp (us_sof _ _ Hus) Hi1 Hi2)) as (qs & p & e1 & bp1 & Hr & Hev & Hx);
    [destruct bp as [[]]; reflexivity|reflexivity|reflexivity|unfold n; lia|].
  exists qs, p, bp1. split; [exact Hr|]. cbv zeta. pose proof (behind_meaning _ _ Hev) as Hb.
  destruct (reads_behind p); [left|right].
  - split; [now apply Hb|exact Hx].
  - split; [intros B; apply Hb in B; discriminate|]. destruct Hx as (ps0 & bp2 & Hr0 & HF & Hz). exists ps0, bp2. split; [exact Hr0|]. split; [|exact Hz].
    clear Hr0; revert HF; generalize (qs ++ [p]); intros L HF; induction HF as [|a b l l' H HF IH]; [reflexivity|]. cbn [map]. f_equal; [|exact IH]. now apply report_same.
Qed.
End Runs.
