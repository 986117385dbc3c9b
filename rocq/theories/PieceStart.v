(** PieceStart.v -- the events that follow in the log are found again at the start of a buffer (C43). *)
From Verif Require Import Base LexerModel LexerSpec LogParserModel EventSpec ViewModel ReaderSpec ViewSim LineBound WindowBound FeedSpec PieceSpec.
From Verif Require Import LexerProofs LogParserProofs EventProofs ReaderProofs ReaderFits FlatSim FeedProofs FeedRuns PieceSim.

(** * The first token after reset() *)
Section Sof.
Variables (c : lexcfg) (t : list N) (K : sid) (b0 : ibuf) (q0 : nat) (y : N).
Hypothesis Hdl : c_has_delims c = true.
Hypothesis Hb0 : static_buf t K b0.
Hypothesis Hfull : ib_full b0 = false.
Hypothesis Hmatch : dmatch c t q0 0 y.
Hypothesis Hlong : forall z, y < z -> ~ dmatch c t q0 0 z.
Hypothesis Hnl : forall p q, run (c_dfa c) q0 (sub t 0 p) = Some q -> ~ In cNewline (sub t 0 p).

Lemma sof_loop : forall fuel p q l, run (c_dfa c) q0 (sub t 0 p) = Some q -> p <= len t -> l_start_pos l = 0 -> l_last_match_pos l = 0 -> l_asked l = false ->
  (y < p -> l_match l = true /\ l_match_pos l = y /\ l_ids l = Some (reported (c_dfa c) q0 (sub t 0 y))) -> len t - p < N.of_nat fuel ->
  exists line l', scan_loop fuel c q l (ib_set_pos b0 p) = Ret (Some (mkToken 0 y K (len t * 2) line (Some (reported (c_dfa c) q0 (sub t 0 y)))), l', ib_set_pos b0 y) /\
    l_match l' = false /\ l_asked l' = false /\ l_last_match_pos l' = y.
Proof.
  destruct Hmatch as (Hy & Hrep & Hdel).
  induction fuel as [|fuel IH]; intros p q l Hrun Hp Hs Hl Ha Hm Hf; [lia|]. rewrite scan_loop_S.
  assert (static_buf t K (ib_set_pos b0 p)) as Hb by (eapply static_move; [exact Hb0|apply same_frame_set_pos|exact Hp|cbn; congruence]).
  assert (forall l3 b1, l_match l3 = true -> l_match_pos l3 = y -> l_ids l3 = Some (reported (c_dfa c) q0 (sub t 0 y)) -> l_start_pos l3 = 0 -> l_last_match_pos l3 = 0 -> l_asked l3 = false ->
    ib_set_pos (ib_set_full b1 false) y = ib_set_pos b0 y ->
    exists line l', after_match l3 b1 = Ret (Some (mkToken 0 y K (len t * 2) line (Some (reported (c_dfa c) q0 (sub t 0 y)))), l', ib_set_pos b0 y) /\
    l_match l' = false /\ l_asked l' = false /\ l_last_match_pos l' = y) as Fin.
  { intros l3 b1 M1 M2 M3 M4 M5 M6 Eb. unfold after_match. cbv zeta. cbn [l_last_match_pos l_start_pos lex_restore_line l_match_pos l_match_line l_last_match_line l_ids].
    rewrite M2, M3, M4, M5, Eb. cbn [N.eqb negb]. eexists _, _. split; [unfold mk_tok; cbn [ib_active ib_size ib_set_pos]; rewrite (sb_active _ _ _ Hb0), (sb_size _ _ _ Hb0); reflexivity|]. cbn. auto. }
  (* the match recorded in this iteration *)
  assert (forall ch b1, (c_delim c ch || ib_full b1 = true <-> delimited c t p) ->
    let l1 := match_step c q ch p b1 l in
    l_start_pos l1 = 0 /\ l_last_match_pos l1 = 0 /\ l_asked l1 = false /\ (y <= p -> l_match l1 = true /\ l_match_pos l1 = y /\ l_ids l1 = Some (reported (c_dfa c) q0 (sub t 0 y)))) as Step.
  { intros ch b1 Hd. unfold match_step. rewrite Hdl. cbn [negb]. rewrite orb_false_r.
    assert (d_ids (c_dfa c) q = reported (c_dfa c) q0 (sub t 0 p)) as Er by (unfold reported; rewrite Hrun; reflexivity).
    destruct ((c_delim c ch || ib_full b1) && is_accepting (c_dfa c) q) eqn:E; cbv zeta.
    - cbn. split; [exact Hs|]. split; [exact Hl|]. split; [exact Ha|]. intros Hyp. apply andb_true_iff in E as (E1 & E2). apply is_accepting_spec in E2.
      assert (y = p) as <-; [|rewrite Er; auto].
      destruct (N.eq_dec y p); [assumption|]. exfalso. apply (Hlong p ltac:(lia)). split; [lia|]. split; [rewrite <- Er; exact E2|]. apply Hd. exact E1.
    - split; [exact Hs|]. split; [exact Hl|]. split; [exact Ha|]. intros Hyp. destruct (N.eq_dec y p) as [<-|Hne]; [|apply Hm; lia]. exfalso.
      assert (c_delim c ch || ib_full b1 = true) as E1 by (apply Hd; exact Hdel). assert (is_accepting (c_dfa c) q = true) as E2 by (apply is_accepting_spec; rewrite Er; exact Hrep).
      rewrite E1, E2 in E. discriminate. }
  change (ib_pos (ib_set_pos b0 p)) with p.
  destruct (N.eq_dec p (len t)) as [Hend|Hend].
  - rewrite (gnc_end t K _ Hb Hend). cbn [ib_full ib_set_full]. 
    destruct (Step cCharEOF (ib_set_full (ib_set_pos b0 p) true)) as (S1 & S2 & S3 & S4).
    { cbn. rewrite orb_true_r. split; [intros _; left; exact Hend|reflexivity]. }
    specialize (S4 ltac:(lia)). destruct S4 as (S4 & S5 & S6). unfold newline_step. change (cCharEOF =? cNewline) with false. cbn [bind]. unfold tail_or_go. cbn [ib_full ib_set_full].
    unfold tail_of. rewrite S4. apply Fin; auto.
    destruct b0; cbn in *. rewrite Hfull. reflexivity.
  - destruct (byte_at_some t p ltac:(lia)) as (x & Hx). rewrite (gnc_byte t K _ x Hb Hx). cbn [ib_pos ib_set_pos].
    set (b1 := ib_set_pos (ib_set_pos b0 p) (p + 1)).
    assert (ib_full b1 = false) as Hf1 by exact Hfull.
    destruct (Step x b1) as (S1 & S2 & S3 & S4).
    { rewrite Hf1, orb_false_r. split; [intro Q; right; eauto|]. intros [Q|(z & Q1 & Q2)]; [lia|congruence]. }
    set (l1 := match_step c q x p b1 l) in *.
    assert (run (c_dfa c) q0 (sub t 0 (p + 1)) = d_next (c_dfa c) q x) as Hr1.
    { rewrite (sub_snoc t 0 p x) by (auto; lia). rewrite run_app, Hrun. cbn. destruct (d_next (c_dfa c) q x); reflexivity. }
    assert (p < y -> exists q', d_next (c_dfa c) q x = Some q') as Hgo.
    { intro Q. rewrite <- Hr1. unfold reported in Hrep. rewrite (sub_app t 0 (p + 1) y), run_app in Hrep by lia. destruct (run (c_dfa c) q0 (sub t 0 (p + 1))); [eauto|congruence]. }
    assert (exists l3, newline_step c q x p b1 l1 = Ret (d_next (c_dfa c) q x, l3) /\ l_match l3 = l_match l1 /\ l_match_pos l3 = l_match_pos l1 /\ l_ids l3 = l_ids l1 /\ l_start_pos l3 = 0 /\ l_last_match_pos l3 = 0 /\ l_asked l3 = false) as (l3 & -> & N1 & N2 & N3 & N4 & N5 & N6).
    { unfold newline_step. destruct (N.eqb_spec x cNewline) as [->|_]; [|exists l1; auto 10]. cbv zeta.
      assert (y <= p) as Hyp.
      { destruct (N.le_gt_cases y p) as [Q|Q]; [exact Q|]. exfalso. destruct (Hgo Q) as (q' & Hq'). rewrite <- Hr1 in Hq'. apply (Hnl _ _ Hq'). rewrite (sub_snoc t 0 p cNewline) by (auto; lia). apply in_or_app. right. left. reflexivity. }
      destruct (S4 Hyp) as (M1 & M2 & M3). replace (l_match (lex_inc_line l1)) with true by (symmetry; exact M1). cbn [negb]. rewrite andb_false_r. exists (lex_inc_line l1). cbn. auto 10. }
    cbn [bind]. unfold tail_or_go. rewrite Hf1. destruct (d_next (c_dfa c) q x) as [q'|] eqn:En.
    + unfold b1. change (ib_set_pos (ib_set_pos b0 p) (p + 1)) with (ib_set_pos b0 (p + 1)). apply IH; auto; try lia.
      intro Q. rewrite N1, N2, N3. apply S4. lia.
    + destruct (N.lt_ge_cases p y) as [Q|Q]; [destruct (Hgo Q); discriminate|]. destruct (S4 Q) as (M1 & M2 & M3).
      unfold tail_of. rewrite N1, M1. apply Fin; try congruence. unfold b1. destruct b0; cbn in *. rewrite Hfull. reflexivity.
Qed.
End Sof.

(** * The lexer after a timestamp *)
Lemma scan_loop_typed c : forall fuel q l b tok l' b' r, scan_loop fuel c q l b = Ret (Some tok, l', b') -> t_ids tok = Some (TokenNewlineTimestamp :: r) -> l_match l' = false.
Proof.
  induction fuel as [|fuel IH]; intros q l b tok l' b' r H Ht; [discriminate|]. rewrite scan_loop_S in H.
  destruct (get_next_character b) as [[(ch, b1)|]| | |]; try discriminate.
  apply bind_ret_inv in H as ((next, l3) & _ & H).
  assert (forall full, tail_of fuel c q ch (ib_pos b) b1 full l3 = Ret (Some tok, l', b') -> l_match l' = false) as K.
  { intros full. unfold tail_of, after_match. cbv zeta. destruct (l_match l3) eqn:Em.
    - destruct (negb _); intro Q; injection Q as <- <- <-; [discriminate|reflexivity].
    - destruct (full && _); [destruct (negb _); intro Q; injection Q as <- <- <-; discriminate|].
      destruct (skip_loop fuel c ch (ib_pos b) b1) as [([p|], b2)| | |]; try discriminate. intro Q. exact (IH _ _ _ _ _ _ _ Q Ht). }
  unfold tail_or_go in H. destruct (ib_full b1); [exact (K _ H)|]. destruct next as [n|]; [exact (IH _ _ _ _ _ _ _ H Ht)|exact (K _ H)].
Qed.
Lemma scan_typed c fuel l b tok l' b' r : scan fuel c l b = Ret (Some tok, l', b') -> t_ids tok = Some (TokenNewlineTimestamp :: r) -> l_match l' = false.
Proof.
  unfold scan. destruct (l_asked l).
  - destruct (l_prev l) as [q|]; [apply scan_loop_typed|]. destruct (get_next_character b) as [[x|]| | |]; discriminate.
  - destruct (l_match l); [|apply scan_loop_typed]. intro Q. injection Q as <- <- <-. reflexivity.
Qed.
Lemma stamp_ids tok : tok_type tok = Ret TokenNewlineTimestamp -> exists r, t_ids tok = Some (TokenNewlineTimestamp :: r).
Proof. unfold tok_type. destruct (t_ids tok) as [[|i r]|]; intro Q; try discriminate. injection Q as ->. eauto. Qed.

Definition start_lex (p : lparser) : Prop := lp_has_start p = true -> tok_type (lp_start_tok p) = Ret TokenNewlineTimestamp -> l_match (lp_lex p) = false.
Lemma parse_loop_start c sfuel : forall fuel p a p', lp_has_start p = false -> parse_loop fuel sfuel c p = Ret (Some a, p') -> start_lex p'.
Proof.
  induction fuel as [|fuel IH]; intros p a p' Hs H; [discriminate|]. cbn [parse_loop] in H. unfold get_next_symbol in H.
  destruct (scan sfuel c (lp_lex p) (lp_in p)) as [(([t|], l), b)| | |] eqn:Es; try discriminate. cbn [bind] in H.
  destruct (tok_type t) as [ty| | |] eqn:Et; try discriminate. cbn [bind] in H.
  apply bind_ret_inv in H as (found & _ & H). destruct (ty =? TokenEnd); [injection H as _ <-; intro Q; cbn in Q; congruence|].
  match type of H with (if ?X then _ else _) = _ => destruct X; [injection H as _ <-; intro Q; cbn in Q; congruence|] end.
  destruct found; [|refine (IH _ _ _ _ H); exact Hs]. injection H as _ <-. intros _ Q. cbn [lp_set_out lp_start_tok lp_set_start] in Q. change (tok_type (skip_newline t)) with (tok_type t) in Q.
  destruct (stamp_ids t Q) as (r & Hr). exact (scan_typed _ _ _ _ _ _ _ _ Es Hr).
Qed.
Lemma parse_first_start c fuel sfuel p t a p' : lp_start_tok p = t \/ lp_has_start p = false ->
  parse_first fuel sfuel c p t = Ret (Some a, p') -> start_lex p'.
Proof.
  intros Ht H. unfold parse_first in H. destruct (tok_type t) as [ty| | |] eqn:Et; try discriminate. cbn [bind] in H. destruct (N.eqb_spec ty TokenEnd) as [->|].
  - injection H as _ <-. intros Q1 Q2. change (lp_has_start p = true) in Q1. change (tok_type (lp_start_tok p) = Ret TokenNewlineTimestamp) in Q2. destruct Ht as [E|E]; [rewrite E, Et in Q2; discriminate|congruence].
  - eapply parse_loop_start; [|exact H]. reflexivity.
Qed.
Lemma parse_start c fuel sfuel p a p' : ob_pos (lp_out p) = 0 -> parse fuel sfuel c p = Ret (Some a, p') -> start_lex p'.
Proof.
  intros H0 H. unfold parse in H. rewrite H0 in H. cbn [N.eqb] in H. cbn [lp_set_out lp_has_start] in H. destruct (lp_has_start p) eqn:Hs.
  - eapply parse_first_start; [|exact H]. left. reflexivity.
  - unfold get_next_symbol in H. apply bind_ret_inv in H as ((ot, p2) & H1 & H). apply bind_ret_inv in H1 as (((ot', l), b) & H1 & H2). injection H2 as -> <-. destruct ot as [t|]; [|discriminate].
    destruct (ob_has_ts _); [eapply parse_first_start; [|exact H]; right; exact Hs|].
    destruct (tok_type t) as [ty| | |] eqn:Et; try discriminate. cbn [bind] in H. destruct (N.eqb_spec ty TokenNewlineTimestamp) as [->|].
    + injection H as _ <-. intros _ _. destruct (stamp_ids t Et) as (r & Hr). exact (scan_typed _ _ _ _ _ _ _ _ H1 Hr).
    + eapply parse_first_start; [|exact H]. right. exact Hs.
Qed.
Lemma call_start c fuel sfuel k m size off bp off' bp' : parse_next_event fuel sfuel c k m size off true bp = Ret (true, off', bp') -> start_lex (bp_lp bp').
Proof.
  intro H. unfold parse_next_event, parse_and_generate_metadata in H. change (lp_set_lexin (reset_log_event_view (bp_lp bp)) _ _) with (prepared k m size off true (bp_lp bp)) in H.
  destruct (parse fuel sfuel c (prepared k m size off true (bp_lp bp))) as [([a|], q)| | |] eqn:P; try discriminate. cbn [bind] in H.
  apply parse_start in P; [|reflexivity]. unfold generate_metadata in H. apply bind_ret_inv in H as ((oa, g) & H1 & H2). apply bind_ret_inv in H1 as (g' & H1 & H3). injection H3 as <- <-.
  apply bind_ret_inv in H1 as ((n1, r1) & _ & H1). injection H1 as <-. injection H2 as _ <-. exact P.
Qed.

(** * Events with timestamps *)
Section Split.
Variables (c : lexcfg) (t : list N) (k : nat) (m : mem) (nsym : N) (fuel sfuel : nat).
Hypothesis Hus : usable c nsym.
Hypothesis Hm : holds m t.
Hypothesis Hsf : (scan_fuel t <= sfuel)%nat.
Hypothesis Hfu : len t < N.of_nat fuel.

(** The parser holds the timestamp the next event begins with. *)
Record stamped (p : lparser) : Prop := {
  sd_start : lp_has_start p = true;
  sd_type : tok_type (lp_start_tok p) = Ret TokenNewlineTimestamp;
  sd_lex : l_match (lp_lex p) = false
}.
Lemma call_stamped : forall bp e off, ready c t k m nsym e off (bp_lp bp) -> bp_done bp = false ->
  exists bp' e' off', parse_next_event fuel sfuel c k m (len t) off true bp = Ret (true, off', bp') /\ ev_to_string (bp_lp bp') = Ret (sub t e e') /\ e <= e' <= len t /\
    (stamped (bp_lp bp) -> ev_timestamp (bp_lp bp') <> None) /\
    (bp_done bp' = false -> ready c t k m nsym e' off' (bp_lp bp') /\ e < e' /\ (ev_timestamp (bp_lp bp') <> None -> stamped (bp_lp bp'))).
Proof.
  intros bp e off R D.
  destruct (parse_next_event_spec c t k m nsym (us_wf _ _ Hus) (proj1 Hm) (proj2 Hm) (us_ids _ _ Hus) (us_nsym _ _ Hus) sfuel Hsf fuel bp e off R D Hfu) as (bp' & e' & P & V & He & Hh & Nx).
  exists bp', e', (ib_pos (lp_in (bp_lp bp'))). split; [exact P|]. split; [exact (evat_text c nsym t k m Hus Hm _ _ _ _ V)|]. split; [exact He|].
  destruct (ea_shape _ _ _ _ _ _ _ _ _ V) as (nx & Hsh & Hnx). split.
  - intros [S1 S2 _]. specialize (Hh S1). unfold ev_timestamp. destruct (ob_has_ts (lp_out (bp_lp bp'))); [discriminate|]. exfalso.
    inversion Hsh as [E1 E2 E3 E4 E5|tok L1 L2 E1 E2 E3 E4 E5|ts e0 t0 body E tl e1 fin nx' F1 F2 F3 F4 F5 E1 E2 E3 E4 E5].
    + rewrite <- E3 in Hh. discriminate.
    + rewrite <- E3 in Hh. injection Hh as Hh. rewrite <- Hh in S2. discriminate.
    + rewrite <- E3 in Hh. injection Hh as ->. assert (false = true) by (apply F2; right; exact S2). discriminate.
  - intros Dn. rewrite Dn in *. destruct Nx as (Nx & Hlt). split; [exact Nx|]. split; [exact Hlt|]. unfold ev_timestamp. destruct (ob_has_ts (lp_out (bp_lp bp'))) eqn:Ets; [intros _|congruence].
    inversion Hsh as [|tok L1 L2 E1 E2 E3 E4 E5|ts e0 t0 body E tl e1 fin nx' F1 F2 F3 F4 F5 E1 E2 E3 E4 E5]. subst.
    inversion F5 as [|tok Q|tok Q1 Q2 Q3 Q4 E2 E4 E5 E6 E7]; [discriminate|]. subst. destruct Hnx as (H1 & H2).
    assert (tok_type (lp_start_tok (bp_lp bp')) = Ret TokenNewlineTimestamp) as Ht by (rewrite H2; exact Q4).
    constructor; auto. exact (call_start _ _ _ _ _ _ _ _ _ _ P H1 Ht).
Qed.

Lemma split_run : forall ps1 calls bp e off p2 ps2 bpz, ready c t k m nsym e off (bp_lp bp) -> bp_done bp = false -> ps1 <> [] ->
  drive (fun p => p) calls fuel sfuel c k m (len t) off bp = Ret (ps1 ++ p2 :: ps2, bpz) -> (forall p, hd_error ps1 = Some p -> ev_timestamp p <> None) ->
  exists bpm e' off' calls' texts1, ready c t k m nsym e' off' (bp_lp bpm) /\ bp_done bpm = false /\ stamped (bp_lp bpm) /\
    drive (fun p => p) calls' fuel sfuel c k m (len t) off' bpm = Ret (p2 :: ps2, bpz) /\ map ev_to_string ps1 = map Ret texts1 /\ e' = e + len (concat texts1) /\ e < e' /\ ev_timestamp p2 <> None.
Proof.
  induction ps1 as [|p1 ps1 IH]; intros calls bp e off p2 ps2 bpz R D Hne H Hts; [contradiction|].
  destruct calls as [|calls]; [discriminate|]. cbn [drive] in H.
  destruct (call_stamped bp e off R D) as (bp' & e' & off' & P & Tx & He & _ & Nx). rewrite P in H. cbn [bind] in H.
  destruct (bp_done bp') eqn:Ed; [injection H; destruct ps1; discriminate|]. destruct (Nx eq_refl) as (R' & Hlt & St).
  apply bind_ret_inv in H as ((l, z) & H & E). cbn [app] in E. injection E as E1 E2 E3. subst p1 l z.
  specialize (St (Hts _ eq_refl)).
  assert (len (sub t e e') = e' - e) as Hl by (apply sub_length; lia).
  assert (forall p ps, ps1 ++ p2 :: ps2 = p :: ps -> ev_timestamp p <> None) as Hp.
  { intros p ps E. rewrite E in H. destruct calls as [|calls']; [discriminate|]. cbn [drive] in H.
    destruct (call_stamped bp' e' off' R' Ed) as (bp2 & e2 & off2 & P2 & _ & _ & Ts & _). rewrite P2 in H. cbn [bind] in H. specialize (Ts St). destruct (bp_done bp2).
    - injection H as H _. congruence.
    - apply bind_ret_inv in H as ((l, z) & _ & E'). injection E' as E1 _ _. congruence. }
  destruct ps1 as [|p1' ps1].
  - exists bp', e', off', calls, [sub t e e']. split; [exact R'|]. split; [exact Ed|]. split; [exact St|]. split; [exact H|].
    cbn [map concat]. rewrite Tx, app_nil_r, Hl. split; [reflexivity|]. split; [lia|]. split; [exact Hlt|]. apply (Hp _ _ eq_refl).
  - destruct (IH calls bp' e' off' p2 ps2 bpz R' Ed ltac:(discriminate) H) as (bpm & e2 & off2 & calls2 & texts1 & I1 & I2 & I3 & I4 & I5 & I6 & I7 & I8).
    { intros p Ep. cbn in Ep. injection Ep as <-. apply (Hp _ _ eq_refl). }
    exists bpm, e2, off2, calls2, (sub t e e' :: texts1). split; [exact I1|]. split; [exact I2|]. split; [exact I3|]. split; [exact I4|].
    split; [cbn [map]; rewrite Tx, <- I5; reflexivity|]. cbn [concat]. rewrite len_app, Hl. split; [lia|]. split; [lia|exact I8].
Qed.
End Split.

(** * The rest of the log as a log of its own *)
Section Rest.
Variables (log : list N) (c : lexcfg) (nsym : N) (k1 k2 : nat) (m1 m2 : mem) (d : N).
Hypothesis Hroot : d_ids (c_dfa c) d_root = [].
Hypothesis Hd : d <= len log.
Hypothesis Hm1 : holds m1 (sub log d (len log)).
Hypothesis Hm2 : holds m2 log.
Lemma flat_drive_rest : forall name calls fuel sfuel U E a bp1 bp2, bstate log c k1 k2 d (len log) true U E a bp1 bp2 -> bp_done bp1 = false ->
  (do (l, _) <- drive (report_of name nsym) calls fuel sfuel c k1 m1 (len log - d) (shift d a) bp1; Ret l)
  = (do (l, _) <- drive (report_of name nsym) calls fuel sfuel c k2 m2 (len log) a bp2; Ret l).
Proof.
  intros name. induction calls as [|calls IH]; intros fuel sfuel U E a bp1 bp2 B Hdn; [reflexivity|]. cbn [drive].
  pose proof (flat_call log c k1 k2 m1 m2 d (len log) true Hroot Hd ltac:(lia) ltac:(reflexivity) Hm1 Hm2 fuel sfuel U E a bp1 bp2 B) as K.
  destruct (parse_next_event fuel sfuel c k1 m1 (len log - d) (shift d a) true bp1) as [((ok, off), bp1')| | |]; cbn [bind]; [|rewrite K; reflexivity..].
  destruct ok; [|discriminate K]. destruct K as (a' & bp2' & -> & Rep & Dn & _ & _ & Nx). cbn [bind]. rewrite <- Dn, <- Rep.
  destruct (bp_done bp1') eqn:Ed; [reflexivity|]. destruct (Nx Hdn eq_refl) as (-> & U' & E' & B' & _).
  specialize (IH fuel sfuel U' E' a' bp1' bp2' B' Ed). revert IH.
  destruct (drive (report_of name nsym) calls fuel sfuel c k1 m1 (len log - d) (shift d a') bp1') as [(l1, ?)| | |];
    destruct (drive (report_of name nsym) calls fuel sfuel c k2 m2 (len log) a' bp2') as [(l2, ?)| | |]; cbn [bind]; intro IH; congruence.
Qed.
End Rest.

Lemma sub_rest log e a b : e <= len log -> a <= b -> b <= len log - e -> sub (sub log e (len log)) a b = sub log (e + a) (e + b).
Proof.
  intros H1 H2 H3. unfold sub. rewrite skipn_firstn_comm, firstn_firstn, skipn_skipn'. f_equal; [|f_equal]; unfold len in *; lia.
Qed.

Section Suffix.
Variables (log : list N) (c : lexcfg) (nsym : N) (k1 k2 : nat) (m1 m2 : mem) (e : N) (fuel sfuel : nat).
Hypothesis Hus : usable c nsym.
Hypothesis Hline : one_line c.
Hypothesis Halike : starts_alike c.
Hypothesis Hm1 : holds m1 (sub log e (len log)).
Hypothesis Hm2 : holds m2 log.
Hypothesis Hsf : (scan_fuel log <= sfuel)%nat.
Hypothesis Hfu : len log < N.of_nat fuel.

Lemma suffix_drive : forall name bp off bpr calls calls1 l l1 bpz bpz1, ready c log k2 m2 nsym e off (bp_lp bp) -> bp_done bp = false -> stamped (bp_lp bp) -> idle nsym bpr ->
  drive (report_of name nsym) calls fuel sfuel c k2 m2 (len log) off bp = Ret (l, bpz) ->
  drive (report_of name nsym) calls1 fuel sfuel c k1 m1 (len log - e) 0 (bp_reset c bpr) = Ret (l1, bpz1) -> map plain_of l1 = map plain_of l.
Proof.
  intros name bp off bpr calls calls1 l l1 bpz bpz1 (Ae & Hoc) Dn [S1 S2 S3] (Ir & Jr) Dr Dr1.
  destruct Ae as [Hst|tok0 Hst Hlx _ Hb Hlt He Hst2 Hask HB]; cbn in Hst; [congruence|]. cbn in Hst2, Hask, HB.
  set (x := t_end tok0) in *.
  (* the lexer *)
  assert (off = x /\ l_last_match_pos (lp_lex (bp_lp bp)) = x) as (-> & Hlast).
  { inversion HB; try congruence. split; [|assumption]. match goal with H : ib_pos _ = _ |- _ => exact H end. }
  (* the timestamp *)
  assert (tok_type tok0 = Ret TokenNewlineTimestamp) as Ht by (rewrite Hst2 in S2; exact S2).
  destruct (stamp_ids _ Ht) as (r & Hids).
  destruct (lexed_cases _ _ _ _ Hlx) as (L1 & L2 & L3 & L4 & [(ids & Hi & Vt)|(Hi & _)]); [|rewrite Hids in Hi; discriminate].
  assert (ids = TokenNewlineTimestamp :: r) as -> by congruence. fold x in L3, L4, Vt, Hlt.
  destruct Vt as [(q & Hq & Hrep & Hlong) _ _ Hdel _]. assert (t_start tok0 = e - 1) as Hs0 by lia. rewrite Hs0 in Hb, Hq, Hrep, Hlong, Hdel.
  assert (q = d_root) as ->.
  { destruct Hq as [Hq|(_ & Hq)]; [exact Hq|]. destruct (wf_nt _ (us_wf _ _ Hus) (cCharStartOfFile :: sub log (e - 1) x)) as (w' & Q); [|discriminate].
    unfold reported in *. cbn [run]. rewrite Hq, Hrep. left. reflexivity. }
  assert (sub log (e - 1) x = cNewline :: sub log e x) as Ew by (rewrite (sub_cons log (e - 1) x cNewline) by (auto; lia); do 2 f_equal; lia).
  rewrite Ew in Hrep. destruct (sa_stamp _ Halike _ _ Hrep) as (Hne & l' & Hfirst).
  assert (e < x) as Hex.
  { destruct (N.eq_dec e x) as [Q|Q]; [|lia]. rewrite Q, sub_nil in Hne. contradiction Hne. reflexivity. }
  destruct (us_sof _ _ Hus) as (q0 & Hq0).
  assert (forall w, reported (c_dfa c) q0 w = reported (c_dfa c) d_root (cCharStartOfFile :: w)) as Hsof by (intro w; unfold reported; cbn [run]; rewrite Hq0; reflexivity).
  set (t := sub log e (len log)). assert (len t = len log - e) as Lt by (apply sub_length; lia).
  set (y := x - e).
  assert (sub t 0 y = sub log e x) as Ey by (unfold t, y; rewrite sub_rest by lia; f_equal; lia).
  assert (dmatch c t q0 0 y) as Dm.
  { split; [unfold y; lia|]. split; [rewrite Ey, Hsof, Hfirst; discriminate|]. destruct Hdel as [[Q|(z & Q1 & Q2)]|(Q & _)]; [left|right|lia].
    - unfold y. lia.
    - exists z. split; [|exact Q2]. unfold t, y. pose proof (byte_at_lt _ _ _ Q1). rewrite byte_at_sub by lia. rewrite <- Q1. f_equal. lia. }
  assert (forall z, y < z -> ~ dmatch c t q0 0 z) as Dl.
  { intros z Hz (Z1 & Z2 & Z3). apply (Hlong (e + z) ltac:(unfold y in Hz; lia)). split; [lia|].
    assert (sub t 0 z = sub log e (e + z)) as Ez by (unfold t; rewrite sub_rest by lia; f_equal; lia).
    split.
    - rewrite (sub_cons log (e - 1) (e + z) cNewline) by (auto; lia). replace (e - 1 + 1) with e by lia. rewrite <- Ez. intro Q. apply Z2. rewrite Hsof.
      apply (sa_words _ Halike); [|exact Q]. intro Q'. apply (f_equal len) in Q'. rewrite Ez, sub_length in Q' by lia. unfold len in Q'. cbn in Q'. lia.
    - destruct Z3 as [Q|(v & Q1 & Q2)]; [left; lia|right]. exists v. split; [|exact Q2]. pose proof (byte_at_lt _ _ _ Q1). unfold t in Q1. rewrite byte_at_sub in Q1 by lia. exact Q1. }
  assert (forall p q', run (c_dfa c) q0 (sub t 0 p) = Some q' -> ~ In cNewline (sub t 0 p)) as Dn0.
  { intros p q' Q. apply (Hline (cCharStartOfFile :: sub t 0 p) q'). cbn [run]. rewrite Hq0. exact Q. }
  (* a parser on the rest that already holds the timestamp *)
  set (lm := lp_lex (bp_lp bp)) in *.
  set (lv := mkLex (l_match_pos lm) (l_start_pos lm) (l_match_line lm) y (l_last_match_line lm) false (l_ids lm) (l_line lm) false (l_prev lm)).
  set (tokv := mkToken 0 y (User k1) ((len log - e) * 2) (t_line (lp_start_tok (bp_lp bp))) (t_ids (lp_start_tok (bp_lp bp)))).
  set (pf := bp_lp (bp_reset c bpr)).
  set (bpv := mkBp (mkLp lv (lp_in pf) true tokv (lp_out pf) (lp_multi pf) (lp_occ pf)) false).
  assert (t_start (lp_start_tok (bp_lp bp)) = e /\ t_end (lp_start_tok (bp_lp bp)) = x /\ t_sid (lp_start_tok (bp_lp bp)) = User k2 /\ t_bufsz (lp_start_tok (bp_lp bp)) = len log * 2 /\ t_ids (lp_start_tok (bp_lp bp)) = Some (TokenNewlineTimestamp :: r)) as (T1 & T2 & T3 & T4 & T5).
  { rewrite Hst2. rewrite (skip_newline_eq c log k2 m2 nsym (proj1 Hm2) (us_ids _ _ Hus) (us_nsym _ _ Hus) tok0 Hlx Hlt). cbn. repeat split; auto; lia. }
  assert (bstate log c k1 k2 e (len log) true e x x bpv bp) as B.
  { constructor; cbn [bpv bp_lp bp_done lp_lex lp_has_start lp_start_tok lp_occ]; auto; try lia; try congruence.
    - constructor; cbn [lv l_match l_asked l_last_match_pos]; try discriminate; try lia.
      + fold lm. constructor; cbn; auto.
      + intros _. split; [reflexivity|]. split; [exact Hlast|reflexivity].
    - unfold pf. cbn. rewrite Jr. symmetry. exact Hoc.
    - intros _. split; [|split; [|auto]].
      + constructor; cbn; auto; [lia|]. unfold shift. lia.
      + constructor; auto. lia. }
  assert (len log - e = len t) as Lt' by lia.
  pose proof (flat_drive_rest log c nsym k1 k2 m1 m2 e (wf_root _ (us_wf _ _ Hus)) ltac:(lia) Hm1 Hm2 name calls fuel sfuel e x x bpv bp B eq_refl) as F.
  rewrite Dr in F. cbn [bind] in F. change (shift e x) with y in F.
  destruct (drive (report_of name nsym) calls fuel sfuel c k1 m1 (len log - e) y bpv) as [(lv1, bpv')| | |] eqn:Dv; try discriminate. cbn [bind] in F. injection F as ->.
  symmetry. eapply (drive_rx c k1 m1 (len log - e) nsym fuel sfuel name calls calls1 bpv (bp_reset c bpr) y 0 l l1 bpv' bpz1); [reflexivity|reflexivity| |exact Dv|exact Dr1].
  (* its first call, and that of the parser after reset() *)
  unfold parse. cbn [prepared reset_log_event_view lp_set_lexin lp_out ob_reset ob_pos lp_set_out lp_has_start bpv bp_lp bp_reset lp_reset]. change (0 =? 0) with true. cbv iota. rewrite Ir.
  unfold get_next_symbol. cbn [lp_lex lp_in lp_set_lexin lp_set_out reset_log_event_view prepared lp_start_tok].
  set (b0 := ib_set_storage (ib_reset (lp_in (bp_lp bpr))) k1 m1 (len log - e) 0 true).
  assert (static_buf t (User k1) b0) as Hb0.
  { constructor; cbn; try rewrite Lt; auto; try lia. intros p Hp. unfold heap_set. cbn. rewrite Nat.eqb_refl. apply (proj1 Hm1). unfold t in *. lia. }
  destruct (sof_loop c t (User k1) b0 q0 y (wf_delims _ (us_wf _ _ Hus)) Hb0 eq_refl Dm Dl Dn0 sfuel 0 q0 (lex_unask (prepend_sof c lex_reset (ib_reset (lp_in (bp_lp bpr)))))
    eq_refl ltac:(lia) eq_refl eq_refl eq_refl ltac:(lia) ltac:(unfold scan_fuel in Hsf; lia)) as (line & lf & Sc & F1 & F2 & F3).
  change (ib_set_pos b0 0) with b0 in Sc.
  assert (scan sfuel c (lp_lex (lp_reset c (bp_lp bpr))) (ib_set_storage (lp_in (lp_reset c (bp_lp bpr))) k1 m1 (len log - e) 0 true) = Ret (Some (mkToken 0 y (User k1) (len t * 2) line (Some (reported (c_dfa c) q0 (sub t 0 y)))), lf, ib_set_pos b0 y)) as Sc'.
  { rewrite <- Sc. unfold scan. cbn [lp_lex lp_reset lp_set_lexin l_asked prepend_sof l_prev]. rewrite Hq0. reflexivity. }
  rewrite Sc'. cbn [bind lp_set_lexin lp_set_out lp_out ob_set_delims ob_has_ts ob_reset].
  rewrite Ey, Hsof, Hfirst. unfold tok_type at 1. cbn [t_ids bind]. change (TokenFirstTimestamp =? TokenNewlineTimestamp) with false. cbv iota.
  apply parse_first_px; cbn [lp_lex lp_in lp_out lp_set_out lp_set_lexin reset_log_event_view ob_reset ob_size ob_has_delims ob_set_delims ob_has_ts]; auto.
  - constructor; cbn; auto; congruence.
  - unfold tokv, tok_type. cbn. rewrite T5. discriminate.
  - constructor; cbn; auto.
    + lia.
    + right. exists TokenNewlineTimestamp, r, TokenFirstTimestamp, l'. auto.
  - unfold tokv, tok_type. cbn. rewrite T5. discriminate.
Qed.
End Suffix.
