(** ReaderWrong.v -- a log on which ReaderParser finds a variable that is not there (C47). *)
From Verif Require Import Base LexerModel LexerSpec LogParserModel EventSpec RingModel RingSpec FuelMono ReaderSpec Toy ReaderStuck.
From Verif Require Import LexerProofs LogParserProofs EventProofs ReaderFits.

(** "T aaa...a5 \n": the first half of the buffer ends inside the run of letters. *)
Definition junk_log : list N := [84; 32] ++ repeat 97 (N.to_nat 23998) ++ [53; 32; 10].
Lemma junk_len : length junk_log = N.to_nat 24003.
Proof. unfold junk_log. rewrite !app_length, repeat_length. cbn [length]. lia. Qed.
Opaque N.to_nat.
Lemma junk_a : forall i, 2 <= i -> i < 24000 -> byte_at junk_log i = Some 97.
Proof.
  intros i H1 H2. unfold byte_at, junk_log. rewrite nth_error_app2 by (cbn [length]; lia). cbn [length].
  rewrite nth_error_app1 by (rewrite repeat_length; lia).
  assert (N.to_nat i - 2 < N.to_nat 23998)%nat as L by lia. revert L. generalize (N.to_nat i - 2)%nat (N.to_nat 23998). clear.
  intros j n. revert j. induction n as [|n IH]; intros [|j] L; try lia; [reflexivity|]. apply IH. lia.
Qed.
Lemma junk_rest : skipn (N.to_nat 24000) junk_log = [53; 32; 10].
Proof.
  unfold junk_log. rewrite app_assoc, skipn_app. rewrite app_length, repeat_length. cbn [length].
  rewrite skipn_all2 by (rewrite app_length, repeat_length; cbn [length]; lia). replace (N.to_nat 24000 - (2 + N.to_nat 23998))%nat with 0%nat by lia. reflexivity.
Qed.

Definition junk_ts : lex := mkLex 1 0 0 1 0 false (Some [TokenFirstTimestamp]) 0 false (Some 1%nat).
Lemma junk_first : forall h s, h Static 0 = Some 84 -> h Static 1 = Some 32 ->
  scan (S (S s)) toy at_sof (half_full h 0 47999) =
    Ret (Some (mkToken 0 1 Static 48000 0 (Some [TokenFirstTimestamp])), junk_ts, half_full h 1 47999).
Proof.
  intros h s H0 H1. unfold scan. cbn [at_sof l_asked l_prev].
  remember (S s) as f1 eqn:E1. cbn [scan_loop]. rewrite (half_next h 0 47999 84) by (try assumption; lia). change (0 + 1) with 1.
  cbn -[scan_loop]. fold (half_full h 1 47999). subst f1. cbn [scan_loop]. rewrite (half_next h 1 47999 32) by (try assumption; lia). change (1 + 1) with 2.
  reflexivity.
Qed.

(** Running out of data while skipping leaves the state from before the mismatch. *)
Definition junk_stale : lex := mkLex 1 1 0 1 0 false None 0 true (Some 3%nat).
Lemma junk_skip : forall h s, 24000 <= N.of_nat s -> h Static 1 = Some 32 -> (forall i, 2 <= i -> i < 24000 -> h Static i = Some 97) ->
  scan (S (S s)) toy junk_ts (half_full h 1 47999) = Ret (None, junk_stale, half_full h 24000 47999).
Proof.
  intros h s Hs H1 H2. unfold scan. cbn [junk_ts l_asked l_match].
  remember (S s) as f1 eqn:E1. cbn [scan_loop]. rewrite (half_next h 1 47999 32) by (try assumption; lia). change (1 + 1) with 2.
  cbn -[scan_loop N.to_nat]. fold (half_full h 2 47999). subst f1. cbn [scan_loop]. rewrite (half_next h 2 47999 97) by (try apply H2; lia). change (2 + 1) with 3.
  cbn -[skip_loop scan_loop N.to_nat]. fold (half_full h 3 47999).
  rewrite (skip_stuck h 47999 (N.to_nat 23997)) by (try (intros; apply H2; lia); lia). reflexivity.
Qed.

(** After enlarging and reading the rest. *)
Definition grown (h : heap) (pos : N) : ibuf := mkIbuf h (Dyn 0) 1%nat 96000 pos 48003 false true false 47999.
Definition junk_flipped : lex := mkLex 24001 24001 0 24001 0 false None 0 true (Some 3%nat).
Lemma junk_grow : forall chunk h p, fills chunk junk_log -> lp_lex p = junk_stale -> lp_in p = half_full h 24000 47999 ->
  (forall i, i < 24000 -> h Static i = byte_at junk_log i) ->
  exists h' r, lp_read chunk (lp_grow p) (mkReader [53; 32; 10] 1) = (lp_set_lexin p junk_flipped (grown h' 48000), r) /\
    (forall i, h' Static i = h Static i) /\ (forall i, 24000 <= i -> i < 48000 -> h' (Dyn 0) i = byte_at junk_log (i - 24000)) /\
    h' (Dyn 0) 48000 = Some 53 /\ h' (Dyn 0) 48001 = Some 32 /\ h' (Dyn 0) 48002 = Some 10.
Proof.
  intros chunk h p Hf El Ei Hh. unfold lp_grow, increase_buffer_capacity. rewrite El, Ei.
  change (ib_size (half_full h 24000 47999) <? ib_size (increase_capacity (half_full h 24000 47999))) with true. cbn iota.
  change (capacity_flips (half_full h 24000 47999)) with true. cbn iota.
  change (flip_states (ib_size (half_full h 24000 47999)) junk_stale) with junk_flipped. change (l_last_match_pos junk_flipped =? 0) with false. cbn iota zeta.
  unfold lp_read. cbn [lp_in lp_lex lp_set_lexin]. unfold read_if_safe.
  change (read_is_safe (increase_capacity (half_full h 24000 47999))) with true. cbn iota. unfold ib_read, rd_read. cbn [rd_rest].
  assert (rd_amount chunk (mkReader [53; 32; 10] 1) (ib_size (increase_capacity (half_full h 24000 47999)) / 2) = 3) as Ea.
  { change (ib_size (increase_capacity (half_full h 24000 47999)) / 2) with 48000. unfold rd_amount. cbn [rd_rest rd_calls length]. specialize (Hf 1%nat). rewrite junk_len in Hf. lia. }
  rewrite Ea. clear Ea. change (firstn (N.to_nat 3) [53; 32; 10]) with [53; 32; 10].
  unfold ib_fill. set (b := increase_capacity (half_full h 24000 47999)). change (ib_lrfh b) with true. change (ib_size b) with 96000. change (ib_last b) with 48000.
  change (96000 / 2) with 48000. cbn [length N.of_nat Pos.of_succ_nat Pos.succ]. change (96000 <? 48000 + 3) with false. change (3 <? 48000) with true.
  change (ib_active b) with (Dyn 0). change (ib_dyn b) with 1%nat. change (ib_pos b) with 48000. change (ib_full b) with false. change (ib_cons b) with 47999.
  cbn iota. cbn [negb]. change (48000 + 3) with 48003. eexists _, _. split; [reflexivity|]. split; [reflexivity|]. split; [|repeat split; reflexivity].
  intros i H1 H2. unfold heap_set at 1. cbn [sid_eqb Nat.eqb]. unfold mem_write. destruct (N.leb_spec 48000 i); [lia|]. cbn [andb].
  unfold b, increase_capacity, half_full. cbn [ib_heap ib_size ib_active ib_lrfh ib_dyn heap_set sid_eqb Nat.eqb]. unfold heap_set. cbn [sid_eqb Nat.eqb].
  destruct (N.ltb_spec i 48000); [|lia]. change (48000 / 2) with 24000. destruct (N.ltb_spec i 24000); [lia|]. apply Hh. lia.
Qed.
Lemma grown_next : forall h p x, p <> 48003 -> p <> 0 -> p < 95999 -> h (Dyn 0) p = Some x ->
  get_next_character (grown h p) = Ret (Some (x, grown h (p + 1))).
Proof.
  intros h p x H1 H2 H3 Hx. unfold get_next_character, grown. cbn [ib_fin ib_lrfh ib_pos ib_last ib_size ib_heap ib_active andb negb orb].
  destruct (N.eqb_spec p 48003); [lia|]. destruct (N.eqb_spec p 0); [lia|]. cbn [orb]. rewrite Hx. destruct (N.eqb_spec (p + 1) 96000); [lia|]. reflexivity.
Qed.
Lemma grown_eof : forall h, get_next_character (grown h 48003) = Ret (Some (cCharEOF, ib_set_full (grown h 48003) true)).
Proof. reflexivity. Qed.

Definition junk_tok : token := mkToken 24001 48001 (Dyn 0) 96000 0 (Some [8]).
Definition junk_l1 : lex := mkLex 48001 24001 0 48001 0 false (Some [8]) 0 false (Some 3%nat).
Lemma junk_scan1 : forall h s, h (Dyn 0) 48000 = Some 53 -> h (Dyn 0) 48001 = Some 32 ->
  scan (S (S s)) toy junk_flipped (grown h 48000) = Ret (Some junk_tok, junk_l1, grown h 48001).
Proof.
  intros h s H0 H1. unfold scan. cbn [junk_flipped l_asked l_prev].
  remember (S s) as f1 eqn:E1. cbn [scan_loop]. rewrite (grown_next h 48000 53) by (try assumption; lia). change (48000 + 1) with 48001.
  cbn -[scan_loop]. fold (grown h 48001). subst f1. cbn [scan_loop]. rewrite (grown_next h 48001 32) by (try assumption; lia). reflexivity.
Qed.
Definition junk_l2 : lex := mkLex 48003 48002 1 48001 0 true (Some [TokenNewline]) 1 false (Some 3%nat).
Lemma junk_scan2 : forall h s, h (Dyn 0) 48001 = Some 32 -> h (Dyn 0) 48002 = Some 10 ->
  scan (S (S (S s))) toy junk_l1 (grown h 48001) = Ret (Some (mkToken 48001 48002 (Dyn 0) 96000 0 (Some [TokenUncaughtString])), junk_l2, grown h 48003).
Proof.
  intros h s H0 H1. unfold scan. cbn [junk_l1 l_asked l_match].
  remember (S (S s)) as f1 eqn:E1. cbn [scan_loop]. rewrite (grown_next h 48001 32) by (try assumption; lia). change (48001 + 1) with 48002.
  cbn -[scan_loop]. fold (grown h 48002). subst f1. remember (S s) as f1 eqn:E1. cbn [scan_loop]. rewrite (grown_next h 48002 10) by (try assumption; lia). change (48002 + 1) with 48003.
  cbn -[scan_loop]. fold (grown h 48003). subst f1. cbn [scan_loop]. rewrite grown_eof. reflexivity.
Qed.
Definition junk_l3 : lex := mkLex 48003 48002 1 48003 1 false (Some [TokenNewline]) 1 false (Some 3%nat).
Definition junk_l4 : lex := mkLex 48003 48003 1 48003 1 false None 1 false (Some 3%nat).
Lemma junk_scan3 : forall h s, scan s toy junk_l2 (grown h 48003) = Ret (Some (mkToken 48002 48003 (Dyn 0) 96000 1 (Some [TokenNewline])), junk_l3, grown h 48003).
Proof. reflexivity. Qed.
Lemma junk_scan4 : forall h s, scan (S s) toy junk_l3 (grown h 48003) = Ret (Some (mkToken 48003 48003 (Dyn 0) 96000 1 (Some [TokenEnd])), junk_l4, ib_set_full (grown h 48003) true).
Proof. reflexivity. Qed.

(** One iteration of parse's loop within an event that has a timestamp. *)
Lemma loop_step : forall fuel sfuel p ty tok l b, ob_has_ts (lp_out p) = true -> scan sfuel toy (lp_lex p) (lp_in p) = Ret (Some tok, l, b) ->
  tok_type tok = Ret ty -> ty <> TokenEnd -> ty <> TokenNewlineTimestamp ->
  parse_loop (S fuel) sfuel toy p = parse_loop fuel sfuel toy (lp_set_out (lp_set_lexin p l b) (ob_advance (ob_set_curr (lp_out p) tok))).
Proof.
  intros fuel sfuel p ty tok l b Hts Hsc Hty H1 H2. cbn [parse_loop]. unfold get_next_symbol. rewrite Hsc. cbn [bind]. cbn [lp_out lp_set_out lp_set_lexin ob_set_curr ob_set_token ob_has_ts]. rewrite Hts, Hty.
  cbn [bind negb andb]. destruct (N.eqb_spec ty TokenNewlineTimestamp); [contradiction|]. cbn [bind]. destruct (N.eqb_spec ty TokenEnd); [contradiction|]. reflexivity.
Qed.

Lemma meta_ok : forall h o is nl occ,
  (forall i, In i is -> exists ty x, tok_type (ob_act o i) = Ret ty /\ ty < N.of_nat (length occ) /\ tok_delimiter h (ob_act o i) = Ret x) ->
  exists r, meta_loop h o is nl occ = Ret r.
Proof.
  intros h o. induction is as [|i is IH]; intros nl occ H; [cbn; eauto|]. cbn [meta_loop].
  destruct (H i ltac:(left; reflexivity)) as (ty & x & -> & Hty & ->). cbn [bind]. unfold occ_add.
  destruct (nth_error occ (N.to_nat ty)) as [l|] eqn:E; [|apply nth_error_None in E; lia]. cbn [bind]. apply IH.
  intros j Hj. destruct (H j ltac:(right; exact Hj)) as (ty' & x' & E1 & E2 & E3). exists ty', x'. repeat split; auto.
  assert (length (firstn (N.to_nat ty) occ ++ (l ++ [i]) :: skipn (S (N.to_nat ty)) occ) = length occ) as ->; [|exact E2].
  rewrite app_length, firstn_length. cbn [length]. rewrite skipn_length. lia.
Qed.

(** The tokens of the log's only event. *)
Definition junk_t0 : token := mkToken 0 1 Static 48000 0 (Some [TokenFirstTimestamp]).
Definition junk_t2 : token := mkToken 48001 48002 (Dyn 0) 96000 0 (Some [TokenUncaughtString]).
Definition junk_t3 : token := mkToken 48002 48003 (Dyn 0) 96000 1 (Some [TokenNewline]).
Lemma junk_call : forall chunk rp fuel s, 24000 <= N.of_nat s -> reader_idle toy_nsym rp -> fills chunk junk_log ->
  exists h rp', rp_parse_next_event chunk 1 (S (S (S (S fuel)))) (S (S (S s))) toy (rp_reset toy rp (mkReader junk_log 0)) = Ret rp' /\
    rp_done rp' = true /\ ob_tokens (lp_out (rp_lp rp')) = [junk_t0; junk_tok; junk_t2; junk_t3] /\ ib_heap (lp_in (rp_lp rp')) = h /\
    (forall i, 24000 <= i -> i < 48000 -> h (Dyn 0) i = byte_at junk_log (i - 24000)) /\ h (Dyn 0) 48000 = Some 53 /\
    h Static 0 = Some 84 /\ h (Dyn 0) 48001 = Some 32 /\ h (Dyn 0) 48002 = Some 10.
Proof.
  intros chunk rp fuel s Hs [I1 I2 I3] Hf. unfold rp_parse_next_event.
  destruct (first_read chunk toy rp junk_log Hf) as (h & E & Hh); [unfold len; rewrite junk_len; lia|].
  cbn [rp_reset rp_rd rp_done] in E |- *. rewrite E. clear E.
  assert (h Static 0 = Some 84) as H0 by (rewrite Hh by lia; reflexivity).
  assert (h Static 1 = Some 32) as H1 by (rewrite Hh by lia; reflexivity).
  change (prepend_sof toy lex_reset (ib_reset (lp_in (rp_lp rp)))) with at_sof.
  set (p0 := lp_set_lexin (reset_log_event_view (rp_lp rp)) at_sof (half_full h 0 47999)). cbn [rp_loop].
  assert (exists p1, parse_and_generate_metadata (S (S (S (S fuel)))) (S (S (S s))) toy p0 = Ret (None, p1) /\
    lp_lex p1 = junk_stale /\ lp_in p1 = half_full h 24000 47999 /\ ob_size (lp_out p1) = cStaticByteBuffSize /\ ob_pos (lp_out p1) = 1 /\ ob_has_ts (lp_out p1) = true /\
    ob_act (lp_out p1) 0 = mkToken 0 1 Static 48000 0 (Some [TokenFirstTimestamp]) /\ lp_occ p1 = map (fun _ => []) (lp_occ (rp_lp rp))) as (p1 & -> & P1 & P2 & P3 & P4 & P5 & P6 & P7).
  { unfold parse_and_generate_metadata, parse, p0. cbn [lp_out lp_set_lexin reset_log_event_view ob_reset ob_pos lp_set_out lp_has_start]. rewrite N.eqb_refl. cbn iota zeta. cbn [lp_has_start lp_set_out]. rewrite I1.
    unfold get_next_symbol. cbn [lp_lex lp_in lp_set_out lp_set_lexin reset_log_event_view]. rewrite (junk_first h _ H0 H1).
    cbn [bind lp_out lp_set_lexin ob_has_ts ob_set_delims lp_set_out ob_reset]. cbn [tok_type t_ids bind].
    change (TokenFirstTimestamp =? TokenNewlineTimestamp) with false. unfold parse_first. cbn [tok_type t_ids bind].
    change (TokenFirstTimestamp =? TokenEnd) with false. change ((TokenFirstTimestamp =? TokenFirstTimestamp) || (TokenFirstTimestamp =? TokenNewlineTimestamp)) with true. cbn iota zeta.
    cbn [parse_loop]. unfold get_next_symbol. cbn [lp_lex lp_in lp_set_out lp_set_lexin lp_set_start].
    rewrite (junk_skip h (S s) ltac:(lia) H1) by (intros; rewrite Hh by lia; apply junk_a; lia). cbn [bind]. eexists. split; [reflexivity|]. cbn. auto 10. }
  cbn [bind]. rewrite junk_rest.
  destruct (junk_grow chunk h p1 Hf P1 P2 Hh) as (h' & r & -> & G1 & G2 & G3 & G4 & G5).
  set (p2 := lp_set_lexin p1 junk_flipped (grown h' 48000)).
  assert (exists p3, parse_and_generate_metadata (S (S (S (S fuel)))) (S (S (S s))) toy p2 = Ret (Some ActCompressAndFinish, p3) /\
    ob_tokens (lp_out p3) = [junk_t0; junk_tok; junk_t2; junk_t3] /\ ib_heap (lp_in p3) = h') as (p3 & -> & Q1 & Q2).
  2: { cbn [bind]. exists h'. eexists. split; [reflexivity|]. cbn. rewrite G1. auto 10. }
  unfold parse_and_generate_metadata, parse. change (lp_out p2) with (lp_out p1). rewrite P4. change (1 =? 0) with false. cbn iota.
  set (sf := S (S (S (N.to_nat 24000 + s)))).
  rewrite (loop_step _ _ p2 8 junk_tok junk_l1 (grown h' 48001)); try discriminate; [|exact P5|apply junk_scan1; assumption|reflexivity].
  match goal with |- context [parse_loop _ _ _ ?P] => set (p3 := P) end.
  assert (lp_out p3 = mkObuf (ob_upd (ob_act (lp_out p1)) 1 junk_tok) (ob_base (lp_out p1)) cStaticByteBuffSize 2 true (ob_has_delims (lp_out p1))) as O3.
  { unfold p3, ob_advance, ob_set_curr, ob_set_token. cbn [lp_out lp_set_out ob_pos ob_size ob_act ob_base ob_has_ts ob_has_delims p2 lp_set_lexin]. rewrite P3, P4, P5. reflexivity. }
  rewrite (loop_step _ _ p3 1 (mkToken 48001 48002 (Dyn 0) 96000 0 (Some [TokenUncaughtString])) junk_l2 (grown h' 48003)); try discriminate; [|rewrite O3; reflexivity|apply junk_scan2; assumption|reflexivity].
  match goal with |- context [parse_loop _ _ _ ?P] => set (p4 := P) end.
  assert (lp_out p4 = mkObuf (ob_upd (ob_upd (ob_act (lp_out p1)) 1 junk_tok) 2 (mkToken 48001 48002 (Dyn 0) 96000 0 (Some [TokenUncaughtString]))) (ob_base (lp_out p1)) cStaticByteBuffSize 3 true (ob_has_delims (lp_out p1))) as O4.
  { unfold p4. cbn [lp_out lp_set_out lp_set_lexin]. rewrite O3. reflexivity. }
  rewrite (loop_step _ _ p4 TokenNewline (mkToken 48002 48003 (Dyn 0) 96000 1 (Some [TokenNewline])) junk_l3 (grown h' 48003)); try discriminate; [|rewrite O4; reflexivity|apply junk_scan3|reflexivity].
  match goal with |- context [parse_loop _ _ _ ?P] => set (p5 := P) end.
  assert (exists f5, lp_out p5 = mkObuf f5 (ob_base (lp_out p1)) cStaticByteBuffSize 4 true (ob_has_delims (lp_out p1)) /\
    f5 0 = mkToken 0 1 Static 48000 0 (Some [TokenFirstTimestamp]) /\ f5 1 = junk_tok /\ f5 2 = mkToken 48001 48002 (Dyn 0) 96000 0 (Some [TokenUncaughtString]) /\
    f5 3 = mkToken 48002 48003 (Dyn 0) 96000 1 (Some [TokenNewline])) as (f5 & O5 & F0 & F1 & F2 & F3).
  { eexists. unfold p5. cbn [lp_out lp_set_out lp_set_lexin]. rewrite O4. split; [reflexivity|]. cbn. unfold ob_upd. cbn. rewrite P6. auto. }
  assert (lp_lex p5 = junk_l3 /\ lp_in p5 = grown h' 48003 /\ lp_occ p5 = map (fun _ => []) (lp_occ (rp_lp rp))) as (L5 & B5 & C5) by (repeat split; exact P7).
  clearbody p5. clear p3 p4 O3 O4.
  cbn [parse_loop]. unfold get_next_symbol. rewrite L5, B5. unfold sf. rewrite junk_scan4. cbn [bind]. cbn [tok_type t_ids bind lp_out lp_set_out lp_set_lexin ob_set_curr ob_set_token ob_has_ts]. rewrite O5. cbn [ob_has_ts ob_act ob_pos ob_base ob_size ob_has_delims negb andb].
  change (TokenEnd =? TokenNewlineTimestamp) with false. cbn [bind]. change (TokenEnd =? TokenEnd) with true. cbn [bind].
  unfold generate_metadata. match goal with |- context [meta_loop ?hh ?o ?is ?nl ?occ] =>
    destruct (meta_ok hh o is nl occ) as ((nl', occ') & ->) end.
  - cbn [lp_out lp_set_out lp_set_lexin lp_in lp_occ ob_pos ob_set_curr ob_set_token]. unfold ob_first, ob_set_curr, ob_set_token. cbn [ob_has_ts ob_act ob_pos].
    match goal with |- context [indices ?a ?b] => change (indices a b) with [0; 1; 2; 3] end. rewrite C5, map_length, I2.
    intros j Hj. unfold ob_set_curr, ob_set_token. cbn [ob_act ob_pos]. unfold ob_upd. cbn [In] in Hj.
    destruct Hj as [<-|[<-|[<-|[<-|[]]]]];
      [change (0 =? 4) with false; cbn iota; rewrite F0|change (1 =? 4) with false; cbn iota; rewrite F1|change (2 =? 4) with false; cbn iota; rewrite F2|change (3 =? 4) with false; cbn iota; rewrite F3];
      unfold tok_delimiter; cbn.
    + exists TokenFirstTimestamp, 84. rewrite G1, H0. repeat split; vm_compute; reflexivity.
    + exists 8, 32. rewrite G2 by lia. repeat split; vm_compute; reflexivity.
    + exists TokenUncaughtString, 32. rewrite G4. repeat split; vm_compute; reflexivity.
    + exists TokenNewline, 10. rewrite G5. repeat split; vm_compute; reflexivity.
  - cbn [bind]. eexists. split; [reflexivity|]. cbn. split; [|reflexivity]. unfold ob_tokens, ob_first. cbn. unfold ob_upd. cbn.
    transitivity [f5 0; f5 1; f5 2; f5 3]; [reflexivity|rewrite F0, F1, F2, F3; reflexivity].
Qed.

(** * What the ReaderParser reports, and what a BufferParser can never report *)
Lemma read_range_def : forall m cnt a, (forall i, a <= i -> i < a + N.of_nat cnt -> exists x, m i = Some x) ->
  exists l, read_range m a cnt = Ret l /\ forall j x, (j < cnt)%nat -> m (a + N.of_nat j) = Some x -> In x l.
Proof.
  induction cnt as [|cnt IH]; intros a H; [exists []; split; [reflexivity|intros; lia]|]. cbn [read_range].
  destruct (H a ltac:(lia) ltac:(lia)) as (y & Ey). rewrite Ey. destruct (IH (a + 1)) as (l & El & Hl); [intros i H1 H2; apply H; lia|].
  rewrite El. cbn [bind]. exists (y :: l). split; [reflexivity|]. intros [|j] x Hj Hx.
  - left. rewrite N.add_0_r in Hx. congruence.
  - right. apply (Hl j); [lia|]. rewrite <- Hx. f_equal. lia.
Qed.

Theorem reads_junk : forall chunk name rp calls fuel sfuel, reader_idle toy_nsym rp -> fills chunk junk_log ->
  (1 <= calls)%nat -> (4 <= fuel)%nat -> 24003 <= N.of_nat sfuel ->
  exists r rp', read_all chunk name toy_nsym calls 1 fuel sfuel toy junk_log rp = Ret ([r], rp') /\
    exists s line, In (Ret s, Some [8], line) (r_tokens r) /\ In 97 s.
Proof.
  intros chunk name rp calls fuel sfuel Hi Hf Hc Hfu Hs.
  destruct calls as [|calls]; [lia|]. destruct fuel as [|[|[|[|fuel]]]]; try lia. destruct sfuel as [|[|[|sfuel]]]; try lia.
  destruct (junk_call chunk rp fuel sfuel ltac:(lia) Hi Hf) as (h & rp' & E & Hd & Ht & Hh & H1 & H2 & _).
  unfold read_all. cbn [rp_drive]. rewrite E. cbn [bind]. rewrite Hd. eexists _, _. split; [reflexivity|].
  destruct (read_range_def (h (Dyn 0)) (N.to_nat 24000) 24001) as (l & El & Hl).
  { intros i Q1 Q2. destruct (N.eq_dec i 48000) as [-> |]; [eauto|]. rewrite H1 by lia. apply byte_at_some. unfold len. rewrite junk_len. lia. }
  exists l, 0. split.
  - cbn [report_of r_tokens]. apply in_map_iff. exists junk_tok. split; [|rewrite Ht; right; left; reflexivity]. unfold shown. rewrite Hh. unfold tok_text. cbn [junk_tok t_start t_end t_sid t_line t_ids].
    change (24001 <=? 48001) with true. cbn iota. change (48001 - 24001) with 24000. rewrite El. reflexivity.
  - apply (Hl 1%nat); [lia|]. change (24001 + N.of_nat 1) with 24002. rewrite H1 by lia. apply junk_a; lia.
Qed.
