(** ReaderLost.v -- text that is lost when a Reader fails while the buffer is being enlarged (C67). *)
From Verif Require Import Base LexerModel LexerSpec LogParserModel EventSpec RingModel RingSpec FuelMono ReaderSpec Toy ReaderStuck ReaderWrong.
From Verif Require Import LexerProofs LogParserProofs EventProofs CopyProofs ReaderFits ReaderErrors.
Opaque N.to_nat.

(** * The log's text *)
Definition junk_body : list N := [32] ++ repeat 97 (N.to_nat 23998) ++ [53].
Lemma junk_parts : junk_log = 84 :: junk_body ++ [32; 10].
Proof. unfold junk_log, junk_body. cbn [app]. rewrite <- app_assoc. reflexivity. Qed.
Lemma body_len : length junk_body = N.to_nat 24000.
Proof. unfold junk_body. rewrite !app_length, repeat_length. cbn [length]. lia. Qed.
Lemma body_last : byte_at junk_body 23999 = Some 53.
Proof.
  unfold byte_at, junk_body. rewrite app_assoc, nth_error_app2 by (rewrite app_length, repeat_length; cbn [length]; lia).
  rewrite app_length, repeat_length. cbn [length]. replace (N.to_nat 23999 - (1 + N.to_nat 23998))%nat with 0%nat by lia. reflexivity.
Qed.
Lemma junk_text h : (forall i, 24000 <= i -> i < 48000 -> h (Dyn 0) i = byte_at junk_log (i - 24000)) -> h (Dyn 0) 48000 = Some 53 ->
  tok_text h junk_tok = Ret junk_body.
Proof.
  intros H1 H2. unfold tok_text. cbn [junk_tok t_start t_end t_sid]. change (24001 <=? 48001) with true. cbn iota. change (48001 - 24001) with 24000.
  rewrite <- body_len. apply read_at. intros i Hi. unfold len in Hi. rewrite body_len in Hi. destruct (N.eq_dec i 23999) as [->|Hn].
  - change (24001 + 23999) with 48000. rewrite H2, body_last. reflexivity.
  - rewrite H1 by lia. replace (24001 + i - 24000) with (i + 1) by lia. rewrite junk_parts. unfold byte_at. replace (N.to_nat (i + 1)) with (S (N.to_nat i)) by lia.
    cbn [nth_error]. apply nth_error_app1. rewrite body_len. lia.
Qed.
Lemma one_byte h sid a x sz ln ids : h sid a = Some x -> tok_text h (mkToken a (a + 1) sid sz ln ids) = Ret [x].
Proof.
  intros H. unfold tok_text. cbn [t_start t_end t_sid]. destruct (N.leb_spec a (a + 1)); [|lia]. replace (N.to_nat (a + 1 - a)) with 1%nat by lia.
  cbn [read_range]. rewrite H. reflexivity.
Qed.

(** A Reader that never fails: the whole log is one event. *)
Lemma reads_all : forall chunk name rp calls fuel sfuel, reader_idle toy_nsym rp -> fills chunk junk_log ->
  (1 <= calls)%nat -> (4 <= fuel)%nat -> 24003 <= N.of_nat sfuel ->
  exists r rp', read_all chunk name toy_nsym calls 1 fuel sfuel toy junk_log rp = Ret ([r], rp') /\ r_string r = Ret junk_log.
Proof.
  intros chunk name rp calls fuel sfuel Hi Hf Hc Hfu Hs.
  destruct calls as [|calls]; [lia|]. destruct fuel as [|[|[|[|fuel]]]]; try lia. destruct sfuel as [|[|[|sfuel]]]; try lia.
  destruct (junk_call chunk rp fuel sfuel ltac:(lia) Hi Hf) as (h & rp' & E & Hd & Ht & Hh & H1 & H2 & H3 & H4 & H5).
  unfold read_all. cbn [rp_drive]. rewrite E. cbn [bind]. rewrite Hd. eexists _, _. split; [reflexivity|].
  cbn [report_of r_string]. unfold ev_to_string. rewrite Hh, Ht. cbn [map].
  rewrite (one_byte h Static 0 84 48000 0 (Some [TokenFirstTimestamp]) H3 : tok_text h junk_t0 = _).
  rewrite (one_byte h (Dyn 0) 48001 32 96000 0 (Some [TokenUncaughtString]) H4 : tok_text h junk_t2 = _).
  rewrite (one_byte h (Dyn 0) 48002 10 96000 1 (Some [TokenNewline]) H5 : tok_text h junk_t3 = _).
  rewrite (junk_text h H1 H2). cbn [concat_out bind]. rewrite junk_parts. reflexivity.
Qed.

(** * The run with a failure *)
Lemma fp_read_ok chunk fails p r : fails (fr_tries r) = None -> forall p' r', lp_read chunk p (fr_rd r) = (p', r') ->
  fp_read chunk fails p r = (None, p', mkFr r' (if read_is_safe (lp_in p) then S (fr_tries r) else fr_tries r)).
Proof.
  intros Hn p' r' H. unfold fp_read, fread_if_safe. unfold lp_read, read_if_safe in H. destruct (read_is_safe (lp_in p)).
  - rewrite Hn. destruct (ib_read chunk (lp_in p) (fr_rd r)) as [b r1]. injection H as <- <-. reflexivity.
  - injection H as <- <-. destruct r. reflexivity.
Qed.
Lemma fp_read_fails chunk fails p r e : fails (fr_tries r) = Some e -> read_is_safe (lp_in p) = true ->
  fp_read chunk fails p r = (Some e, p, mkFr (fr_rd r) (S (fr_tries r))).
Proof. intros Hn H. unfold fp_read, fread_if_safe. rewrite H, Hn. destruct p; reflexivity. Qed.

(** The first call: the first half of the log is read, the buffer enlarged, and the read fails. *)
Lemma lost_call1 : forall chunk fails e rp fuel s grow, 24000 <= N.of_nat s -> reader_idle toy_nsym rp -> fills chunk junk_log -> fails 0%nat = None -> fails 1%nat = Some e ->
  exists p1 h, fp_parse_next_event chunk fails (S grow) (S (S fuel)) (S (S (S s))) toy (mkFp (lp_reset toy (rp_lp rp)) false (mkFr (mkReader junk_log 0) 0)) =
      Ret (Some e, mkFp (lp_grow p1) false (mkFr (mkReader [53; 32; 10] 1) 2)) /\
    lp_lex p1 = junk_stale /\ lp_in p1 = half_full h 24000 47999 /\ (forall i, i < 24000 -> h Static i = byte_at junk_log i) /\
    lp_has_start p1 = false /\ length (lp_occ p1) = N.to_nat toy_nsym.
Proof.
  intros chunk fails e rp fuel s grow Hs [I1 I2 I3] Hf F0 F1. unfold fp_parse_next_event.
  destruct (first_read chunk toy rp junk_log Hf) as (h & E & Hh); [unfold len; rewrite junk_len; lia|].
  cbn [rp_reset rp_lp] in E. cbn [fp_lp fp_rd fp_done].
  rewrite (fp_read_ok chunk fails _ (mkFr (mkReader junk_log 0) 0) F0 _ _ E). clear E.
  change (read_is_safe (lp_in (reset_log_event_view (lp_reset toy (rp_lp rp))))) with true. cbn iota. cbn [fr_tries].
  assert (h Static 0 = Some 84) as H0 by (rewrite Hh by lia; reflexivity).
  assert (h Static 1 = Some 32) as H1 by (rewrite Hh by lia; reflexivity).
  change (prepend_sof toy lex_reset (ib_reset (lp_in (rp_lp rp)))) with at_sof.
  set (p0 := lp_set_lexin (reset_log_event_view (rp_lp rp)) at_sof (half_full h 0 47999)). cbn [fp_loop].
  assert (exists p1, parse_and_generate_metadata (S (S fuel)) (S (S (S s))) toy p0 = Ret (None, p1) /\
    lp_lex p1 = junk_stale /\ lp_in p1 = half_full h 24000 47999 /\ lp_has_start p1 = false /\ lp_occ p1 = map (fun _ => []) (lp_occ (rp_lp rp))) as (p1 & -> & P1 & P2 & P3 & P4).
  { unfold parse_and_generate_metadata, parse, p0. cbn [lp_out lp_set_lexin reset_log_event_view ob_reset ob_pos lp_set_out lp_has_start]. rewrite N.eqb_refl. cbn iota zeta. cbn [lp_has_start lp_set_out]. rewrite I1.
    unfold get_next_symbol. cbn [lp_lex lp_in lp_set_out lp_set_lexin reset_log_event_view]. rewrite (junk_first h _ H0 H1).
    cbn [bind lp_out lp_set_lexin ob_has_ts ob_set_delims lp_set_out ob_reset]. cbn [tok_type t_ids bind].
    change (TokenFirstTimestamp =? TokenNewlineTimestamp) with false. unfold parse_first. cbn [tok_type t_ids bind].
    change (TokenFirstTimestamp =? TokenEnd) with false. change ((TokenFirstTimestamp =? TokenFirstTimestamp) || (TokenFirstTimestamp =? TokenNewlineTimestamp)) with true. cbn iota zeta.
    cbn [parse_loop]. unfold get_next_symbol. cbn [lp_lex lp_in lp_set_out lp_set_lexin lp_set_start].
    rewrite (junk_skip h (S s) ltac:(lia) H1) by (intros; rewrite Hh by lia; apply junk_a; lia). cbn [bind]. eexists. split; [reflexivity|]. cbn. auto 10. }
  cbn [bind]. rewrite junk_rest. rewrite (fp_read_fails chunk fails (lp_grow p1) (mkFr (mkReader [53; 32; 10] 1) 1) e F1).
  - exists p1, h. split; [reflexivity|]. repeat (split; [assumption|]). rewrite P4, map_length. exact I2.
  - unfold lp_grow, increase_buffer_capacity. rewrite P1, P2. reflexivity.
Qed.

Lemma loop_step_nots : forall fuel sfuel p ty ch tok l b, ob_has_ts (lp_out p) = false -> scan sfuel toy (lp_lex p) (lp_in p) = Ret (Some tok, l, b) ->
  tok_type tok = Ret ty -> ty <> TokenEnd -> ty <> TokenNewline -> tok_char (ib_heap b) tok 0 = Ret ch -> ch <> cNewline ->
  parse_loop (S fuel) sfuel toy p = parse_loop fuel sfuel toy (lp_set_out (lp_set_lexin p l b) (ob_advance (ob_set_curr (lp_out p) tok))).
Proof.
  intros fuel sfuel p ty ch tok l b Hts Hsc Hty H1 H2 Hch H3. cbn [parse_loop]. unfold get_next_symbol. rewrite Hsc. cbn [bind]. cbn [lp_in lp_out lp_set_out lp_set_lexin ob_set_curr ob_set_token ob_has_ts]. rewrite Hts, Hty.
  cbn [bind negb andb]. rewrite Hch. cbn [bind]. destruct (N.eqb_spec ty TokenEnd); [contradiction|]. destruct (N.eqb_spec ty TokenNewline); [contradiction|].
  destruct (N.eqb_spec ch cNewline); [contradiction|]. reflexivity.
Qed.

(** The second call gives everything but the first byte as an event. *)
Lemma lost_call2 : forall chunk fails p1 h fuel s grow, fills chunk junk_log -> fails 2%nat = None ->
  lp_lex p1 = junk_stale -> lp_in p1 = half_full h 24000 47999 -> (forall i, i < 24000 -> h Static i = byte_at junk_log i) ->
  lp_has_start p1 = false -> length (lp_occ p1) = N.to_nat toy_nsym ->
  exists p2 h' r, fp_parse_next_event chunk fails grow (S (S (S fuel))) (S (S (S s))) toy (mkFp (lp_grow p1) false (mkFr (mkReader [53; 32; 10] 1) 2)) =
      Ret (None, mkFp p2 false r) /\ fr_tries r = 3%nat /\
    ob_tokens (lp_out p2) = [junk_tok; junk_t2; junk_t3] /\ ib_heap (lp_in p2) = h' /\ lp_lex p2 = junk_l3 /\ lp_in p2 = ib_set_cons (grown h' 48003) 48003 /\ lp_has_start p2 = false /\
    (forall i, 24000 <= i -> i < 48000 -> h' (Dyn 0) i = byte_at junk_log (i - 24000)) /\
    h' (Dyn 0) 48000 = Some 53 /\ h' (Dyn 0) 48001 = Some 32 /\ h' (Dyn 0) 48002 = Some 10.
Proof.
  intros chunk fails p1 h fuel s grow Hf F2 P1 P2 Hh P3 P4. unfold fp_parse_next_event. cbn [fp_lp fp_rd fp_done].
  assert (reset_log_event_view (lp_grow p1) = lp_grow (reset_log_event_view p1)) as ->.
  { unfold lp_grow. cbn [reset_log_event_view lp_lex lp_in]. destruct (increase_buffer_capacity (lp_lex p1) (lp_in p1)). reflexivity. }
  destruct (junk_grow chunk h (reset_log_event_view p1) Hf P1 P2 Hh) as (h' & r & E & G1 & G2 & G3 & G4 & G5).
  rewrite (fp_read_ok chunk fails _ (mkFr (mkReader [53; 32; 10] 1) 2) F2 _ _ E). clear E.
  assert (read_is_safe (lp_in (lp_grow (reset_log_event_view p1))) = true) as ->.
  { unfold lp_grow, increase_buffer_capacity. cbn [reset_log_event_view lp_lex lp_in]. rewrite P1, P2. reflexivity. }
  cbn iota. cbn [fr_tries].
  set (q0 := lp_set_lexin (reset_log_event_view p1) junk_flipped (grown h' 48000)).
  assert (exists p3, parse_and_generate_metadata (S (S (S fuel))) (S (S (S s))) toy q0 = Ret (Some ActCompress, p3) /\
    ob_tokens (lp_out p3) = [junk_tok; junk_t2; junk_t3] /\ lp_lex p3 = junk_l3 /\ lp_in p3 = ib_set_cons (grown h' 48003) 48003 /\ lp_has_start p3 = false) as (p3 & Q & Q1 & Q2 & Q3 & Q4).
  2: { exists p3, h'. eexists. destruct grow; cbn [fp_loop]; rewrite Q; cbn [bind]; (split; [reflexivity|]; split; [reflexivity|]); rewrite Q3; auto 15. }
  unfold parse_and_generate_metadata, parse, q0. cbn [lp_out lp_set_lexin reset_log_event_view ob_reset ob_pos lp_set_out lp_has_start]. rewrite N.eqb_refl. cbn iota zeta. cbn [lp_has_start lp_set_out]. rewrite P3.
  unfold get_next_symbol. cbn [lp_lex lp_in lp_set_out lp_set_lexin reset_log_event_view]. rewrite (junk_scan1 h' _ G3 G4).
  cbn [bind lp_out lp_set_lexin ob_has_ts ob_set_delims lp_set_out ob_reset]. change (tok_type junk_tok) with (Ret 8). cbn [bind].
  change (8 =? TokenNewlineTimestamp) with false. cbn iota. unfold parse_first. change (tok_type junk_tok) with (Ret 8). cbn [bind].
  change (8 =? TokenEnd) with false. change ((8 =? TokenFirstTimestamp) || (8 =? TokenNewlineTimestamp)) with false. cbn iota zeta.
  match goal with |- context [parse_loop _ _ _ ?P] => set (p3 := P) end.
  assert (exists g d bs, lp_out p3 = mkObuf g bs cStaticByteBuffSize 2 false d /\ g 1 = junk_tok) as (g & d & bs & O3 & g1) by (eexists _, _, _; split; [reflexivity|reflexivity]).
  assert (lp_lex p3 = junk_l1 /\ lp_in p3 = grown h' 48001 /\ lp_has_start p3 = false /\ lp_occ p3 = map (fun _ => []) (lp_occ p1)) as (L3 & B3 & S3 & C3) by (repeat split; reflexivity).
  clearbody p3.
  rewrite (loop_step_nots _ _ p3 TokenUncaughtString 32 junk_t2 junk_l2 (grown h' 48003)); try discriminate; [|rewrite O3; reflexivity|rewrite L3, B3; apply junk_scan2; assumption|reflexivity|change (match h' (Dyn 0) 48001 with None => UB | Some x => Ret x end = Ret 32); rewrite G4; reflexivity].
  match goal with |- context [parse_loop _ _ _ ?P] => set (p4 := P) end.
  assert (exists g', lp_out p4 = mkObuf g' bs cStaticByteBuffSize 3 false d /\ g' 1 = junk_tok /\ g' 2 = junk_t2) as (g' & O4 & g1' & g2').
  { eexists. unfold p4. cbn [lp_out lp_set_out lp_set_lexin]. rewrite O3. split; [reflexivity|]. cbn. unfold ob_upd. cbn. auto. }
  assert (lp_lex p4 = junk_l2 /\ lp_in p4 = grown h' 48003 /\ lp_has_start p4 = false /\ lp_occ p4 = map (fun _ => []) (lp_occ p1)) as (L4 & B4 & S4 & C4) by (repeat split; assumption).
  clearbody p4. clear p3 O3 L3 B3 S3 C3 g g1.
  cbn [parse_loop]. unfold get_next_symbol. rewrite L4, B4, junk_scan3. cbn [bind]. cbn [lp_in lp_out lp_set_out lp_set_lexin ob_set_curr ob_set_token ob_has_ts]. rewrite O4.
  cbn [ob_has_ts ob_set_curr ob_set_token]. change (tok_type (mkToken 48002 48003 (Dyn 0) 96000 1 (Some [TokenNewline]))) with (Ret TokenNewline). cbn [bind negb andb].
  assert (tok_char (ib_heap (grown h' 48003)) (mkToken 48002 48003 (Dyn 0) 96000 1 (Some [TokenNewline])) 0 = Ret 10) as -> by (change (match h' (Dyn 0) 48002 with None => UB | Some x => Ret x end = Ret 10); rewrite G5; reflexivity).
  cbn [bind]. change (TokenNewline =? TokenEnd) with false. change (TokenNewline =? TokenNewline) with true. cbn iota.
  cbn [bind]. match goal with |- context [generate_metadata ?P] => set (p5 := P) end.
  assert (exists f, lp_out p5 = mkObuf f bs cStaticByteBuffSize 4 false d /\ f 1 = junk_tok /\ f 2 = junk_t2 /\ f 3 = junk_t3) as (f & O5 & f1 & f2 & f3).
  { eexists. split; [reflexivity|]. cbn. unfold ob_upd. cbn. auto. }
  assert (lp_lex p5 = junk_l3 /\ lp_in p5 = ib_set_cons (grown h' 48003) 48003 /\ lp_has_start p5 = false /\ lp_occ p5 = map (fun _ => []) (lp_occ p1)) as (L5 & B5 & S5 & C5) by (repeat split; assumption).
  clearbody p5. unfold generate_metadata. rewrite O5, B5, C5. unfold ob_first. cbn [ob_has_ts ob_pos]. change (indices 1 4) with [1; 2; 3].
  destruct (meta_ok (ib_heap (ib_set_cons (grown h' 48003) 48003)) (mkObuf f bs cStaticByteBuffSize 4 false d) [1; 2; 3] 0 (map (fun _ => []) (lp_occ p1))) as ((nl', occ') & ->).
  - rewrite map_length, P4. cbn [ob_act]. intros j Hj. cbn [In] in Hj. destruct Hj as [<-|[<-|[<-|[]]]]; [rewrite f1|rewrite f2|rewrite f3]; unfold tok_delimiter; cbn.
    + exists 8, 32. rewrite G2 by lia. repeat split; vm_compute; reflexivity.
    + exists TokenUncaughtString, 32. rewrite G4. repeat split; vm_compute; reflexivity.
    + exists TokenNewline, 10. rewrite G5. repeat split; vm_compute; reflexivity.
  - cbn [bind]. eexists. split; [reflexivity|]. cbn [lp_out lp_lex lp_in lp_has_start]. split; [|rewrite L5, S5; auto].
    transitivity [f 1; f 2; f 3]; [reflexivity|rewrite f1, f2, f3; reflexivity].
Qed.

(** The third call finds the end of the log. *)
Lemma lost_call3 : forall chunk fails p2 h' r fuel s grow, lp_lex p2 = junk_l3 -> lp_in p2 = ib_set_cons (grown h' 48003) 48003 -> lp_has_start p2 = false ->
  exists p3, fp_parse_next_event chunk fails grow fuel (S s) toy (mkFp p2 false r) = Ret (None, mkFp p3 true r) /\ ob_tokens (lp_out p3) = [].
Proof.
  intros chunk fails p2 h' r fuel s grow P1 P2 P3. unfold fp_parse_next_event. cbn [fp_lp fp_rd fp_done].
  unfold fp_read, fread_if_safe. cbn [reset_log_event_view lp_in]. rewrite P2. change (read_is_safe (ib_set_cons (grown h' 48003) 48003)) with false. cbn iota.
  cbn [lp_lex reset_log_event_view]. rewrite P1.
  set (q0 := lp_set_lexin (reset_log_event_view p2) junk_l3 (ib_set_cons (grown h' 48003) 48003)).
  assert (exists p3, parse_and_generate_metadata fuel (S s) toy q0 = Ret (Some ActCompressAndFinish, p3) /\ ob_tokens (lp_out p3) = []) as (p3 & Q & Q1).
  2: { exists p3. destruct grow; cbn [fp_loop]; rewrite Q; cbn [bind]; (split; [reflexivity|exact Q1]). }
  unfold parse_and_generate_metadata, parse, q0. cbn [lp_out lp_set_lexin reset_log_event_view ob_reset ob_pos lp_set_out lp_has_start]. rewrite N.eqb_refl. cbn iota zeta. cbn [lp_has_start lp_set_out]. rewrite P3.
  unfold get_next_symbol. cbn [lp_lex lp_in lp_set_out lp_set_lexin reset_log_event_view].
  assert (exists b', scan (S s) toy junk_l3 (ib_set_cons (grown h' 48003) 48003) = Ret (Some (mkToken 48003 48003 (Dyn 0) 96000 1 (Some [TokenEnd])), junk_l4, b')) as (b' & ->) by (eexists; reflexivity).
  cbn [bind lp_out lp_set_lexin ob_has_ts ob_set_delims lp_set_out ob_reset]. change (tok_type (mkToken 48003 48003 (Dyn 0) 96000 1 (Some [TokenEnd]))) with (Ret TokenEnd). cbn [bind].
  change (TokenEnd =? TokenNewlineTimestamp) with false. cbn iota. unfold parse_first. change (tok_type (mkToken 48003 48003 (Dyn 0) 96000 1 (Some [TokenEnd]))) with (Ret TokenEnd). cbn [bind].
  change (TokenEnd =? TokenEnd) with true. cbn iota.
  cbn [bind]. unfold generate_metadata. cbn. eexists. split; reflexivity.
Qed.

(** The events of a caller that calls again after the error do not have the log's first byte. *)
Theorem loses_text : forall chunk fails e name rp calls grow fuel sfuel, reader_idle toy_nsym rp -> fills chunk junk_log ->
  fails 0%nat = None -> fails 1%nat = Some e -> fails 2%nat = None -> (3 <= calls)%nat -> (1 <= grow)%nat -> (3 <= fuel)%nat -> 24003 <= N.of_nat sfuel ->
  exists rs fp', retry_all chunk fails name toy_nsym calls grow fuel sfuel toy junk_log rp = Ret (rs, fp') /\ errors_of rs = [e] /\
    map r_string (events_of rs) = [Ret (tl junk_log); Ret []].
Proof.
  intros chunk fails e name rp calls grow fuel sfuel Hi Hf F0 F1 F2 Hc Hg Hfu Hs.
  destruct calls as [|[|[|calls]]]; try lia. destruct grow as [|grow]; [lia|]. destruct fuel as [|[|[|fuel]]]; try lia. destruct sfuel as [|[|[|sfuel]]]; try lia.
  destruct (lost_call1 chunk fails e rp (S fuel) sfuel grow ltac:(lia) Hi Hf F0 F1) as (p1 & h & E1 & P1 & P2 & P3 & P4 & P5).
  destruct (lost_call2 chunk fails p1 h fuel sfuel (S grow) Hf F2 P1 P2 P3 P4 P5) as (p2 & h' & r & E2 & T & Q1 & Q2 & Q3 & Q4 & Q5 & Q6 & Q7 & Q8 & Q9).
  destruct (lost_call3 chunk fails p2 h' r (S (S (S fuel))) (S (S sfuel)) (S grow) Q3 Q4 Q5) as (p3 & E3 & R1).
  unfold retry_all. cbn [fp_drive]. rewrite E1. cbn [bind]. rewrite E2. cbn [bind fp_done]. rewrite E3. cbn [bind fp_done].
  eexists _, _. split; [reflexivity|]. cbn [fp_lp errors_of events_of flat_map app map]. split; [reflexivity|].
  cbn [report_of r_string]. unfold ev_to_string. rewrite R1, Q1, Q2. cbn [map].
  rewrite (one_byte h' (Dyn 0) 48001 32 96000 0 (Some [TokenUncaughtString]) Q8 : tok_text h' junk_t2 = _).
  rewrite (one_byte h' (Dyn 0) 48002 10 96000 1 (Some [TokenNewline]) Q9 : tok_text h' junk_t3 = _).
  rewrite (junk_text h' Q6 Q7). cbn [concat_out bind]. rewrite junk_parts. cbn [tl app]. reflexivity.
Qed.
