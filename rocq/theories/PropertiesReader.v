(** PropertiesReader.v -- C47 and part of C27: ReaderParser against BufferParser. *)
From Verif Require Import Base LexerModel LexerSpec LogParserModel EventSpec RingModel RingSpec RingProofs FuelMono ViewModel ReaderSpec ViewSim LineBound WindowBound ReaderProofs ReaderFits.
From Verif Require Import LexerProofs LogParserProofs EventProofs Toy.

Lemma start_state : forall c nsym log k rp bp, sof_quiet c -> usable c nsym -> reader_idle nsym rp -> idle nsym bp ->
  rstate log c k (rp_reset c rp (mkReader log 0)) (bp_reset c bp) 0.
Proof.
  intros c nsym log k rp bp Hq Hus [R1 R2 R3] (I1 & I2). constructor; cbn; auto.
  - exists (ring_start (ib_reset (lp_in (rp_lp rp))) log), 0, 0, 0. split; [|split; [reflexivity|split; [reflexivity|split; [reflexivity|]]]].
    + apply (rinv_start log _ cStaticByteBuffSize); [|reflexivity|reflexivity]. unfold empty_buffer. cbn. repeat split; reflexivity.
    + cbn. split; [lia|]. split; [discriminate|]. split; [|split].
      * constructor; cbn; try discriminate; try lia.
        -- constructor; reflexivity.
        -- intros _. repeat split; reflexivity.
        -- intros _. split; [reflexivity|]. split; [reflexivity|]. split; [reflexivity|].
           intros q E. unfold sof_quiet, reported in Hq. cbn in Hq. rewrite E in Hq. unfold is_accepting. cbn in Hq. rewrite Hq. reflexivity.
      * left. split; reflexivity.
      * split; [discriminate|]. split; [right; right; split; reflexivity|]. split; [discriminate|]. split; [reflexivity|].
        split; [unfold next_start; cbn; rewrite I1; reflexivity|]. rewrite R1. discriminate.
  - constructor; cbn; auto.
  - congruence.
  - rewrite R2, I2. reflexivity.
Qed.

Lemma drive_map : forall A (obs : lparser -> A) calls fuel sfuel c k m n offset bp,
  drive obs calls fuel sfuel c k m n offset bp =
  (do (ps, bp') <- drive (fun p => p) calls fuel sfuel c k m n offset bp; Ret (map obs ps, bp')).
Proof.
  intros A obs; induction calls as [|calls IH]; intros fuel sfuel c k m n offset bp; [reflexivity|]. cbn [drive].
  destruct (parse_next_event fuel sfuel c k m n offset true bp) as [((ok, offset'), bp')| | |]; cbn [bind]; try reflexivity.
  destruct ok; [|reflexivity]. destruct (bp_done bp'); [reflexivity|]. rewrite IH.
  destruct (drive (fun p => p) calls fuel sfuel c k m n offset' bp') as [(l, bp'')| | |]; reflexivity.
Qed.
Lemma buffer_all_map : forall name nsym calls fuel sfuel c k m log bp,
  buffer_all name nsym calls fuel sfuel c k m log bp =
  (do (ps, bp') <- parse_all calls fuel sfuel c k m log bp; Ret (map (report_of name nsym) ps, bp')).
Proof. intros. apply drive_map. Qed.

(** C47 (partial): if the log can be read without enlarging the buffer, the ReaderParser yields exactly the events a
    BufferParser yields on a buffer that holds the whole log. Missing: logs for which the buffer is enlarged
    (C47_refuted). *)
Theorem C47_reader_as_buffer_partial : forall chunk c nsym log k m name rp bp calls fuel sfuel l rp',
  usable c nsym -> sof_quiet c -> fills chunk log -> holds m log -> reader_idle nsym rp -> idle nsym bp ->
  read_all chunk name nsym calls 0 fuel sfuel c log rp = Ret (l, rp') ->
  (exists bp', buffer_all name nsym calls fuel sfuel c k m log bp = Ret (l, bp')) /\
  forall grow, read_all chunk name nsym calls grow fuel sfuel c log rp = Ret (l, rp').
Proof.
  intros chunk c nsym log k m name rp bp calls fuel sfuel l rp' Hus Hq Hf Hm Hr Hb H. split.
  - pose proof (drive_sim chunk log c nsym k m (wf_root _ (us_wf _ _ Hus)) Hf Hm name calls fuel sfuel _ _ 0 (start_state c nsym log k rp bp Hq Hus Hr Hb) eq_refl) as D.
    unfold read_all in H. rewrite H in D. exact D.
  - intros grow. destruct (rp_drive_below chunk _ (report_of name nsym) calls calls 0 grow fuel fuel sfuel sfuel c (rp_reset c rp (mkReader log 0))) as [E|E]; try lia.
    + unfold read_all in H. congruence.
    + unfold read_all in *. congruence.
Qed.
Print Assumptions C47_reader_as_buffer_partial.

(** Otherwise the buffer must be enlarged at some point, and nothing else has gone wrong before that. *)
Theorem C47_or_enlarge_partial : forall chunk c nsym log k m name rp bp calls fuel sfuel,
  usable c nsym -> sof_quiet c -> fills chunk log -> holds m log -> reader_idle nsym rp -> idle nsym bp -> enough log calls fuel sfuel ->
  read_all chunk name nsym calls 0 fuel sfuel c log rp = OutOfFuel \/
  exists l rp' bp', read_all chunk name nsym calls 0 fuel sfuel c log rp = Ret (l, rp') /\
    buffer_all name nsym calls fuel sfuel c k m log bp = Ret (l, bp').
Proof.
  intros chunk c nsym log k m name rp bp calls fuel sfuel Hus Hq Hf Hm Hr Hb He.
  pose proof (drive_sim chunk log c nsym k m (wf_root _ (us_wf _ _ Hus)) Hf Hm name calls fuel sfuel _ _ 0 (start_state c nsym log k rp bp Hq Hus Hr Hb) eq_refl) as D.
  destruct (parse_all_spec c nsym log k m Hus Hm calls fuel sfuel bp Hb He) as (ps & bp' & Hp & _).
  pose proof (buffer_all_map name nsym calls fuel sfuel c k m log bp) as B. rewrite Hp in B. cbn [bind] in B. unfold buffer_all in B.
  unfold read_all, buffer_all. rewrite B in D.
  destruct (rp_drive chunk (report_of name nsym) calls 0 fuel sfuel c (rp_reset c rp (mkReader log 0))) as [(l, rp')| | |]; try discriminate; [|auto].
  destruct D as (bp2 & D). right. exists l, rp', bp'. rewrite B. split; [reflexivity|]. congruence.
Qed.
Print Assumptions C47_or_enlarge_partial.

(** A log of less than half the buffer is in the buffer, as a whole, after the first read. *)
Lemma short_closed : forall chunk c log rp, fills chunk log -> len log < 24000 ->
  closed log (fst (read_if_safe chunk (lp_in (rp_lp (rp_reset c rp (mkReader log 0)))) (rp_rd (rp_reset c rp (mkReader log 0))))).
Proof.
  intros chunk c log rp Hf Hl. unfold closed, rphi. rewrite N.add_0_r, N.mod_small by (unfold cStaticByteBuffSize; lia).
  cbn [rp_reset rp_lp rp_rd lp_reset lp_in lp_set_lexin]. set (b := ib_reset (lp_in (rp_lp rp))).
  assert (read_is_safe b = true) as E by reflexivity. unfold read_if_safe. rewrite E. unfold ib_read.
  change (ib_size b / 2) with 24000. unfold rd_read. cbn [rd_rest].
  destruct log as [|x log']; [split; reflexivity|]. remember (x :: log') as log eqn:El.
  assert (rd_amount chunk (mkReader log 0) 24000 = len log) as Ea.
  { unfold rd_amount. cbn [rd_rest rd_calls]. specialize (Hf 0%nat). unfold len in *. rewrite El in *. cbn [length] in *. lia. }
  rewrite Ea. unfold len. rewrite Nnat.Nat2N.id, firstn_all. cbn [fst ib_fill ib_fin ib_last ib_lrfh].
  fold (len log). change (ib_last b) with 0. change (ib_size b) with 48000. change (48000 / 2) with 24000. rewrite ?N.add_0_l.
  destruct (N.ltb_spec (len log) 24000); [|lia]. destruct (N.ltb_spec 48000 (len log)); [lia|]. split; reflexivity.
Qed.

(** C47 for short logs, with termination (C27) and losslessness (C01): a log shorter than half the initial buffer
    is parsed to its end, into the BufferParser's events. *)
Theorem C47_short_logs_partial : forall chunk c nsym log k m name rp bp calls grow fuel sfuel,
  usable c nsym -> sof_quiet c -> fills chunk log -> holds m log -> reader_idle nsym rp -> idle nsym bp -> enough log calls fuel sfuel ->
  len log < 24000 ->
  exists l rp' bp' texts, read_all chunk name nsym calls grow fuel sfuel c log rp = Ret (l, rp') /\
    buffer_all name nsym calls fuel sfuel c k m log bp = Ret (l, bp') /\
    map r_string l = map Ret texts /\ concat texts = log.
Proof.
  intros chunk c nsym log k m name rp bp calls grow fuel sfuel Hus Hq Hf Hm Hr Hb He Hl.
  pose proof (drive_sim chunk log c nsym k m (wf_root _ (us_wf _ _ Hus)) Hf Hm name calls fuel sfuel _ _ 0 (start_state c nsym log k rp bp Hq Hus Hr Hb) eq_refl) as D.
  destruct (parse_all_spec c nsym log k m Hus Hm calls fuel sfuel bp Hb He) as (ps & bp' & Hp & Hevs & _).
  destruct (events_texts c nsym log k m Hus Hm 0 ps Hevs) as (texts & H1 & H2 & _).
  pose proof (buffer_all_map name nsym calls fuel sfuel c k m log bp) as B. rewrite Hp in B. cbn [bind] in B. pose proof B as B'. unfold buffer_all in B'.
  rewrite B' in D. pose proof (short_closed chunk c log rp Hf Hl) as Cl.
  destruct (rp_drive chunk (report_of name nsym) calls 0 fuel sfuel c (rp_reset c rp (mkReader log 0))) as [(l, rp')| | |] eqn:Ed; try discriminate.
  - destruct D as (bp2 & D). injection D as <- <-. exists (map (report_of name nsym) ps), rp', bp', texts.
    split; [apply (C47_reader_as_buffer_partial chunk c nsym log k m name rp bp); auto|]. split; [exact B|]. split.
    + rewrite map_map. cbn [report_of r_string]. exact H1.
    + rewrite H2. apply sub_full.
  - destruct D as [D|D]; [discriminate|contradiction].
Qed.
Print Assumptions C47_short_logs_partial.

(** C47 and C27 without enlarging: if every event and the two lines after it (or the rest of the log) fit into 23998
    bytes, the ReaderParser reads the log to its end, whatever its length, and yields the BufferParser's events.
    [texts]: the events. (len log mod 48000 = 0: the buffer is enlarged once more than necessary at the end.) *)
Theorem C47_bounded_events_partial : forall chunk c nsym log k m name rp bp calls grow fuel sfuel l bp' texts,
  usable c nsym -> sof_quiet c -> one_line c -> c_delim c cNewline = true ->
  fills chunk log -> holds m log -> reader_idle nsym rp -> idle nsym bp -> enough log calls fuel sfuel ->
  len log mod 48000 <> 0 ->
  buffer_all name nsym calls fuel sfuel c k m log bp = Ret (l, bp') -> map r_string l = map Ret texts -> events_fit texts ->
  exists rp', read_all chunk name nsym calls grow fuel sfuel c log rp = Ret (l, rp').
Proof.
  intros chunk c nsym log k m name rp bp calls grow fuel sfuel l bp' texts Hus Hq Hone Hdl Hf Hm Hr Hb He Hl Hall Htx Hfit.
  rewrite buffer_all_map in Hall. unfold parse_all in Hall.
  destruct (drive (fun p => p) calls fuel sfuel c k m (len log) 0 (bp_reset c bp)) as [(ps, bp2)| | |] eqn:Hd; cbn [bind] in Hall; try discriminate.
  injection Hall as <- <-.
  destruct (drive_fits chunk log c nsym k m (wf_root _ (us_wf _ _ Hus)) Hf Hm name fuel sfuel Hus
     {| lo_wf := us_wf _ _ Hus; lo_sof := us_sof _ _ Hus; lo_line := Hone; lo_delim := Hdl; lo_len := Hl |}
     ltac:(pose proof (en_scan _ _ _ _ He); unfold scan_fuel, len in *; lia) (en_fuel _ _ _ _ He) calls (rp_reset c rp (mkReader log 0)) (bp_reset c bp) 0 0 ps bp2 texts) as (rp' & R).
  - apply (start_state c nsym log k rp bp Hq Hus Hr Hb).
  - reflexivity.
  - destruct Hb as (I1 & I2). apply (reset_ready c log k m nsym (proj1 Hm) (us_ids _ _ Hus) (us_nsym _ _ Hus)); [apply Hus|exact I1|exact I2].
  - pose proof (en_calls _ _ _ _ He). lia.
  - exact Hd.
  - rewrite <- Htx, map_map. reflexivity.
  - exact Hfit.
  - exists rp'. apply (C47_reader_as_buffer_partial chunk c nsym log k m name rp bp); auto.
Qed.
Print Assumptions C47_bounded_events_partial.

(** In particular: events of at most 7999 bytes. *)
Theorem C47_short_events_partial : forall chunk c nsym log k m name rp bp calls grow fuel sfuel l bp' texts,
  usable c nsym -> newline_free c -> one_line c ->
  fills chunk log -> holds m log -> reader_idle nsym rp -> idle nsym bp -> enough log calls fuel sfuel ->
  len log mod 48000 <> 0 ->
  buffer_all name nsym calls fuel sfuel c k m log bp = Ret (l, bp') -> map r_string l = map Ret texts ->
  (forall x, In x texts -> len x <= 7999) ->
  exists rp', read_all chunk name nsym calls grow fuel sfuel c log rp = Ret (l, rp').
Proof.
  intros chunk c nsym log k m name rp bp calls grow fuel sfuel l bp' texts Hus Hnf Hone Hf Hm Hr Hb He Hl Hall Htx Hs.
  apply (C47_bounded_events_partial chunk c nsym log k m name rp bp calls grow fuel sfuel l bp' texts); auto; try apply Hnf.
  apply short_fit; [|exact Hs].
  destruct (parse_all_spec c nsym log k m Hus Hm calls fuel sfuel bp Hb He) as (ps & bp2 & Hp & Hevs & _).
  rewrite buffer_all_map, Hp in Hall. cbn [bind] in Hall. injection Hall as <- <-.
  rewrite map_map in Htx. cbn [report_of r_string] in Htx.
  exact (events_end c nsym log k m Hus Hm (nf_newline _ Hnf) 0 ps texts Hevs Htx).
Qed.
Print Assumptions C47_short_events_partial.

(** In particular: a schema without timestamps and a log whose lines have at most 7997 bytes each. No bound on the
    length of the log. *)
Theorem C47_short_lines_partial : forall chunk c nsym log k m name rp bp calls grow fuel sfuel,
  usable c nsym -> newline_free c -> one_line c -> no_timestamps c ->
  fills chunk log -> holds m log -> reader_idle nsym rp -> idle nsym bp -> enough log calls fuel sfuel ->
  len log mod 48000 <> 0 -> lines_at_most 7997 log -> ~ In cCharStartOfFile log ->
  exists l rp' bp' texts, read_all chunk name nsym calls grow fuel sfuel c log rp = Ret (l, rp') /\
    buffer_all name nsym calls fuel sfuel c k m log bp = Ret (l, bp') /\
    map r_string l = map Ret texts /\ concat texts = log.
Proof.
  intros chunk c nsym log k m name rp bp calls grow fuel sfuel Hus Hnf Hone Hno Hf Hm Hr Hb He Hl Hln Hns.
  destruct (parse_all_spec c nsym log k m Hus Hm calls fuel sfuel bp Hb He) as (ps & bp' & Hp & Hevs & _).
  destruct (events_texts c nsym log k m Hus Hm 0 ps Hevs) as (texts & H1 & H2 & _).
  pose proof (buffer_all_map name nsym calls fuel sfuel c k m log bp) as B. rewrite Hp in B. cbn [bind] in B.
  assert (map r_string (map (report_of name nsym) ps) = map Ret texts) as T by (rewrite map_map; exact H1).
  destruct (C47_short_events_partial chunk c nsym log k m name rp bp calls grow fuel sfuel _ bp' texts Hus Hnf Hone Hf Hm Hr Hb He Hl B T) as (rp' & R).
  - intros x Hx. pose proof (events_short c nsym log k m Hus Hm (nf_newline _ Hnf) 0 ps texts 7997 Hnf Hns Hno Hln Hevs H1 x Hx). lia.
  - exists (map (report_of name nsym) ps), rp', bp', texts. split; [exact R|]. split; [exact B|]. split; [exact T|]. rewrite H2. apply sub_full.
Qed.
Print Assumptions C47_short_lines_partial.

(** ** Non-vacuity *)
Definition rp_ready (nsym : N) : rparser :=
  let p := bp_lp (bp_init nsym) in
  mkRp (lp_set_lexin p (lp_lex p) (mkIbuf (fun s i => match s with Static => if i <? cStaticByteBuffSize then Some 0 else None | _ => None end)
    Static 0%nat cStaticByteBuffSize 0 0 false false false (cStaticByteBuffSize - 1))) false (mkReader [] 0).
Lemma rp_ready_idle : forall nsym, reader_idle nsym (rp_ready nsym).
Proof.
  intro nsym. constructor; cbn; [reflexivity|apply repeat_length|]. intros i H. apply N.ltb_lt in H. rewrite H. eauto.
Qed.
Lemma toy_quiet : sof_quiet toy. Proof. apply toy_newline_free. Qed.
(** "T 1\n2\n3 " in a single read: two events with a reader that gives everything. *)
Example C47_short_example : exists l rp' bp',
  read_all (fun _ => 100) (fun _ => None) toy_nsym 102 0 102 210 toy [84;32;49;10;50;10;51;32] (rp_ready toy_nsym) = Ret (l, rp') /\
  buffer_all (fun _ => None) toy_nsym 102 102 210 toy 0 (buf_of [84;32;49;10;50;10;51;32]) [84;32;49;10;50;10;51;32] (bp_init toy_nsym) = Ret (l, bp') /\
  (1 <= length l)%nat.
Proof.
  destruct (C47_short_logs_partial (fun _ => 100) toy toy_nsym [84;32;49;10;50;10;51;32] 0 (buf_of [84;32;49;10;50;10;51;32]) (fun _ => None)
    (rp_ready toy_nsym) (bp_init toy_nsym) 102 0 102 210) as (l & rp' & bp' & texts & H1 & H2 & H3 & H4);
    [exact toy_usable|exact toy_quiet|intro n; cbn; lia|apply buf_of_holds|apply rp_ready_idle|apply bp_init_idle|apply enough_100; reflexivity|reflexivity|].
  exists l, rp', bp'. repeat split; auto. destruct l; [|cbn; lia]. destruct texts; [discriminate H4|discriminate H3].
Qed.

(** A schema without timestamps, and a log of 20000 lines "1 \n". *)
Definition plain_ids (q : nat) : list N := match q with 2%nat => [TokenNewline] | 5%nat => [8] | _ => [] end.
Definition plain : lexcfg := mkCfg (mkDfa toy_next plain_ids) toy_delim true.
Lemma plain_run : forall w, run (c_dfa plain) d_root w = run (c_dfa toy) d_root w.
Proof. assert (forall w q, run (c_dfa plain) q w = run (c_dfa toy) q w) as K; [|intro w; apply K]. induction w as [|x w IH]; intro q; [reflexivity|]. cbn. destruct (toy_next q x); auto. Qed.
Lemma plain_sub : forall w i, In i (reported (c_dfa plain) d_root w) -> In i (reported (c_dfa toy) d_root w) /\ i <> TokenFirstTimestamp /\ i <> TokenNewlineTimestamp.
Proof.
  intros w i. unfold reported. rewrite plain_run. destruct (run (c_dfa toy) d_root w) as [q|]; [|contradiction].
  destruct q as [|[|[|[|[|[|[|q]]]]]]]; cbn; intros H; try contradiction; destruct H as [<-|[]]; split; auto; split; discriminate.
Qed.
Lemma plain_usable : usable plain toy_nsym.
Proof.
  assert (forall q i, In i (plain_ids q) -> i = TokenNewline \/ i = 8) as K.
  { intros q i. destruct q as [|[|[|[|[|[|[|q]]]]]]]; cbn; intros H; try contradiction; destruct H as [<-|[]]; auto. }
  constructor; [constructor|..].
  - reflexivity.
  - reflexivity.
  - intros q i H. destruct (K q i H) as [-> | ->]; split; discriminate.
  - intros w H. apply plain_sub in H as (_ & _ & H). contradiction H; reflexivity.
  - exists 2%nat. split; [reflexivity|discriminate].
  - exists 1%nat. reflexivity.
  - intros q i H. destruct (K q i H) as [-> | ->]; vm_compute; reflexivity.
  - vm_compute; reflexivity.
Qed.
Lemma plain_newline_free : newline_free plain.
Proof.
  destruct toy_newline_free as [H1 H2 H3 H4 H5]. constructor.
  - reflexivity.
  - intros w H. apply H2, plain_sub, H.
  - intros w H. apply H3, plain_sub, H.
  - reflexivity.
  - intros w i H. apply H5, plain_sub, H.
Qed.
Lemma toy_one_line : one_line toy.
Proof.
  intros w q H. pose proof (toy_run_inv w [] d_root q eq_refl H) as K. cbn [app] in K.
  destruct q as [|[|[|[|[|[|[|q]]]]]]]; cbn in K; try contradiction; subst; cbn; try (intros [Q|[]]; discriminate); try tauto.
  destruct K as (x & v & -> & _ & F). cbn. intro Q. rewrite Forall_forall in F. apply F in Q. discriminate.
Qed.
Lemma plain_one_line : one_line plain.
Proof. intros w q H. rewrite plain_run in H. exact (toy_one_line w q H). Qed.
Lemma plain_no_ts : no_timestamps plain.
Proof.
  intro q. destruct q as [|[|[|[|[|[|[|q]]]]]]]; cbn; split; intros H; try contradiction; destruct H as [H|[]]; discriminate.
Qed.
Definition long_log : list N := concat (repeat [49; 32; 10] (N.to_nat 20001)).
Lemma long_lines : forall n, lines_at_most 7997 (concat (repeat [49; 32; 10] n)).
Proof.
  intro n. assert (forall a, a + 2 < len (concat (repeat [49; 32; 10] n)) -> exists i, a <= i <= a + 2 /\ byte_at (concat (repeat [49; 32; 10] n)) i = Some cNewline) as K.
  { induction n as [|n IH]; intros a H; [cbn in H; lia|]. change (concat (repeat [49; 32; 10] (S n))) with ([49; 32; 10] ++ concat (repeat [49; 32; 10] n)) in *.
    set (l := concat (repeat [49; 32; 10] n)) in *. destruct (N.lt_ge_cases a 3) as [Q|Q].
    - exists 2. split; [lia|]. reflexivity.
    - destruct (IH (a - 3)) as (i & Hi & Hb); [unfold len in *; rewrite app_length in H; cbn [length] in H; lia|].
      exists (i + 3). split; [lia|]. unfold byte_at in *. rewrite nth_error_app2 by (cbn [length]; lia).
      cbn [length]. replace (N.to_nat (i + 3) - 3)%nat with (N.to_nat i) by lia. exact Hb. }
  intros a H. destruct (K a ltac:(lia)) as (i & Hi & Hb). exists i. split; [lia|exact Hb].
Qed.
Lemma long_len : forall n, len (concat (repeat [49; 32; 10] n)) = 3 * N.of_nat n.
Proof. induction n as [|n IH]; [reflexivity|]. unfold len in *. cbn [repeat concat]. rewrite app_length. cbn [length]. lia. Qed.
Example C47_long_example : exists calls fuel sfuel l rp' bp',
  read_all (fun _ => 100000) (fun _ => None) toy_nsym calls 0 fuel sfuel plain long_log (rp_ready toy_nsym) = Ret (l, rp') /\
  buffer_all (fun _ => None) toy_nsym calls fuel sfuel plain 0 (buf_of long_log) long_log (bp_init toy_nsym) = Ret (l, bp') /\
  len long_log = 60003.
Proof.
  assert (len long_log = 60003) as L by (unfold long_log; rewrite long_len, Nnat.N2Nat.id; reflexivity).
  assert (exists calls, N.of_nat calls = 70000) as (calls & Ec) by (exists (N.to_nat 70000); apply Nnat.N2Nat.id).
  assert (exists sfuel, N.of_nat sfuel = 130000) as (sfuel & Es) by (exists (N.to_nat 130000); apply Nnat.N2Nat.id).
  exists calls, calls, sfuel.
  destruct (C47_short_lines_partial (fun _ => 100000) plain toy_nsym long_log 0 (buf_of long_log) (fun _ => None)
    (rp_ready toy_nsym) (bp_init toy_nsym) calls 0 calls sfuel) as (l & rp' & bp' & texts & H1 & H2 & H3 & H4).
  - exact plain_usable.
  - exact plain_newline_free.
  - exact plain_one_line.
  - exact plain_no_ts.
  - intro n. fold (len long_log). rewrite L. discriminate.
  - apply buf_of_holds.
  - apply rp_ready_idle.
  - apply bp_init_idle.
  - constructor; rewrite L, ?Ec, ?Es; [reflexivity|reflexivity|discriminate].
  - rewrite L. discriminate.
  - apply long_lines.
  - unfold long_log. intro H. apply in_concat in H as (x & Hx & Hy). apply repeat_spec in Hx. subst x. cbn in Hy.
    repeat (destruct Hy as [Hy|Hy]; [discriminate|]). exact Hy.
  - exists l, rp', bp'. repeat split; auto.
Qed.
