(** PropertiesAnswers.v -- C66 and C67: Readers that answer with fewer bytes than asked for, and Readers that fail. The specification: served, in_full,
    cut_short and answers (ReaderAnswers.v); events_of, errors_of and failures (ReaderErrors.v). *)
From Verif Require Import Base LexerModel LexerSpec LogParserModel EventSpec RingModel RingSpec ReaderSpec LexerProofs LogParserProofs EventProofs FileModel FeedProofs ReaderAnswers ReaderErrors
  PropertiesReader Toy.

(** ** C66: ReaderParser calls the Reader until its first short answer, and parses exactly what it was given. *)
Theorem C66_short_answer : forall chunk c nsym name log rp calls grow fuel sfuel l rp',
  usable c nsym -> reader_idle nsym rp -> read_all chunk name nsym calls grow fuel sfuel c log rp = Ret (l, rp') ->
  exists h, served chunk (mkReader log 0) h (rp_rd rp') /\ (exists pre x, h = pre ++ [x] /\ Forall in_full pre /\ cut_short x) /\
    Forall (fun x => 24000 <= fst x) h /\ log = answers h ++ rd_rest (rp_rd rp') /\
    forall chunk', fills chunk' (answers h) ->
      exists rp2, read_all chunk' name nsym calls grow fuel sfuel c (answers h) rp = Ret (l, rp2) /\ rp_lp rp2 = rp_lp rp'.
Proof.
  intros chunk c nsym name log rp calls grow fuel sfuel l rp' Hus [Hi _ _] H.
  assert (Hids : forall q, nonend (Some (d_ids (c_dfa c) q))).
  { intros q l0 E. injection E as E. destruct (wf_ids _ (us_wf _ _ Hus) q TokenEnd) as (X & _); [rewrite E; left; reflexivity|]. now apply X. }
  assert (G : goes (rp_lp (rp_reset c rp (mkReader log 0)))).
  { intros _. split; [split; reflexivity|]. split; [intros Q; discriminate Q|]. intros Q. cbn in Q. congruence. }
  destruct (drive_answers chunk c Hids (report_of name nsym) grow fuel sfuel calls (rp_reset c rp (mkReader log 0)) l rp' G ltac:(cbn; vm_compute; discriminate) eq_refl H)
    as (_ & h & H1 & H2 & H3 & H4).
  exists h. split; [exact H1|]. split; [exact (hi_short _ _ _ H2 eq_refl eq_refl)|]. split; [exact H3|]. split; [exact (proj1 (served_rest _ _ _ _ H1))|].
  intros chunk' HF. destruct (H4 chunk' 0%nat) as (n' & Q).
  { intros k. specialize (HF k). exact HF. }
  eexists. split; [exact Q|]. reflexivity.
Qed.
Print Assumptions C66_short_answer.
(** So a ReaderParser that does not have to enlarge its buffer reports what a BufferParser reports for the bytes delivered until the first short
    answer; what the Reader still has is ignored. *)
Theorem C66_as_buffer : forall chunk c nsym name log rp bp k m calls fuel sfuel l rp',
  usable c nsym -> sof_quiet c -> reader_idle nsym rp -> idle nsym bp -> read_all chunk name nsym calls 0 fuel sfuel c log rp = Ret (l, rp') ->
  forall delivered, log = delivered ++ rd_rest (rp_rd rp') -> holds m delivered ->
  exists bp', buffer_all name nsym calls fuel sfuel c k m delivered bp = Ret (l, bp').
Proof.
  intros chunk c nsym name log rp bp k m calls fuel sfuel l rp' Hus Hq Hr Hb H delivered Hd Hm.
  destruct (C66_short_answer _ _ _ _ _ _ _ _ _ _ _ _ Hus Hr H) as (h & _ & _ & _ & Hl & HF).
  assert (E : answers h = delivered) by (apply (app_inv_tail (rd_rest (rp_rd rp'))); congruence). rewrite E in HF.
  destruct (HF (fun _ => len delivered) ltac:(intros n; apply N.le_refl)) as (rp2 & H2 & _).
  apply (C47_reader_as_buffer_partial (fun _ => len delivered) c nsym delivered k m name rp bp calls fuel sfuel l rp2 Hus Hq ltac:(intros n; apply N.le_refl) Hm Hr Hb H2).
Qed.
Print Assumptions C66_as_buffer.

(** Non-vacuity: a Reader that delivers at most two bytes per call; of "T 1" only "T " is read, and what it still has is ignored. *)
Example C66_example : exists l rp', read_all (fun _ => 2) (fun _ => None) toy_nsym 10 0 30 30 toy [84;32;49] (rp_ready toy_nsym) = Ret (l, rp') /\
  map r_string l = [Ret [84;32]] /\ rd_rest (rp_rd rp') = [49].
Proof.
  assert (E : match read_all (fun _ => 2) (fun _ => None) toy_nsym 10 0 30 30 toy [84;32;49] (rp_ready toy_nsym) with
              | Ret (l, rp') => map r_string l = [Ret [84;32]] /\ rd_rest (rp_rd rp') = [49] | _ => False end) by (vm_compute; split; reflexivity).
  destruct (read_all (fun _ => 2) (fun _ => None) toy_nsym 10 0 30 30 toy [84;32;49] (rp_ready toy_nsym)) as [(l, rp')| | |]; try contradiction.
  exists l, rp'. split; [reflexivity|exact E].
Qed.
Example C66_hypotheses : exists l rp' h, read_all (fun _ => 2) (fun _ => None) toy_nsym 10 0 30 30 toy [84;32;49] (rp_ready toy_nsym) = Ret (l, rp') /\
  served (fun _ => 2) (mkReader [84;32;49] 0) h (rp_rd rp') /\ answers h = [84;32].
Proof.
  destruct C66_example as (l & rp' & H1 & _ & H3). destruct (C66_short_answer _ _ _ _ _ _ _ _ _ _ _ _ toy_usable (rp_ready_idle toy_nsym) H1) as (h & S & _ & _ & E & _).
  exists l, rp', h. split; [exact H1|]. split; [exact S|]. rewrite H3 in E. apply (app_inv_tail [49]). symmetry. exact E.
Qed.

(** ** C67: an error of the Reader is passed on to the caller, and parsing can go on after it. *)
(** If the log can be read without enlarging the buffer, then with a Reader that fails some finite number of times the caller that calls again after an
    error gets exactly the events of the Reader that never fails, and the errors the Reader gave, each once and in order. Missing: logs for which the
    buffer is enlarged (there the claim is false: C67_refuted). *)
Theorem C67_retry_partial : forall chunk fails K c nsym name log rp calls fuel sfuel l rp',
  (forall n, (K <= n)%nat -> fails n = None) -> read_all chunk name nsym calls 0 fuel sfuel c log rp = Ret (l, rp') ->
  forall grow, exists rs fp' n, retry_all chunk fails name nsym (calls + K) grow fuel sfuel c log rp = Ret (rs, fp') /\
    events_of rs = l /\ errors_of rs = failures fails 0 n /\ fr_tries (fp_rd fp') = n.
Proof.
  intros chunk fails K c nsym name log rp calls fuel sfuel l rp' HK H grow.
  destruct (drive_retry chunk fails (report_of name nsym) fuel sfuel c grow calls K (mkFp (lp_reset c (rp_lp rp)) false (mkFr (mkReader log 0) 0)) l rp' HK H)
    as (rs & fp' & n & H1 & H2 & _ & _ & H5 & H6).
  exists rs, fp', n. cbn [fp_rd fr_tries Nat.add] in H1, H5, H6. rewrite Nat.sub_0_r in H1. split; [exact H1|]. split; [exact H2|]. split; [exact H6|]. rewrite H5. reflexivity.
Qed.
Print Assumptions C67_retry_partial.
(** In every run, with or without enlargements, exactly the failures of the Reader are reported, each once and in order. *)
Theorem C67_errors_reported : forall chunk fails c nsym name log rp calls grow fuel sfuel rs fp',
  retry_all chunk fails name nsym calls grow fuel sfuel c log rp = Ret (rs, fp') -> errors_of rs = failures fails 0 (fr_tries (fp_rd fp')).
Proof.
  intros chunk fails c nsym name log rp calls grow fuel sfuel rs fp' H. unfold retry_all in H. apply fp_drive_code in H. destruct H as (n & N1 & N2).
  cbn [fp_rd fr_tries Nat.add] in N1, N2. rewrite N1. exact N2.
Qed.
Print Assumptions C67_errors_reported.
(** For logs shorter than half the buffer: the events are those of a BufferParser, and nothing of the log is lost. *)
Theorem C67_short_logs_partial : forall chunk fails K c nsym log k m name rp bp calls grow fuel sfuel,
  (forall n, (K <= n)%nat -> fails n = None) ->
  usable c nsym -> sof_quiet c -> fills chunk log -> holds m log -> reader_idle nsym rp -> idle nsym bp -> enough log calls fuel sfuel -> len log < 24000 ->
  exists rs fp' n l bp' texts, retry_all chunk fails name nsym (calls + K) grow fuel sfuel c log rp = Ret (rs, fp') /\
    events_of rs = l /\ errors_of rs = failures fails 0 n /\ fr_tries (fp_rd fp') = n /\
    buffer_all name nsym calls fuel sfuel c k m log bp = Ret (l, bp') /\ map r_string l = map Ret texts /\ concat texts = log.
Proof.
  intros chunk fails K c nsym log k m name rp bp calls grow fuel sfuel HK Hus Hq Hf Hm Hr Hb He Hl.
  destruct (C47_short_logs_partial chunk c nsym log k m name rp bp calls 0 fuel sfuel Hus Hq Hf Hm Hr Hb He Hl) as (l & rp' & bp' & texts & H1 & H2 & H3 & H4).
  destruct (C67_retry_partial chunk fails K c nsym name log rp calls fuel sfuel l rp' HK H1 grow) as (rs & fp' & n & Q1 & Q2 & Q3 & Q4).
  exists rs, fp', n, l, bp', texts. repeat (split; [assumption|]). assumption.
Qed.
Print Assumptions C67_short_logs_partial.
(** For events of at most 7999 bytes and logs of any length. *)
Theorem C67_short_events_partial : forall chunk fails K c nsym log k m name rp bp calls grow fuel sfuel l bp' texts,
  (forall n, (K <= n)%nat -> fails n = None) ->
  usable c nsym -> newline_free c -> one_line c ->
  fills chunk log -> holds m log -> reader_idle nsym rp -> idle nsym bp -> enough log calls fuel sfuel ->
  len log mod 48000 <> 0 ->
  buffer_all name nsym calls fuel sfuel c k m log bp = Ret (l, bp') -> map r_string l = map Ret texts ->
  (forall x, In x texts -> len x <= 7999) ->
  exists rs fp' n, retry_all chunk fails name nsym (calls + K) grow fuel sfuel c log rp = Ret (rs, fp') /\
    events_of rs = l /\ errors_of rs = failures fails 0 n /\ fr_tries (fp_rd fp') = n.
Proof.
  intros chunk fails K c nsym log k m name rp bp calls grow fuel sfuel l bp' texts HK Hus Hnf Hone Hf Hm Hr Hb He Hl Hall Htx Hs.
  destruct (C47_short_events_partial chunk c nsym log k m name rp bp calls 0 fuel sfuel l bp' texts Hus Hnf Hone Hf Hm Hr Hb He Hl Hall Htx Hs) as (rp' & R).
  apply (C67_retry_partial chunk fails K c nsym name log rp calls fuel sfuel l rp' HK R).
Qed.
Print Assumptions C67_short_events_partial.
(** Non-vacuity: the first two calls fail with the codes 5 and 7, "T 1\n2 " is then read as usual. *)
Example C67_example : exists rs fp', retry_all (fun _ => 100) (fun n => match n with 0%nat => Some 5 | 1%nat => Some 7 | _ => None end) (fun _ => None) toy_nsym (102 + 2) 3 102 210 toy
    [84;32;49;10;50;32] (rp_ready toy_nsym) = Ret (rs, fp') /\ errors_of rs = [5; 7] /\ map r_string (events_of rs) = [Ret [84;32;49;10;50;32]].
Proof.
  assert (E : match retry_all (fun _ => 100) (fun n => match n with 0%nat => Some 5 | 1%nat => Some 7 | _ => None end) (fun _ => None) toy_nsym (102 + 2) 3 102 210 toy
    [84;32;49;10;50;32] (rp_ready toy_nsym) with Ret (rs, _) => (errors_of rs, map r_string (events_of rs)) | _ => ([], []) end =
    ([5; 7], [Ret [84;32;49;10;50;32]])) by (vm_compute; reflexivity).
  destruct (retry_all _ _ _ _ _ _ _ _ _ _ _) as [(rs, fp')| | |]; try discriminate E. exists rs, fp'. split; [reflexivity|]. injection E as E1 E2. split; assumption.
Qed.
