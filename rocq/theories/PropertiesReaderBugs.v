(** PropertiesReaderBugs.v -- C04 for log events; C27 and C47 are false as stated. *)
From Verif Require Import Base LexerModel LexerSpec LogParserModel EventSpec RingModel RingSpec RingProofs FuelMono ViewModel ReaderSpec ReaderFits.
From Verif Require Import LexerProofs LogParserProofs EventProofs Toy EventMatch ReaderStuck ReaderWrong PropertiesReader.

(** C04 for events: every token of every event that carries rule ids carries exactly the ids that the DFA reports for
    its text (after the start-of-file character at the start of the log, after the newline for the first token of an
    event whose newline was left with the previous event). *)
Theorem C04_event_tokens_are_matches : forall c nsym t k m bp calls fuel sfuel ps bp' p tok ids,
  usable c nsym -> holds m t -> idle nsym bp -> enough t calls fuel sfuel ->
  parse_all calls fuel sfuel c k m t bp = Ret (ps, bp') -> In p ps -> In tok (ev_tokens p) ->
  t_ids tok = Some ids -> ids <> [TokenUncaughtString] ->
  exists pre s, lead pre /\ tok_text (ib_heap (lp_in p)) tok = Ret s /\ ids <> [] /\ reported (c_dfa c) d_root (pre ++ s) = ids.
Proof.
  intros c nsym t k m bp calls fuel sfuel ps bp' p tok ids Hus Hm Hb He Hp Hin Ht Hi Hne.
  destruct (parse_all_spec c nsym t k m Hus Hm calls fuel sfuel bp Hb He) as (ps' & bp2 & Hp' & Hevs & _).
  rewrite Hp in Hp'. injection Hp' as <- <-.
  destruct (events_in c nsym t k m 0 ps Hevs p Hin) as (e1 & e2 & fin & Hev).
  exact (evat_match c nsym t k m Hus Hm e1 p e2 fin tok ids Hev Ht Hi Hne).
Qed.
Print Assumptions C04_event_tokens_are_matches.

(** "T 1": the event's last token " 1" is reported as number. *)
Example C04_event_example : exists ps bp' p tok,
  parse_all 102 102 210 toy 0 (buf_of [84;32;49]) [84;32;49] (bp_init toy_nsym) = Ret (ps, bp') /\ In p ps /\ In tok (ev_tokens p) /\ t_ids tok = Some [8].
Proof.
  destruct (parse_all 102 102 210 toy 0 (buf_of [84;32;49]) [84;32;49] (bp_init toy_nsym)) as [(ps, bp')| | |] eqn:E; try (vm_compute in E; discriminate).
  exists ps, bp'. vm_compute in E. injection E as <- _. eexists. eexists (mkToken 1 3 (User 0) 6 0 (Some [8])). split; [reflexivity|]. split; [left; reflexivity|]. split; [|reflexivity].
  vm_compute. auto.
Qed.

(** C27 is false: on the log "\nT aaa...a" with at least 23997 letters, with a schema whose timestamp is "T", ReaderParser never
    returns from its second call, whatever the bounds on its loops; a BufferParser that holds the log parses it. *)
Theorem C27_refuted : exists c nsym log, usable c nsym /\ newline_free c /\ one_line c /\ sof_quiet c /\
  (forall chunk name rp calls grow fuel sfuel, reader_idle nsym rp -> fills chunk log ->
     read_all chunk name nsym calls grow fuel sfuel c log rp = OutOfFuel) /\
  (forall k m name bp calls fuel sfuel, holds m log -> idle nsym bp -> enough log calls fuel sfuel ->
     exists l bp' texts, buffer_all name nsym calls fuel sfuel c k m log bp = Ret (l, bp') /\ map r_string l = map Ret texts /\ concat texts = log).
Proof.
  exists toy, toy_nsym, (stuck_log (N.to_nat 23997)).
  split; [exact toy_usable|]. split; [exact toy_newline_free|]. split; [exact toy_one_line|]. split; [exact toy_quiet|]. split.
  - intros chunk name rp calls grow fuel sfuel Hr Hf. apply never_ends; [exact Hr|exact Hf|]. rewrite Nnat.N2Nat.id. apply N.le_refl.
  - intros k m name bp calls fuel sfuel Hm Hb He.
    destruct (parse_all_spec toy toy_nsym _ k m toy_usable Hm calls fuel sfuel bp Hb He) as (ps & bp' & Hp & Hevs & _).
    destruct (events_texts toy toy_nsym _ k m toy_usable Hm 0 ps Hevs) as (texts & H1 & H2 & _).
    exists (map (report_of name toy_nsym) ps), bp', texts. rewrite buffer_all_map, Hp. split; [reflexivity|].
    split; [rewrite map_map; exact H1|]. rewrite H2. apply sub_full.
Qed.
Print Assumptions C27_refuted.

(** C47 is false even when ReaderParser ends: on "T aaa...a5 \n" (23998 letters), read with one enlargement of the buffer, it
    reports a number token whose text contains letters, so that no rule matches it; the BufferParser on the same log does
    not. *)
Theorem C47_refuted : exists c nsym log, usable c nsym /\ newline_free c /\ one_line c /\ sof_quiet c /\
  forall chunk k m name rp bp calls fuel sfuel, reader_idle nsym rp -> idle nsym bp -> fills chunk log -> holds m log -> enough log calls fuel sfuel ->
  exists l rp' l' bp', read_all chunk name nsym calls 1 fuel sfuel c log rp = Ret (l, rp') /\
    buffer_all name nsym calls fuel sfuel c k m log bp = Ret (l', bp') /\ l <> l' /\
    exists r s line, In r l /\ In (Ret s, Some [8], line) (r_tokens r) /\ forall pre, lead pre -> reported (c_dfa c) d_root (pre ++ s) = [].
Proof.
  exists toy, toy_nsym, junk_log.
  split; [exact toy_usable|]. split; [exact toy_newline_free|]. split; [exact toy_one_line|]. split; [exact toy_quiet|].
  intros chunk k m name rp bp calls fuel sfuel Hr Hb Hf Hm He.
  pose proof (en_calls _ _ _ _ He) as E1. pose proof (en_fuel _ _ _ _ He) as E2. pose proof (en_scan _ _ _ _ He) as E3.
  unfold len in E1, E2, E3. rewrite junk_len in E1, E2, E3.
  destruct (reads_junk chunk name rp calls fuel sfuel Hr Hf) as (r & rp' & R1 & s & line & R2 & R3); try lia.
  destruct (parse_all_spec toy toy_nsym junk_log k m toy_usable Hm calls fuel sfuel bp Hb He) as (ps & bp' & Hp & Hevs & _).
  assert (forall pre i, lead pre -> In i (reported (c_dfa toy) d_root (pre ++ s)) -> False) as Hno.
  { intros pre i Hpre Hi. assert (In 97 (pre ++ s)) as Ha by (apply in_app_iff; right; exact R3).
    apply toy_reported in Hi as [[E _]|[[E _]|[[E _]|[_ (x & v & E & Hx & Hv)]]]]; rewrite E in Ha; cbn in Ha; try (intuition discriminate).
    destruct Ha as [-> |Ha]; [discriminate Hx|]. rewrite Forall_forall in Hv. apply Hv in Ha. discriminate Ha. }
  exists [r], rp', (map (report_of name toy_nsym) ps), bp'. split; [exact R1|]. split; [rewrite buffer_all_map, Hp; reflexivity|]. split.
  - intro Heq. destruct ps as [|p ps]; [discriminate|]. cbn [map] in Heq. assert (r = report_of name toy_nsym p) as -> by congruence.
    cbn [report_of r_tokens] in R2. apply in_map_iff in R2 as (tok & Es & Hin). unfold shown in Es. injection Es as Es Ei El.
    destruct (C04_event_tokens_are_matches toy toy_nsym junk_log k m bp calls fuel sfuel (p :: ps) bp' p tok [8] toy_usable Hm Hb He Hp (or_introl eq_refl) Hin Ei ltac:(discriminate))
      as (pre & s' & Hpre & Ht & _ & Hrep).
    rewrite Es in Ht. injection Ht as <-. apply (Hno pre 8 Hpre). rewrite Hrep. left. reflexivity.
  - exists r, s, line. split; [left; reflexivity|]. split; [exact R2|]. intros pre Hpre.
    destruct (reported (c_dfa toy) d_root (pre ++ s)) as [|i l] eqn:E; [reflexivity|]. exfalso. apply (Hno pre i Hpre). rewrite E. left. reflexivity.
Qed.
Print Assumptions C47_refuted.
(** The hypotheses are met. *)
Example C47_refuted_applies : exists log chunk rp bp m calls fuel sfuel, log = junk_log /\ reader_idle toy_nsym rp /\ idle toy_nsym bp /\ fills chunk log /\ holds m log /\ enough log calls fuel sfuel.
Proof.
  exists junk_log, (fun _ => len junk_log), (rp_ready toy_nsym), (bp_init toy_nsym), (buf_of junk_log), (S (length junk_log)), (S (length junk_log)), (2 * length junk_log + 4)%nat.
  split; [reflexivity|]. split; [apply rp_ready_idle|]. split; [apply bp_init_idle|]. split; [intro n; unfold len; lia|]. split; [apply buf_of_holds|].
  constructor; unfold len; lia.
Qed.
