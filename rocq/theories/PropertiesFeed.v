(** PropertiesFeed.v -- C28, C29, C30, C45: offsets, resubmission and reset of BufferParser. *)
From Verif Require Import Base LexerModel LexerSpec LogParserModel EventSpec ViewModel ReaderSpec ViewSim FeedSpec.
From Verif Require Import LexerProofs LogParserProofs EventProofs ReaderProofs ReaderFits FlatSim FeedProofs FeedRuns PropertiesReader Toy.

(** Computes a result without the (function-valued) parser in it. *)
Definition first_of {A B} (x : out (A * B)) : option A := match x with Ret (a, _) => Some a | _ => None end.
Definition second_of {A B} (x : out (A * B)) (d : B) : B := match x with Ret (_, b) => b | _ => d end.
Lemma ret_of {A B} (x : out (A * B)) a d : first_of x = Some a -> x = Ret (a, second_of x d).
Proof. destruct x as [(a', b)| | |]; cbn; congruence. Qed.

Lemma map_ret_inj {A} : forall l1 l2 : list A, map Ret l1 = map Ret l2 -> l1 = l2.
Proof. induction l1 as [|x l1 IH]; intros [|y l2] H; try discriminate; [reflexivity|]. injection H as -> H. rewrite (IH _ H). reflexivity. Qed.

(** C30 (partial): reset() forgets the past, if the past ended between two logs: two parsers of the same schema that are
    [idle], whatever they parsed before, report the same events (all tokens, ids, lines, logtypes, ...) after reset, for
    any two buffers that hold the log. Missing: reset in the middle of a log (C30_refuted). *)
Theorem C30_reset_forgets_partial : forall c nsym log k1 k2 m1 m2 name bp1 bp2 calls fuel sfuel,
  usable c nsym -> sof_quiet c -> holds m1 log -> holds m2 log -> idle nsym bp1 -> idle nsym bp2 -> enough log calls fuel sfuel ->
  exists l bp1' bp2', buffer_all name nsym calls fuel sfuel c k1 m1 log bp1 = Ret (l, bp1') /\ idle nsym bp1' /\
    buffer_all name nsym calls fuel sfuel c k2 m2 log bp2 = Ret (l, bp2') /\ idle nsym bp2'.
Proof.
  intros c nsym log k1 k2 m1 m2 name bp1 bp2 calls fuel sfuel Hus Hq Hm1 Hm2 (I1 & J1) (I2 & J2) He.
  pose proof (reset_bstate log c k1 k2 (len log) true bp1 bp2 Hq I1 I2 ltac:(congruence)) as B.
  pose proof (flat_drive log c k1 k2 m1 m2 (wf_root _ (us_wf _ _ Hus)) Hm1 Hm2 name nsym calls fuel sfuel _ _ _ _ _ B eq_refl) as D.
  destruct (parse_all_spec c nsym log k1 m1 Hus Hm1 calls fuel sfuel bp1 (conj I1 J1) He) as (ps1 & bp1' & P1 & _ & _ & A1).
  destruct (parse_all_spec c nsym log k2 m2 Hus Hm2 calls fuel sfuel bp2 (conj I2 J2) He) as (ps2 & bp2' & P2 & _ & _ & A2).
  pose proof (buffer_all_map name nsym calls fuel sfuel c k1 m1 log bp1) as E1. rewrite P1 in E1. cbn [bind] in E1.
  pose proof (buffer_all_map name nsym calls fuel sfuel c k2 m2 log bp2) as E2. rewrite P2 in E2. cbn [bind] in E2.
  unfold buffer_all in *. rewrite E1, E2 in D |- *. cbn [bind] in D. injection D as ->. eexists _, _, _. eauto.
Qed.
Print Assumptions C30_reset_forgets_partial.

(** A parser with a history (it parsed "ab\nT 1") and a new one, on "T 1\n2": all hypotheses hold. *)
Example C30_example : exists l0 bp1 l bp1' bp2', idle toy_nsym bp1 /\
  buffer_all (fun _ => Some []) toy_nsym 102 102 210 toy 1 (buf_of [97;98;10;84;32;49]) [97;98;10;84;32;49] (bp_init toy_nsym) = Ret (l0, bp1) /\
  buffer_all (fun _ => Some []) toy_nsym 102 102 210 toy 1 (buf_of [84;32;49;10;50]) [84;32;49;10;50] bp1 = Ret (l, bp1') /\
  buffer_all (fun _ => Some []) toy_nsym 102 102 210 toy 7 (buf_of [84;32;49;10;50]) [84;32;49;10;50] (bp_init toy_nsym) = Ret (l, bp2') /\
  map r_string l = [Ret [84;32;49;10;50]].
Proof.
  destruct (C30_reset_forgets_partial toy toy_nsym [97;98;10;84;32;49] 1 1 _ _ (fun _ => Some []) _ _ 102 102 210 toy_usable (nf_sof _ toy_newline_free)
              (buf_of_holds _) (buf_of_holds _) (bp_init_idle _) (bp_init_idle _) (enough_100 [97;98;10;84;32;49] eq_refl)) as (l0 & bp1 & _ & H0 & I0 & _ & _).
  destruct (C30_reset_forgets_partial toy toy_nsym [84;32;49;10;50] 1 7 _ _ (fun _ => Some []) _ _ 102 102 210 toy_usable (nf_sof _ toy_newline_free)
              (buf_of_holds _) (buf_of_holds _) I0 (bp_init_idle _) (enough_100 [84;32;49;10;50] eq_refl)) as (l & bp1' & bp2' & H1 & _ & H2 & _).
  exists l0, bp1, l, bp1', bp2'. split; [exact I0|]. split; [exact H0|]. split; [exact H1|]. split; [exact H2|].
  enough (option_map (map r_string) (first_of (buffer_all (fun _ => Some []) toy_nsym 102 102 210 toy 7 (buf_of [84;32;49;10;50]) [84;32;49;10;50] (bp_init toy_nsym))) = Some [Ret [84;32;49;10;50]]) as K.
  { rewrite H2 in K. injection K as K. exact K. }
  vm_compute. reflexivity.
Qed.

(** C30 (refuted): after one event of "T 1\nT 2" and reset(), the log "5 6 7 8" is reported as "75 6 7 8": the token that
    begins the second event of the old log is still pending (LogParser.cpp 158-162 does not clear m_has_start_of_log). *)
Theorem C30_refuted : exists c nsym log1 log2 k m1 m2 calls fuel sfuel off bp1 bp2 bp3,
  usable c nsym /\ newline_free c /\ one_line c /\ holds m1 log1 /\ holds m2 log2 /\ idle nsym (bp_init nsym) /\
  parse_next_event fuel sfuel c k m1 (len log1) 0 true (bp_reset c (bp_init nsym)) = Ret (true, off, bp1) /\
  drive ev_to_string calls fuel sfuel c k m2 (len log2) 0 (bp_reset c (bp_init nsym)) = Ret ([Ret log2], bp2) /\
  exists s, drive ev_to_string calls fuel sfuel c k m2 (len log2) 0 (bp_reset c bp1) = Ret ([Ret s], bp3) /\ s = 55 :: log2.
Proof.
  exists toy, toy_nsym, [84;32;49;10;84;32;50], [53;32;54;32;55;32;56], 0%nat, (buf_of [84;32;49;10;84;32;50]), (buf_of [53;32;54;32;55;32;56]), 100%nat, 100%nat, 100%nat.
  eexists 5, _, _, _. split; [apply toy_usable|]. split; [apply toy_newline_free|]. split; [apply toy_one_line|].
  split; [apply buf_of_holds|]. split; [apply buf_of_holds|]. split; [apply bp_init_idle|].
  split; [apply (ret_of _ _ (bp_init toy_nsym)); vm_compute; reflexivity|].
  split; [apply (ret_of _ _ (bp_init toy_nsym)); vm_compute; reflexivity|].
  eexists. split; [apply (ret_of _ _ (bp_init toy_nsym)); vm_compute; reflexivity|]. reflexivity.
Qed.
Print Assumptions C30_refuted.

(** C45 (refuted): after reset(), parse_next_event on "xyT 1" from offset 2 reports the event "xyT 1", with the
    timestamp "xyT". *)
Theorem C45_refuted : exists c nsym buf k m fuel sfuel off bp' ts,
  usable c nsym /\ newline_free c /\ one_line c /\ holds m buf /\
  parse_next_event fuel sfuel c k m (len buf) 2 true (bp_reset c (bp_init nsym)) = Ret (true, off, bp') /\ bp_done bp' = true /\
  ev_to_string (bp_lp bp') = Ret buf /\ ev_timestamp (bp_lp bp') = Some ts /\ tok_text (ib_heap (lp_in (bp_lp bp'))) ts = Ret (firstn 3 buf).
Proof.
  exists toy, toy_nsym, [120;121;84;32;49], 0%nat, (buf_of [120;121;84;32;49]), 100%nat, 100%nat.
  eexists 5, _, _. split; [apply toy_usable|]. split; [apply toy_newline_free|]. split; [apply toy_one_line|]. split; [apply buf_of_holds|].
  split; [apply (ret_of _ _ (bp_init toy_nsym)); vm_compute; reflexivity|]. split; [vm_compute; reflexivity|]. split; [vm_compute; reflexivity|]. split; [vm_compute; reflexivity|]. vm_compute. reflexivity.
Qed.
Print Assumptions C45_refuted.

(** C29 (partial): offset after a successful call that does not finish the log. It is the end of the reported events if the
    event ends with a newline token (so its schema has no newline-crossing token there); otherwise the parser has already
    consumed the first token of the next event, and offset is the end of that token. Missing: the property itself (C29_refuted). *)
Theorem C29_offset_partial : forall c nsym t k m bp calls fuel sfuel l bp' off texts i p o p' o',
  usable c nsym -> c_delim c cNewline = true -> holds m t -> idle nsym bp -> enough t calls fuel sfuel ->
  feed (fun p => p) calls fuel sfuel c k m (len t) 0 true (bp_reset c bp) = Ret (l, true, off, bp') ->
  map ev_to_string (map fst l) = map Ret texts -> nth_error l i = Some (p, o) -> nth_error l (S i) = Some (p', o') ->
  let e := len (concat (firstn (S i) texts)) in
  (tok_type (last (ev_tokens p) default_token) = Ret TokenNewline /\ o = e) \/
  (tok_type (last (ev_tokens p) default_token) = Ret TokenUncaughtString /\
   exists tok s, hd_error (ev_tokens p') = Some tok /\ tok_text (ib_heap (lp_in p')) tok = Ret s /\ o = e + len s).
Proof.
  intros c nsym t k m bp calls fuel sfuel l bp' off texts i p o p' o' Hus Hdl Hm (I1 & I2) [He1 He2 He3] F Ht Hi Hi'.
  destruct (feed_offsets t c nsym k m Hus Hm Hdl fuel sfuel ltac:(unfold scan_fuel; lia) He2 calls (bp_reset c bp) 0 0 l off bp'
              (reset_ready c t k m nsym (proj1 Hm) (us_ids _ _ Hus) (us_nsym _ _ Hus) bp (us_sof _ _ Hus) I1 I2) eq_refl ltac:(lia) F texts Ht i p o p' o' Hi Hi') as (ei & Hev & H).
  rewrite N.add_0_l in *. intro e. fold e in H, Hev.
  pose proof (last_newline t c nsym k m _ _ _ default_token Hev) as L. unfold ev_tokens. destruct (lp_has_start p).
  - right. split; [exact L|]. destruct H as (tok & H1 & H2 & H3 & H4 & H5). exists tok. eexists. split; [exact H1|]. split; [exact H5|].
    rewrite sub_length by lia. lia.
  - left. auto.
Qed.
Print Assumptions C29_offset_partial.

(** C29 (refuted): "T 1\nT 2": the first event is "T 1\n", 4 bytes; the offset after it is 5, past the second "T". *)
Theorem C29_refuted : exists c nsym t k m calls fuel sfuel l,
  usable c nsym /\ newline_free c /\ one_line c /\ holds m t /\ enough t calls fuel sfuel /\ idle nsym (bp_init nsym) /\
  (exists off bp', feed ev_to_string calls fuel sfuel c k m (len t) 0 true (bp_reset c (bp_init nsym)) = Ret (l, true, off, bp')) /\
  exists s1 s2 o1 o2, l = [(Ret s1, o1); (Ret s2, o2)] /\ s1 ++ s2 = t /\ len s1 < o1.
Proof.
  exists toy, toy_nsym, [84;32;49;10;84;32;50], 0%nat, (buf_of [84;32;49;10;84;32;50]), 102%nat, 102%nat, 210%nat. eexists.
  split; [apply toy_usable|]. split; [apply toy_newline_free|]. split; [apply toy_one_line|]. split; [apply buf_of_holds|]. split; [apply enough_100; reflexivity|].
  split; [apply bp_init_idle|]. split.
  - eexists 7, _. apply (ret_of _ _ (bp_init toy_nsym)). vm_compute. reflexivity.
  - eexists [84;32;49;10], [84;32;50], 5, 7. split; [reflexivity|]. split; [reflexivity|]. reflexivity.
Qed.
Print Assumptions C29_refuted.
(** Both cases of C29_offset_partial occur: "x\ny\nT 2" (a newline token ends the first event, the timestamp the second). *)
Example C29_example : exists l off bp', feed (fun p => p) 102 102 210 toy 0 (buf_of [120;10;121;10;84;32;50]) 7 0 true (bp_reset toy (bp_init toy_nsym)) = Ret (l, true, off, bp') /\
  map (fun x => (ev_to_string (fst x), snd x)) l = [(Ret [120;10], 2); (Ret [121;10], 5); (Ret [84;32;50], 7)].
Proof.
  destruct (feed (fun p => p) 102 102 210 toy 0 (buf_of [120;10;121;10;84;32;50]) 7 0 true (bp_reset toy (bp_init toy_nsym))) as [(((l, d), off), bp')| | |] eqn:E.
  2-4: apply (f_equal (fun x => match x with Ret _ => true | _ => false end)) in E; vm_compute in E; discriminate.
  pose proof (f_equal (fun x => match x with Ret (l, d, _, _) => (d, map (fun x => (ev_to_string (fst x), snd x)) l) | _ => (false, []) end) E) as K.
  vm_compute in K. symmetry in K. injection K as -> K. exists l, off, bp'. split; [reflexivity|]. exact K.
Qed.

(** C28 (partial): the log is [chunk ++ rest]; [chunk] is submitted first, with finished_reading_input = false, to a parser
    with any history after which it is idle. The calls report a beginning of the events the whole log has, then
    BufferOutOfBounds, and leave the parser reset and idle (so the same holds for what is submitted next). If the first event
    not reported yet has a timestamp, offset is where it starts: what was reported is exactly buf[0:offset].
    Missing: events without a timestamp (C28_refuted). *)
Theorem C28_resumable_partial : forall c nsym chunk rest k k2 m m2 name bp bp2 calls fuel sfuel,
  usable c nsym -> sof_quiet c -> holds m chunk -> holds m2 (chunk ++ rest) -> idle nsym bp -> idle nsym bp2 -> enough (chunk ++ rest) calls fuel sfuel ->
  exists l1 off bp1 r2 l2 bpw texts1,
    feed (report_of name nsym) calls fuel sfuel c k m (len chunk) 0 false (bp_reset c bp) = Ret (l1, false, off, bp1) /\
    buffer_all name nsym calls fuel sfuel c k2 m2 (chunk ++ rest) bp2 = Ret (map fst l1 ++ r2 :: l2, bpw) /\
    (exists bp0, bp1 = bp_reset c bp0 /\ idle nsym bp0) /\
    map r_string (map fst l1) = map Ret texts1 /\ (exists n, concat texts1 = firstn n chunk) /\
    (r_timestamp r2 <> None -> concat texts1 = firstn (N.to_nat off) chunk /\ off <= len chunk).
Proof.
  intros c nsym chunk rest k k2 m m2 name bp bp2 calls fuel sfuel Hus Hq Hm Hm2 (I1 & J1) (I2 & J2) [He1 He2 He3].
  set (log := chunk ++ rest) in *. assert (len chunk <= len log) as Hle by (unfold log; rewrite len_app; lia).
  assert (sub log 0 (len chunk) = chunk) as Hsub.
  { unfold log, sub, len. cbn [N.to_nat skipn]. rewrite N.sub_0_r, Nnat.Nat2N.id. rewrite firstn_app, firstn_all, Nat.sub_diag. cbn. apply app_nil_r. }
  pose proof (reset_bstate log c k k2 (len chunk) false bp bp2 Hq I1 I2 ltac:(congruence)) as B.
  destruct (feed_sim log c nsym k k2 m m2 0 (len chunk) false Hus ltac:(lia) Hle ltac:(discriminate) ltac:(rewrite Hsub; exact Hm) Hm2 fuel sfuel
     ltac:(unfold scan_fuel; lia) He2 name calls 0 0 0 (bp_reset c bp) (bp_reset c bp2) 0 B eq_refl
     (reset_ready c log k2 m2 nsym (proj1 Hm2) (us_ids _ _ Hus) (us_nsym _ _ Hus) bp2 (us_sof _ _ Hus) I2 J2) ltac:(lia))
    as (l1 & l2 & dn & off & bp1 & offw & bpw & ps1 & ps2 & F1 & F2 & F3 & F4 & F5 & F6 & F7 & F8).
  unfold shift in F1. rewrite N.sub_0_r in F1. cbn [N.sub] in F1.
  assert (dn = false) as ->.
  { apply (feed_open c (fun q => fun l E => proj1 (wf_ids _ (us_wf _ _ Hus) q TokenEnd ltac:(injection E as ->; left; reflexivity)) eq_refl) _ _ _ _ _ _ _ _ _ _ _ _ _
      (reset_goes_on c bp I1) eq_refl F1). }
  destruct (F8 eq_refl) as (_ & _ & texts1 & Ht1 & [S1 S2 S3 S4 S5]). rewrite N.add_0_l in *.
  assert (exists p2 ps, ps2 = p2 :: ps) as (p2 & ps & ->) by (inversion S4; eauto).
  destruct (parse_all_spec c nsym log k2 m2 Hus Hm2 calls fuel sfuel bp2 (conj I2 J2) (Build_enough _ _ _ _ He1 He2 He3)) as (psw & bpx & P & _ & _ & Ix).
  pose proof (feed_drive (fun p => p) calls fuel sfuel c k2 m2 (len log) 0 (bp_reset c bp2) psw bpx P) as (lo & offo & Fo & Eo).
  rewrite F2 in Fo. injection Fo as <- <- <-. rewrite F5 in Eo. subst psw.
  exists l1, off, bp1, (report_of name nsym p2), (map (report_of name nsym) ps), bpw, texts1.
  split; [exact F1|]. split.
  { rewrite buffer_all_map, P. cbn [bind]. rewrite map_app, F4. reflexivity. }
  split.
  { destruct S3 as (bp0 & ->). exists bp0. split; [reflexivity|]. exact S2. }
  assert (concat texts1 = firstn (N.to_nat (len (concat texts1))) chunk) as Hc.
  { destruct (events_texts c nsym log k2 m2 Hus Hm2 _ _ F6) as (tx & T1 & T2 & _).
    rewrite map_app in T1. destruct (events_texts c nsym log k2 m2 Hus Hm2 _ _ S4) as (tx2 & T3 & T4 & _).
    rewrite Ht1, T3, <- map_app in T1. apply map_ret_inj in T1. subst tx. rewrite concat_app, T4, sub_full in T2.
    assert (firstn (N.to_nat (len (concat texts1))) log = concat texts1) as T5.
    { rewrite <- T2. unfold len. rewrite Nnat.Nat2N.id, firstn_app, firstn_all, Nat.sub_diag. cbn. apply app_nil_r. }
    rewrite <- T5 at 1. unfold log. rewrite firstn_app. replace (N.to_nat (len (concat texts1)) - length chunk)%nat with 0%nat by (unfold len in *; lia).
    cbn. apply app_nil_r. }
  split; [rewrite F4, map_map, <- Ht1; reflexivity|]. split; [eexists; exact Hc|].
  intros Hts. destruct S5 as [->|(p & ps' & E & Ets)].
  - unfold shift. rewrite N.sub_0_r. split; [exact Hc|exact S1].
  - injection E as <- <-. cbn in Hts. rewrite Ets in Hts. contradiction Hts. reflexivity.
Qed.
Print Assumptions C28_resumable_partial.

(** "T 1\nT 2\nT 3" submitted as "T 1\nT 2\n": the second event is not reported, and offset is 4. *)
Example C28_example : exists l1 bp1, feed ev_to_string 102 102 210 toy 0 (buf_of [84;32;49;10;84;32;50;10]) 8 0 false (bp_reset toy (bp_init toy_nsym)) = Ret (l1, false, 4, bp1) /\
  map fst l1 = [Ret [84;32;49;10]] /\ holds (buf_of [84;32;49;10;84;32;50;10]) [84;32;49;10;84;32;50;10] /\ enough ([84;32;49;10;84;32;50;10] ++ [84;32;51]) 102 102 210.
Proof.
  eexists [(Ret [84;32;49;10], 5)], _. split; [apply (ret_of _ _ (bp_init toy_nsym)); vm_compute; reflexivity|].
  split; [reflexivity|]. split; [apply buf_of_holds|apply enough_100; reflexivity].
Qed.

(** C28 (refuted), bytes repeated: "1 2\n3 4" with finished_reading_input = false. The event "1 2\n" is reported, then
    BufferOutOfBounds with offset 0: resubmitting buf[0..] reports "1 2\n" again. *)
Theorem C28_refuted : exists c nsym chunk k m calls fuel sfuel o bp1,
  usable c nsym /\ newline_free c /\ one_line c /\ holds m chunk /\ enough chunk calls fuel sfuel /\ idle nsym (bp_init nsym) /\
  feed ev_to_string calls fuel sfuel c k m (len chunk) 0 false (bp_reset c (bp_init nsym)) = Ret ([(Ret (firstn 4 chunk), o)], false, 0, bp1) /\ len chunk = 7.
Proof.
  exists toy, toy_nsym, [49;32;50;10;51;32;52], 0%nat, (buf_of [49;32;50;10;51;32;52]), 102%nat, 102%nat, 210%nat, 5. eexists.
  split; [apply toy_usable|]. split; [apply toy_newline_free|]. split; [apply toy_one_line|]. split; [apply buf_of_holds|]. split; [apply enough_100; reflexivity|].
  split; [apply bp_init_idle|]. split; [apply (ret_of _ _ (bp_init toy_nsym)); vm_compute; reflexivity|]. reflexivity.
Qed.
Print Assumptions C28_refuted.
(** C28 (refuted), bytes lost: a parser that has parsed "ab\nT 1" until done() is reset and given "1 2": no event is
    reported, and offset becomes 3, the start of the old log's timestamp. *)
Theorem C28_lost_refuted : exists c nsym log chunk k m1 m2 calls fuel sfuel l0 bp0 bp1,
  usable c nsym /\ newline_free c /\ one_line c /\ holds m1 log /\ holds m2 chunk /\ enough log calls fuel sfuel /\ enough chunk calls fuel sfuel /\
  parse_all calls fuel sfuel c k m1 log (bp_init nsym) = Ret (l0, bp0) /\ idle nsym bp0 /\ bp_done bp0 = true /\
  feed ev_to_string calls fuel sfuel c k m2 (len chunk) 0 false (bp_reset c bp0) = Ret ([], false, len chunk, bp1) /\ len chunk = 3.
Proof.
  destruct (parse_all_spec toy toy_nsym [97;98;10;84;32;49] 0 (buf_of [97;98;10;84;32;49]) toy_usable (buf_of_holds _) 102 102 210 (bp_init toy_nsym) (bp_init_idle _) (enough_100 [97;98;10;84;32;49] eq_refl))
    as (l0 & bp0 & P & _ & D & Id).
  exists toy, toy_nsym, [97;98;10;84;32;49], [49;32;50], 0%nat, (buf_of [97;98;10;84;32;49]), (buf_of [49;32;50]), 102%nat, 102%nat, 210%nat, l0, bp0. eexists.
  split; [apply toy_usable|]. split; [apply toy_newline_free|]. split; [apply toy_one_line|]. split; [apply buf_of_holds|]. split; [apply buf_of_holds|].
  split; [apply enough_100; reflexivity|]. split; [apply enough_100; reflexivity|]. split; [exact P|]. split; [exact Id|]. split; [exact D|].
  split; [|reflexivity]. apply (ret_of _ _ (bp_init toy_nsym)).
  pose proof (f_equal (fun x => second_of x (bp_init toy_nsym)) P) as Q. cbn [second_of] in Q. rewrite <- Q. clear. vm_compute. reflexivity.
Qed.
Print Assumptions C28_lost_refuted.
