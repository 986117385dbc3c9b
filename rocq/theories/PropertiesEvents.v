(** PropertiesEvents.v -- C01, C02, C17-C21, C36, C40: parsing a finished buffer with BufferParser. *)
From Verif Require Import Base LexerModel LexerSpec LogParserModel EventSpec StreamModel.
From Verif Require Import LexerProofs LogParserProofs StreamProofs EventProofs Toy ToyTs.

(** C01: from reset() until done(), the events' texts, concatenated, are the buffer. *)
Theorem C01_lossless : forall c nsym t k m bp calls fuel sfuel,
  usable c nsym -> holds m t -> idle nsym bp -> enough t calls fuel sfuel ->
  exists ps bp' texts, parse_all calls fuel sfuel c k m t bp = Ret (ps, bp') /\
    bp_done bp' = true /\ idle nsym bp' /\
    map ev_to_string ps = map Ret texts /\ concat texts = t.
Proof.
  intros c nsym t k m bp calls fuel sfuel Hus Hh Hi He.
  destruct (parse_all_spec c nsym t k m Hus Hh calls fuel sfuel bp Hi He) as (ps & bp' & Hr & Hevs & Hd & Hi').
  destruct (events_texts c nsym t k m Hus Hh 0 ps Hevs) as (texts & H1 & H2 & _).
  exists ps, bp', texts. repeat (split; [assumption|]). rewrite H2. apply sub_full.
Qed.
Print Assumptions C01_lossless.

(** C02: every call returns Success, at most size+1 calls are needed, and every event but the last is not
    empty. (An error return would make [parse_all] Throw, a loop that does not end OutOfFuel.) *)
Theorem C02_terminates_and_succeeds : forall c nsym t k m bp calls fuel sfuel,
  usable c nsym -> holds m t -> idle nsym bp -> enough t calls fuel sfuel ->
  exists ps bp', parse_all calls fuel sfuel c k m t bp = Ret (ps, bp') /\ bp_done bp' = true /\
    (1 <= length ps <= S (length t))%nat /\
    forall i p, nth_error ps i = Some p -> (S i < length ps)%nat ->
      exists s, ev_to_string p = Ret s /\ s <> [].
Proof.
  intros c nsym t k m bp calls fuel sfuel Hus Hh Hi He.
  destruct (parse_all_spec c nsym t k m Hus Hh calls fuel sfuel bp Hi He) as (ps & bp' & Hr & Hevs & Hd & Hi').
  exists ps, bp'. split; [exact Hr|]. split; [exact Hd|]. split.
  - pose proof (events_length c nsym t k m Hus Hh 0 ps Hevs) as Hl. unfold len in Hl.
    split; [inversion Hevs; cbn; lia|lia].
  - intros i p Hp Hlt. destruct (events_texts c nsym t k m Hus Hh 0 ps Hevs) as (texts & H1 & _).
    destruct (events_nth c nsym t k m Hus Hh 0 ps Hevs texts i p H1 Hp) as (ei & ei' & fin & Hev & _ & _ & Hle & Hn).
    destruct (nth_error ps (S i)) as [p'|] eqn:Ep; [|apply nth_error_None in Ep; lia].
    destruct Hn as (_ & Hlt' & _). exists (sub t ei ei').
    split; [exact (evat_text c nsym t k m Hus Hh _ _ _ _ Hev)|].
    intros E. assert (len (sub t ei ei') = 0) by (rewrite E; reflexivity). rewrite sub_length in H by lia. lia.
Qed.
Print Assumptions C02_terminates_and_succeeds.

(** C17: after its first token an event with a timestamp contains no newline-timestamp token; if it is not
    the last event it ends with a newline and the next event begins, right after, with the rest of a
    newline-timestamp token. *)
Theorem C17_split_at_timestamps : forall c nsym t k m bp calls fuel sfuel ps bp' texts i p,
  usable c nsym -> holds m t -> idle nsym bp -> enough t calls fuel sfuel ->
  parse_all calls fuel sfuel c k m t bp = Ret (ps, bp') -> map ev_to_string ps = map Ret texts ->
  nth_error ps i = Some p -> ev_timestamp p <> None ->
  (forall tok, In tok (tl (ev_tokens p)) -> tok_type tok <> Ret TokenNewlineTimestamp) /\
  match nth_error ps (S i) with
  | None => True
  | Some p' => exists s tok, nth_error texts i = Some (s ++ [cNewline]) /\
      ev_timestamp p' = Some tok /\ tok_type tok = Ret TokenNewlineTimestamp /\
      t_start tok = len (concat (firstn (S i) texts))
  end.
Proof.
  intros c nsym t k m bp calls fuel sfuel ps bp' texts i p Hus Hh Hi He Hr Htx Hp Hts.
  destruct (parse_all_spec c nsym t k m Hus Hh calls fuel sfuel bp Hi He) as (ps0 & bp0 & Hr0 & Hevs & Hd & Hi').
  rewrite Hr in Hr0. injection Hr0 as <- <-.
  destruct (events_nth c nsym t k m Hus Hh 0 ps Hevs texts i p Htx Hp) as (ei & ei' & fin & Hev & Hei & Hti & Hle & Hn).
  destruct (evat_ts_interior c nsym t k m Hus Hh _ _ _ _ Hev Hts) as (Hint & Hend). split; [exact Hint|].
  destruct (nth_error ps (S i)) as [p'|] eqn:Ep; [|exact I].
  destruct Hn as (-> & Hlt & (ei2 & fin2 & Hev2) & Hlink).
  destruct (Hend eq_refl) as (_ & Hb & Hs & Hty & Hst). specialize (Hlink Hs).
  exists (sub t ei (ei' - 1)), (lp_start_tok p). split.
  - rewrite Hti. f_equal. rewrite <- (sub_one t (ei' - 1) cNewline Hb).
    replace (ei' - 1 + 1) with ei' by lia. apply sub_app; lia.
  - pose proof (evat_ts c nsym t k m _ _ _ _ Hev2) as Hts2.
    destruct (ev_timestamp p') as [tok'|].
    + destruct Hts2 as (Hhd & _). rewrite Hlink in Hhd. injection Hhd as <-.
      split; [reflexivity|]. split; [exact Hty|]. rewrite Hst.
      assert (Hcat : concat (firstn (S i) texts) = concat (firstn i texts) ++ sub t ei ei').
      { rewrite (firstn_snoc texts i _ Hti). rewrite concat_app. cbn. rewrite app_nil_r. reflexivity. }
      rewrite Hcat, len_app, sub_length by lia. lia.
    + exfalso. apply (Hts2 _ Hlink). right. exact Hty.
Qed.
Print Assumptions C17_split_at_timestamps.

(** C18 (partial): when the newline is a delimiter, the log does not contain the byte 0xFD and no variable
    matches a newline other than as its leading delimiter, an event without timestamp has a newline only as
    its first or its last byte. Missing: the first byte may be a newline too (C18_refuted), and nothing holds
    when the newline is not a delimiter. *)
Theorem C18_one_line_partial : forall c nsym t k m bp calls fuel sfuel ps bp' p s i,
  usable c nsym -> holds m t -> idle nsym bp -> enough t calls fuel sfuel ->
  newline_free c -> ~ In cCharStartOfFile t ->
  parse_all calls fuel sfuel c k m t bp = Ret (ps, bp') -> In p ps -> ev_timestamp p = None ->
  ev_to_string p = Ret s -> byte_at s i = Some cNewline -> i = 0 \/ i + 1 = len s.
Proof.
  intros c nsym t k m bp calls fuel sfuel ps bp' p s i Hus Hh Hi He Hnf Hns Hr Hp Hts Hs Hb.
  destruct (parse_all_spec c nsym t k m Hus Hh calls fuel sfuel bp Hi He) as (ps0 & bp0 & Hr0 & Hevs & Hd & Hi').
  rewrite Hr in Hr0. injection Hr0 as <- <-.
  destruct (events_texts c nsym t k m Hus Hh 0 ps Hevs) as (texts & Htx & _).
  apply In_nth_error in Hp as (j & Hp).
  destruct (events_nth c nsym t k m Hus Hh 0 ps Hevs texts j p Htx Hp) as (ei & ei' & fin & Hev & _ & _ & Hle & _).
  rewrite (evat_text c nsym t k m Hus Hh _ _ _ _ Hev) in Hs. injection Hs as <-.
  pose proof (byte_at_lt _ _ _ Hb) as Hlt. rewrite sub_length in Hlt by lia. rewrite byte_at_sub in Hb by lia.
  rewrite sub_length by lia.
  destruct (evat_nots_newline c nsym t k m Hus Hh Hnf Hns _ _ _ _ (ei + i) Hev Hts) as [E|E]; auto; lia.
Qed.
Print Assumptions C18_one_line_partial.

(** C18 as stated is false: "a\n\nb\n" gives the events "a\n" and "\nb\n". *)
Theorem C18_refuted : exists c nsym t k m bp calls fuel sfuel ps bp' p s i,
  usable c nsym /\ holds m t /\ idle nsym bp /\ enough t calls fuel sfuel /\ newline_free c /\
  parse_all calls fuel sfuel c k m t bp = Ret (ps, bp') /\ In p ps /\ ev_timestamp p = None /\
  ev_to_string p = Ret s /\ byte_at s i = Some cNewline /\ i + 1 <> len s.
Proof.
  exists toy, toy_nsym, [97;10;10;98;10], 0%nat, (buf_of [97;10;10;98;10]), (bp_init toy_nsym), 102%nat, 102%nat, 210%nat.
  eexists _, _, _, [10;98;10], 0. split; [exact toy_usable|]. split; [apply buf_of_holds|]. split; [apply bp_init_idle|].
  split; [apply enough_100; reflexivity|]. split; [exact toy_newline_free|].
  split; [vm_compute; reflexivity|]. split; [right; left; reflexivity|].
  split; [vm_compute; reflexivity|]. split; [vm_compute; reflexivity|]. split; [reflexivity|]. discriminate.
Qed.
Print Assumptions C18_refuted.

(** C19: get_timestamp() is the event's first token if this is a timestamp token, and null otherwise. *)
Theorem C19_get_timestamp : forall c nsym t k m bp calls fuel sfuel ps bp' p,
  usable c nsym -> holds m t -> idle nsym bp -> enough t calls fuel sfuel ->
  parse_all calls fuel sfuel c k m t bp = Ret (ps, bp') -> In p ps ->
  forall tok, ev_timestamp p = Some tok <-> (hd_error (ev_tokens p) = Some tok /\ is_timestamp tok).
Proof.
  intros c nsym t k m bp calls fuel sfuel ps bp' p Hus Hh Hi He Hr Hp tok.
  destruct (parse_all_spec c nsym t k m Hus Hh calls fuel sfuel bp Hi He) as (ps0 & bp0 & Hr0 & Hevs & Hd & Hi').
  rewrite Hr in Hr0. injection Hr0 as <- <-.
  destruct (events_texts c nsym t k m Hus Hh 0 ps Hevs) as (texts & Htx & _).
  apply In_nth_error in Hp as (j & Hp).
  destruct (events_nth c nsym t k m Hus Hh 0 ps Hevs texts j p Htx Hp) as (ei & ei' & fin & Hev & _).
  pose proof (evat_ts c nsym t k m _ _ _ _ Hev) as Hts. destruct (ev_timestamp p) as [tok'|].
  - destruct Hts as (H1 & H2). split.
    + intros [= <-]. auto.
    + intros (H3 & _). congruence.
  - split; [discriminate|]. intros (H1 & H2). exfalso. exact (Hts tok H1 H2).
Qed.
Print Assumptions C19_get_timestamp.

(** C20: get_variables(id) is the list of the event's tokens whose first type is id, in order. *)
Theorem C20_get_variables : forall c nsym t k m bp calls fuel sfuel ps bp' p id,
  usable c nsym -> holds m t -> idle nsym bp -> enough t calls fuel sfuel ->
  parse_all calls fuel sfuel c k m t bp = Ret (ps, bp') -> In p ps -> id < nsym ->
  ev_variables p id = Ret (filter (of_type id) (ev_tokens p)).
Proof.
  intros c nsym t k m bp calls fuel sfuel ps bp' p id Hus Hh Hi He Hr Hp Hid.
  destruct (parse_all_spec c nsym t k m Hus Hh calls fuel sfuel bp Hi He) as (ps0 & bp0 & Hr0 & Hevs & Hd & Hi').
  rewrite Hr in Hr0. injection Hr0 as <- <-.
  destruct (events_texts c nsym t k m Hus Hh 0 ps Hevs) as (texts & Htx & _).
  apply In_nth_error in Hp as (j & Hp).
  destruct (events_nth c nsym t k m Hus Hh 0 ps Hevs texts j p Htx Hp) as (ei & ei' & fin & Hev & _).
  rewrite (evat_vars c nsym t k m _ _ _ _ id Hev). apply N.ltb_lt in Hid. rewrite Hid. reflexivity.
Qed.
Print Assumptions C20_get_variables.

(** C21 (partial, soundness): a multiline event has a timestamp and a character after a newline. *)
Theorem C21_multiline_sound_partial : forall c nsym t k m bp calls fuel sfuel ps bp' p,
  usable c nsym -> holds m t -> idle nsym bp -> enough t calls fuel sfuel ->
  parse_all calls fuel sfuel c k m t bp = Ret (ps, bp') -> In p ps -> ev_multiline p = true ->
  ev_timestamp p <> None /\
  exists s i, ev_to_string p = Ret s /\ byte_at s i = Some cNewline /\ i + 1 < len s.
Proof.
  intros c nsym t k m bp calls fuel sfuel ps bp' p Hus Hh Hi He Hr Hp Hm.
  destruct (parse_all_spec c nsym t k m Hus Hh calls fuel sfuel bp Hi He) as (ps0 & bp0 & Hr0 & Hevs & Hd & Hi').
  rewrite Hr in Hr0. injection Hr0 as <- <-.
  destruct (events_texts c nsym t k m Hus Hh 0 ps Hevs) as (texts & Htx & _).
  apply In_nth_error in Hp as (j & Hp).
  destruct (events_nth c nsym t k m Hus Hh 0 ps Hevs texts j p Htx Hp) as (ei & ei' & fin & Hev & _ & _ & Hle & _).
  destruct (evat_multi_sound c nsym t k m Hus Hh _ _ _ _ Hev Hm) as (Hts & i & H1 & H2 & H3).
  split; [exact Hts|]. exists (sub t ei ei'), (i - ei).
  split; [exact (evat_text c nsym t k m Hus Hh _ _ _ _ Hev)|]. rewrite sub_length by lia.
  split; [|lia]. rewrite byte_at_sub by lia. rewrite <- H3. f_equal. lia.
Qed.
Print Assumptions C21_multiline_sound_partial.

(** C21 (partial, completeness): an event with a timestamp, other than the last of the log, in which a
    character follows a newline is multiline, provided the newline is a delimiter, 0xFD does not occur in the
    log, no variable matches an inner newline and the timestamp contains none. Missing: the last event
    (C21_refuted) and newlines inside tokens. *)
Theorem C21_multiline_complete_partial : forall c nsym t k m bp calls fuel sfuel ps bp' j p tok ts s i,
  usable c nsym -> holds m t -> idle nsym bp -> enough t calls fuel sfuel ->
  newline_free c -> ~ In cCharStartOfFile t ->
  parse_all calls fuel sfuel c k m t bp = Ret (ps, bp') -> nth_error ps j = Some p -> (S j < length ps)%nat ->
  ev_timestamp p = Some tok -> tok_text (ib_heap (lp_in p)) tok = Ret ts -> ~ In cNewline ts ->
  ev_to_string p = Ret s -> byte_at s i = Some cNewline -> i + 1 < len s ->
  ev_multiline p = true.
Proof.
  intros c nsym t k m bp calls fuel sfuel ps bp' j p tok ts s i Hus Hh Hi He Hnf Hns Hr Hp Hj Hts Htt Hnt Hs Hb Hlt.
  destruct (parse_all_spec c nsym t k m Hus Hh calls fuel sfuel bp Hi He) as (ps0 & bp0 & Hr0 & Hevs & Hd & Hi').
  rewrite Hr in Hr0. injection Hr0 as <- <-.
  destruct (events_texts c nsym t k m Hus Hh 0 ps Hevs) as (texts & Htx & _).
  destruct (events_nth c nsym t k m Hus Hh 0 ps Hevs texts j p Htx Hp) as (ei & ei' & fin & Hev & _ & _ & Hle & Hn).
  destruct (nth_error ps (S j)) as [p'|] eqn:Ep; [|apply nth_error_None in Ep; lia].
  destruct Hn as (-> & _).
  rewrite (evat_text c nsym t k m Hus Hh _ _ _ _ Hev) in Hs. injection Hs as <-.
  rewrite sub_length in Hlt by lia. rewrite byte_at_sub in Hb by lia.
  apply (evat_multi_complete c nsym t k m Hus Hh Hnf Hns ei p ei' (ei + i) tok Hev Hts); auto; try lia.
  intros q Hq Hbq. apply Hnt.
  pose proof (evat_ts c nsym t k m _ _ _ _ Hev) as Hhd. rewrite Hts in Hhd. destruct Hhd as (Hhd & _).
  pose proof (evat_chain c nsym t k m Hus Hh _ _ _ _ Hev) as Hch.
  destruct (ev_tokens p) as [|x l]; [discriminate|]. injection Hhd as ->. inversion Hch; subst.
  rewrite (tok_text_sub c t k m nsym (proj1 Hh) (us_ids _ _ Hus) (us_nsym _ _ Hus)) in Htt; auto;
    [|exact (ea_heap _ _ _ _ _ _ _ _ _ Hev)].
  injection Htt as <-. eapply in_sub; eauto.
Qed.
Print Assumptions C21_multiline_complete_partial.

(** C21 as stated is false: the log "T 1\n2" is one event of two lines and is not multiline. *)
Theorem C21_refuted : exists c nsym t k m bp calls fuel sfuel ps bp' p s i,
  usable c nsym /\ holds m t /\ idle nsym bp /\ enough t calls fuel sfuel /\
  parse_all calls fuel sfuel c k m t bp = Ret (ps, bp') /\ In p ps /\ ev_timestamp p <> None /\
  ev_to_string p = Ret s /\ byte_at s i = Some cNewline /\ i + 1 < len s /\ ev_multiline p = false.
Proof.
  exists toy, toy_nsym, [84;32;49;10;50], 0%nat, (buf_of [84;32;49;10;50]), (bp_init toy_nsym), 102%nat, 102%nat, 210%nat.
  eexists _, _, _, [84;32;49;10;50], 3. split; [exact toy_usable|]. split; [apply buf_of_holds|]. split; [apply bp_init_idle|].
  split; [apply enough_100; reflexivity|].
  split; [vm_compute; reflexivity|]. split; [left; reflexivity|].
  split; [vm_compute; discriminate|]. repeat split; vm_compute; reflexivity.
Qed.
Print Assumptions C21_refuted.

(** C36 (partial): if the byte just after the text may be read, a complete run neither dereferences a null
    DFA state nor reads outside the buffer ([UB]); and the lexer alone stays inside the text itself. Missing:
    the parser's read of buf[size] (C36_refuted) and schemas without variables (C36_null_state_refuted). *)
Theorem C36_no_undefined_behaviour_partial : forall c nsym t k m bp b calls fuel sfuel,
  usable c nsym -> idle nsym bp -> enough t calls fuel sfuel ->
  (holds m t -> parse_all calls fuel sfuel c k m t bp <> UB) /\
  (stored m t -> len t + 1 < N.of_nat calls -> lex_all calls sfuel c k m t b <> UB).
Proof.
  intros c nsym t k m bp b calls fuel sfuel Hus Hi He. split.
  - intros Hh. destruct (parse_all_spec c nsym t k m Hus Hh calls fuel sfuel bp Hi He) as (ps & bp' & Hr & _).
    rewrite Hr. discriminate.
  - intros Hm Hc. destruct He as [_ _ Hf].
    destruct (lex_all_spec c t k m (us_wf _ _ Hus) Hm sfuel calls b (us_sof _ _ Hus)) as (toks & Hr & _);
      [unfold scan_fuel; lia|exact Hc|]. rewrite Hr. discriminate.
Qed.
Print Assumptions C36_no_undefined_behaviour_partial.

(** C36 as stated is false: the log "a" in a buffer of exactly one byte makes parse read buf[1]. *)
Theorem C36_refuted : exists c nsym t k m bp calls fuel sfuel,
  usable c nsym /\ stored m t /\ m (len t) = None /\ idle nsym bp /\ enough t calls fuel sfuel /\
  parse_all calls fuel sfuel c k m t bp = UB.
Proof.
  exists toy, toy_nsym, [97], 0%nat, (exact_buf [97]), (bp_init toy_nsym), 102%nat, 102%nat, 210%nat.
  split; [exact toy_usable|]. split; [intros p _; reflexivity|]. split; [reflexivity|]. split; [apply bp_init_idle|].
  split; [apply enough_100; reflexivity|]. vm_compute. reflexivity.
Qed.
Print Assumptions C36_refuted.

(** And with a schema that has delimiters but no variable or timestamp (the DFA only knows the newline),
    the state after the start-of-file character is null: any log crashes the first scan. *)
Theorem C36_null_state_refuted : exists c t k m bp calls fuel sfuel,
  wf_cfg c /\ holds m t /\ idle 8 bp /\ enough t calls fuel sfuel /\
  parse_all calls fuel sfuel c k m t bp = UB.
Proof.
  exists (mkCfg (mkDfa (fun q x => match q with O => if x =? 10 then Some 1%nat else None | _ => None end)
                       (fun q => match q with 1%nat => [TokenNewline] | _ => [] end)) toy_delim true),
    [97], 0%nat, (buf_of [97]), (bp_init 8), 102%nat, 102%nat, 210%nat.
  split.
  - constructor; cbn.
    + reflexivity.
    + reflexivity.
    + intros [|[|q]] i; cbn; intros H; try contradiction. destruct H as [<-|[]]. split; discriminate.
    + intros w. unfold reported. destruct w as [|x w]; [contradiction|]. cbn [run d_next].
      destruct (N.eqb_spec x 10) as [->|]; [intros _; eexists; reflexivity|contradiction].
    + exists 1%nat. split; [reflexivity|discriminate].
  - split; [apply buf_of_holds|]. split; [apply bp_init_idle|].
    split; [apply enough_100; reflexivity|]. vm_compute. reflexivity.
Qed.
Print Assumptions C36_null_state_refuted.

(** C40: the logtype is the concatenation of the renderings of the event's tokens after the timestamp; it
    is the event's own text when all tokens are static. *)
Theorem C40_logtype : forall c nsym t k m bp calls fuel sfuel ps bp' p name,
  usable c nsym -> holds m t -> idle nsym bp -> enough t calls fuel sfuel ->
  parse_all calls fuel sfuel c k m t bp = Ret (ps, bp') -> In p ps ->
  (forall i, i < nsym -> name i <> None) ->
  (exists parts, Forall2 (render (ib_heap (lp_in p)) name) (logtype_tokens p) parts /\
     ev_logtype name p = Ret (concat parts)) /\
  ((forall tok, In tok (ev_tokens p) -> tok_type tok = Ret TokenUncaughtString) ->
     ev_logtype name p = ev_to_string p).
Proof.
  intros c nsym t k m bp calls fuel sfuel ps bp' p name Hus Hh Hi He Hr Hp Hn.
  destruct (parse_all_spec c nsym t k m Hus Hh calls fuel sfuel bp Hi He) as (ps0 & bp0 & Hr0 & Hevs & Hd & Hi').
  rewrite Hr in Hr0. injection Hr0 as <- <-.
  destruct (events_texts c nsym t k m Hus Hh 0 ps Hevs) as (texts & Htx & _).
  apply In_nth_error in Hp as (j & Hp).
  destruct (events_nth c nsym t k m Hus Hh 0 ps Hevs texts j p Htx Hp) as (ei & ei' & fin & Hev & _).
  split.
  - exact (evat_logtype c nsym t k m Hus Hh _ _ _ _ name Hev Hn).
  - intros Hst. exact (evat_logtype_static c nsym t k m Hus Hh _ _ _ _ name Hev Hn Hst).
Qed.
Print Assumptions C40_logtype.

(** Non-vacuity: three events of the toy configuration, two with a timestamp, the first multiline:
    "T 1\n2 x\nT 3\nT" . *)
Definition toy_log : list N := [84;32;49;10;50;32;120;10;84;32;51;10;84].
Example event_properties_apply :
  usable toy toy_nsym /\ newline_free toy /\ holds (buf_of toy_log) toy_log /\
  idle toy_nsym (bp_init toy_nsym) /\ enough toy_log 102 102 210 /\ ~ In cCharStartOfFile toy_log /\
  match parse_all 102 102 210 toy 0 (buf_of toy_log) toy_log (bp_init toy_nsym) with
  | Ret (ps, _) =>
      map ev_to_string ps = [Ret [84;32;49;10;50;32;120;10]; Ret [84;32;51;10]; Ret [84]] /\
      map ev_multiline ps = [true; false; false] /\
      map (fun p => match ev_timestamp p with Some tok => t_start tok | None => 99 end) ps = [0; 8; 12] /\
      map (fun p => match ev_variables p 8 with Ret l => map t_start l | _ => [] end) ps = [[1; 3]; [9]; []] /\
      map (ev_logtype (fun i => Some [i])) ps =
        [Ret [32;60;8;62;10;60;8;62;32;120;10]; Ret [32;60;8;62;10]; Ret []]
  | _ => False
  end.
Proof.
  split; [exact toy_usable|]. split; [exact toy_newline_free|]. split; [apply buf_of_holds|].
  split; [apply bp_init_idle|]. split; [apply enough_100; reflexivity|].
  split; [vm_compute; intuition discriminate|]. vm_compute. repeat split; reflexivity.
Qed.
