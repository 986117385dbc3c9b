(** PropertiesReaderLost.v -- C67 fails for a read that follows an enlargement of the buffer. *)
From Verif Require Import Base LexerModel LexerSpec LogParserModel EventSpec RingModel RingSpec ReaderSpec.
From Verif Require Import LexerProofs LogParserProofs EventProofs Toy EventMatch ReaderStuck ReaderWrong ReaderErrors ReaderLost PropertiesReader.

(** C67 (refuted for logs that need an enlargement): a Reader whose second call fails, once, on the log "T aaa...a5 \n" (23998
    letters). If no call fails, ReaderParser reports one event with the whole text. With the failure, the caller who calls again after
    the error gets the rest of the log as an event of its own, without the log's first byte (the first token, which had been
    parsed when the read failed). No byte of the source was lost: the Reader delivered all of it. *)
Theorem C67_refuted : exists c nsym log, usable c nsym /\ newline_free c /\ one_line c /\ sof_quiet c /\
  forall chunk name rp e calls fuel sfuel, reader_idle nsym rp -> fills chunk log -> enough log calls fuel sfuel ->
  (exists r rp', read_all chunk name nsym calls 1 fuel sfuel c log rp = Ret ([r], rp') /\ r_string r = Ret log) /\
  exists rs fp' x rest, retry_all chunk (fun n => if Nat.eqb n 1 then Some e else None) name nsym calls 1 fuel sfuel c log rp = Ret (rs, fp') /\
    errors_of rs = [e] /\ map r_string (events_of rs) = [Ret rest; Ret []] /\ log = x :: rest.
Proof.
  exists toy, toy_nsym, junk_log.
  split; [exact toy_usable|]. split; [exact toy_newline_free|]. split; [exact toy_one_line|]. split; [exact toy_quiet|].
  intros chunk name rp e calls fuel sfuel Hr Hf He.
  pose proof (en_calls _ _ _ _ He) as E1. pose proof (en_fuel _ _ _ _ He) as E2. pose proof (en_scan _ _ _ _ He) as E3.
  unfold len in E1, E2, E3. rewrite junk_len in E1, E2, E3. split.
  - apply reads_all; try assumption; lia.
  - destruct (loses_text chunk (fun n => if Nat.eqb n 1 then Some e else None) e name rp calls 1 fuel sfuel Hr Hf eq_refl eq_refl eq_refl) as (rs & fp' & H1 & H2 & H3); try lia.
    exists rs, fp', 84, (junk_body ++ [32; 10]). split; [exact H1|]. split; [exact H2|]. rewrite H3. rewrite junk_parts. split; reflexivity.
Qed.
Print Assumptions C67_refuted.
(** The hypotheses are met. *)
Example C67_refuted_applies : exists chunk rp calls fuel sfuel, reader_idle toy_nsym rp /\ fills chunk junk_log /\ enough junk_log calls fuel sfuel.
Proof.
  exists (fun _ => len junk_log), (rp_ready toy_nsym), (S (length junk_log)), (S (length junk_log)), (2 * length junk_log + 4)%nat.
  split; [apply rp_ready_idle|]. split; [intro n; unfold len; lia|]. constructor; unfold len; lia.
Qed.
