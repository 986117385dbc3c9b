(** ReaderStuck.v -- a ReaderParser that enlarges its buffer for ever (C27). *)
From Verif Require Import Base LexerModel LexerSpec LogParserModel EventSpec EventProofs RingModel RingSpec FuelMono ReaderSpec Toy.

(** * The stuck state: the lexer waits for data, the first half was read last, and the consumed position is 0, so that
    no read is ever safe, whatever the size of the buffer. *)
Record stuck (p : lparser) : Prop := {
  st_asked : l_asked (lp_lex p) = true;
  st_prev : exists q, l_prev (lp_lex p) = Some q;
  st_fin : ib_fin (lp_in p) = false;
  st_lrfh : ib_lrfh (lp_in p) = true;
  st_cons : ib_cons (lp_in p) = 0;
  st_pos : ib_pos (lp_in p) = ib_size (lp_in p) / 2;
  st_out : ob_pos (lp_out p) <> 0;
  st_size : 0 < ib_size (lp_in p)
}.
Lemma stuck_parse : forall fuel sfuel c p, stuck p ->
  parse_and_generate_metadata fuel sfuel c p = OutOfFuel \/ exists p1, parse_and_generate_metadata fuel sfuel c p = Ret (None, p1) /\ stuck p1.
Proof.
  intros fuel sfuel c p [H1 (q & H2) H3 H4 H5 H6 H7 H8]. unfold parse_and_generate_metadata, parse.
  destruct (N.eqb_spec (ob_pos (lp_out p)) 0); [contradiction|].
  destruct fuel as [|fuel]; [left; reflexivity|]. cbn [parse_loop]. unfold get_next_symbol, scan. rewrite H1, H2.
  destruct sfuel as [|sfuel]; [left; reflexivity|]. cbn [scan_loop]. unfold get_next_character. rewrite H3, H4, H6, N.eqb_refl. cbn [andb orb bind].
  right. eexists. split; [reflexivity|]. constructor; cbn; auto. eauto.
Qed.
Lemma stuck_grow : forall chunk p r, stuck p -> exists p', lp_read chunk (lp_grow p) r = (p', r) /\ stuck p'.
Proof.
  intros chunk p r [H1 (q & H2) H3 H4 H5 H6 H7 H8].
  assert (exists p', lp_grow p = p' /\ stuck p') as (p' & E & K).
  { eexists. split; [reflexivity|]. unfold lp_grow, increase_buffer_capacity.
    destruct (ib_size (lp_in p) <? ib_size (increase_capacity (lp_in p))); constructor; cbn; rewrite ?N.div_mul by lia; auto; eauto; try lia;
      unfold capacity_flips; rewrite H4; cbn; destruct (_ =? 0); cbn; eauto. }
  rewrite E. exists p'. split; [|exact K]. destruct K as [_ _ K3 K4 K5 _ _ _]. unfold lp_read, read_if_safe, read_is_safe. rewrite K3, K4, K5. cbn [negb andb orb]. rewrite andb_false_r.
  destruct p'; reflexivity.
Qed.
Lemma stuck_loop : forall chunk grow fuel sfuel c p d r, stuck p -> rp_loop chunk grow fuel sfuel c p d r = OutOfFuel.
Proof.
  induction grow as [|grow IH]; intros fuel sfuel c p d r S; cbn [rp_loop];
    destruct (stuck_parse fuel sfuel c p S) as [E|(p1 & E & S1)]; rewrite E; cbn [bind]; try reflexivity.
  destruct (stuck_grow chunk p1 r S1) as (p' & -> & S'). apply IH, S'.
Qed.

(** * A log that leads there: a newline, a timestamp, and then no variable for the rest of the first half. *)
Opaque N.to_nat.
Definition stuck_log (n : nat) : list N := [10; 84; 32] ++ repeat 97 n.
Lemma stuck_log_at : forall n i, 3 <= i -> i < N.of_nat n + 3 -> byte_at (stuck_log n) i = Some 97.
Proof.
  intros n i H1 H2. unfold byte_at, stuck_log. rewrite nth_error_app2 by (cbn; lia). cbn [length].
  assert (N.to_nat i - 3 < n)%nat as L by lia. revert L. generalize (N.to_nat i - 3)%nat. clear. induction n as [|n IH]; intros [|j] L; try lia; [reflexivity|].
  apply IH. lia.
Qed.
Lemma stuck_log_len : forall n, length (stuck_log n) = (n + 3)%nat.
Proof. intro n. unfold stuck_log. rewrite app_length, repeat_length. cbn. lia. Qed.

Definition half_full (h : heap) (pos cons : N) : ibuf := mkIbuf h Static 0%nat 48000 pos 24000 true false false cons.

Lemma first_read : forall chunk c rp log, fills chunk log -> 24000 <= len log ->
  exists h, lp_read chunk (reset_log_event_view (rp_lp (rp_reset c rp (mkReader log 0)))) (mkReader log 0) =
    (lp_set_lexin (reset_log_event_view (rp_lp rp)) (prepend_sof c lex_reset (ib_reset (lp_in (rp_lp rp)))) (half_full h 0 47999),
     mkReader (skipn (N.to_nat 24000) log) 1) /\
    forall i, i < 24000 -> h Static i = byte_at log i.
Proof.
  intros chunk c rp log Hf Hn. unfold lp_read. cbn [rp_reset rp_lp reset_log_event_view lp_reset lp_in lp_set_lexin lp_lex lp_has_start lp_start_tok lp_out lp_multi lp_occ].
  assert (read_is_safe (ib_reset (lp_in (rp_lp rp))) = true) as E by reflexivity. unfold read_if_safe. rewrite E. clear E.
  unfold ib_read, rd_read. cbn [rd_rest]. unfold len in Hn.
  assert (rd_amount chunk (mkReader log 0) (ib_size (ib_reset (lp_in (rp_lp rp))) / 2) = 24000) as Ea.
  { change (ib_size (ib_reset (lp_in (rp_lp rp))) / 2) with 24000. unfold rd_amount. cbn [rd_rest rd_calls]. specialize (Hf 0%nat). lia. }
  destruct log as [|x l] eqn:El; [cbn in Hn; lia|]. rewrite <- El in *. clear x l El. rewrite Ea. clear Ea.
  set (bytes := firstn (N.to_nat 24000) log).
  assert (N.of_nat (length bytes) = 24000) as Lb.
  { unfold bytes. rewrite firstn_length. lia. }
  unfold ib_fill. rewrite Lb. cbn [ib_reset ib_lrfh ib_last ib_size ib_pos ib_heap ib_active ib_dyn ib_fin ib_full ib_cons]. cbv zeta. cbn [negb].
  change (cStaticByteBuffSize <? 0 + 24000) with false. change (24000 <? cStaticByteBuffSize / 2) with false. cbn iota.
  eexists. split; [reflexivity|]. intros i Hi. unfold heap_set, mem_write. cbn [sid_eqb]. rewrite Lb. destruct (N.leb_spec 0 i); [|lia].
  destruct (N.ltb_spec i (0 + 24000)); [|lia]. cbn [andb]. rewrite N.sub_0_r. unfold bytes, byte_at.
  rewrite EventProofs.nth_error_firstn_lt; [reflexivity|lia].
Qed.

Lemma half_next : forall h p cons x, p < 24000 -> h Static p = Some x ->
  get_next_character (half_full h p cons) = Ret (Some (x, half_full h (p + 1) cons)).
Proof.
  intros h p cons x Hp Hx. unfold get_next_character, half_full. cbn [ib_fin ib_lrfh ib_pos ib_size ib_heap ib_active andb negb orb].
  change (48000 / 2) with 24000. destruct (N.eqb_spec p 24000); [lia|]. cbn [orb]. rewrite Hx. destruct (N.eqb_spec (p + 1) 48000); [lia|]. reflexivity.
Qed.
Lemma half_stop : forall h cons, get_next_character (half_full h 24000 cons) = Ret None.
Proof. reflexivity. Qed.

Lemma skip_stuck : forall h cons k fuel p prev, (forall i, p <= i -> i < 24000 -> h Static i = Some 97) ->
  p + N.of_nat k = 24000 -> (k < fuel)%nat ->
  skip_loop fuel toy 97 prev (half_full h p cons) = Ret (None, half_full h 24000 cons).
Proof.
  induction k as [|k IH]; intros fuel p prev Hh Hp Hf; (destruct fuel as [|fuel]; [lia|]); cbn [skip_loop].
  - replace p with 24000 by lia. reflexivity.
  - change (negb (ib_full (half_full h p cons)) && (negb (c_first toy 97) || negb (c_delim toy 97))) with true. cbn iota.
    rewrite (half_next h p cons 97) by (try apply Hh; lia). apply IH; [intros; apply Hh; lia|lia|lia].
Qed.

Definition at_sof : lex := mkLex 0 0 0 0 0 false None 0 true (Some 1%nat).
Definition after_ts : lex := mkLex 2 0 1 2 1 false (Some [TokenNewlineTimestamp]) 1 false (Some 1%nat).
Lemma scan_first : forall h s, h Static 0 = Some 10 -> h Static 1 = Some 84 -> h Static 2 = Some 32 ->
  scan (S (S (S s))) toy at_sof (half_full h 0 47999) =
    Ret (Some (mkToken 0 2 Static 48000 1 (Some [TokenNewlineTimestamp])), after_ts, half_full h 2 47999).
Proof.
  intros h s H0 H1 H2. unfold scan. cbn [at_sof l_asked l_prev].
  remember (S (S s)) as f1 eqn:E1. cbn [scan_loop]. rewrite (half_next h 0 47999 10) by (try assumption; lia). change (0 + 1) with 1.
  cbn -[scan_loop]. fold (half_full h 1 47999). subst f1. remember (S s) as f1 eqn:E1. cbn [scan_loop]. rewrite (half_next h 1 47999 84) by (try assumption; lia). change (1 + 1) with 2.
  cbn -[scan_loop]. fold (half_full h 2 47999). subst f1. cbn [scan_loop]. rewrite (half_next h 2 47999 32) by (try assumption; lia). change (2 + 1) with 3.
  reflexivity.
Qed.

(** The first event is the newline; the parser keeps the timestamp for the next event. *)
Lemma first_call : forall chunk grow rp n fuel sfuel, reader_idle toy_nsym rp -> fills chunk (stuck_log n) -> 23997 <= N.of_nat n ->
  exists h p r, rp_parse_next_event chunk grow fuel (S (S (S sfuel))) toy (rp_reset toy rp (mkReader (stuck_log n) 0)) = Ret (mkRp p false r) /\
    lp_in p = half_full h 2 0 /\ lp_lex p = after_ts /\
    lp_has_start p = true /\ t_ids (lp_start_tok p) = Some [TokenNewlineTimestamp] /\
    forall i, i < 24000 -> h Static i = byte_at (stuck_log n) i.
Proof.
  intros chunk grow rp n fuel sfuel [I1 I2 I3] Hf Hn. unfold rp_parse_next_event.
  destruct (first_read chunk toy rp (stuck_log n) Hf ltac:(unfold len; rewrite stuck_log_len; lia)) as (h & E & Hh). set (r := mkReader (skipn _ _) 1) in E. cbn [rp_reset rp_rd rp_done] in E |- *. rewrite E. clear E.
  assert (h Static 0 = Some 10) as H0 by (rewrite Hh by lia; reflexivity).
  assert (h Static 1 = Some 84) as H1 by (rewrite Hh by lia; reflexivity).
  assert (h Static 2 = Some 32) as H2 by (rewrite Hh by lia; reflexivity).
  change (prepend_sof toy lex_reset (ib_reset (lp_in (rp_lp rp)))) with at_sof.
  assert (exists p, parse_and_generate_metadata fuel (S (S (S sfuel))) toy
     (lp_set_lexin (reset_log_event_view (rp_lp rp)) at_sof (half_full h 0 47999)) = Ret (Some ActCompress, p) /\
     lp_in p = half_full h 2 0 /\ lp_lex p = after_ts /\
    lp_has_start p = true /\ t_ids (lp_start_tok p) = Some [TokenNewlineTimestamp]) as (p & E & K1 & K2 & K3 & K4).
  2: { exists h, p, r. destruct grow; cbn [rp_loop]; rewrite E; cbn [bind]; auto 10. }
  unfold parse_and_generate_metadata, parse. cbn [lp_out lp_set_lexin reset_log_event_view ob_reset ob_pos lp_set_out lp_has_start]. rewrite N.eqb_refl. cbn iota zeta. cbn [lp_has_start lp_set_out]. rewrite I1.
  unfold get_next_symbol. cbn [lp_lex lp_in lp_set_out lp_set_lexin reset_log_event_view]. rewrite (scan_first h sfuel H0 H1 H2).
  cbn [bind lp_out lp_set_lexin ob_has_ts ob_set_delims lp_set_out]. cbn [tok_type t_ids bind]. rewrite N.eqb_refl. cbn iota.
  unfold generate_metadata. cbn -[half_full].
  destruct (lp_occ (rp_lp rp)) as [|x0 [|x1 l]]; try discriminate. cbn -[half_full].
  change (indices 1 2) with [1]. cbn -[half_full]. unfold ob_upd. rewrite N.eqb_refl. cbn. unfold tok_delimiter. cbn. rewrite H0. cbn. eexists. split; [reflexivity|]. cbn. auto.
Qed.

(** The second call never ends. *)
Lemma second_call : forall chunk grow fuel sfuel n h p r, 
  lp_in p = half_full h 2 0 -> lp_lex p = after_ts -> lp_has_start p = true -> t_ids (lp_start_tok p) = Some [TokenNewlineTimestamp] ->
  (forall i, i < 24000 -> h Static i = byte_at (stuck_log n) i) -> 23997 <= N.of_nat n ->
  24000 <= N.of_nat sfuel -> rp_parse_next_event chunk grow (S fuel) (S (S sfuel)) toy (mkRp p false r) = OutOfFuel.
Proof.
  intros chunk grow fuel sfuel n h p r Ei El Hs Hid Hh Hn Hsf. unfold rp_parse_next_event.
  assert (h Static 2 = Some 32) as H2 by (rewrite Hh by lia; reflexivity).
  assert (forall i, 3 <= i -> i < 24000 -> h Static i = Some 97) as H3 by (intros i Q1 Q2; rewrite Hh by lia; apply stuck_log_at; lia).
  unfold lp_read. cbn [rp_lp rp_rd rp_done reset_log_event_view lp_in lp_lex]. rewrite Ei. unfold read_if_safe.
  change (read_is_safe (half_full h 2 0)) with false. cbn iota. rewrite El.
  set (p1 := lp_set_lexin (reset_log_event_view p) after_ts (half_full h 2 0)).
  assert (exists p2, parse_and_generate_metadata (S fuel) (S (S sfuel)) toy p1 = Ret (None, p2) /\ stuck p2) as (p2 & E & St).
  { unfold parse_and_generate_metadata, parse, p1. cbn [lp_out lp_set_lexin reset_log_event_view ob_reset ob_pos lp_set_out lp_has_start lp_start_tok]. rewrite N.eqb_refl. cbn iota zeta. cbn [lp_has_start lp_set_out lp_start_tok]. rewrite Hs.
    unfold parse_first, tok_type. rewrite Hid. cbn [bind]. change (TokenNewlineTimestamp =? TokenEnd) with false. change ((TokenNewlineTimestamp =? TokenFirstTimestamp) || (TokenNewlineTimestamp =? TokenNewlineTimestamp)) with true. cbn [parse_loop].
    unfold get_next_symbol. cbn [lp_set_start lp_set_out lp_lex lp_in lp_set_lexin reset_log_event_view]. unfold scan. cbn [after_ts l_asked l_match lex_begin].
    remember (S sfuel) as f1 eqn:E1. cbn [scan_loop]. rewrite (half_next h 2 0 32) by (try assumption; lia). change (2 + 1) with 3.
    cbn -[scan_loop N.to_nat]. fold (half_full h 3 0). subst f1. cbn [scan_loop]. rewrite (half_next h 3 0 97) by (try apply H3; lia). change (3 + 1) with 4.
    cbn -[skip_loop scan_loop N.to_nat]. fold (half_full h 4 0).
    rewrite (skip_stuck h 0 (N.to_nat 23996)) by (try (intros; apply H3; lia); lia).
    cbn [bind]. eexists. split; [reflexivity|]. constructor; cbn; auto; try lia; try discriminate. eauto. }
  destruct grow as [|grow]; cbn [rp_loop]; rewrite E; cbn [bind]; [reflexivity|].
  destruct (stuck_grow chunk p2 r St) as (p' & -> & S'). apply stuck_loop, S'.
Qed.

Theorem never_ends : forall chunk name rp n calls grow fuel sfuel, reader_idle toy_nsym rp -> fills chunk (stuck_log n) -> 23997 <= N.of_nat n ->
  read_all chunk name toy_nsym calls grow fuel sfuel toy (stuck_log n) rp = OutOfFuel.
Proof.
  intros chunk name rp n calls grow fuel sfuel Hi Hf Hn. unfold read_all.
  assert (exists s', 24000 <= N.of_nat s' /\ (sfuel <= S (S (S s')))%nat) as (s' & Hs1 & Hs2) by (exists (N.to_nat 24000 + sfuel)%nat; lia).
  destruct (rp_drive_below chunk _ (report_of name toy_nsym) calls (S (S calls)) grow grow fuel (S fuel) sfuel (S (S (S s'))) toy
    (rp_reset toy rp (mkReader (stuck_log n) 0))) as [E|E]; try lia; [exact E|]. rewrite E. clear E.
  cbn [rp_drive].
  destruct (first_call chunk grow rp n (S fuel) s' Hi Hf Hn) as (h & p & r & -> & K1 & K2 & K3 & K4 & K5). cbn [bind rp_done rp_lp].
  rewrite (second_call chunk grow fuel (S s') n h p r K1 K2 K3 K4 K5 Hn ltac:(lia)). reflexivity.
Qed.
