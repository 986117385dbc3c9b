(** ReaderProofs.v -- the ring buffer of a ReaderParser is a window of the log, so that a ReaderParser that never has to
    enlarge its buffer does what a BufferParser does on the whole log. *)
From Verif Require Import Base LexerModel LexerSpec LogParserModel EventSpec RingModel RingSpec RingProofs ViewModel ReaderSpec ViewSim LineBound WindowBound.

(** * Views of the two kinds of buffers *)
Definition rphi (o s a : N) : N := (a + o) mod s.
Lemma near_cons : forall o s n U, 0 < s -> near (rphi o s) s n U -> n = (U + o) mod s \/ n = (U + o + (s - 1)) mod s.
Proof.
  intros o s n U Hs0 Hn. unfold near, rphi in Hn. pose proof (N.div_mod (U + o) s ltac:(lia)) as Dm.
  pose proof (N.mod_lt (U + o) s ltac:(lia)) as Lm. remember ((U + o) mod s) as r. clear Heqr.
  destruct Hn as [-> | [Hn|(-> & ->)]]; [left; reflexivity|right|right]; symmetry.
  - apply (mod_at _ _ ((U + o) / s + 1)); [rewrite N.mul_add_distr_l|]; lia.
  - apply (mod_at _ _ ((U + o) / s)); lia.
Qed.
Lemma rphi_step : forall o s a, 0 < s -> rphi o s (a + 1) = if rphi o s a + 1 =? s then 0 else rphi o s a + 1.
Proof.
  intros o s a Hs. unfold rphi. pose proof (N.div_mod (a + o) s ltac:(lia)) as Dm. pose proof (N.mod_lt (a + o) s ltac:(lia)) as Lm.
  remember ((a + o) mod s) as r. clear Heqr. destruct (N.eqb_spec (r + 1) s) as [Q|Q].
  - apply (mod_at _ _ ((a + o) / s + 1)); [rewrite N.mul_add_distr_l|]; lia.
  - apply (mod_at _ _ ((a + o) / s)); lia.
Qed.
Section RingView.
Variables (log : list N) (h : ring) (hf F R o : N).
Hypothesis I : rinv log h hf F R o.
Local Notation b := (h_buf h).
Local Notation s := (ib_size (h_buf h)).

(** The same buffer with the cursor somewhere else and more of it consumed. *)
Lemma rinv_set : forall a U f n, h_used h <= U -> U <= a -> a <= R -> near (rphi o s) s n U ->
  (f = true -> a = R /\ ib_fin b = true /\ rphi o s R = ib_last b) ->
  rinv log (mkRing (ib_set_cons (cur b (rphi o s a) f) n) (h_rd h) a U false) hf F R o.
Proof.
  intros a U f n HU Ha HR Hn Hf. unfold rphi in *. 
  destruct I as [Isz Ihf Iedge Ipos Ilow Iua Iar Irf Ishort Ifin Ilast Idata Irest Ilen Icons Ifresh Ifull Ioob].
  constructor; cbn; auto; try discriminate; try nl.
  - intros x H1 H2. apply Idata; nl.
  - assert (0 < s) as Hs0 by nl. destruct (near_cons o s n U Hs0 Hn) as [-> | ->]; auto.
  - intros Q. destruct (Hf Q) as (-> & F1 & F2). auto.
Qed.
(** ... with the consumed position unchanged. *)
Lemma rinv_move : forall a, h_used h <= a -> a <= R ->
  rinv log (mkRing (cur b (rphi o s a) false) (h_rd h) a (h_used h) false) hf F R o.
Proof.
  intros a HU HR. unfold rphi in *.
  destruct I as [Isz Ihf Iedge Ipos Ilow Iua Iar Irf Ishort Ifin Ilast Idata Irest Ilen Icons Ifresh Ifull Ioob].
  constructor; cbn; auto; try discriminate; try nl.
Qed.

Lemma ring_view : (forall i, i < s -> exists x, ib_heap b (ib_active b) i = Some x) ->
  view log b (rphi o s) (h_used h) R (ib_fin b && (rphi o s R =? ib_last b)).
Proof.
  intros Hr. pose proof I as I0.
  destruct I0 as [Isz Ihf Iedge Ipos Ilow Iua Iar Irf Ishort Ifin Ilast Idata Irest Ilen Icons Ifresh Ifull Ioob].
  assert (0 < s) as Hs0 by nl. constructor.
  - intros a H1 H2. pose proof (rinv_move a H1 ltac:(nl)) as M. pose proof (next_spec _ _ _ _ _ _ M) as Sp. cbn [h_buf h_at] in Sp.
    destruct (get_next_character (cur b (rphi o s a) false)) as [[(x, b')|]| | |]; try contradiction; [|nl].
    destruct Sp as [Sp|(S1 & S2 & S3 & S4)]; [nl|]. exists x. split; [exact S3|]. rewrite S4. reflexivity.
  - intros f. pose proof (rinv_move R ltac:(nl) ltac:(nl)) as M. pose proof (next_spec _ _ _ _ _ _ M) as Sp. cbn [h_buf h_at] in Sp.
    unfold get_next_character in *. cbn [ib_fin ib_pos ib_last ib_lrfh ib_size ib_heap ib_active cur ib_set_full ib_set_pos] in *.
    destruct (ib_fin b && (rphi o s R =? ib_last b)) eqn:Ee; [reflexivity|].
    match goal with |- (if ?x then _ else _) = _ => destruct x; [reflexivity|] end.
    destruct (ib_heap b (ib_active b) (rphi o s R)); [|contradiction].
    destruct Sp as [(S1 & S2 & S3 & S4)|(S1 & _)]; [|nl].
    rewrite S2, S3, N.eqb_refl in Ee. discriminate.
  - intros a a' H1 H2 H3 H4 E. unfold rphi in E. destruct (N.le_ge_cases a a').
    + apply (ring_inj a a' o s); auto; nl.
    + symmetry. apply (ring_inj a' a o s); auto; nl.
  - intros a H1 H2. apply Idata; assumption.
  - apply Hr. apply N.mod_lt. nl.
  - intros a _ _. left. apply N.mod_lt. nl.
  - intros a H1 H2. apply rphi_step. exact Hs0.
Qed.
End RingView.

Definition flat_phi : N -> N := fun a => a.
Lemma flat_view : forall log m k b offset lo, holds m log -> lo <= len log ->
  view log (ib_set_storage b k m (len log) offset true) flat_phi lo (len log) true.
Proof.
  intros log m k b offset lo (Hst & Hx) Hlo. unfold flat_phi.
  assert (forall i, ib_heap (ib_set_storage b k m (len log) offset true) (User k) i = m i) as Hh.
  { intro i. cbn. unfold heap_set. cbn. rewrite Nat.eqb_refl. reflexivity. }
  assert (len log * 2 / 2 = len log) as Hd by (rewrite N.div_mul; lia).
  constructor; try (cbn; auto; fail).
  - intros a H1 H2. unfold get_next_character. cbn [ib_fin ib_pos ib_last ib_lrfh ib_size ib_active cur ib_set_full ib_set_pos ib_set_storage].
    destruct (N.eqb_spec a (len log)); [lia|]. rewrite Hd. destruct (N.eqb_spec a (len log)); [lia|]. cbn [andb orb negb].
    change (ib_heap (cur (ib_set_storage b k m (len log) offset true) a false)) with (ib_heap (ib_set_storage b k m (len log) offset true)).
    rewrite Hh, (Hst a H2). destruct (byte_at log a) as [x|] eqn:B.
    + exists x. split; [reflexivity|]. destruct (N.eqb_spec (a + 1) (len log * 2)); [lia|]. reflexivity.
    + unfold byte_at in B. apply nth_error_None in B. unfold len in H2. lia.
  - intros f. unfold get_next_character. cbn [ib_fin ib_pos ib_last cur ib_set_full ib_set_pos ib_set_storage]. rewrite N.eqb_refl. reflexivity.
  - intros a H1 H2. cbn [ib_active ib_set_storage]. rewrite Hh. apply Hst. exact H2.
  - cbn [ib_active ib_set_storage]. rewrite Hh. exact Hx.
  - intros a H1 H2. cbn. destruct (N.eq_dec (len log) 0); [right|left]; lia.
  - intros a H1 H2. cbn. destruct (N.eqb_spec (a + 1) (len log * 2)); lia.
Qed.

Lemma cur_self : forall b, cur b (ib_pos b) (ib_full b) = b.
Proof. intros []. reflexivity. Qed.

(** * Between two calls of parse_next_event *)
Section Drive.
Variables (chunk : nat -> N) (log : list N) (c : lexcfg) (k : nat) (m : mem).
Hypothesis Hroot : d_ids (c_dfa c) d_root = [].
Hypothesis Hfills : fills chunk log.
Hypothesis Hm : holds m log.
Local Notation f1 := (rphi 0 cStaticByteBuffSize).
Local Notation f2 := flat_phi.

(** The end of the log is at [R]. *)
Definition eof (b : ibuf) (R : N) : bool := ib_fin b && (f1 R =? ib_last b).
Record readable (b : ibuf) : Prop := {
  rb_size : ib_size b = cStaticByteBuffSize;
  rb_act : ib_active b = Static;
  rb_mem : forall i, i < cStaticByteBuffSize -> exists x, ib_heap b Static i = Some x
}.
Record rstate (rp : rparser) (bp : bparser) (offset : N) : Prop := {
  rs_ring : exists h F R E, rinv log h (cStaticByteBuffSize / 2) F R 0 /\ h_buf h = lp_in (rp_lp rp) /\ h_rd h = rp_rd rp /\
    offset = h_at h /\ h_used h <= E /\ (ib_fin (h_buf h) = true -> R = len log) /\
    lrel c f1 f2 E (h_at h) (lp_lex (rp_lp rp)) (lp_lex (bp_lp bp)) /\
    flags (lp_lex (rp_lp rp)) (ib_full (h_buf h)) false /\
    (l_match (lp_lex (rp_lp rp)) = true -> h_at h < R \/ eof (h_buf h) R = true) /\
    near f1 cStaticByteBuffSize (ib_cons (h_buf h)) (h_used h) /\
    (ib_cons (h_buf h) = f1 (h_used h) -> h_used h < R \/ eof (h_buf h) R = true) /\
    (l_asked (lp_lex (rp_lp rp)) = true -> l_prev (lp_lex (rp_lp rp)) = d_next (c_dfa c) d_root cCharStartOfFile) /\
    h_used h = next_start (bp_lp bp) /\
    (lp_has_start (rp_lp rp) = true ->
       tok_at Static cStaticByteBuffSize f1 (h_used h) E (lp_start_tok (rp_lp rp)) /\
       tok_at (User k) (len log * 2) f2 (h_used h) E (lp_start_tok (bp_lp bp)) /\
       t_line (lp_start_tok (rp_lp rp)) = t_line (lp_start_tok (bp_lp bp)) /\ t_ids (lp_start_tok (rp_lp rp)) = t_ids (lp_start_tok (bp_lp bp)));
  rs_read : readable (lp_in (rp_lp rp));
  rs_hs : lp_has_start (rp_lp rp) = lp_has_start (bp_lp bp);
  rs_occ : length (lp_occ (rp_lp rp)) = length (lp_occ (bp_lp bp));
  rs_done : rp_done rp = bp_done bp
}.

(** The reader has told the buffer that there is nothing more, and the buffer knows where the log ends. *)
Definition closed (b : ibuf) : Prop := ib_fin b = true /\ ib_last b = f1 (len log).

(** Reading. *)
Lemma read_ok : forall h F R, rinv log h (cStaticByteBuffSize / 2) F R 0 -> readable (h_buf h) ->
  (ib_fin (h_buf h) = true -> R = len log) ->
  exists F' R', let (b', r') := read_if_safe chunk (h_buf h) (h_rd h) in
    rinv log (mkRing b' r' (h_at h) (h_used h) false) (cStaticByteBuffSize / 2) F' R' 0 /\ readable b' /\
    (ib_fin b' = true -> R' = len log) /\ ib_full b' = ib_full (h_buf h) /\ ib_pos b' = ib_pos (h_buf h) /\
    (closed (h_buf h) -> closed b') /\
    R <= R' /\ ib_cons b' = ib_cons (h_buf h) /\ (eof (h_buf h) R = true -> eof b' R' = true) /\ (read_is_safe (h_buf h) = false -> R' = R).
Proof.
  intros h F R I Rd Hfin. unfold read_if_safe. destruct (read_is_safe (h_buf h)) eqn:Sf.
  - destruct (rinv_read chunk _ _ _ _ _ _ I Sf) as (F' & R' & I' & Hl). exists F', R'. unfold ib_read in *.
    destruct (rd_read chunk (h_rd h) (ib_size (h_buf h) / 2)) as (res, r') eqn:Er. cbn [fst] in Hl.
    split; [exact I'|]. split; [|split; [intro Q; apply Hl; auto|]].
    + destruct Rd as [R1 R2 R3]. unfold ib_fill. destruct res as [bytes|]; constructor; cbn; auto.
      intros i Hi. unfold heap_set. rewrite R2. cbn. unfold mem_write.
      match goal with |- exists x, (if ?q then _ else _) = _ => destruct q eqn:Q end; [|apply R3; exact Hi].
      apply andb_true_iff in Q as (Q1 & Q2). apply N.leb_le in Q1. apply N.ltb_lt in Q2.
      destruct (nth_error bytes (N.to_nat (i - (if ib_lrfh (h_buf h) then ib_size (h_buf h) / 2 else 0)))) as [x|] eqn:En; [eauto|].
      apply nth_error_None in En. lia.
    + assert (ib_fin (h_buf h) = false) as Ef by (unfold read_is_safe in Sf; destruct (ib_fin (h_buf h)); [discriminate|reflexivity]).
      split; [unfold ib_fill; destruct res; reflexivity|]. split; [unfold ib_fill; destruct res; reflexivity|].
      split; [intros (Q & _); congruence|]. split; [|split; [unfold ib_fill; destruct res; reflexivity|split; [|discriminate]]].
      * pose proof (ri_rest _ _ _ _ _ _ I) as R1. pose proof (ri_rest _ _ _ _ _ _ I') as R2. cbn [h_rd] in R2.
        pose proof (ri_len _ _ _ _ _ _ I) as L1. pose proof (ri_len _ _ _ _ _ _ I') as L2.
        assert (length (rd_rest r') <= length (rd_rest (h_rd h)))%nat as Hlen.
        { unfold rd_read in Er. destruct (rd_rest (h_rd h)) eqn:Eq; injection Er as <- <-; cbn [rd_rest]; [lia|]. rewrite skipn_length. lia. }
        rewrite R1, R2, !skipn_length in Hlen. clear - Hlen L1 L2. lia.
      * unfold eof. rewrite Ef. discriminate.
  - exists F, R. split; [|auto 10 using N.le_refl]. 
    destruct I as [Isz Ihf Iedge Ipos Ilow Iua Iar Irf Ishort Ifin Ilast Idata Irest Ilen Icons Ifresh Ifull Ioob].
    constructor; cbn; auto. discriminate.
Qed.

(** After the attempt to read, the window shows the end of the log or reaches at least 23999 bytes beyond what is consumed. *)
Lemma half_apart : forall U F n e j x j', U = 48000 * j + x -> x < 48000 -> F = 48000 * j' + e -> U <= F -> F < U + 48000 ->
  (n = x \/ n + 1 = x \/ (n = 47999 /\ x = 0)) ->
  (e = 24000 /\ (24000 < n \/ 24000 <= n \/ n = 0)) \/ (e = 0 /\ (n <= 24000)) ->
  U + 23999 <= F \/ (F = U /\ n = x).
Proof.
  intros U F n e j x j' HU Hx HF H1 H2 Hn He. assert (j' = j \/ j' = j + 1) as [-> | ->] by lia; lia.
Qed.
Lemma read_wide : forall h F R, rinv log h (cStaticByteBuffSize / 2) F R 0 -> readable (h_buf h) ->
  near f1 cStaticByteBuffSize (ib_cons (h_buf h)) (h_used h) ->
  (ib_cons (h_buf h) = f1 (h_used h) -> h_used h < R \/ eof (h_buf h) R = true) ->
  len log mod cStaticByteBuffSize <> 0 ->
  forall F' R' r', let b' := fst (read_if_safe chunk (h_buf h) (h_rd h)) in
    rinv log (mkRing b' r' (h_at h) (h_used h) false) (cStaticByteBuffSize / 2) F' R' 0 ->
    (ib_fin b' = true -> R' = len log) -> (ib_fin (h_buf h) = true -> R = len log) -> (read_is_safe (h_buf h) = false -> R' = R) ->
    eof b' R' = true \/ h_used h + 23999 <= R'.
Proof.
  intros h F R I Rd Hn Hst Hmod F' R' r' b' I' Hfin' Hfin Hsame.
  destruct (ib_fin b') eqn:Ef.
  { left. unfold eof. rewrite Ef. cbn [andb]. specialize (Hfin' eq_refl). pose proof (ri_last _ _ _ _ _ _ I') as L. cbn [h_buf] in L.
    assert (ib_size b' = cStaticByteBuffSize) as Sz.
    { unfold b', read_if_safe, ib_read. destruct (read_is_safe (h_buf h)); [|apply Rd]. destruct (rd_read chunk (h_rd h) _) as ([bytes|], ?); cbn; apply Rd. }
    rewrite Sz in L. unfold rphi. destruct L as [-> |(_ & Q)]; [apply N.eqb_refl|]. exfalso. apply Hmod. rewrite Hfin', N.add_0_r in Q. exact Q. }
  pose proof (ri_fin _ _ _ _ _ _ I') as Rf. pose proof (ri_rf _ _ _ _ _ _ I') as Rf2. cbn [h_buf] in Rf.
  assert (F' = R') as EFR by (destruct (N.lt_ge_cases R' F') as [Q|Q]; [specialize (Rf Q); congruence|lia]).
  pose proof (ri_edge _ _ _ _ _ _ I') as Ed. cbn [h_buf] in Ed. pose proof (ri_low _ _ _ _ _ _ I') as Lo. pose proof (ri_ua _ _ _ _ _ _ I') as Ua. pose proof (ri_ar _ _ _ _ _ _ I') as Ar.
  cbn [h_buf h_used h_at] in Lo, Ua, Ar.
  assert (ib_size b' = cStaticByteBuffSize) as Sz.
  { unfold b', read_if_safe, ib_read. destruct (read_is_safe (h_buf h)); [|apply Rd]. destruct (rd_read chunk (h_rd h) _) as ([bytes|], ?); cbn; apply Rd. }
  rewrite Sz in Ed, Lo. rewrite N.add_0_r in Ed. unfold near, rphi in Hn. unfold rphi in Hst. rewrite N.add_0_r in Hn, Hst.
  change cStaticByteBuffSize with 48000 in *. change (48000 / 2) with 24000 in *.
  pose proof (N.div_mod F' 48000 ltac:(lia)) as DF. rewrite Ed in DF. clear Ed.
  pose proof (N.div_mod (h_used h) 48000 ltac:(lia)) as DU. pose proof (N.mod_lt (h_used h) 48000 ltac:(lia)) as LU.
  assert (U23 : h_used h + 23999 <= F' \/ (F' = h_used h /\ ib_cons (h_buf h) = h_used h mod 48000 /\ read_is_safe (h_buf h) = false)).
  { destruct (read_is_safe (h_buf h)) eqn:Sf.
    - left. assert (ib_lrfh b' = negb (ib_lrfh (h_buf h))) as El.
      { unfold b', read_if_safe, ib_read in *. rewrite Sf in *. destruct (rd_read chunk (h_rd h) _) as ([bytes|], ?); cbn in *; [reflexivity|discriminate]. }
      unfold edge in DF. rewrite El in DF. unfold read_is_safe in Sf. rewrite (rb_size _ Rd) in Sf. change (cStaticByteBuffSize / 2) with 24000 in Sf.
      destruct (ib_fin (h_buf h)); [discriminate|].
      remember (h_used h mod 48000) as x. clear Heqx Hst I I'. destruct (ib_lrfh (h_buf h)); cbn [negb andb orb] in Sf, DF.
      + apply andb_true_iff in Sf as (S1 & S2). apply N.ltb_lt in S1, S2.
        destruct (half_apart _ _ (ib_cons (h_buf h)) 0 _ _ _ DU LU DF ltac:(lia) Lo ltac:(lia) ltac:(right; split; lia)) as [K|(K1 & K2)]; [exact K|]. lia.
      + rewrite orb_false_r in Sf. apply N.ltb_lt in Sf.
        destruct (half_apart _ _ (ib_cons (h_buf h)) 24000 _ _ _ DU LU DF ltac:(lia) Lo ltac:(lia) ltac:(left; split; lia)) as [K|(K1 & K2)]; [exact K|]. lia.
    - assert (b' = h_buf h) as Eb by (unfold b', read_if_safe; rewrite Sf; reflexivity).
      pose proof Sf as Sf'. unfold read_is_safe in Sf. rewrite <- Eb, Ef, Sz in Sf. change (48000 / 2) with 24000 in Sf. rewrite Eb in Sf. unfold edge in DF. rewrite Eb in DF.
      remember (h_used h mod 48000) as x. clear Heqx Hst I I'. destruct (ib_lrfh (h_buf h)); cbn [negb andb orb] in Sf, DF.
      + destruct (half_apart _ _ (ib_cons (h_buf h)) 24000 _ _ _ DU LU DF ltac:(lia) Lo ltac:(lia)) as [K|(K1 & K2)]; [|left; exact K|right; auto].
        left. split; [reflexivity|]. apply andb_false_iff in Sf as [Sf|Sf]; apply N.ltb_ge in Sf; lia.
      + rewrite orb_false_r in Sf. apply N.ltb_ge in Sf.
        destruct (half_apart _ _ (ib_cons (h_buf h)) 0 _ _ _ DU LU DF ltac:(lia) Lo ltac:(lia)) as [K|(K1 & K2)]; [|left; exact K|right; auto]. right. split; [reflexivity|lia]. }
  destruct U23 as [K|(K1 & K2 & K3)]; [right; lia|]. destruct (Hst K2) as [Q|Q]; [rewrite <- (Hsame K3) in Q; lia|].
  left. unfold eof in Q. apply andb_true_iff in Q as (Q & _).
  assert (b' = h_buf h) as Eb by (unfold b', read_if_safe; rewrite K3; reflexivity). rewrite Eb in Ef. congruence.
Qed.

Lemma reset_occ : forall (l l' : list (list N)), length l = length l' -> map (fun _ => @nil N) l = map (fun _ => []) l'.
Proof. induction l as [|x l IH]; intros [|y l'] H; try discriminate; [reflexivity|]. cbn. f_equal. apply IH. injection H; auto. Qed.
Lemma out_reset : forall b1 b2 g1 g2 lo hi o1 o2, orel b1 b2 g1 g2 lo hi (ob_reset o1) (ob_reset o2).
Proof. intros. constructor; cbn; auto; try reflexivity; try discriminate. intros i H1 H2. lia. Qed.

(** Why the buffer has to be enlarged: the event and the two lines after it do not fit into 23999 bytes. [r2]: what a
    BufferParser does in this call. *)
Definition too_long (bp : bparser) (r2 : out (bool * N * bparser)) : Prop :=
  exists E' R, next_start (bp_lp bp) + 23999 <= R /\ R <= len log /\ E' <= R /\ few_nl log E' R /\
    forall offset' bp', r2 = Ret (true, offset', bp') -> bp_done bp' = false -> E' <= next_start (bp_lp bp').
Record lines_ok : Prop := {
  lo_wf : wf_cfg c;
  lo_sof : exists q, d_next (c_dfa c) d_root cCharStartOfFile = Some q;
  lo_line : one_line c;
  lo_delim : c_delim c cNewline = true;
  lo_len : len log mod cStaticByteBuffSize <> 0
}.
Lemma call_sim : forall fuel sfuel rp bp offset, rstate rp bp offset ->
  match rp_parse_next_event chunk 0 fuel sfuel c rp with
  | Ret rp' => exists offset' bp', parse_next_event fuel sfuel c k m (len log) offset true bp = Ret (true, offset', bp') /\
      (forall name nsym, report_of name nsym (rp_lp rp') = report_of name nsym (bp_lp bp')) /\
      rp_done rp' = bp_done bp' /\ (rp_done rp = false -> rp_done rp' = false -> rstate rp' bp' offset') /\
      (closed (fst (read_if_safe chunk (lp_in (rp_lp rp)) (rp_rd rp))) -> closed (lp_in (rp_lp rp')))
  | UB => parse_next_event fuel sfuel c k m (len log) offset true bp = UB
  | Throw => parse_next_event fuel sfuel c k m (len log) offset true bp = Throw
  | OutOfFuel => parse_next_event fuel sfuel c k m (len log) offset true bp = OutOfFuel \/
                 ~ closed (fst (read_if_safe chunk (lp_in (rp_lp rp)) (rp_rd rp))) /\
                 (lines_ok -> bp_done bp = false -> too_long bp (parse_next_event fuel sfuel c k m (len log) offset true bp))
  end.
Proof.
  intros fuel sfuel rp bp offset [(h & F & R & E & I & Hb & Hr & Ho & HuE & Hfin & L & Fl & Hah & Hnear & Hstr & Hask & Hns & Hst) Rd Hhs Hocc Hdn].
  rewrite <- Hb in *. rewrite <- Hr.
  destruct (read_ok h F R I Rd Hfin) as (F' & R' & K). unfold rp_parse_next_event, lp_read.
  change (lp_in (reset_log_event_view (rp_lp rp))) with (lp_in (rp_lp rp)). rewrite <- Hb, <- Hr.
  pose proof (read_wide h F R I Rd Hnear Hstr) as Wide.
  destruct (read_if_safe chunk (h_buf h) (h_rd h)) as (b', r'). cbn [fst] in Wide. destruct K as (I' & Rd' & Hfin' & Kfull & Kpos & Kcl & KR & Kcons & Keof & Ksame).
  cbn [fst].
  set (h' := mkRing b' r' (h_at h) (h_used h) false) in *.
  assert (ib_size b' = cStaticByteBuffSize) as Sz by apply Rd'. assert (ib_active b' = Static) as Ac by apply Rd'.
  assert (view log b' f1 (h_used h) R' (ib_fin b' && (f1 R' =? ib_last b'))) as V1.
  { pose proof (ring_view log h' _ F' R' 0 I') as V. cbn in V. rewrite Sz in V. apply V. rewrite Ac. apply Rd'. }
  set (e1 := ib_fin b' && (f1 R' =? ib_last b')) in *.
  set (p2 := reset_log_event_view (bp_lp bp)).
  set (b2 := ib_set_storage (lp_in p2) k m (len log) offset true).
  pose proof (ri_len _ _ _ _ _ _ I') as Len. change (N.of_nat (length log)) with (len log) in Len.
  pose proof (ri_ar _ _ _ _ _ _ I') as Ar. pose proof (ri_ua _ _ _ _ _ _ I') as Ua. cbn in Ar, Ua.
  assert (view log b2 f2 (h_used h) (len log) true) as V2 by (apply flat_view; [exact Hm|lia]).
  assert (e1 = true -> R' = len log /\ true = true) as He.
  { intro Q. unfold e1 in Q. apply andb_true_iff in Q as (Q & _). auto. }
  set (p1 := reset_log_event_view (rp_lp rp)).
  set (occ0 := map (fun _ => @nil N) (lp_occ (rp_lp rp))).
  assert (ib_pos b' = f1 (h_at h)) as Epos.
  { pose proof (ri_pos _ _ _ _ _ _ I') as Q. cbn in Q. rewrite Sz in Q. exact Q. }
  assert (prel c b' b2 f1 f2 (h_used h) R' e1 occ0 E (h_at h) (ib_full b') false
               (lp_set_lexin p1 (lp_lex p1) b') (lp_set_lexin p2 (lp_lex p2) b2)) as P.
  { constructor; cbn.
    - exact L.
    - rewrite <- Epos. symmetry. apply cur_self.
    - unfold b2. cbn. rewrite Ho. reflexivity.
    - split; [lia|]. split; [lia|]. intro Q. destruct (ri_full _ _ _ _ _ _ I' Q) as (Q1 & Q2 & Q3). cbn in Q1, Q2, Q3.
      split; [exact Q2|]. unfold e1. rewrite Q1, <- Q2, <- Epos, Q3, N.eqb_refl. reflexivity.
    - exact HuE.
    - intro Q. destruct (Hah Q) as [Z|Z]; [left; lia|right; exact (Keof Z)].
    - exact Hhs.
    - intro Q. destruct (Hst Q) as (T1 & T2 & T3 & T4). exists (h_used h), E. split; [|pose proof (lr_Ea _ _ _ _ _ _ _ L); lia].
      constructor; auto. unfold tok1. rewrite Ac, Sz. exact T1.
    - apply out_reset.
    - reflexivity.
    - split; [reflexivity|]. unfold occ0. symmetry. apply reset_occ. exact Hocc. }
  pose proof (parse_meta_sim c log b' b2 f1 f2 (h_used h) R' (len log) e1 true Hroot V1 V2 ltac:(lia) Len He occ0 fuel sfuel E (h_at h) (ib_full b') false _ _ P) as Sim.
  cbn [lp_lex lp_set_lexin lp_out] in Sim. rewrite Kfull in Sim.
  specialize (Sim Fl eq_refl ltac:(reflexivity) eq_refl ltac:(intros l Hl; apply in_map_iff in Hl as (? & <- & _); reflexivity)).
  unfold parse_next_event. fold p2. fold b2. cbn [rp_loop].
  destruct (parse_and_generate_metadata fuel sfuel c (lp_set_lexin p1 (lp_lex p1) b')) as [(oa, q1)| | |] eqn:Epm; cbn [bind] in *; unfold sim_res in Sim.
  2-4: rewrite Sim; cbn [bind]; auto.
  destruct Sim as [(S1 & S2)|(x2 & -> & act & q1' & q2 & Ea & Ex & Mr & Hna)].
  - cbn in S1. subst oa. right. split; [intros (Q1 & Q2); unfold e1 in S2; rewrite Q1, (Hfin' Q1), Q2, N.eqb_refl in S2; discriminate|].
    intros [Lwf (qs & Lsof) Lline Ldel Llen] Hbd.
    assert (late log R' (parse_and_generate_metadata fuel sfuel c (lp_set_lexin p2 (lp_lex p2) b2))) as (E' & K1 & K2 & K3).
    { apply (parse_meta_stop c log b' b2 f1 f2 (h_used h) R' (len log) e1 Lwf Lline Ldel V1 V2 ltac:(lia) Len He ltac:(reflexivity) occ0 fuel sfuel E (h_at h) (ib_full b') false _ _ q1 P).
      - cbn [lp_lex lp_set_lexin]. rewrite Kfull. exact Fl.
      - cbn. intro Q. exists qs, [cCharStartOfFile]. rewrite (Hask Q), Lsof. split; [reflexivity|]. split; [discriminate|]. cbn. rewrite Lsof. reflexivity.
      - reflexivity.
      - reflexivity.
      - reflexivity.
      - exact Epm. }
    exists E', R'. destruct (Wide Llen F' R' r' I' Hfin' Hfin Ksame) as [W|W]; [unfold eof in W; fold e1 in W; congruence|].
    rewrite <- Hns. split; [exact W|]. split; [exact Len|]. split; [exact K1|]. split; [exact K2|].
    intros off2 bp2 Q Qd. destruct (parse_and_generate_metadata fuel sfuel c (lp_set_lexin p2 (lp_lex p2) b2)) as [([act|], q2)| | |]; cbn [bind] in Q; try discriminate.
    injection Q as <- <-. cbn [bp_done bp_lp] in *. apply (K3 act q2 eq_refl). intros ->. discriminate.
  - injection Ea as -> ->. subst x2. cbn [bind]. eexists _, _. split; [reflexivity|]. cbn [rp_lp bp_lp rp_done bp_done rp_rd].
    split; [apply (report_eq c log b' b2 f1 f2 (h_used h) R' (len log) e1 true V1 V2 ltac:(lia) Len He E act); exact Mr|].
    split; [destruct act; auto|]. destruct Mr as (oc & [D1 D2 D3 D4 D5 (D6 & D6') D7] & Hin).
    split.
    + intros N1 N2. assert (act = ActCompress) as -> by (destruct act; congruence).
      destruct (D7 eq_refl) as (U & E' & a' & fa & fb & n & n2 & L' & In1 & In2 & Po & Fl' & HU & HUE & Nr & HE0 & Hah' & Hask' & Tst & Tns).
      destruct Po as (Po1 & Po2 & Po3). pose proof (lr_Ea _ _ _ _ _ _ _ L') as LEa.
      assert (ib_pos (lp_in q2) = a') as Ep by (rewrite In2; reflexivity).
      constructor; cbn [rp_lp bp_lp rp_done bp_done rp_rd].
      * exists (mkRing (ib_set_cons (cur b' (f1 a') fa) n) r' a' U false), F', R', E'.
        split.
        { pose proof (rinv_set log h' (cStaticByteBuffSize / 2) F' R' 0 I' a' U fa n) as Q. cbn in Q. rewrite Sz in Q. apply Q; [lia|lia|lia|rewrite Sz in Nr; exact Nr|].
          intro Q'. destruct (Po3 Q') as (-> & Qe). unfold e1 in Qe. apply andb_true_iff in Qe as (Q1 & Q2). apply N.eqb_eq in Q2. auto. }
        cbn [h_buf h_rd h_at h_used]. split; [symmetry; exact In1|]. split; [reflexivity|]. split; [exact Ep|]. split; [exact HUE|].
        split; [exact Hfin'|]. split; [exact L'|]. split.
        { change (flags (lp_lex q1') fa false). destruct Fl' as [(-> & _)|Q]; [left; auto|right; exact Q]. }
        split; [intros _; exact Hah'|]. split; [rewrite Sz in Nr; exact Nr|].
        split; [intros _; destruct Hah' as [Q|Q]; [left; lia|right; exact Q]|].
        split; [intro Q; cbn in Q; congruence|].
        split.
        { unfold next_start. cbn [bp_lp]. rewrite <- D3. pose proof (lr_same _ _ _ _ _ _ _ L') as LS. rewrite <- (lx_match _ _ LS).
          destruct (lp_has_start q1').
          - rewrite (ta_start _ _ _ _ _ _ (tr_2 _ _ _ _ _ _ _ _ (Tst eq_refl))). reflexivity.
          - rewrite (Tns eq_refl). destruct (l_match (lp_lex q1')) eqn:Em.
            + destruct (lr_pend _ _ _ _ _ _ _ L' Em) as (_ & _ & Q & _). rewrite Q. reflexivity.
            + destruct (lr_none _ _ _ _ _ _ _ L' Em) as (_ & Q & Q'). rewrite Q, Q'. reflexivity. }
        intro Q. destruct (Tst Q) as [T1 T2 T3 T4]. unfold tok1, tok2 in T1, T2. rewrite Ac, Sz in T1. auto.
      * rewrite In1. destruct Rd' as [R1 R2 R3]. constructor; cbn; auto.
      * exact D3.
      * rewrite D6, D6'. reflexivity.
      * exact Hdn.
    + intros Cl. destruct D1 as (a0 & fa0 & n0 & ->). exact Cl.
Qed.
End Drive.

(** * Whole logs *)
Section Whole.
Variables (chunk : nat -> N) (log : list N) (c : lexcfg) (nsym : N) (k : nat) (m : mem).
Hypothesis Hroot : d_ids (c_dfa c) d_root = [].
Hypothesis Hsof : sof_quiet c.
Hypothesis Hfills : fills chunk log.
Hypothesis Hm : holds m log.
Variable name : N -> option (list N).
Notation obs := (report_of name nsym).

Lemma drive_sim : forall calls fuel sfuel rp bp offset, rstate log c k rp bp offset -> rp_done rp = false ->
  match rp_drive chunk obs calls 0 fuel sfuel c rp with
  | Ret (l, rp') => exists bp', drive obs calls fuel sfuel c k m (len log) offset bp = Ret (l, bp')
  | UB => drive obs calls fuel sfuel c k m (len log) offset bp = UB
  | Throw => drive obs calls fuel sfuel c k m (len log) offset bp = Throw
  | OutOfFuel => drive obs calls fuel sfuel c k m (len log) offset bp = OutOfFuel \/
                 ~ closed log (fst (read_if_safe chunk (lp_in (rp_lp rp)) (rp_rd rp)))
  end.
Proof.
  induction calls as [|calls IH]; intros fuel sfuel rp bp offset S Hd; [left; reflexivity|]. cbn [rp_drive drive].
  pose proof (call_sim chunk log c k m Hroot Hfills Hm fuel sfuel rp bp offset S) as K.
  destruct (rp_parse_next_event chunk 0 fuel sfuel c rp) as [rp1| | |] eqn:Ec; cbn [bind].
  - destruct K as (off' & bp1 & -> & Rep & Dn & Next & Cl). cbn [bind]. rewrite <- Dn, <- Rep.
    destruct (rp_done rp1) eqn:Ed; [eauto|]. specialize (Next Hd eq_refl).
    specialize (IH fuel sfuel rp1 bp1 off' Next Ed).
    destruct (rp_drive chunk obs calls 0 fuel sfuel c rp1) as [(l, rp2)| | |]; cbn [bind].
    + destruct IH as (bp2 & ->). cbn. eauto.
    + rewrite IH. reflexivity.
    + rewrite IH. reflexivity.
    + destruct IH as [->|IH]; [left; reflexivity|]. right. intro Q. apply IH. clear IH.
      apply Cl in Q.
      unfold read_if_safe, read_is_safe. destruct Q as (Q1 & Q2). rewrite Q1. cbn. split; assumption.
  - rewrite K. reflexivity.
  - rewrite K. reflexivity.
  - destruct K as [-> | K]; [left; reflexivity|right; exact (proj1 K)].
Qed.

End Whole.
