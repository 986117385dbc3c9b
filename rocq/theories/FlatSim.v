(** FlatSim.v -- two BufferParsers, the first on a buffer that holds a part [d, hi) of the log, the second on a buffer that holds
    the whole log. *)
From Verif Require Import Base LexerModel LexerSpec LogParserModel EventSpec ViewModel ReaderSpec ViewSim LineBound WindowBound.
From Verif Require Import LexerProofs LogParserProofs EventProofs ReaderProofs.

Definition shift (d a : N) : N := a - d.
Lemma shift_view : forall log m k b pos lo d hi fin, d <= lo -> lo <= hi -> hi <= len log -> holds m (sub log d hi) ->
  view log (ib_set_storage b k m (hi - d) pos fin) (shift d) lo hi fin.
Proof.
  intros log m k b pos lo d hi fin Hd Hlo Hhi (Hst & Hx). unfold shift.
  assert (len (sub log d hi) = hi - d) as L by (apply sub_length; lia). unfold stored in Hst. rewrite L in *.
  assert (forall i, ib_heap (ib_set_storage b k m (hi - d) pos fin) (User k) i = m i) as Hh.
  { intro i. cbn. unfold heap_set. cbn. rewrite Nat.eqb_refl. reflexivity. }
  assert (forall a, lo <= a -> a < hi -> m (a - d) = byte_at log a) as Hb.
  { intros a A1 A2. rewrite Hst by lia. rewrite byte_at_sub by lia. f_equal. lia. }
  assert ((hi - d) * 2 / 2 = hi - d) as Hdv by (rewrite N.div_mul; lia).
  constructor; try (cbn; auto; fail).
  - intros a H1 H2. unfold get_next_character. cbn [ib_fin ib_pos ib_last ib_lrfh ib_size ib_active cur ib_set_full ib_set_pos ib_set_storage].
    destruct (N.eqb_spec (a - d) (hi - d)); [lia|]. rewrite Hdv. destruct (N.eqb_spec (a - d) (hi - d)); [lia|]. rewrite andb_false_r. cbn [andb orb negb].
    change (ib_heap (cur (ib_set_storage b k m (hi - d) pos fin) (a - d) false)) with (ib_heap (ib_set_storage b k m (hi - d) pos fin)).
    rewrite Hh, Hb by lia. destruct (byte_at log a) as [x|] eqn:B.
    + exists x. split; [reflexivity|]. destruct (N.eqb_spec (a - d + 1) ((hi - d) * 2)); [lia|]. replace (a + 1 - d) with (a - d + 1) by lia. reflexivity.
    + unfold byte_at in B. apply nth_error_None in B. unfold len in Hhi. lia.
  - intros f. unfold get_next_character. cbn [ib_fin ib_pos ib_last ib_lrfh ib_size ib_active cur ib_set_full ib_set_pos ib_set_storage].
    rewrite Hdv, N.eqb_refl. destruct fin; reflexivity.
  - intros a a' A1 A2 A3 A4 H. lia.
  - intros a H1 H2. cbn [ib_active ib_set_storage]. rewrite Hh. apply Hb; assumption.
  - cbn [ib_active ib_set_storage]. rewrite Hh. exact Hx.
  - intros a H1 H2. cbn. destruct (N.eq_dec lo hi); [|left; lia]. destruct (N.eq_dec (hi - d) 0); [right|left]; lia.
  - intros a H1 H2. cbn. destruct (N.eqb_spec (a - d + 1) ((hi - d) * 2)); lia.
Qed.

Section Flat.
Variables (log : list N) (c : lexcfg) (k1 k2 : nat) (m1 m2 : mem) (d hi : N) (fin : bool).
Hypothesis Hroot : d_ids (c_dfa c) d_root = [].
Hypothesis Hd : d <= hi.
Hypothesis Hhi : hi <= len log.
Hypothesis Hfin : fin = true -> hi = len log.
Hypothesis Hm1 : holds m1 (sub log d hi).
Hypothesis Hm2 : holds m2 log.
Local Notation f1 := (shift d).
Local Notation f2 := flat_phi.

(** Between two calls: the next event starts at [U], the next token at [E], the cursor is at [a]. *)
Record bstate (U E a : N) (bp1 bp2 : bparser) : Prop := {
  bs_lex : lrel c f1 f2 E a (lp_lex (bp_lp bp1)) (lp_lex (bp_lp bp2));
  bs_d : d <= U;
  bs_UE : U <= E;
  bs_hi : a <= hi;
  bs_ahead : l_match (lp_lex (bp_lp bp1)) = true -> a < hi \/ fin = true;
  bs_hs : lp_has_start (bp_lp bp1) = lp_has_start (bp_lp bp2);
  bs_occ : length (lp_occ (bp_lp bp1)) = length (lp_occ (bp_lp bp2));
  bs_done : bp_done bp1 = bp_done bp2;
  bs_tok : lp_has_start (bp_lp bp1) = true ->
     tok_at (User k1) ((hi - d) * 2) f1 U E (lp_start_tok (bp_lp bp1)) /\
     tok_at (User k2) (len log * 2) f2 U E (lp_start_tok (bp_lp bp2)) /\
     t_line (lp_start_tok (bp_lp bp1)) = t_line (lp_start_tok (bp_lp bp2)) /\ t_ids (lp_start_tok (bp_lp bp1)) = t_ids (lp_start_tok (bp_lp bp2));
  bs_no : lp_has_start (bp_lp bp1) = false -> U = E
}.

Lemma flat_call : forall fuel sfuel U E a bp1 bp2, bstate U E a bp1 bp2 ->
  match parse_next_event fuel sfuel c k1 m1 (hi - d) (f1 a) fin bp1 with
  | Ret (true, off, bp1') => exists a' bp2', parse_next_event fuel sfuel c k2 m2 (len log) a true bp2 = Ret (true, a', bp2') /\
      (forall name nsym, report_of name nsym (bp_lp bp1') = report_of name nsym (bp_lp bp2')) /\
      bp_done bp1' = bp_done bp2' /\ lp_has_start (bp_lp bp1') = lp_has_start (bp_lp bp2') /\ lp_occ (bp_lp bp1') = lp_occ (bp_lp bp2') /\
      (bp_done bp1 = false -> bp_done bp1' = false -> off = f1 a' /\ exists U' E', bstate U' E' a' bp1' bp2' /\ E <= U')
  | Ret (false, off, bp1') => fin = false
  | UB => parse_next_event fuel sfuel c k2 m2 (len log) a true bp2 = UB
  | Throw => parse_next_event fuel sfuel c k2 m2 (len log) a true bp2 = Throw
  | OutOfFuel => parse_next_event fuel sfuel c k2 m2 (len log) a true bp2 = OutOfFuel
  end.
Proof.
  intros fuel sfuel U E a bp1 bp2 [L HdU HUE Hah Ham Hhs Hocc Hdn Htk Hno].
  unfold parse_next_event.
  set (p1 := reset_log_event_view (bp_lp bp1)). set (p2 := reset_log_event_view (bp_lp bp2)).
  set (b1 := ib_set_storage (lp_in p1) k1 m1 (hi - d) (f1 a) fin). set (b2 := ib_set_storage (lp_in p2) k2 m2 (len log) a true).
  pose proof (lr_Ea _ _ _ _ _ _ _ L) as HEa.
  assert (view log b1 f1 U hi fin) as V1 by (apply shift_view; auto; lia).
  assert (view log b2 f2 U (len log) true) as V2 by (apply flat_view; [exact Hm2|lia]).
  set (occ0 := map (fun _ => @nil N) (lp_occ (bp_lp bp1))).
  assert (prel c b1 b2 f1 f2 U hi fin occ0 E a false false (lp_set_lexin p1 (lp_lex p1) b1) (lp_set_lexin p2 (lp_lex p2) b2)) as P.
  { constructor; cbn.
    - exact L.
    - reflexivity.
    - reflexivity.
    - split; [lia|]. split; [lia|discriminate].
    - exact HUE.
    - exact Ham.
    - exact Hhs.
    - intro Q. destruct (Htk Q) as (T1 & T2 & T3 & T4). exists U, E. split; [|lia]. constructor; auto.
    - apply out_reset.
    - reflexivity.
    - split; [reflexivity|]. unfold occ0. symmetry. apply reset_occ. exact Hocc. }
  pose proof (parse_meta_sim c log b1 b2 f1 f2 U hi (len log) fin true Hroot V1 V2 ltac:(lia) Hhi ltac:(auto) occ0 fuel sfuel E a false false _ _ P) as Sim.
  cbn [lp_lex lp_set_lexin lp_out] in Sim.
  specialize (Sim (flags_false _) eq_refl ltac:(reflexivity) eq_refl ltac:(intros l Hl; apply in_map_iff in Hl as (? & <- & _); reflexivity)).
  destruct (parse_and_generate_metadata fuel sfuel c (lp_set_lexin p1 (lp_lex p1) b1)) as [(oa, q1)| | |] eqn:Epm; cbn [bind] in *; unfold sim_res in Sim.
  2-4: rewrite Sim; reflexivity.
  destruct Sim as [(S1 & S2)|(x2 & -> & act & q1' & q2 & Ea & Ex & Mr & Hna)].
  - cbn in S1. subst oa. exact S2.
  - injection Ea as -> ->. subst x2. cbn [bind].
    pose proof Mr as (oc & [D1 D2 D3 D4 D5 (D6 & D6') D7] & Hin).
    assert (act = ActCompress \/ act = ActCompressAndFinish) as [-> | ->] by (destruct act; auto; contradiction).
    + destruct (D7 eq_refl) as (U' & E' & a' & fa & fb & n & n2 & L' & In1 & In2 & Po & Fl' & HU & HUE' & Nr & HE0 & Hah' & Hask' & Tst & Tns).
      destruct Po as (Po1 & Po2 & Po3).
      assert (ib_pos (lp_in q1') = f1 a') as Ep1 by (rewrite In1; reflexivity).
      assert (ib_pos (lp_in q2) = a') as Ep2 by (rewrite In2; reflexivity).
      rewrite Ep1, Ep2. exists a'. eexists. split; [reflexivity|]. cbn [bp_lp bp_done].
      split; [apply (report_eq c log b1 b2 f1 f2 U hi (len log) fin true V1 V2 ltac:(lia) Hhi ltac:(auto) E _ _ _ Mr)|]. split; [exact Hdn|]. split; [exact D3|]. split; [congruence|].
      intros _ _. split; [reflexivity|]. exists U', E'. split; [|exact HE0]. constructor; cbn [bp_lp bp_done]; auto.
      * lia.
      * rewrite D6, D6'. reflexivity.
      * intro Q. destruct (Tst Q) as [T1 T2 T3 T4]. auto.
    + eexists _, _. split; [reflexivity|]. cbn [bp_lp bp_done].
      split; [apply (report_eq c log b1 b2 f1 f2 U hi (len log) fin true V1 V2 ltac:(lia) Hhi ltac:(auto) E _ _ _ Mr)|]. split; [reflexivity|]. split; [exact D3|]. split; [congruence|]. discriminate.
Qed.
End Flat.

(** * After reset() *)
Lemma reset_lrel : forall c f1 f2 b1 b2, sof_quiet c -> f1 0 = 0 -> f2 0 = 0 ->
  lrel c f1 f2 0 0 (prepend_sof c lex_reset (ib_reset b1)) (prepend_sof c lex_reset (ib_reset b2)).
Proof.
  intros c f1 f2 b1 b2 Hq H1 H2. constructor; cbn; try discriminate.
  - constructor; reflexivity.
  - auto.
  - intros _. repeat split; auto. intros q Q. unfold sof_quiet, reported in Hq. cbn in Hq. rewrite Q in Hq. unfold is_accepting. rewrite Hq. reflexivity.
Qed.
Lemma reset_bstate : forall log c k1 k2 hi fin bp1 bp2, sof_quiet c ->
  lp_has_start (bp_lp bp1) = false -> lp_has_start (bp_lp bp2) = false -> length (lp_occ (bp_lp bp1)) = length (lp_occ (bp_lp bp2)) ->
  bstate log c k1 k2 0 hi fin 0 0 0 (bp_reset c bp1) (bp_reset c bp2).
Proof.
  intros log c k1 k2 hi fin bp1 bp2 Hq H1 H2 Ho. constructor; cbn; auto; try lia; try discriminate; try congruence.
  apply reset_lrel; auto.
Qed.

(** * The whole log in both buffers *)
Section Both.
Variables (log : list N) (c : lexcfg) (k1 k2 : nat) (m1 m2 : mem).
Hypothesis Hroot : d_ids (c_dfa c) d_root = [].
Hypothesis Hm1 : holds m1 log.
Hypothesis Hm2 : holds m2 log.
Lemma flat_drive : forall name nsym calls fuel sfuel U E a bp1 bp2, bstate log c k1 k2 0 (len log) true U E a bp1 bp2 -> bp_done bp1 = false ->
  (do (l, _) <- drive (report_of name nsym) calls fuel sfuel c k1 m1 (len log) a bp1; Ret l)
  = (do (l, _) <- drive (report_of name nsym) calls fuel sfuel c k2 m2 (len log) a bp2; Ret l).
Proof.
  intros name nsym. induction calls as [|calls IH]; intros fuel sfuel U E a bp1 bp2 B Hd; [reflexivity|]. cbn [drive].
  pose proof (flat_call log c k1 k2 m1 m2 0 (len log) true Hroot ltac:(lia) ltac:(lia) ltac:(reflexivity)) as K.
  rewrite sub_full in K. specialize (K Hm1 Hm2 fuel sfuel U E a bp1 bp2 B). unfold shift in K. rewrite !N.sub_0_r in K.
  destruct (parse_next_event fuel sfuel c k1 m1 (len log) a true bp1) as [((ok, off), bp1')| | |]; cbn [bind]; [|rewrite K; reflexivity..].
  destruct ok; [|discriminate K]. destruct K as (a' & bp2' & -> & Rep & Dn & _ & _ & Nx). cbn [bind]. rewrite <- Dn, <- Rep.
  destruct (bp_done bp1') eqn:Ed; [reflexivity|]. destruct (Nx Hd eq_refl) as (-> & U' & E' & B' & _). rewrite N.sub_0_r.
  specialize (IH fuel sfuel U' E' a' bp1' bp2' B' Ed). revert IH.
  destruct (drive (report_of name nsym) calls fuel sfuel c k1 m1 (len log) a' bp1') as [(l1, ?)| | |];
    destruct (drive (report_of name nsym) calls fuel sfuel c k2 m2 (len log) a' bp2') as [(l2, ?)| | |]; cbn [bind]; intro IH; congruence.
Qed.
End Both.
