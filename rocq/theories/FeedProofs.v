(** FeedProofs.v -- what parse_next_event leaves behind. *)
From Verif Require Import Base LexerModel LexerSpec LogParserModel EventSpec ViewModel ReaderSpec ViewSim LineBound WindowBound FeedSpec.
From Verif Require Import LexerProofs LogParserProofs EventProofs ReaderProofs ReaderFits FlatSim.

(** * The lexer keeps a match for the next call only if it returned static text. *)
Lemma scan_loop_pending : forall fuel c q l b tok l' b', scan_loop fuel c q l b = Ret (Some tok, l', b') -> l_match l' = true -> t_ids tok = cTokenUncaughtStringTypes.
Proof.
  induction fuel as [|fuel IH]; intros c q l b tok l' b' H M; [discriminate|]. cbn [scan_loop] in H.
  destruct (get_next_character b) as [[(ch, b1)|]| | |]; try discriminate.
  apply bind_ret_inv in H as ((next2, l3) & _ & H).
  assert ((if l_match l3 then
          let b2 := ib_set_pos (ib_set_full b1 false) (l_match_pos l3) in
          let l4 := lex_restore_line l3 in
          if negb (l_last_match_pos l4 =? l_start_pos l4) then
            Ret (Some (mk_tok b2 (l_last_match_pos l4) (l_start_pos l4) (l_last_match_line l4)
                              cTokenUncaughtStringTypes), l4, b2)
          else
            Ret (Some (mk_tok b2 (l_start_pos l4) (l_match_pos l4) (l_match_line l4) (l_ids l4)),
                 lex_take l4, b2)
        else if ib_full b1 && (l_start_pos l3 =? ib_pos b1) then
          if negb (l_last_match_pos l3 =? l_start_pos l3) then
            Ret (Some (mk_tok b1 (l_last_match_pos l3) (l_start_pos l3) (l_last_match_line l3)
                              cTokenUncaughtStringTypes), lex_end l3 (ib_pos b1), b1)
          else
            Ret (Some (mk_tok b1 (ib_pos b1) (ib_pos b1) (l_line l3) cTokenEndTypes), l3, b1)
        else
          match skip_loop fuel c ch (ib_pos b) b1 with
          | UB => UB | Throw => Throw | OutOfFuel => OutOfFuel
          | Ret (None, b2) => Ret (None, lex_ask l3 q, b2)
          | Ret (Some prev', b2) =>
            scan_loop fuel c d_root (lex_set_start l3 prev') (ib_set_pos b2 prev')
          end) = Ret (Some tok, l', b') -> t_ids tok = cTokenUncaughtStringTypes) as K.
  { intro X. cbv zeta in X. destruct (l_match l3) eqn:E3.
    - destruct (negb _); injection X as <- <- <-; [reflexivity|discriminate M].
    - destruct (ib_full b1 && (l_start_pos l3 =? ib_pos b1)).
      + destruct (negb _); injection X as <- <- <-; [reflexivity|congruence].
      + destruct (skip_loop fuel c ch (ib_pos b) b1) as [([pr|], b2)| | |]; try discriminate. exact (IH _ _ _ _ _ _ _ X M). }
  destruct (ib_full b1); [exact (K H)|]. destruct next2 as [nx|]; [exact (IH _ _ _ _ _ _ _ H M)|exact (K H)].
Qed.
Lemma scan_pending : forall fuel c l b tok l' b', scan fuel c l b = Ret (Some tok, l', b') -> l_match l' = true -> t_ids tok = cTokenUncaughtStringTypes.
Proof.
  intros fuel c l b tok l' b' H M. unfold scan in H. destruct (l_asked l).
  - destruct (l_prev l); [exact (scan_loop_pending _ _ _ _ _ _ _ _ H M)|]. destruct (get_next_character b) as [[?|]| | |]; discriminate.
  - destruct (l_match l).
    + injection H as <- <- <-. discriminate M.
    + exact (scan_loop_pending _ _ _ _ _ _ _ _ H M).
Qed.

(** * The loop of parse *)
Lemma advance_slot : forall o, 0 < ob_pos o -> ob_pos o < ob_size o ->
  ob_act (ob_advance o) 0 = ob_act o 0 /\ 0 < ob_pos (ob_advance o) /\ ob_pos (ob_advance o) < ob_size (ob_advance o) /\ ob_has_ts (ob_advance o) = ob_has_ts o.
Proof.
  intros o H1 H2. unfold ob_advance. destruct (N.eqb_spec (ob_pos o + 1) (ob_size o)); cbn; [|repeat split; lia].
  destruct (N.ltb_spec 0 (ob_size o)); [repeat split; lia|lia].
Qed.
Record loop_res (p : lparser) (oa : option paction) (p' : lparser) : Prop := {
  lo_ts : ob_has_ts (lp_out p') = ob_has_ts (lp_out p);
  lo_slot : ob_act (lp_out p') 0 = ob_act (lp_out p) 0;
  lo_pos : 0 < ob_pos (lp_out p');
  lo_occ : lp_occ p' = lp_occ p;
  lo_act : oa <> Some ActNone;
  lo_fail : oa = None -> lp_has_start p' = lp_has_start p;
  lo_next : oa = Some ActCompress -> l_match (lp_lex p') = true -> lp_has_start p' = true /\ t_ids (lp_start_tok p') = cTokenUncaughtStringTypes
}.
Lemma parse_loop_res : forall fuel sfuel c p oa p', 0 < ob_pos (lp_out p) -> ob_pos (lp_out p) < ob_size (lp_out p) ->
  parse_loop fuel sfuel c p = Ret (oa, p') -> loop_res p oa p'.
Proof.
  induction fuel as [|fuel IH]; intros sfuel c p oa p' H1 H2 H; [discriminate|]. cbn [parse_loop] in H.
  apply bind_ret_inv in H as ((ot, p1) & G & H). unfold get_next_symbol in G.
  apply bind_ret_inv in G as (((ot', l), b) & Sc & G). injection G as <- <-.
  destruct ot' as [tok|]; [|injection H as <- <-; constructor; cbn; auto; discriminate].
  cbn [lp_out lp_set_lexin lp_set_out] in H.
  apply bind_ret_inv in H as (ty & Ty & H). apply bind_ret_inv in H as (found & Fd & H).
  assert (0 < ob_pos (ob_set_curr (lp_out p) tok) /\ ob_pos (ob_set_curr (lp_out p) tok) < ob_size (ob_set_curr (lp_out p) tok)) as (Q1 & Q2) by (split; assumption).
  assert (ob_act (ob_set_curr (lp_out p) tok) 0 = ob_act (lp_out p) 0) as Q3.
  { cbn. unfold ob_upd. destruct (N.eqb_spec 0 (ob_pos (lp_out p))); [lia|reflexivity]. }
  destruct (advance_slot _ Q1 Q2) as (A1 & A2 & A3 & A4).
  destruct (ty =? TokenEnd).
  { injection H as <- <-. constructor; cbn [lp_out lp_set_out lp_occ lp_set_lexin]; auto; discriminate. }
  destruct (negb (ob_has_ts (ob_set_curr (lp_out p) tok)) && (ty =? TokenNewline)) eqn:En.
  { injection H as <- <-. constructor; cbn -[ob_advance ob_set_curr]; auto; try discriminate; try congruence.
    intros _ M. apply (scan_pending _ _ _ _ _ _ _ Sc) in M. apply andb_true_iff in En as (_ & En). apply N.eqb_eq in En. subst ty.
    unfold tok_type in Ty. rewrite M in Ty. discriminate. }
  destruct found.
  { injection H as <- <-. set (o2 := ob_set_curr (ob_set_curr (lp_out p) tok) (only_newline tok)).
    assert (ob_act o2 0 = ob_act (lp_out p) 0) as Q4.
    { unfold o2, ob_set_curr. cbn. unfold ob_upd. destruct (N.eqb_spec 0 (ob_pos (lp_out p))); [lia|reflexivity]. }
    destruct (advance_slot o2 ltac:(exact H1) ltac:(exact H2)) as (B1 & B2 & B3 & B4).
    constructor; cbn -[ob_advance ob_set_curr skip_newline]; fold o2; auto; try discriminate; try congruence.
    intros _ M. split; [reflexivity|]. apply (scan_pending _ _ _ _ _ _ _ Sc) in M. unfold skip_newline. exact M. }
  apply IH in H; cbn -[ob_advance ob_set_curr] in *; auto. destruct H as [L1 L2 L3 L4 L0 L5 L6]. cbn -[ob_advance ob_set_curr] in *.
  constructor; auto; try congruence. rewrite L1. exact A4.
Qed.

Lemma parse_first_res : forall fuel sfuel c p tok oa p', 2 < ob_size (lp_out p) ->
  parse_first fuel sfuel c p tok = Ret (oa, p') ->
  (oa = Some ActCompressAndFinish /\ tok_type tok = Ret TokenEnd /\ lp_occ p' = lp_occ p) \/
  exists ts : bool, (ts = true <-> is_timestamp tok) /\ tok_type tok <> Ret TokenEnd /\ ob_has_ts (lp_out p') = ts /\ 0 < ob_pos (lp_out p') /\ lp_occ p' = lp_occ p /\
    ob_act (lp_out p') 0 = (if ts then tok else ob_act (lp_out p) 0) /\ (oa = None -> lp_has_start p' = false) /\ oa <> Some ActNone /\
    (oa = Some ActCompress -> l_match (lp_lex p') = true -> lp_has_start p' = true /\ t_ids (lp_start_tok p') = cTokenUncaughtStringTypes).
Proof.
  intros fuel sfuel c p tok oa p' Hsz H. unfold parse_first in H. apply bind_ret_inv in H as (ty & Ty & H).
  destruct (N.eqb_spec ty TokenEnd) as [->|Hne].
  { injection H as <- <-. left. auto. }
  right. exists ((ty =? TokenFirstTimestamp) || (ty =? TokenNewlineTimestamp)).
  split.
  { unfold is_timestamp. rewrite Ty. split.
    - intro Q. apply orb_true_iff in Q as [Q|Q]; apply N.eqb_eq in Q; subst; auto.
    - intros [Q|Q]; injection Q as ->; reflexivity. }
  split; [congruence|].
  destruct ((ty =? TokenFirstTimestamp) || (ty =? TokenNewlineTimestamp)); apply parse_loop_res in H; try (cbn; lia);
    destruct H as [L1 L2 L3 L4 L0 L5 L6]; cbn in *; repeat split; auto; intuition.
Qed.

(** * A call that runs out of the buffer, beside the call on the whole log *)
Section Fail.
Variable c : lexcfg.
Variable txt : list N.
Variables (b1 b2 : ibuf) (f1 f2 : N -> N) (lo hi1 hi2 : N) (e1 e2 : bool).
Hypothesis Hroot : d_ids (c_dfa c) d_root = [].
Hypothesis V1 : view txt b1 f1 lo hi1 e1.
Hypothesis V2 : view txt b2 f2 lo hi2 e2.
Hypothesis Hlo : lo <= hi1.
Hypothesis Hhi : hi1 <= hi2.
Hypothesis Hend : e1 = true -> hi1 = hi2 /\ e2 = true.
Variable occ0 : list (list N).

Lemma ts_same : forall t1 t2, t_ids t1 = t_ids t2 -> (is_timestamp t1 <-> is_timestamp t2).
Proof. intros t1 t2 E. unfold is_timestamp, tok_type. rewrite E. tauto. Qed.
Lemma first_fail : forall fuel sfuel p1 p2 t1 t2 p1' act p2', 2 < ob_size (lp_out p1) -> 2 < ob_size (lp_out p2) -> t_ids t1 = t_ids t2 ->
  parse_first fuel sfuel c p1 t1 = Ret (None, p1') -> parse_first fuel sfuel c p2 t2 = Ret (Some act, p2') ->
  lp_has_start p1' = false /\ lp_occ p1' = lp_occ p1 /\ 0 < ob_pos (lp_out p1') /\
  ob_act (lp_out p1') 0 = (if ob_has_ts (lp_out p2') then t1 else ob_act (lp_out p1) 0).
Proof.
  intros fuel sfuel p1 p2 t1 t2 p1' act p2' S1 S2 Ei H1 H2.
  apply parse_first_res in H1; [|exact S1]. apply parse_first_res in H2; [|exact S2].
  destruct H1 as [(Q & _)|(ts1 & A1 & A0 & A2 & A3 & A4 & A5 & A6 & _ & _)]; [discriminate|].
  destruct H2 as [(_ & Q & _)|(ts2 & B1 & B0 & B2 & B3 & B4 & B5 & B6 & _ & _)].
  - exfalso. assert (tok_type t1 = Ret TokenEnd) as T by (unfold tok_type in *; rewrite Ei; exact Q). contradiction.
  - assert (ts1 = ts2) as -> by (pose proof (ts_same t1 t2 Ei); destruct ts1, ts2; intuition).
    rewrite B2. auto.
Qed.

Lemma scan_match : forall fuel l b, l_match l = true -> l_asked l = false -> exists r, scan fuel c l b = Ret (Some (fst (fst r)), snd (fst r), snd r).
Proof. intros fuel l b M A. unfold scan. rewrite A, M. eexists (_, _, _). reflexivity. Qed.

Lemma parse_fail : forall fuel sfuel E a fa fb p1 p2 p1' act p2', prel c b1 b2 f1 f2 lo hi1 e1 occ0 E a fa fb p1 p2 -> flags (lp_lex p1) fa fb ->
  ob_pos (lp_out p1) = 0 -> 2 < ob_size (lp_out p1) -> ob_has_ts (lp_out p1) = false ->
  parse fuel sfuel c p1 = Ret (None, p1') -> parse fuel sfuel c p2 = Ret (Some act, p2') ->
  lp_has_start p1' = false /\ lp_occ p1' = lp_occ p1 /\
  ((ob_pos (lp_out p1') = 0 /\ lp_has_start p1 = false /\ l_match (lp_lex p1) = false) \/
   (0 < ob_pos (lp_out p1') /\
    if ob_has_ts (lp_out p2') then t_start (ob_act (lp_out p1') 0) = (if lp_has_start p1 then t_start (lp_start_tok p1) else f1 E)
    else ob_act (lp_out p1') 0 = ob_act (lp_out p1) 0)).
Proof.
  intros fuel sfuel E a fa fb p1 p2 p1' act p2' P Fl Hp Hsz Hts H1 H2. unfold parse in H1, H2.
  pose proof (pr_out _ _ _ _ _ _ _ _ _ _ _ _ _ _ _ P) as O. pose proof O as [O1 O2 O3 O4 O5 O7 O6]. rewrite <- O1, Hp in H2. rewrite Hp in H1.
  change (0 =? 0) with true in H1, H2. cbv iota zeta in H1, H2.
  cbn [lp_has_start lp_set_out lp_start_tok lp_out] in H1, H2. rewrite <- (pr_hs _ _ _ _ _ _ _ _ _ _ _ _ _ _ _ P) in H2.
  set (q1 := lp_set_out p1 (ob_set_delims (lp_out p1) (c_has_delims c))) in *. set (q2 := lp_set_out p2 (ob_set_delims (lp_out p2) (c_has_delims c))) in *.
  assert (prel c b1 b2 f1 f2 lo hi1 e1 occ0 E a fa fb q1 q2) as Q.
  { destruct P as [P1 P2 P3 P4 P6 Pah P7 P8 P9 P10 P11]. constructor; cbn; auto. constructor; cbn; auto. }
  destruct (lp_has_start p1) eqn:Hst.
  - destruct (pr_st _ _ _ _ _ _ _ _ _ _ _ _ _ _ _ P Hst) as (s & e & T & T1 & T2).
    destruct (first_fail fuel sfuel q1 q2 (lp_start_tok p1) (lp_start_tok p2) p1' act p2') as (F1 & F2 & F3 & F4); auto.
    { cbn. lia. } { apply (tr_ids _ _ _ _ _ _ _ _ T). }
    split; [exact F1|]. split; [exact F2|]. right. split; [exact F3|]. destruct (ob_has_ts (lp_out p2')); rewrite F4; reflexivity.
  - pose proof (next_symbol_sim c txt b1 b2 f1 f2 lo hi1 hi2 e1 e2 Hroot V1 V2 Hlo Hhi Hend occ0 sfuel E a fa fb q1 q2 Q Fl) as Sy.
    apply bind_ret_inv in H1 as ((ot1, r1) & G1 & H1). apply bind_ret_inv in H2 as ((ot2, r2) & G2 & H2).
    rewrite G1, G2 in Sy. cbn in Sy. destruct Sy as [(Sy & _)|(x2 & Ex & Sy)].
    + cbn in Sy. subst ot1. injection H1 as <-. unfold get_next_symbol in G1. apply bind_ret_inv in G1 as (((o, l), b) & Sc & G1).
      injection G1 as -> <-. cbn. split; [exact Hst|]. split; [reflexivity|]. left. split; [exact Hp|]. split; [reflexivity|].
      destruct (l_match (lp_lex p1)) eqn:M; [|reflexivity]. exfalso.
      destruct (lr_pend _ _ _ _ _ _ _ (pr_lex _ _ _ _ _ _ _ _ _ _ _ _ _ _ _ P) M) as (A & _).
      destruct (scan_match sfuel (lp_lex q1) (lp_in q1) M A) as (r & Er). rewrite Er in Sc. discriminate.
    + destruct Sy as (t1 & t2 & y & a' & fa' & fb' & q1' & q2' & E1 & E2 & T & _ & _ & _ & _ & P' & _ & Hs & Ho1 & Ho2 & _).
      subst x2. injection Ex as -> ->. injection E1 as -> ->.
      rewrite Ho1 in H1. rewrite Ho2 in H2. cbn [ob_has_ts ob_set_delims q1 q2 lp_out lp_set_out] in H1, H2. rewrite Hts in H1. rewrite <- O3, Hts in H2.
      apply bind_ret_inv in H1 as (ty1 & Ty1 & H1). apply bind_ret_inv in H2 as (ty2 & Ty2 & H2).
      assert (ty2 = ty1) as -> by (pose proof (tr_ids _ _ _ _ _ _ _ _ T) as I; unfold tok_type in *; rewrite I in Ty1; congruence).
      destruct (ty1 =? TokenNewlineTimestamp); [discriminate H1|].
      destruct (first_fail fuel sfuel q1' q2' t1 t2 p1' act p2') as (F1 & F2 & F3 & F4); auto.
      { rewrite Ho1. exact Hsz. } { rewrite Ho2. cbn. lia. } { apply (tr_ids _ _ _ _ _ _ _ _ T). }
      split; [exact F1|]. split.
      { rewrite F2. rewrite (proj1 (pr_occ _ _ _ _ _ _ _ _ _ _ _ _ _ _ _ P')). symmetry. apply (pr_occ _ _ _ _ _ _ _ _ _ _ _ _ _ _ _ P). }
      right. split; [exact F3|]. rewrite F4. destruct (ob_has_ts (lp_out p2')); [apply (tr_1 _ _ _ _ _ _ _ _ T)|]. rewrite Ho1. reflexivity.
Qed.
End Fail.

Lemma meta_out : forall p p', generate_metadata p = Ret p' -> lp_out p' = lp_out p /\ lp_lex p' = lp_lex p /\ lp_in p' = lp_in p /\ lp_has_start p' = lp_has_start p /\ lp_start_tok p' = lp_start_tok p.
Proof. intros p p' H. unfold generate_metadata in H. apply bind_ret_inv in H as ((n, oc) & _ & H). injection H as <-. auto. Qed.

(** Slot 0 at the start of a call: a leftover of an earlier event, or of construction. *)
Definition slot0 (bp : bparser) : token := ob_act (ob_reset (lp_out (bp_lp bp))) 0.

Section FlatFail.
Variables (log : list N) (c : lexcfg) (k1 k2 : nat) (m1 m2 : mem) (d hi : N) (fin : bool).
Hypothesis Hroot : d_ids (c_dfa c) d_root = [].
Hypothesis Hd : d <= hi.
Hypothesis Hhi : hi <= len log.
Hypothesis Hfin : fin = true -> hi = len log.
Hypothesis Hm1 : holds m1 (sub log d hi).
Hypothesis Hm2 : holds m2 log.

Lemma flat_fail : forall fuel sfuel U E a bp1 bp2 off bp1' off2 bp2', bstate log c k1 k2 d hi fin U E a bp1 bp2 ->
  parse_next_event fuel sfuel c k1 m1 (hi - d) (shift d a) fin bp1 = Ret (false, off, bp1') ->
  parse_next_event fuel sfuel c k2 m2 (len log) a true bp2 = Ret (true, off2, bp2') ->
  lp_has_start (bp_lp bp1') = false /\ length (lp_occ (bp_lp bp1')) = length (lp_occ (bp_lp bp1)) /\ (exists bp0, bp1' = bp_reset c bp0) /\
  ((off = shift d a /\ U = a) \/
   off = if ob_has_ts (lp_out (bp_lp bp2')) then shift d U else t_start (slot0 bp1)).
Proof.
  intros fuel sfuel U E a bp1 bp2 off bp1' off2 bp2' [L HdU HUE Hah Ham Hhs Hocc Hdn Htk Hno] H1 H2.
  unfold parse_next_event in H1, H2.
  set (p1 := reset_log_event_view (bp_lp bp1)) in *. set (p2 := reset_log_event_view (bp_lp bp2)) in *.
  set (b1 := ib_set_storage (lp_in p1) k1 m1 (hi - d) (shift d a) fin) in *. set (b2 := ib_set_storage (lp_in p2) k2 m2 (len log) a true) in *.
  pose proof (lr_Ea _ _ _ _ _ _ _ L) as HEa.
  assert (view log b1 (shift d) U hi fin) as V1 by (apply shift_view; auto; lia).
  assert (view log b2 flat_phi U (len log) true) as V2 by (apply flat_view; [exact Hm2|lia]).
  set (occ0 := map (fun _ => @nil N) (lp_occ (bp_lp bp1))).
  assert (prel c b1 b2 (shift d) flat_phi U hi fin occ0 E a false false (lp_set_lexin p1 (lp_lex p1) b1) (lp_set_lexin p2 (lp_lex p2) b2)) as P.
  { constructor; cbn.
    - exact L.
    - reflexivity.
    - reflexivity.
    - split; [lia|]. split; [lia|discriminate].
    - exact HUE.
    - exact Ham.
    - exact Hhs.
    - intro Q. destruct (Htk Q) as (T1 & T2 & T3 & T4). exists U, E. split; [|lia]. constructor; auto.
    - apply out_reset.
    - reflexivity.
    - split; [reflexivity|]. unfold occ0. symmetry. apply reset_occ. exact Hocc. }
  apply bind_ret_inv in H1 as ((oa1, r1) & M1 & H1). apply bind_ret_inv in H2 as ((oa2, r2) & M2 & H2).
  destruct oa1; [discriminate|]. destruct oa2 as [act|]; [|discriminate].
  unfold parse_and_generate_metadata in M1, M2.
  apply bind_ret_inv in M1 as ((oa1, q1) & G1 & M1). apply bind_ret_inv in M2 as ((oa2, q2) & G2 & M2).
  destruct oa1; [apply bind_ret_inv in M1 as (? & _ & M1); discriminate|]. injection M1 as <-.
  destruct oa2 as [act2|]; [|discriminate]. apply bind_ret_inv in M2 as (r2' & Mt & M2). injection M2 as <- <-.
  destruct (meta_out _ _ Mt) as (Mo & _).
  assert (bp_lp bp2' = r2') as Er by (injection H2 as _ <-; reflexivity). rewrite Er, Mo.
  destruct (parse_fail c log b1 b2 (shift d) flat_phi U hi (len log) fin true Hroot V1 V2 ltac:(lia) Hhi ltac:(auto) occ0 fuel sfuel E a false false _ _ _ _ _ P
    (flags_false _) eq_refl ltac:(reflexivity) eq_refl G1 G2) as (F1 & F2 & F3).
  injection H1 as <- <-. cbn [bp_lp bp_reset lp_reset lp_set_lexin lp_has_start lp_occ].
  split; [exact F1|]. split; [rewrite F2; cbn; apply map_length|]. split; [eexists; reflexivity|].
  destruct F3 as [(F3 & F4 & F5)|(F3 & F4)].
  - rewrite F3. change (0 =? 0) with true. left. split; [reflexivity|]. cbn in F4, F5.
    destruct (lr_none _ _ _ _ _ _ _ L F5) as (_ & _ & <-). apply Hno. exact F4.
  - right. destruct (N.eqb_spec (ob_pos (lp_out q1)) 0) as [Z|_]; [lia|].
    destruct (ob_has_ts (lp_out q2)); rewrite F4; [|reflexivity]. cbn [lp_has_start lp_set_lexin p1 reset_log_event_view lp_start_tok].
    destruct (lp_has_start (bp_lp bp1)) eqn:Hst; [apply (Htk eq_refl)|]. rewrite (Hno eq_refl). reflexivity.
Qed.

(** Where the next event starts. *)
Lemma bstate_next : forall U E a bp1 bp2, bstate log c k1 k2 d hi fin U E a bp1 bp2 -> next_start (bp_lp bp2) = U.
Proof.
  intros U E a bp1 bp2 [L HdU HUE Hah Ham Hhs Hocc Hdn Htk Hno]. unfold next_start. rewrite <- Hhs.
  destruct (lp_has_start (bp_lp bp1)) eqn:Hst; [apply (Htk eq_refl)|]. rewrite (Hno eq_refl). pose proof (lr_same _ _ _ _ _ _ _ L) as LS. rewrite <- (lx_match _ _ LS).
  destruct (l_match (lp_lex (bp_lp bp1))) eqn:M; [apply (lr_pend _ _ _ _ _ _ _ L M)|]. destruct (lr_none _ _ _ _ _ _ _ L M) as (_ & -> & ->). reflexivity.
Qed.
End FlatFail.

(** * The offset after a successful call *)
Lemma parse_pending : forall fuel sfuel c p p', ob_pos (lp_out p) = 0 -> 2 < ob_size (lp_out p) ->
  forall act, parse fuel sfuel c p = Ret (Some act, p') -> act <> ActCompressAndFinish -> l_match (lp_lex p') = true -> lp_has_start p' = true /\ t_ids (lp_start_tok p') = cTokenUncaughtStringTypes.
Proof.
  intros fuel sfuel c p p' Hp Hsz act H Ha M. unfold parse in H. rewrite Hp in H. change (0 =? 0) with true in H. cbv iota zeta in H.
  assert (forall q tok, 2 < ob_size (lp_out q) -> parse_first fuel sfuel c q tok = Ret (Some act, p') -> lp_has_start p' = true /\ t_ids (lp_start_tok p') = cTokenUncaughtStringTypes) as K.
  { intros q tok S X. apply parse_first_res in X; [|exact S]. destruct X as [(X & _)|(ts & _ & _ & _ & _ & _ & _ & _ & X0 & X)]; [congruence|]. apply X; [destruct act; congruence|exact M]. }
  match type of H with (if ?q then _ else _) = _ => destruct q end; [(eapply K; [|exact H]; exact Hsz)|].
  apply bind_ret_inv in H as ((ot, p2) & G & H). unfold get_next_symbol in G. apply bind_ret_inv in G as (((o, l), b) & Sc & G). injection G as <- <-.
  destruct o as [tok|]; [|discriminate]. cbn [lp_out lp_set_lexin lp_set_out] in H.
  match type of H with (if ?q then _ else _) = _ => destruct q end; [(eapply K; [|exact H]; exact Hsz)|].
  apply bind_ret_inv in H as (ty & Ty & H). destruct (N.eqb_spec ty TokenNewlineTimestamp) as [->|_]; [|(eapply K; [|exact H]; exact Hsz)].
  injection H as <- <-. cbn in M. apply (scan_pending _ _ _ _ _ _ _ Sc) in M. unfold tok_type in Ty. rewrite M in Ty. discriminate.
Qed.
Lemma offset_after : forall c nsym t k m sfuel fuel bp e offset, usable c nsym -> holds m t -> c_delim c cNewline = true -> (scan_fuel t <= sfuel)%nat -> len t < N.of_nat fuel ->
  ready c t k m nsym e offset (bp_lp bp) -> bp_done bp = false ->
  forall bp' off, parse_next_event fuel sfuel c k m (len t) offset true bp = Ret (true, off, bp') -> bp_done bp' = false ->
  exists e', event_at c t k m nsym e (bp_lp bp') e' false /\ e < e' /\ ready c t k m nsym e' off (bp_lp bp') /\
    if lp_has_start (bp_lp bp') then t_start (lp_start_tok (bp_lp bp')) = e' /\ t_end (lp_start_tok (bp_lp bp')) = off /\ e' <= off <= len t
    else off = e'.
Proof.
  intros c nsym t k m sfuel fuel bp e offset Hus Hm Hdl Hsf Hfu Hrd Hbd bp' off Hc Hbd'.
  destruct (parse_next_event_spec c t k m nsym (us_wf _ _ Hus) (proj1 Hm) (proj2 Hm) (us_ids _ _ Hus) (us_nsym _ _ Hus) sfuel Hsf fuel bp e offset Hrd Hbd Hfu)
    as (bp1 & e' & Hr & Hev & Hle & _ & Hnext). rewrite Hc in Hr. injection Hr as -> <-. rewrite Hbd' in *. destruct Hnext as (Hrd' & Hlt).
  exists e'. split; [exact Hev|]. split; [exact Hlt|]. split; [exact Hrd'|].
  assert (l_match (lp_lex (bp_lp bp')) = true -> lp_has_start (bp_lp bp') = true /\ t_ids (lp_start_tok (bp_lp bp')) = cTokenUncaughtStringTypes) as K.
  { intro M. unfold parse_next_event in Hc. apply bind_ret_inv in Hc as ((oa, r) & Pm & Hc). destruct oa as [act|]; [|discriminate].
    unfold parse_and_generate_metadata in Pm. apply bind_ret_inv in Pm as ((oa, q) & Pa & Pm). destruct oa as [act'|]; [|discriminate].
    apply bind_ret_inv in Pm as (q' & Mt & Pm). injection Pm as -> <-. destruct (meta_out _ _ Mt) as (_ & M2 & _ & M4 & M5).
    injection Hc as _ <-. cbn [bp_lp bp_done] in *. rewrite M4, M5, M2 in *.
    eapply parse_pending; [| |exact Pa|destruct act; congruence|exact M]; reflexivity. }
  destruct Hrd' as (A & _). destruct A as [Hst HB|tok0 Hst Hlex Hnnl Hb Hlt0 He Hst2 Hask HB]; cbn in *; rewrite Hst.
  - destruct HB as [q S P E A Q1 Q2 M|S P A M La|ids S P A M St|S P A M St]; cbn in *; try congruence; destruct (K M); congruence.
  - rewrite (skip_newline_eq c t k m nsym (proj1 Hm) (us_ids _ _ Hus) (us_nsym _ _ Hus) tok0 Hlex Hlt0) in Hst2. rewrite Hst2. cbn.
    destruct (lexed_cases c t k tok0 Hlex) as (_ & _ & R1 & R2 & R3).
    assert (l_match (lp_lex (bp_lp bp')) = false) as M.
    { destruct (l_match (lp_lex (bp_lp bp'))) eqn:M; [|reflexivity]. exfalso. destruct (K eq_refl) as (_ & K2). rewrite Hst2 in K2. cbn in K2.
      destruct R3 as [(ids & R3 & R4)|(_ & _ & R4)].
      - destruct (vt_state _ _ _ _ _ _ R4) as (q & _ & Hrep & _). rewrite K2 in R3. injection R3 as <-.
        unfold reported in Hrep. destruct (run (c_dfa c) q (sub t (t_start tok0) (t_end tok0))) as [q'|]; [|discriminate].
        destruct (wf_ids _ (us_wf _ _ Hus) q' TokenUncaughtString) as (_ & X); [rewrite Hrep; left; reflexivity|]. contradiction X; reflexivity.
      - apply (R4 Hdl (t_start tok0)); [lia|exact Hb]. }
    split; [auto|]. destruct HB as [q S P E A Q1 Q2 M'|S P A M' La|ids S P A M' St|S P A M' St]; cbn in *; try congruence; split; congruence || lia.
Qed.

(** * Without finished_reading_input there is no end of the log *)
Section NoEnd.
Variable c : lexcfg.
Definition open (b : ibuf) : Prop := ib_fin b = false /\ ib_full b = false.
Definition nonend (ids : option (list N)) : Prop := forall l, ids <> Some (TokenEnd :: l).
Definition noend (l : lex) : Prop := l_match l = true -> nonend (l_ids l).
Hypothesis Hids : forall q, nonend (Some (d_ids (c_dfa c) q)).
Lemma get_open : forall b ch b', open b -> get_next_character b = Ret (Some (ch, b')) -> open b'.
Proof.
  intros b ch b' (H1 & H2) H. unfold get_next_character in H. rewrite H1 in H. cbn [andb] in H.
  match type of H with (if ?q then _ else _) = _ => destruct q end; [discriminate|].
  destruct (ib_heap b (ib_active b) (ib_pos b)); [|discriminate]. injection H as <- <-. split; assumption.
Qed.
Lemma skip_open : forall fuel ch prev b op b', open b -> skip_loop fuel c ch prev b = Ret (op, b') -> open b'.
Proof.
  induction fuel as [|fuel IH]; intros ch prev b op b' Ho H; [discriminate|]. cbn [skip_loop] in H.
  match type of H with (if ?q then _ else _) = _ => destruct q end; [|injection H as <- <-; exact Ho].
  destruct (get_next_character b) as [[(ch', b1)|]| | |] eqn:G; try discriminate; [|injection H as <- <-; exact Ho].
  apply (IH _ _ _ _ _ (get_open _ _ _ Ho G) H).
Qed.
Lemma scan_loop_open : forall fuel q l b ot l' b', open b -> noend l -> scan_loop fuel c q l b = Ret (ot, l', b') ->
  open b' /\ noend l' /\ forall tok, ot = Some tok -> nonend (t_ids tok).
Proof.
  induction fuel as [|fuel IH]; intros q l b ot l' b' Ho Hn H; [discriminate|]. cbn [scan_loop] in H.
  destruct (get_next_character b) as [[(ch, b1)|]| | |] eqn:G; try discriminate; [|injection H as <- <- <-; split; [exact Ho|split; [exact Hn|discriminate]]].
  pose proof (get_open _ _ _ Ho G) as Ho1. destruct Ho1 as (F1 & F2). rewrite F2 in H.
  apply bind_ret_inv in H as ((next2, l3) & Hx & H).
  assert (noend l3) as Hn3.
  { assert (noend (if (c_delim c ch || false || negb (c_has_delims c)) && is_accepting (c_dfa c) q then lex_set_match l (d_ids (c_dfa c) q) (ib_pos b) (l_line l) else l)) as Hn1.
    { destruct ((c_delim c ch || false || negb (c_has_delims c)) && is_accepting (c_dfa c) q); [|exact Hn]. intros _. cbn. apply Hids. }
    destruct (ch =? cNewline).
    - cbn [l_match lex_inc_line] in Hx. match type of Hx with (if ?q then _ else _) = _ => destruct q end.
      + destruct (d_next (c_dfa c) d_root ch) as [n|]; [|discriminate]. injection Hx as <- <-. intros _. cbn. apply Hids.
      + injection Hx as <- <-. exact Hn1.
    - injection Hx as <- <-. exact Hn1. }
  clear Hx. destruct next2 as [n|]; [apply (IH _ _ _ _ _ _ (conj F1 F2) Hn3 H)|].
  destruct (l_match l3) eqn:M.
  - cbv zeta in H. match type of H with (if ?q then _ else _) = _ => destruct q end; injection H as <- <- <-; (split; [split; [exact F1|reflexivity]|]).
    + split; [intros _; apply Hn3; exact M|]. intros tok Q. injection Q as <-. intro; discriminate.
    + split; [discriminate|]. intros tok Q. injection Q as <-. apply Hn3. exact M.
  - cbn [andb] in H. destruct (skip_loop fuel c ch (ib_pos b) b1) as [([pr|], b2)| | |] eqn:Sk; try discriminate.
    + apply skip_open in Sk; [|split; assumption]. eapply IH; [| |exact H]; [exact Sk|]. intro Q. cbn in Q. congruence.
    + apply skip_open in Sk; [|split; assumption]. injection H as <- <- <-. split; [exact Sk|]. split; [intro Q; cbn in Q; congruence|discriminate].
Qed.
Lemma scan_open : forall fuel l b ot l' b', open b -> noend l -> scan fuel c l b = Ret (ot, l', b') ->
  open b' /\ noend l' /\ forall tok, ot = Some tok -> nonend (t_ids tok).
Proof.
  intros fuel l b ot l' b' Ho Hn H. unfold scan in H. destruct (l_asked l).
  - destruct (l_prev l); [apply (scan_loop_open _ _ _ _ _ _ _ Ho) in H; auto|].
    destruct (get_next_character b) as [[?|]| | |]; try discriminate. injection H as <- <- <-. split; [exact Ho|]. split; [exact Hn|discriminate].
  - destruct (l_match l) eqn:M.
    + injection H as <- <- <-. split; [exact Ho|]. split; [discriminate|]. intros tok Q. injection Q as <-. cbn. apply Hn. exact M.
    + apply (scan_loop_open _ _ _ _ _ _ _ Ho) in H; [exact H|]. intro Q. cbn in Q. congruence.
Qed.
Lemma nonend_type : forall t ty, nonend (t_ids t) -> tok_type t = Ret ty -> ty <> TokenEnd.
Proof. intros t ty H Q E. unfold tok_type in Q. destruct (t_ids t) as [[|i l]|] eqn:Ei; try discriminate. injection Q as ->. apply (H l). congruence. Qed.
Definition opened (p : lparser) : Prop := open (lp_in p) /\ noend (lp_lex p) /\ (lp_has_start p = true -> nonend (t_ids (lp_start_tok p))).
Lemma loop_open : forall fuel sfuel p oa p', opened p -> parse_loop fuel sfuel c p = Ret (oa, p') -> oa <> Some ActCompressAndFinish /\ opened p'.
Proof.
  induction fuel as [|fuel IH]; intros sfuel p oa p' (O1 & O2 & O3) H; [discriminate|]. cbn [parse_loop] in H.
  apply bind_ret_inv in H as ((ot, p1) & G & H). unfold get_next_symbol in G. apply bind_ret_inv in G as (((o, l), b) & Sc & G). injection G as <- <-.
  destruct (scan_open _ _ _ _ _ _ O1 O2 Sc) as (S1 & S2 & S3).
  destruct o as [tok|]; [|injection H as <- <-; split; [discriminate|split; [exact S1|split; [exact S2|exact O3]]]].
  specialize (S3 tok eq_refl). apply bind_ret_inv in H as (ty & Ty & H). apply bind_ret_inv in H as (found & _ & H).
  destruct (N.eqb_spec ty TokenEnd) as [E|_]; [contradiction (nonend_type _ _ S3 Ty E)|].
  match type of H with (if ?q then _ else _) = _ => destruct q end.
  { injection H as <- <-. split; [discriminate|]. split; [exact S1|split; [exact S2|exact O3]]. }
  destruct found.
  { injection H as <- <-. split; [discriminate|]. split; [exact S1|split; [exact S2|intros _; exact S3]]. }
  eapply IH; [|exact H]. split; [exact S1|split; [exact S2|exact O3]].
Qed.
Lemma first_open : forall fuel sfuel p tok oa p', opened p -> nonend (t_ids tok) -> parse_first fuel sfuel c p tok = Ret (oa, p') ->
  oa <> Some ActCompressAndFinish /\ opened p'.
Proof.
  intros fuel sfuel p tok oa p' (O1 & O2 & O3) Ht H. unfold parse_first in H. apply bind_ret_inv in H as (ty & Ty & H).
  destruct (N.eqb_spec ty TokenEnd) as [E|_]; [contradiction (nonend_type _ _ Ht Ty E)|].
  eapply loop_open; [|exact H]. split; [exact O1|split; [exact O2|discriminate]].
Qed.
Lemma parse_open : forall fuel sfuel p oa p', opened p -> parse fuel sfuel c p = Ret (oa, p') -> oa <> Some ActCompressAndFinish /\ opened p'.
Proof.
  intros fuel sfuel p oa p' (O1 & O2 & O3) H. unfold parse in H. destruct (ob_pos (lp_out p) =? 0); [|eapply loop_open; [|exact H]; split; auto].
  cbv zeta in H. cbn [lp_has_start lp_set_out lp_start_tok] in H. destruct (lp_has_start p) eqn:Hs.
  { eapply first_open; [| |exact H]; [|apply O3; reflexivity]. split; [exact O1|split; [exact O2|intros _; apply O3; reflexivity]]. }
  apply bind_ret_inv in H as ((ot, p1) & G & H). unfold get_next_symbol in G. apply bind_ret_inv in G as (((o, l), b) & Sc & G). injection G as <- <-.
  destruct (scan_open _ _ _ _ _ _ O1 O2 Sc) as (S1 & S2 & S3).
  assert (forall p0, lp_in p0 = b -> lp_lex p0 = l -> lp_has_start p0 = false -> opened p0) as K.
  { intros p0 <- <- E. split; [exact S1|split; [exact S2|intro; congruence]]. }
  destruct o as [tok|]; [|injection H as <- <-; split; [discriminate|apply K; try reflexivity; exact Hs]].
  specialize (S3 tok eq_refl).
  match type of H with (if ?q then _ else _) = _ => destruct q end.
  { eapply first_open; [| |exact H]; [|exact S3]. apply K; try reflexivity; exact Hs. }
  apply bind_ret_inv in H as (ty & Ty & H). destruct (ty =? TokenNewlineTimestamp).
  - injection H as <- <-. split; [discriminate|]. split; [exact S1|split; [exact S2|intros _; exact S3]].
  - eapply first_open; [| |exact H]; [|exact S3]. apply K; try reflexivity; exact Hs.
Qed.
(** What later calls start from: nothing pending is the end of the log. *)
Definition goes_on (bp : bparser) : Prop := noend (lp_lex (bp_lp bp)) /\ (lp_has_start (bp_lp bp) = true -> nonend (t_ids (lp_start_tok (bp_lp bp)))).
Lemma call_open : forall fuel sfuel k m size offset bp off bp', goes_on bp -> bp_done bp = false ->
  parse_next_event fuel sfuel c k m size offset false bp = Ret (true, off, bp') -> bp_done bp' = false /\ goes_on bp'.
Proof.
  intros fuel sfuel k m size offset bp off bp' (G1 & G2) Hd H. unfold parse_next_event in H.
  apply bind_ret_inv in H as ((oa, r) & Pm & H). unfold parse_and_generate_metadata in Pm. apply bind_ret_inv in Pm as ((oa', q) & Pa & Pm).
  assert (oa' <> Some ActCompressAndFinish /\ opened q) as (Na & _ & O2 & O3).
  { eapply parse_open; [|exact Pa]. split; [split; reflexivity|]. split; [exact G1|exact G2]. }
  destruct oa' as [a|].
  - apply bind_ret_inv in Pm as (r' & Mt & Pm). injection Pm as <- <-. injection H as <- <-. destruct (meta_out _ _ Mt) as (_ & M2 & _ & M4 & M5).
    split; [cbn; destruct a; congruence|]. split; cbn; [rewrite M2; exact O2|rewrite M4, M5; exact O3].
  - injection Pm as <- <-. discriminate.
Qed.
Lemma feed_open {A} (obs : lparser -> A) : forall calls fuel sfuel k m size offset bp l d o bp', goes_on bp -> bp_done bp = false ->
  feed obs calls fuel sfuel c k m size offset false bp = Ret (l, d, o, bp') -> d = false.
Proof.
  induction calls as [|calls IH]; intros fuel sfuel k m size offset bp l d o bp' G Hd H; [discriminate|]. cbn [feed] in H.
  apply bind_ret_inv in H as (((ok, off), bp1) & P & H). destruct ok; [|injection H as _ <- _ _; reflexivity].
  destruct (call_open _ _ _ _ _ _ _ _ _ G Hd P) as (Hd' & G'). rewrite Hd' in H.
  apply bind_ret_inv in H as ((((l1, d1), o1), bp2) & D & H). injection H as _ <- _ _. apply (IH _ _ _ _ _ _ _ _ _ _ _ G' Hd' D).
Qed.
Lemma reset_goes_on : forall bp, lp_has_start (bp_lp bp) = false -> goes_on (bp_reset c bp).
Proof.
  intros bp H. split; cbn; [discriminate|rewrite H; discriminate].
Qed.
End NoEnd.
