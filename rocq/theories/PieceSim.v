(** PieceSim.v -- line numbers, and the type of the timestamp, do not influence parsing. *)
From Verif Require Import Base LexerModel LexerSpec LogParserModel EventSpec ReaderSpec FeedSpec PieceSpec LexerProofs LogParserProofs EventProofs ReaderProofs WindowBound.

(** Lexers that differ in line numbers only (and in what is not used any more). *)
Record lx (l1 l2 : lex) : Prop := {
  lx_m : l_match l1 = l_match l2;
  lx_a1 : l_asked l1 = false;
  lx_a2 : l_asked l2 = false;
  lx_l : l_last_match_pos l1 = l_last_match_pos l2;
  lx_p : l_match l1 = true -> l_start_pos l1 = l_start_pos l2 /\ l_match_pos l1 = l_match_pos l2 /\ l_ids l1 = l_ids l2
}.
Record tx (t1 t2 : token) : Prop := {
  tx_s : t_start t1 = t_start t2;
  tx_e : t_end t1 = t_end t2;
  tx_sid : t_sid t1 = t_sid t2;
  tx_z : t_bufsz t1 = t_bufsz t2;
  tx_i : t_ids t1 = t_ids t2
}.
(** Tokens that may also differ in which timestamp they are. *)
Record tq (t1 t2 : token) : Prop := {
  tq_s : t_start t1 = t_start t2;
  tq_e : t_end t1 = t_end t2;
  tq_sid : t_sid t1 = t_sid t2;
  tq_z : t_bufsz t1 = t_bufsz t2;
  tq_i : t_ids t1 = t_ids t2 \/ exists i1 l1 i2 l2, t_ids t1 = Some (i1 :: l1) /\ t_ids t2 = Some (i2 :: l2) /\ stamp_id i1 = true /\ stamp_id i2 = true
}.
Lemma tx_tq t1 t2 : tx t1 t2 -> tq t1 t2.
Proof. intros []. constructor; auto. Qed.

Definition sx (r1 r2 : scan_res) : Prop :=
  match r1, r2 with
  | Ret (Some t1, l1, b1), Ret (Some t2, l2, b2) => tx t1 t2 /\ lx l1 l2 /\ b1 = b2
  | Ret (None, _, _), Ret (None, _, _) => True
  | UB, UB | Throw, Throw | OutOfFuel, OutOfFuel => True
  | _, _ => False
  end.

(** The end of an iteration of scan_loop (Lexer.tpp 95-164). *)
Definition after_match (l3 : lex) (b1 : ibuf) : scan_res :=
  let b2 := ib_set_pos (ib_set_full b1 false) (l_match_pos l3) in
  let l4 := lex_restore_line l3 in
  if negb (l_last_match_pos l4 =? l_start_pos l4) then
    Ret (Some (mk_tok b2 (l_last_match_pos l4) (l_start_pos l4) (l_last_match_line l4) cTokenUncaughtStringTypes), l4, b2)
  else
    Ret (Some (mk_tok b2 (l_start_pos l4) (l_match_pos l4) (l_match_line l4) (l_ids l4)), lex_take l4, b2).
Definition tail_of (fuel : nat) (c : lexcfg) (q : nat) (ch prev : N) (b1 : ibuf) (full : bool) (l3 : lex) : scan_res :=
  if l_match l3 then after_match l3 b1
  else if full && (l_start_pos l3 =? ib_pos b1) then
    if negb (l_last_match_pos l3 =? l_start_pos l3) then
      Ret (Some (mk_tok b1 (l_last_match_pos l3) (l_start_pos l3) (l_last_match_line l3) cTokenUncaughtStringTypes), lex_end l3 (ib_pos b1), b1)
    else Ret (Some (mk_tok b1 (ib_pos b1) (ib_pos b1) (l_line l3) cTokenEndTypes), l3, b1)
  else
    match skip_loop fuel c ch prev b1 with
    | UB => UB | Throw => Throw | OutOfFuel => OutOfFuel
    | Ret (None, b2) => Ret (None, lex_ask l3 q, b2)
    | Ret (Some prev', b2) => scan_loop fuel c d_root (lex_set_start l3 prev') (ib_set_pos b2 prev')
    end.
Definition tail_or_go (fuel : nat) (c : lexcfg) (q : nat) (ch prev : N) (b1 : ibuf) (next : option nat) (l3 : lex) : scan_res :=
  match ib_full b1, next with
  | false, Some n => scan_loop fuel c n l3 b1
  | full, _ => tail_of fuel c q ch prev b1 full l3
  end.
Definition newline_step (c : lexcfg) (q : nat) (ch prev : N) (b1 : ibuf) (l1 : lex) : out (option nat * lex) :=
  if ch =? cNewline then
    let l2 := lex_inc_line l1 in
    if c_has_delims c && negb (l_match l2) then
      match d_next (c_dfa c) d_root ch with
      | None => UB
      | Some n => Ret (Some n, lex_newline l2 (d_ids (c_dfa c) n) prev (ib_pos b1))
      end
    else Ret (d_next (c_dfa c) q ch, l2)
  else Ret (d_next (c_dfa c) q ch, l1).
Definition match_step (c : lexcfg) (q : nat) (ch prev : N) (b1 : ibuf) (l : lex) : lex :=
  if (c_delim c ch || ib_full b1 || negb (c_has_delims c)) && is_accepting (c_dfa c) q
  then lex_set_match l (d_ids (c_dfa c) q) prev (l_line l) else l.
Lemma scan_loop_S fuel c q l b : scan_loop (S fuel) c q l b =
  match get_next_character b with
  | UB => UB | Throw => Throw | OutOfFuel => OutOfFuel
  | Ret None => Ret (None, lex_ask l q, b)
  | Ret (Some (ch, b1)) =>
    do (next, l3) <- newline_step c q ch (ib_pos b) b1 (match_step c q ch (ib_pos b) b1 l);
    tail_or_go fuel c q ch (ib_pos b) b1 next l3
  end.
Proof. reflexivity. Qed.

Lemma scan_loop_lx c : forall fuel q l1 l2 b, lx l1 l2 -> l_start_pos l1 = l_start_pos l2 -> sx (scan_loop fuel c q l1 b) (scan_loop fuel c q l2 b).
Proof.
  induction fuel as [|fuel IH]; intros q l1 l2 b L Hs; [exact I|]. rewrite !scan_loop_S.
  destruct (get_next_character b) as [[(ch, b1)|]| | |]; try exact I.
  assert (lx (match_step c q ch (ib_pos b) b1 l1) (match_step c q ch (ib_pos b) b1 l2) /\
          l_start_pos (match_step c q ch (ib_pos b) b1 l1) = l_start_pos (match_step c q ch (ib_pos b) b1 l2)) as (La & Hsa).
  { unfold match_step. destruct ((c_delim c ch || ib_full b1 || negb (c_has_delims c)) && is_accepting (c_dfa c) q); [|auto].
    destruct L. split; [constructor; cbn; auto|exact Hs]. }
  revert La Hsa. generalize (match_step c q ch (ib_pos b) b1 l1) as l1a, (match_step c q ch (ib_pos b) b1 l2) as l2a. clear L Hs l1 l2. intros l1a l2a La Hsa.
  assert (forall l1 l2, lx l1 l2 -> l_start_pos l1 = l_start_pos l2 -> forall next,
    sx (tail_or_go fuel c q ch (ib_pos b) b1 next l1) (tail_or_go fuel c q ch (ib_pos b) b1 next l2)) as Rest.
  { clear La Hsa l1a l2a. intros l1 l2 L Hs next. pose proof L as [L1 L2 L3 L4 L5].
    assert (forall full : bool, sx (tail_of fuel c q ch (ib_pos b) b1 full l1) (tail_of fuel c q ch (ib_pos b) b1 full l2)) as K.
    { intro full. unfold tail_of, after_match. cbv zeta. cbn [l_last_match_pos l_start_pos lex_restore_line l_match_pos l_match_line l_last_match_line l_ids].
      rewrite <- L1, <- L4, <- Hs. destruct (l_match l1) eqn:Em.
      - destruct (L5 eq_refl) as (_ & P2 & P3). rewrite <- P2, <- P3.
        destruct (negb (l_last_match_pos l1 =? l_start_pos l1)); cbn; (split; [constructor; reflexivity|]); (split; [|reflexivity]); constructor; cbn; auto; intros; try discriminate; repeat split; auto; congruence.
      - destruct (full && (l_start_pos l1 =? ib_pos b1)).
        + destruct (negb (l_last_match_pos l1 =? l_start_pos l1)); cbn; (split; [constructor; reflexivity|]); (split; [|reflexivity]); constructor; cbn; auto; congruence.
        + destruct (skip_loop fuel c ch (ib_pos b) b1) as [([p|], b2)| | |]; try exact I. apply IH; [|reflexivity]. constructor; cbn; auto; congruence. }
    unfold tail_or_go. destruct (ib_full b1); [apply (K true)|]. destruct next as [n|]; [apply IH; assumption|]. apply (K false). }
  unfold newline_step. destruct (ch =? cNewline).
  - cbv zeta. assert (lx (lex_inc_line l1a) (lex_inc_line l2a)) as Li by (destruct La; constructor; cbn; auto).
    replace (l_match (lex_inc_line l2a)) with (l_match (lex_inc_line l1a)) by (destruct La; cbn; auto).
    destruct (c_has_delims c && negb (l_match (lex_inc_line l1a))).
    + destruct (d_next (c_dfa c) d_root ch) as [n|]; [|exact I]. cbn [bind]. apply Rest; [|reflexivity]. destruct La; constructor; cbn; auto.
    + cbn [bind]. apply Rest; [exact Li|exact Hsa].
  - cbn [bind]. apply Rest; assumption.
Qed.

Lemma scan_lx c fuel l1 l2 b : lx l1 l2 -> sx (scan fuel c l1 b) (scan fuel c l2 b).
Proof.
  intros L. pose proof L as [L1 L2 L3 L4 L5]. unfold scan. rewrite L2, L3, <- L1. destruct (l_match l1) eqn:Em.
  - destruct (L5 eq_refl) as (-> & -> & ->). cbn. split; [constructor; reflexivity|]. split; [|reflexivity]. constructor; cbn; auto; try congruence.
    destruct (L5 eq_refl) as (_ & P & _). exact P.
  - apply scan_loop_lx; [|reflexivity]. constructor; cbn; auto. congruence.
Qed.

(** * The parser *)
(** Output buffers: the token in slot 0 may also differ in which timestamp it is. *)
Record ox (o1 o2 : obuf) : Prop := {
  ox_pos : ob_pos o1 = ob_pos o2;
  ox_size : ob_size o1 = ob_size o2;
  ox_ts : ob_has_ts o1 = ob_has_ts o2;
  ox_dl : ob_has_delims o1 = ob_has_delims o2;
  ox_ne : ob_has_ts o1 = true -> 0 < ob_pos o1;
  ox_q : forall i, ob_first o1 <= i < ob_pos o1 -> tq (ob_act o1 i) (ob_act o2 i);
  ox_x : forall i, ob_first o1 <= i < ob_pos o1 -> 1 <= i -> tx (ob_act o1 i) (ob_act o2 i)
}.
Record px (p1 p2 : lparser) : Prop := {
  px_lex : lx (lp_lex p1) (lp_lex p2);
  px_in : lp_in p1 = lp_in p2;
  px_hs : lp_has_start p1 = lp_has_start p2;
  px_st : lp_has_start p1 = true -> tx (lp_start_tok p1) (lp_start_tok p2);
  px_out : ox (lp_out p1) (lp_out p2)
}.
Definition rx (r1 r2 : out (option paction * lparser)) : Prop :=
  match r1, r2 with
  | Ret (Some a1, p1), Ret (Some a2, p2) => a1 = a2 /\ px p1 p2
  | Ret (None, _), Ret (None, _) => True
  | UB, UB | Throw, Throw | OutOfFuel, OutOfFuel => True
  | _, _ => False
  end.

Lemma ob_first_ox o1 o2 : ox o1 o2 -> ob_first o1 = ob_first o2.
Proof. intros X. unfold ob_first. rewrite (ox_ts _ _ X). reflexivity. Qed.
(** The token in the current slot and the step to the next one. *)
Lemma ox_push o1 o2 t1 t2 : ox o1 o2 -> ob_first o1 <= ob_pos o1 -> 1 <= ob_pos o1 -> tx t1 t2 -> ox (ob_advance (ob_set_curr o1 t1)) (ob_advance (ob_set_curr o2 t2)).
Proof.
  intros [X1 X2 X3 X4 X7 X5 X6] Hf H1 T.
  assert (forall i, ob_first o1 <= i < ob_pos o1 + 1 -> tq (ob_upd (ob_act o1) (ob_pos o1) t1 i) (ob_upd (ob_act o2) (ob_pos o2) t2 i)) as K1.
  { intros i Hi. unfold ob_upd. rewrite <- X1. destruct (N.eqb_spec i (ob_pos o1)); [apply tx_tq; exact T|apply X5; lia]. }
  assert (forall i, ob_first o1 <= i < ob_pos o1 + 1 -> 1 <= i -> tx (ob_upd (ob_act o1) (ob_pos o1) t1 i) (ob_upd (ob_act o2) (ob_pos o2) t2 i)) as K2.
  { intros i Hi Hi'. unfold ob_upd. rewrite <- X1. destruct (N.eqb_spec i (ob_pos o1)); [exact T|apply X6; lia]. }
  unfold ob_advance, ob_set_curr, ob_set_token. cbn [ob_pos ob_size ob_act ob_base ob_has_ts ob_has_delims]. rewrite <- X1, <- X2 in *.
  destruct (N.eqb_spec (ob_pos o1 + 1) (ob_size o1)) as [E|E].
  - constructor; cbn [ob_pos ob_size ob_act ob_base ob_has_ts ob_has_delims]; auto; [lia|..]; unfold ob_first; cbn [ob_has_ts]; intros i Hi; destruct (N.ltb_spec i (ob_size o1)); try lia; auto.
  - constructor; cbn; auto; lia.
Qed.
Lemma ox_curr o1 o2 t1 t2 : ox o1 o2 -> ox (ob_set_curr o1 t1) (ob_set_curr o2 t2).
Proof.
  intros [X1 X2 X3 X4 X7 X5 X6]. constructor; cbn; auto; unfold ob_first, ob_upd; cbn; rewrite <- X1; intros i Hi; destruct (N.eqb_spec i (ob_pos o1)); try lia; auto.
Qed.
Lemma px_set_out p1 p2 o1 o2 : px p1 p2 -> ox o1 o2 -> px (lp_set_out p1 o1) (lp_set_out p2 o2).
Proof. intros [] O. constructor; cbn; auto. Qed.
Lemma px_set_cons p1 p2 n : px p1 p2 -> px (lp_set_cons p1 n) (lp_set_cons p2 n).
Proof. intros []. constructor; cbn; auto. congruence. Qed.
Lemma tx_type t1 t2 : tx t1 t2 -> tok_type t1 = tok_type t2.
Proof. intros X. unfold tok_type. rewrite (tx_i _ _ X). reflexivity. Qed.
Lemma tx_skip t1 t2 : tx t1 t2 -> tx (skip_newline t1) (skip_newline t2).
Proof. intros [P1 P2 P3 P4 P5]. unfold skip_newline. rewrite P1, P4. constructor; cbn; auto. Qed.
Lemma tx_only t1 t2 : tx t1 t2 -> tx (only_newline t1) (only_newline t2).
Proof. intros [P1 P2 P3 P4 P5]. constructor; cbn; congruence. Qed.

Lemma parse_loop_px c sfuel : forall fuel p1 p2, px p1 p2 -> ob_first (lp_out p1) <= ob_pos (lp_out p1) -> 1 <= ob_pos (lp_out p1) ->
  rx (parse_loop fuel sfuel c p1) (parse_loop fuel sfuel c p2).
Proof.
  induction fuel as [|fuel IH]; intros p1 p2 P Hf H1; [exact I|]. cbn [parse_loop]. unfold get_next_symbol.
  pose proof (scan_lx c sfuel _ _ (lp_in p1) (px_lex _ _ P)) as S. rewrite (px_in _ _ P) in S at 2. unfold sx in S.
  destruct (scan sfuel c (lp_lex p1) (lp_in p1)) as [(([t1|], l1), b1)| | |]; destruct (scan sfuel c (lp_lex p2) (lp_in p2)) as [(([t2|], l2), b2)| | |]; try contradiction; try exact I.
  destruct S as (T & L & <-). cbn [bind lp_set_lexin lp_set_out lp_out lp_in ob_set_curr ob_set_token ob_has_ts].
  rewrite <- (tx_type _ _ T). destruct (tok_type t1) as [ty| | |]; try exact I. cbn [bind].
  pose proof (px_out _ _ P) as O. rewrite <- (ox_ts _ _ O).
  replace (tok_char (ib_heap b1) t2 0) with (tok_char (ib_heap b1) t1 0) by (unfold tok_char; rewrite (tx_s _ _ T), (tx_sid _ _ T), (tx_z _ _ T); reflexivity).
  match goal with |- rx (bind ?X _) _ => destruct X as [found| | |]; try exact I end. cbn [bind].
  set (q1 := lp_set_lexin p1 l1 b1). set (q2 := lp_set_lexin p2 l2 b1).
  assert (px q1 q2) as Q by (destruct P; constructor; cbn; auto).
  change (px q1 q2) in Q.
  change (mkLp l1 b1 (lp_has_start p1) (lp_start_tok p1) (lp_out p1) (lp_multi p1) (lp_occ p1)) with q1.
  change (mkLp l2 b1 (lp_has_start p2) (lp_start_tok p2) (lp_out p2) (lp_multi p2) (lp_occ p2)) with q2.
  destruct (ty =? TokenEnd).
  { split; [reflexivity|]. apply px_set_out; [exact Q|]. apply ox_curr. exact O. }
  destruct (negb (ob_has_ts (lp_out p1)) && (ty =? TokenNewline)).
  { split; [reflexivity|]. rewrite <- (tx_e _ _ T). apply px_set_out; [|apply ox_push; auto]. apply px_set_cons. apply px_set_out; [exact Q|]. apply ox_curr. exact O. }
  destruct found.
  { split; [reflexivity|]. pose proof (tx_skip _ _ T) as Tk. pose proof (tx_only _ _ T) as To. rewrite <- (tx_s _ _ Tk).
    assert (ox (ob_set_curr (lp_out q1) t1) (ob_set_curr (lp_out q2) t2)) as O1 by (apply ox_curr; exact O).
    apply px_set_out.
    - constructor; cbn; auto. apply ox_curr. exact O1.
    - change (ox (ob_advance (ob_set_curr (ob_set_curr (lp_out p1) t1) (only_newline t1))) (ob_advance (ob_set_curr (ob_set_curr (lp_out p2) t2) (only_newline t2)))).
      apply ox_push; auto. }
  apply IH.
  - apply px_set_out; [|apply ox_push; auto]. apply px_set_out; [exact Q|]. apply ox_curr. exact O.
  - cbn [lp_set_out lp_out]. unfold ob_advance. cbn [ob_set_curr ob_set_token ob_pos ob_size].
    destruct (ob_pos (lp_out p1) + 1 =? ob_size (lp_out p1)); unfold ob_first in *; cbn in *; destruct (ob_has_ts (lp_out p1)); lia.
  - cbn [lp_set_out lp_out]. unfold ob_advance. cbn [ob_set_curr ob_set_token ob_pos ob_size].
    destruct (ob_pos (lp_out p1) + 1 =? ob_size (lp_out p1)); cbn; lia.
Qed.

Lemma tq_type t1 t2 : tq t1 t2 -> tok_type t1 = tok_type t2 \/ exists i1 i2, tok_type t1 = Ret i1 /\ tok_type t2 = Ret i2 /\ stamp_id i1 = true /\ stamp_id i2 = true.
Proof.
  intros [_ _ _ _ [Q|(i1 & l1 & i2 & l2 & Q1 & Q2 & Q3 & Q4)]]; unfold tok_type.
  - left. rewrite Q. reflexivity.
  - right. rewrite Q1, Q2. eauto 6.
Qed.
Lemma parse_first_px c fuel sfuel p1 p2 t1 t2 : lx (lp_lex p1) (lp_lex p2) -> lp_in p1 = lp_in p2 ->
  ob_size (lp_out p1) = ob_size (lp_out p2) -> ob_has_delims (lp_out p1) = ob_has_delims (lp_out p2) ->
  ob_has_ts (lp_out p1) = false -> ob_has_ts (lp_out p2) = false ->
  (tok_type t1 = Ret TokenEnd -> lp_has_start p1 = lp_has_start p2 /\ (lp_has_start p1 = true -> tx (lp_start_tok p1) (lp_start_tok p2))) ->
  tq t1 t2 -> (tok_type t1 = tok_type t2 -> tx t1 t2) ->
  rx (parse_first fuel sfuel c p1 t1) (parse_first fuel sfuel c p2 t2).
Proof.
  intros L In S D T1 T2 Hs Q X. unfold parse_first.
  assert (forall i1 i2, tok_type t1 = Ret i1 -> tok_type t2 = Ret i2 ->
    stamp_id i1 = stamp_id i2 /\ (stamp_id i1 = false -> tx t1 t2)) as K.
  { intros i1 i2 E1 E2. destruct (tq_type _ _ Q) as [E|(j1 & j2 & F1 & F2 & F3 & F4)].
    - assert (i1 = i2) as -> by congruence. auto.
    - assert (i1 = j1) as -> by congruence. assert (i2 = j2) as -> by congruence. split; congruence. }
  destruct (tok_type t1) as [i1| | |] eqn:E1.
  2-4: destruct (tq_type _ _ Q) as [E|(j1 & j2 & F1 & F2 & F3 & F4)]; [rewrite <- E, E1; exact I|congruence].
  assert (exists i2, tok_type t2 = Ret i2) as (i2 & E2).
  { destruct (tq_type _ _ Q) as [E|(j1 & j2 & F1 & F2 & F3 & F4)]; [exists i1|exists j2]; congruence. }
  rewrite E2. cbn [bind]. destruct (K i1 i2 eq_refl E2) as (Ks & Kx).
  assert ((i2 =? TokenEnd) = (i1 =? TokenEnd)) as ->.
  { destruct (tq_type _ _ Q) as [E|(j1 & j2 & F1 & F2 & F3 & F4)]; [congruence|]. rewrite E2 in F2. rewrite E1 in F1. injection F1 as <-. injection F2 as <-.
    destruct (N.eqb_spec i1 TokenEnd) as [->|]; [discriminate|]. destruct (N.eqb_spec i2 TokenEnd) as [->|]; [discriminate|reflexivity]. }
  destruct (N.eqb_spec i1 TokenEnd) as [->|Hne].
  { destruct (Hs eq_refl) as (Hs1 & St). split; [reflexivity|]. constructor; cbn; auto. constructor; cbn; auto; try congruence; unfold ob_first; cbn; rewrite T1; intros; lia. }
  fold (stamp_id i1). fold (stamp_id i2). rewrite <- Ks. destruct (stamp_id i1) eqn:Es.
  - apply parse_loop_px; [|cbn; unfold ob_first; cbn; lia|cbn; lia]. constructor; cbn; auto; [discriminate|].
    constructor; cbn; auto; [lia|..]; unfold ob_first, ob_upd; cbn; intros i Hi; assert (i = 0) as -> by lia; auto. lia.
  - specialize (Kx eq_refl). apply parse_loop_px; [|cbn; unfold ob_first; cbn; lia|cbn; lia]. constructor; cbn; auto; [discriminate|].
    constructor; cbn; auto; try discriminate; unfold ob_first, ob_upd; cbn; intros i Hi; assert (i = 1) as -> by lia; cbn; auto.
Qed.

(** Between two calls. *)
Record bx (p1 p2 : lparser) : Prop := {
  bx_lex : lx (lp_lex p1) (lp_lex p2);
  bx_in : lp_in p1 = lp_in p2;
  bx_hs : lp_has_start p1 = lp_has_start p2;
  bx_st : lp_has_start p1 = true -> tx (lp_start_tok p1) (lp_start_tok p2)
}.
Lemma px_bx p1 p2 : px p1 p2 -> bx p1 p2.
Proof. intros []. constructor; auto. Qed.

(** The parser as parse_next_event prepares it. *)
Definition prepared (k : nat) (m : mem) (size offset : N) (fin : bool) (p : lparser) : lparser :=
  let p0 := reset_log_event_view p in lp_set_lexin p0 (lp_lex p0) (ib_set_storage (lp_in p0) k m size offset fin).

Lemma parse_bx c fuel sfuel k m size offset fin p1 p2 : bx p1 p2 ->
  rx (parse fuel sfuel c (prepared k m size offset fin p1)) (parse fuel sfuel c (prepared k m size offset fin p2)).
Proof.
  intros [B1 B2 B3 B4]. unfold parse. cbn [prepared reset_log_event_view lp_set_lexin lp_out ob_reset ob_pos lp_set_out lp_has_start].
  change (0 =? 0) with true. cbv iota. rewrite <- B3. destruct (lp_has_start p1) eqn:Hs.
  - cbn [lp_start_tok prepared reset_log_event_view lp_set_lexin]. apply parse_first_px; cbn; auto; try (rewrite B2; reflexivity); try (intros _; split; [congruence|intros _; apply B4; reflexivity]). apply tx_tq. apply B4. reflexivity.
  - unfold get_next_symbol. cbn [lp_lex lp_in prepared lp_set_lexin lp_set_out reset_log_event_view]. rewrite <- B2.
    pose proof (scan_lx c sfuel _ _ (ib_set_storage (lp_in p1) k m size offset fin) B1) as S. unfold sx in S.
    destruct (scan sfuel c (lp_lex p1) (ib_set_storage (lp_in p1) k m size offset fin)) as [(([t1|], l1), b1)| | |];
    destruct (scan sfuel c (lp_lex p2) (ib_set_storage (lp_in p1) k m size offset fin)) as [(([t2|], l2), b2)| | |]; try contradiction; try exact I.
    destruct S as (T & L & <-). cbn [bind lp_set_lexin lp_set_out lp_out ob_set_delims ob_has_ts ob_reset].
    rewrite <- (tx_type _ _ T). destruct (tok_type t1) as [ty| | |] eqn:Et; try exact I. cbn [bind].
    destruct (ty =? TokenNewlineTimestamp).
    + split; [reflexivity|]. pose proof (tx_only _ _ T) as To. pose proof (tx_skip _ _ T) as Tk. rewrite <- (tx_s _ _ To). constructor; cbn [lp_set_start lp_set_cons lp_set_lexin lp_set_out lp_lex lp_in lp_has_start lp_start_tok lp_out]; auto.
      constructor; cbn; auto; try discriminate; unfold ob_first, ob_upd; cbn; intros i Hi; assert (i = 1) as -> by lia; cbn; auto using tx_tq.
    + destruct (N.eq_dec ty TokenEnd) as [->|Hty].
      { unfold parse_first. rewrite <- (tx_type _ _ T), Et. cbn [bind]. change (TokenEnd =? TokenEnd) with true. cbv iota. split; [reflexivity|].
        constructor; cbn; auto; try congruence.
        constructor; cbn; auto; try discriminate; unfold ob_first; cbn; intros i Hi; lia. }
      apply parse_first_px; cbn; auto using tx_tq; congruence.
Qed.

(** * What is seen of an event *)
Lemma tq_text h t1 t2 : tq t1 t2 -> tok_text h t1 = tok_text h t2.
Proof. intros [Q1 Q2 Q3 Q4 _]. unfold tok_text. rewrite Q1, Q2, Q3, Q4. reflexivity. Qed.
Lemma tq_seen p1 p2 t1 t2 : lp_in p1 = lp_in p2 -> tq t1 t2 -> seen (shown p1 t1) = seen (shown p2 t2).
Proof.
  intros Hin Q. unfold shown, seen. rewrite Hin, (tq_text _ _ _ Q). f_equal.
  destruct (tq_i _ _ Q) as [->|(i1 & l1 & i2 & l2 & -> & -> & -> & ->)]; reflexivity.
Qed.
Lemma nth_of {A} (l : list A) i d : (i < length l)%nat -> nth_error l i = Some (nth i l d).
Proof. revert i. induction l as [|x l IH]; intros [|i] H; cbn in *; try lia; [reflexivity|]. apply IH. lia. Qed.

Lemma seq_combine {A} (f : nat -> A) : forall n s, combine (seq s n) (map f (seq s n)) = map (fun i => (i, f i)) (seq s n).
Proof. induction n as [|n IH]; intros s; [reflexivity|]. cbn. rewrite IH. reflexivity. Qed.

(** m_log_var_occurrences: the same slots, of the event's tokens, except for timestamps. *)
Record cx (lo hi : N) (occ1 occ2 : list (list N)) : Prop := {
  cx_len : length occ1 = length occ2;
  cx_nth : forall j, stamp_id (N.of_nat j) = false -> nth_error occ1 j = nth_error occ2 j;
  cx_in : forall j l i, stamp_id (N.of_nat j) = false -> nth_error occ1 j = Some l -> In i l -> lo <= i < hi
}.
Lemma occ_add_nth occ id slot occ' : occ_add occ id slot = Ret occ' -> length occ' = length occ /\
  forall j, nth_error occ' j = if Nat.eqb j (N.to_nat id) then option_map (fun l => l ++ [slot]) (nth_error occ j) else nth_error occ j.
Proof.
  unfold occ_add. set (i := N.to_nat id). destruct (nth_error occ i) as [l|] eqn:E; [|discriminate]. intros H. injection H as <-.
  assert (i < length occ)%nat as Hi by (apply nth_error_Some; congruence).
  assert (length (firstn i occ) = i) as Hf by (rewrite firstn_length; lia).
  split.
  - rewrite app_length, Hf. change (i + S (length (skipn (S i) occ)) = length occ)%nat. rewrite skipn_length. lia.
  - intros j. destruct (Nat.eqb_spec j i) as [->|Hne].
    + rewrite nth_error_app2 by lia. rewrite Hf, Nat.sub_diag, E. reflexivity.
    + destruct (Nat.lt_ge_cases j i).
      * rewrite nth_error_app1 by lia. apply nth_error_firstn_lt. exact H.
      * rewrite nth_error_app2 by lia. rewrite Hf. destruct (j - i)%nat as [|z] eqn:Ez; [lia|]. change (nth_error (skipn (S i) occ) z = nth_error occ j). rewrite LexerProofs.nth_error_skipn. f_equal. lia.
Qed.
Lemma meta_sim h o1 o2 lo hi : forall is nl occ1 occ2 n1 n2 r1 r2, (forall i, In i is -> lo <= i < hi /\ tq (ob_act o1 i) (ob_act o2 i)) -> cx lo hi occ1 occ2 ->
  meta_loop h o1 is nl occ1 = Ret (n1, r1) -> meta_loop h o2 is nl occ2 = Ret (n2, r2) -> n1 = n2 /\ cx lo hi r1 r2.
Proof.
  induction is as [|i is IH]; intros nl occ1 occ2 n1 n2 r1 r2 Ht C H1 H2; cbn [meta_loop] in *.
  - injection H1 as <- <-. injection H2 as <- <-. auto.
  - destruct (Ht i (or_introl eq_refl)) as (Hi & Q).
    apply bind_ret_inv in H1 as (ty1 & T1 & H1). apply bind_ret_inv in H1 as (o1' & A1 & H1). apply bind_ret_inv in H1 as (d1 & D1 & H1).
    apply bind_ret_inv in H2 as (ty2 & T2 & H2). apply bind_ret_inv in H2 as (o2' & A2 & H2). apply bind_ret_inv in H2 as (d2 & D2 & H2).
    assert (d1 = d2) as <- by (unfold tok_delimiter in *; rewrite (tq_s _ _ Q), (tq_sid _ _ Q) in D1; congruence).
    refine (IH _ _ _ _ _ _ _ (fun j Hj => Ht j (or_intror Hj)) _ H1 H2).
    destruct (occ_add_nth _ _ _ _ A1) as (L1 & N1). destruct (occ_add_nth _ _ _ _ A2) as (L2 & N2). destruct C as [C1 C2 C3].
    assert (ty1 = ty2 \/ stamp_id ty1 = true /\ stamp_id ty2 = true) as Ty.
    { destruct (tq_type _ _ Q) as [E|(j1 & j2 & F1 & F2 & F3 & F4)]; [left; congruence|right]. split; congruence. }
    assert (forall j, stamp_id (N.of_nat j) = false -> Nat.eqb j (N.to_nat ty1) = Nat.eqb j (N.to_nat ty2)) as Tj.
    { intros j Hj. destruct Ty as [<-|(S1 & S2)]; [reflexivity|]. destruct (Nat.eqb_spec j (N.to_nat ty1)) as [->|]; [rewrite N2Nat.id in Hj; congruence|].
      destruct (Nat.eqb_spec j (N.to_nat ty2)) as [->|]; [rewrite N2Nat.id in Hj; congruence|reflexivity]. }
    constructor.
    + congruence.
    + intros j Hj. rewrite N1, N2, (Tj j Hj), (C2 j Hj). reflexivity.
    + intros j l x Hj Hl Hx. rewrite N1 in Hl. destruct (Nat.eqb j (N.to_nat ty1)); [|eauto].
      destruct (nth_error occ1 j) as [l0|] eqn:E0; [|discriminate]. injection Hl as <-. apply in_app_or in Hx as [Hx|[<-|[]]]; [eauto|exact Hi].
Qed.
Lemma cx_reset lo hi (occ1 occ2 : list (list N)) : length occ1 = length occ2 -> cx lo hi (map (fun _ => @nil N) occ1) (map (fun _ => @nil N) occ2).
Proof.
  intros H. assert (map (fun _ => @nil N) occ1 = map (fun _ => @nil N) occ2) as E.
  { revert occ2 H. induction occ1 as [|x l IH]; intros [|y l2] H; try discriminate; [reflexivity|]. cbn. f_equal. apply IH. injection H as H. exact H. }
  rewrite E. constructor; auto. intros j l i _ Hj Hi. apply nth_error_In in Hj. apply in_map_iff in Hj as (? & <- & _). contradiction.
Qed.

Lemma plain_eq nsym name p1 p2 : ox (lp_out p1) (lp_out p2) -> lp_in p1 = lp_in p2 -> lp_multi p1 = lp_multi p2 ->
  cx (ob_first (lp_out p1)) (ob_pos (lp_out p1)) (lp_occ p1) (lp_occ p2) ->
  plain_of (report_of name nsym p1) = plain_of (report_of name nsym p2).
Proof.
  intros O Hin Hmu [C1 C2 C3]. pose proof O as [X1 X2 X3 X4 X7 X5 X6]. pose proof (ob_first_ox _ _ O) as Xf.
  assert (map (tok_text (ib_heap (lp_in p1))) (ob_tokens (lp_out p1)) = map (tok_text (ib_heap (lp_in p2))) (ob_tokens (lp_out p2))) as Etx.
  { unfold ob_tokens. rewrite <- Xf, <- X1, !map_map. apply map_ext_in. intros i Hi. apply in_indices in Hi. rewrite Hin. apply tq_text. apply X5. exact Hi. }
  assert (ev_to_string p1 = ev_to_string p2) as E1 by (unfold ev_to_string; rewrite Etx; reflexivity).
  assert (map seen (map (shown p1) (ob_tokens (lp_out p1))) = map seen (map (shown p2) (ob_tokens (lp_out p2)))) as E2.
  { unfold ob_tokens. rewrite <- Xf, <- X1, !map_map. apply map_ext_in. intros i Hi. apply in_indices in Hi. apply tq_seen; [exact Hin|]. apply X5. exact Hi. }
  assert (option_map seen (option_map (shown p1) (ev_timestamp p1)) = option_map seen (option_map (shown p2) (ev_timestamp p2))) as E3.
  { unfold ev_timestamp. rewrite <- X3. destruct (ob_has_ts (lp_out p1)) eqn:Ets; [|reflexivity]. cbn. f_equal. apply tq_seen; [exact Hin|].
    apply X5. unfold ob_first. rewrite Ets. specialize (X7 eq_refl). lia. }
  assert (ev_multiline p1 = ev_multiline p2) as E4 by exact Hmu.
  assert (forallb (not_empty p1) (ob_tokens (lp_out p1)) = forallb (not_empty p2) (ob_tokens (lp_out p2))) as E5.
  { transitivity (forallb (fun x => match x with Ret (_ :: _) => true | _ => false end) (map (tok_text (ib_heap (lp_in p1))) (ob_tokens (lp_out p1)))).
    - clear. unfold not_empty. induction (ob_tokens (lp_out p1)) as [|x l IH]; [reflexivity|]. cbn. rewrite IH. reflexivity.
    - rewrite Etx. clear. unfold not_empty. induction (ob_tokens (lp_out p2)) as [|x l IH]; [reflexivity|]. cbn. rewrite IH. reflexivity. }
  assert (ev_logtype name p1 = ev_logtype name p2) as E6.
  { unfold ev_logtype. rewrite <- X1, <- Hin. assert (forall i, In i (indices 1 (ob_pos (lp_out p1))) -> tx (ob_act (lp_out p1) i) (ob_act (lp_out p2) i)) as K.
    { intros i Hi. apply in_indices in Hi. apply X6; [|lia]. unfold ob_first. destruct (ob_has_ts (lp_out p1)); lia. }
    revert K. generalize (indices 1 (ob_pos (lp_out p1))) as is. induction is as [|i is IH]; intros K; [reflexivity|]. cbn [map logtype_loop].
    pose proof (K i (or_introl eq_refl)) as T. rewrite <- (tx_type _ _ T), <- (tq_text _ _ _ (tx_tq _ _ T)).
    replace (tok_delimiter (ib_heap (lp_in p1)) (ob_act (lp_out p2) i)) with (tok_delimiter (ib_heap (lp_in p1)) (ob_act (lp_out p1) i)) by (unfold tok_delimiter; rewrite (tx_s _ _ T), (tx_sid _ _ T); reflexivity).
    rewrite IH by (intros j Hj; apply K; right; exact Hj). reflexivity. }
  unfold plain_of, report_of. cbn [r_string r_tokens r_timestamp r_multiline r_variables r_logtype]. rewrite E1, E2, E3, E4, E5, E6. f_equal.
  rewrite !map_length, seq_length, !seq_combine, !map_map. apply map_ext_in. intros j Hj. apply in_seq in Hj. cbn [fst snd].
  destruct (stamp_id (N.of_nat j)) eqn:Es; [reflexivity|].
  unfold ev_variables. rewrite Nnat.Nat2N.id. rewrite <- (C2 j Es). destruct (nth_error (lp_occ p1) j) as [l|] eqn:El; [|reflexivity]. cbn [bind]. f_equal. rewrite !map_map.
  apply map_ext_in. intros i Hi. apply tq_seen; [exact Hin|]. apply X5. exact (C3 j l i Es El Hi).
Qed.

(** parse leaves the metadata alone. *)
Definition keeps (p : lparser) (r : out (option paction * lparser)) : Prop :=
  match r with Ret (_, p') => lp_multi p' = lp_multi p /\ lp_occ p' = lp_occ p | _ => True end.
Lemma parse_loop_keeps c sfuel : forall fuel p, keeps p (parse_loop fuel sfuel c p).
Proof.
  induction fuel as [|fuel IH]; intros p; [exact I|]. cbn [parse_loop]. unfold get_next_symbol.
  destruct (scan sfuel c (lp_lex p) (lp_in p)) as [(([t|], l), b)| | |]; try exact I; [|cbn; auto]. cbn [bind].
  destruct (tok_type t) as [ty| | |]; try exact I. cbn [bind].
  match goal with |- keeps _ (bind ?X _) => destruct X as [found| | |]; try exact I end. cbn [bind].
  destruct (ty =? TokenEnd); [cbn; auto|].
  match goal with |- keeps _ (if ?X then _ else _) => destruct X; [cbn; auto|] end.
  destruct found; [cbn; auto|]. match goal with |- keeps _ (parse_loop _ _ _ ?P) => exact (IH P) end.
Qed.
Lemma parse_first_keeps c fuel sfuel p t : keeps p (parse_first fuel sfuel c p t).
Proof.
  unfold parse_first. destruct (tok_type t) as [ty| | |]; try exact I. cbn [bind]. destruct (ty =? TokenEnd); [cbn; auto|].
  match goal with |- keeps _ (parse_loop _ _ _ ?P) => exact (parse_loop_keeps c sfuel fuel P) end.
Qed.
Lemma parse_keeps c fuel sfuel p : keeps p (parse fuel sfuel c p).
Proof.
  unfold parse. destruct (ob_pos (lp_out p) =? 0); [|apply parse_loop_keeps]. cbv zeta.
  match goal with |- keeps _ (if ?X then _ else _) => destruct X end.
  { match goal with |- keeps _ (parse_first _ _ _ ?P ?T) => exact (parse_first_keeps c fuel sfuel P T) end. }
  unfold get_next_symbol. match goal with |- keeps _ (bind (bind ?X _) _) => destruct X as [(([t|], l), b)| | |] end; try exact I; [|cbn; auto]. cbn [bind].
  match goal with |- keeps _ (if ?X then _ else _) => destruct X end.
  { match goal with |- keeps _ (parse_first _ _ _ ?P ?T) => exact (parse_first_keeps c fuel sfuel P T) end. }
  destruct (tok_type t) as [ty| | |]; try exact I. cbn [bind]. destruct (ty =? TokenNewlineTimestamp); [cbn; auto|].
  match goal with |- keeps _ (parse_first _ _ _ ?P ?T) => exact (parse_first_keeps c fuel sfuel P T) end.
Qed.
(** * A run *)
Section Run.
Variables (c : lexcfg) (k : nat) (m : mem) (size : N) (nsym : N) (fuel sfuel : nat).

Lemma call_rx : forall bp1 bp2 off1 off2 o1 o2 bp1' bp2', length (lp_occ (bp_lp bp1)) = length (lp_occ (bp_lp bp2)) -> bp_done bp1 = bp_done bp2 ->
  rx (parse fuel sfuel c (prepared k m size off1 true (bp_lp bp1))) (parse fuel sfuel c (prepared k m size off2 true (bp_lp bp2))) ->
  parse_next_event fuel sfuel c k m size off1 true bp1 = Ret (true, o1, bp1') ->
  parse_next_event fuel sfuel c k m size off2 true bp2 = Ret (true, o2, bp2') ->
  (forall name, plain_of (report_of name nsym (bp_lp bp1')) = plain_of (report_of name nsym (bp_lp bp2'))) /\ bp_done bp1' = bp_done bp2' /\ o1 = o2 /\
  bx (bp_lp bp1') (bp_lp bp2') /\ length (lp_occ (bp_lp bp1')) = length (lp_occ (bp_lp bp2')).
Proof.
  intros bp1 bp2 off1 off2 o1 o2 bp1' bp2' Hl Hd Rx P1 P2.
  unfold parse_next_event, parse_and_generate_metadata in P1, P2.
  change (lp_set_lexin (reset_log_event_view (bp_lp bp1)) _ _) with (prepared k m size off1 true (bp_lp bp1)) in P1.
  change (lp_set_lexin (reset_log_event_view (bp_lp bp2)) _ _) with (prepared k m size off2 true (bp_lp bp2)) in P2.
  pose proof (parse_keeps c fuel sfuel (prepared k m size off1 true (bp_lp bp1))) as Kp1. pose proof (parse_keeps c fuel sfuel (prepared k m size off2 true (bp_lp bp2))) as Kp2.
  unfold rx in Rx.
  destruct (parse fuel sfuel c (prepared k m size off1 true (bp_lp bp1))) as [([a1|], q1)| | |]; destruct (parse fuel sfuel c (prepared k m size off2 true (bp_lp bp2))) as [([a2|], q2)| | |]; try contradiction; try discriminate.
  destruct Rx as (<- & Q). cbn [bind] in *. destruct Kp1 as (M1 & O1). destruct Kp2 as (M2 & O2). cbn in M1, O1, M2, O2.
  destruct (generate_metadata q1) as [g1| | |] eqn:G1; try discriminate. destruct (generate_metadata q2) as [g2| | |] eqn:G2; try discriminate. cbn [bind] in *.
  injection P1 as <- <-. injection P2 as <- <-. cbn [bp_lp bp_done] in *.
  unfold generate_metadata in G1, G2. apply bind_ret_inv in G1 as ((n1, r1) & G1 & E1). apply bind_ret_inv in G2 as ((n2, r2) & G2 & E2). injection E1 as <-. injection E2 as <-.
  pose proof (px_out _ _ Q) as O. rewrite <- (ob_first_ox _ _ O), <- (ox_pos _ _ O), <- (px_in _ _ Q) in G2.
  destruct (meta_sim (ib_heap (lp_in q1)) (lp_out q1) (lp_out q2) (ob_first (lp_out q1)) (ob_pos (lp_out q1)) _ _ (lp_occ q1) (lp_occ q2) _ _ _ _
    ltac:(intros i Hi; apply in_indices in Hi; split; [exact Hi|apply (ox_q _ _ O); exact Hi]) ltac:(rewrite O1, O2; apply cx_reset; exact Hl) G1 G2) as (<- & C).
  cbn [lp_in lp_occ]. rewrite <- (px_in _ _ Q). split; [|split; [destruct a1; congruence|split; [reflexivity|split]]].
  - intro name. apply plain_eq; cbn; auto using px_in. rewrite <- (ox_ts _ _ O), <- (ox_pos _ _ O), M1, M2. reflexivity.
  - destruct Q. constructor; cbn; auto.
  - apply (cx_len _ _ _ _ C).
Qed.

(** [drive] from two related states. *)
Lemma drive_bx : forall name calls calls2 bp1 bp2 off l1 l2 bp1' bp2', length (lp_occ (bp_lp bp1)) = length (lp_occ (bp_lp bp2)) -> bp_done bp1 = bp_done bp2 ->
  bx (bp_lp bp1) (bp_lp bp2) ->
  drive (report_of name nsym) calls fuel sfuel c k m size off bp1 = Ret (l1, bp1') ->
  drive (report_of name nsym) calls2 fuel sfuel c k m size off bp2 = Ret (l2, bp2') -> map plain_of l1 = map plain_of l2.
Proof.
  intros name. induction calls as [|calls IH]; intros [|calls2] bp1 bp2 off l1 l2 bp1' bp2' Hl Hd B D1 D2; try discriminate. cbn [drive] in *.
  apply bind_ret_inv in D1 as (((ok1, o1), b1) & P1 & D1). apply bind_ret_inv in D2 as (((ok2, o2), b2) & P2 & D2).
  destruct ok1; [|discriminate]. destruct ok2; [|discriminate].
  destruct (call_rx bp1 bp2 off off o1 o2 b1 b2 Hl Hd (parse_bx c fuel sfuel k m size off true _ _ B) P1 P2) as (Pl & Dn & <- & B' & Hl').
  rewrite <- Dn in D2. destruct (bp_done b1) eqn:E.
  - injection D1 as <- _. injection D2 as <- _. cbn. rewrite Pl. reflexivity.
  - apply bind_ret_inv in D1 as ((l1', z1) & D1 & X1). apply bind_ret_inv in D2 as ((l2', z2) & D2 & X2). injection X1 as <- _. injection X2 as <- _.
    cbn. rewrite Pl. f_equal. eapply IH; eauto; congruence.
Qed.
(** The same if only the results of the first parse are known to be related. *)
Lemma drive_rx : forall name calls1 calls2 bp1 bp2 off1 off2 l1 l2 bp1' bp2', length (lp_occ (bp_lp bp1)) = length (lp_occ (bp_lp bp2)) -> bp_done bp1 = bp_done bp2 ->
  rx (parse fuel sfuel c (prepared k m size off1 true (bp_lp bp1))) (parse fuel sfuel c (prepared k m size off2 true (bp_lp bp2))) ->
  drive (report_of name nsym) calls1 fuel sfuel c k m size off1 bp1 = Ret (l1, bp1') ->
  drive (report_of name nsym) calls2 fuel sfuel c k m size off2 bp2 = Ret (l2, bp2') -> map plain_of l1 = map plain_of l2.
Proof.
  intros name [|calls1] [|calls2] bp1 bp2 off1 off2 l1 l2 bp1' bp2' Hl Hd Rx D1 D2; try discriminate. cbn [drive] in *.
  apply bind_ret_inv in D1 as (((ok1, o1), b1) & P1 & D1). apply bind_ret_inv in D2 as (((ok2, o2), b2) & P2 & D2).
  destruct ok1; [|discriminate]. destruct ok2; [|discriminate].
  destruct (call_rx bp1 bp2 off1 off2 o1 o2 b1 b2 Hl Hd Rx P1 P2) as (Pl & Dn & <- & B' & Hl').
  rewrite <- Dn in D2. destruct (bp_done b1) eqn:E.
  - injection D1 as <- _. injection D2 as <- _. cbn. rewrite Pl. reflexivity.
  - apply bind_ret_inv in D1 as ((l1', z1) & D1 & X1). apply bind_ret_inv in D2 as ((l2', z2) & D2 & X2). injection X1 as <- _. injection X2 as <- _.
    cbn. rewrite Pl. f_equal. eapply drive_bx; eauto; congruence.
Qed.
End Run.
