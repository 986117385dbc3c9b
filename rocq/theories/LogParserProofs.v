(** LogParserProofs.v -- LogParser::parse / BufferParser over a complete in-memory buffer. *)
From Verif Require Import Base LexerModel LexerSpec LexerProofs LogParserModel.

(** * Output buffer *)
Lemma indices_snoc a b : a <= b -> indices a (b + 1) = indices a b ++ [b].
Proof.
  intros H. unfold indices.
  replace (N.to_nat (b + 1 - a)) with (N.to_nat (b - a) + 1)%nat by lia.
  rewrite seq_app, map_app. cbn [seq map plus]. do 2 f_equal. lia.
Qed.
Lemma indices_nil a b : b <= a -> indices a b = [].
Proof. intros H. unfold indices. replace (N.to_nat (b - a)) with 0%nat by lia. reflexivity. Qed.
Lemma in_indices a b i : In i (indices a b) <-> a <= i < b.
Proof.
  unfold indices. rewrite in_map_iff. split.
  - intros (x & <- & Hx). apply in_seq in Hx. lia.
  - intros Hi. exists (N.to_nat (i - a)). split; [lia|]. apply in_seq. lia.
Qed.
Lemma indices_length a b : length (indices a b) = N.to_nat (b - a).
Proof. unfold indices. rewrite map_length, seq_length. reflexivity. Qed.

Lemma map_ob_upd_out f i t a b :
  (i < a \/ b <= i) -> map (ob_upd f i t) (indices a b) = map f (indices a b).
Proof.
  intros Hi. apply map_ext_in. intros j Hj. apply in_indices in Hj.
  unfold ob_upd. destruct (N.eqb_spec j i); [lia|reflexivity].
Qed.

Lemma ob_tokens_set_curr o tok : ob_tokens (ob_set_curr o tok) = ob_tokens o.
Proof.
  unfold ob_tokens, ob_set_curr, ob_set_token, ob_first; cbn.
  apply map_ob_upd_out. lia.
Qed.

Lemma ob_push o tok :
  ob_first o <= ob_pos o < ob_size o ->
  let o' := ob_advance (ob_set_curr o tok) in
  ob_tokens o' = ob_tokens o ++ [tok] /\ ob_has_ts o' = ob_has_ts o /\
  ob_pos o' = ob_pos o + 1 /\ ob_pos o' < ob_size o'.
Proof.
  intros Ho. cbn zeta. unfold ob_advance, ob_set_curr, ob_set_token; cbn [ob_pos ob_size ob_act ob_base].
  assert (Hf : forall act base sz pos hd, ob_first (mkObuf act base sz pos (ob_has_ts o) hd) = ob_first o) by reflexivity.
  destruct (N.eqb_spec (ob_pos o + 1) (ob_size o)) as [He|He].
  - unfold ob_tokens. cbn [ob_pos ob_has_ts ob_act ob_size]. rewrite Hf.
    split; [|split; [reflexivity|split; [reflexivity|lia]]].
    rewrite indices_snoc by lia. rewrite map_app. cbn [map]. f_equal.
    + apply map_ext_in. intros i Hi. apply in_indices in Hi.
      destruct (N.ltb_spec i (ob_size o)); [|lia]. unfold ob_upd.
      destruct (N.eqb_spec i (ob_pos o)); [lia|reflexivity].
    + destruct (N.ltb_spec (ob_pos o) (ob_size o)); [|lia]. unfold ob_upd. rewrite N.eqb_refl. reflexivity.
  - unfold ob_tokens, ob_set_pos. cbn [ob_pos ob_has_ts ob_act ob_size]. rewrite Hf.
    split; [|split; [reflexivity|split; [reflexivity|lia]]].
    rewrite indices_snoc by lia. rewrite map_app. cbn [map]. f_equal.
    + apply map_ob_upd_out. lia.
    + unfold ob_upd. rewrite N.eqb_refl. reflexivity.
Qed.

Lemma ob_set_curr_twice o t1 t2 :
  ob_tokens (ob_advance (ob_set_curr (ob_set_curr o t1) t2)) = ob_tokens (ob_advance (ob_set_curr o t2)) /\
  ob_pos (ob_advance (ob_set_curr (ob_set_curr o t1) t2)) = ob_pos (ob_advance (ob_set_curr o t2)) /\
  ob_size (ob_advance (ob_set_curr (ob_set_curr o t1) t2)) = ob_size (ob_advance (ob_set_curr o t2)).
Proof.
  unfold ob_advance, ob_set_curr, ob_set_token; cbn [ob_pos ob_size ob_act ob_base].
  destruct (ob_pos o + 1 =? ob_size o).
  - split; [|split; reflexivity]. unfold ob_tokens; cbn. apply map_ext. intros i.
    destruct (i <? ob_size o); [|reflexivity]. unfold ob_upd. destruct (i =? ob_pos o); reflexivity.
  - split; [|split; reflexivity]. unfold ob_tokens; cbn. apply map_ext. intros i.
    unfold ob_upd. destruct (i =? ob_pos o); reflexivity.
Qed.

(** * Parsing a complete buffer *)
Section Parse.
Context (c : lexcfg) (t : list N) (k : nat) (m : mem) (nsym : N).
Hypothesis Hwf : wf_cfg c.
Let n := len t.
Hypothesis Hm : forall p, p < n -> m p = byte_at t p.
Hypothesis Hend : exists x, m n = Some x.
Hypothesis Hsym : forall q i, In i (d_ids (c_dfa c) q) -> i < nsym.
Hypothesis Hsym2 : 1 < nsym.
Let K := User k.
Let LB := lex_between c t K.

Lemma m_read p : p <= n -> exists x, m p = Some x.
Proof.
  intros H. destruct (N.eq_dec p n) as [->|Hne]; [exact Hend|].
  rewrite Hm by lia. apply byte_at_some. fold n. lia.
Qed.

Lemma read_range_sub a cnt :
  a + N.of_nat cnt <= n -> read_range m a cnt = Ret (sub t a (a + N.of_nat cnt)).
Proof.
  revert a; induction cnt as [|cnt IH]; intros a H.
  - cbn [read_range]. replace (a + N.of_nat 0) with a by lia. rewrite sub_nil. reflexivity.
  - cbn [read_range]. destruct (byte_at_some t a) as [x Hx]; [fold n; lia|].
    rewrite Hm by lia. rewrite Hx. rewrite IH by lia. cbn [bind]. f_equal.
    symmetry. rewrite (sub_cons t a _ x Hx) by lia. do 2 f_equal. lia.
Qed.

(** Tokens in the user's buffer, laid out one after the other from [a] to [e]. *)
Inductive chain : N -> list token -> N -> Prop :=
| ch_nil a : a <= n -> chain a [] a
| ch_cons tok toks e :
    t_sid tok = K -> t_start tok <= t_end tok -> t_end tok <= n ->
    chain (t_end tok) toks e -> chain (t_start tok) (tok :: toks) e.

Lemma chain_le a toks e : chain a toks e -> a <= e <= n.
Proof. induction 1; lia. Qed.
Lemma chain_app a toks1 b toks2 e : chain a toks1 b -> chain b toks2 e -> chain a (toks1 ++ toks2) e.
Proof. induction 1; cbn; intros; [assumption|]. constructor; auto. Qed.
Lemma chain_one tok : t_sid tok = K -> t_start tok <= t_end tok -> t_end tok <= n -> chain (t_start tok) [tok] (t_end tok).
Proof. intros. constructor; auto. constructor; auto. Qed.

Lemma tok_text_sub h tok : h K = m -> t_sid tok = K -> t_start tok <= t_end tok -> t_end tok <= n ->
  tok_text h tok = Ret (sub t (t_start tok) (t_end tok)).
Proof.
  intros Hh Hs H1 H2. unfold tok_text. rewrite Hs, Hh.
  destruct (N.leb_spec (t_start tok) (t_end tok)); [|lia].
  rewrite read_range_sub by lia. do 2 f_equal. lia.
Qed.

Lemma chain_text h a toks e : h K = m -> chain a toks e ->
  concat_out (map (tok_text h) toks) = Ret (sub t a e).
Proof.
  intros Hh. induction 1 as [a Ha|tok toks e Hs H1 H2 Hc IH]; cbn [map concat_out].
  - rewrite sub_nil. reflexivity.
  - rewrite (tok_text_sub h tok) by auto. rewrite IH. cbn [bind]. f_equal. symmetry.
    pose proof (chain_le _ _ _ Hc). apply sub_app; lia.
Qed.

(** A token exactly as scan returned it (not the end token). *)
Definition lexed (tok : token) : Prop :=
  exists z, token_ok c t K z (t_start tok) tok /\ t_ids tok <> cTokenEndTypes.

Lemma lexed_cases tok : lexed tok ->
  t_sid tok = K /\ t_bufsz tok = n * 2 /\ t_start tok <= t_end tok /\ t_end tok <= n /\
  ((exists ids, t_ids tok = Some ids /\ var_token_ok c t (t_start tok) (t_end tok) ids (t_line tok)) \/
   (t_ids tok = cTokenUncaughtStringTypes /\ t_start tok < t_end tok /\
    (c_delim c cNewline = true ->
     forall p, t_start tok <= p < t_end tok -> byte_at t p <> Some cNewline))).
Proof.
  intros (z & Hok & Hne). destruct (token_cases _ _ _ _ _ _ Hok) as (H1 & H2 & H3 & H4 & H5 & Hc).
  fold n in H2, H5. do 4 (split; [assumption|]).
  destruct Hc as [(ids & Hi & Hv & _)|[(Hi & Hlt & _ & _ & _ & Hnl)|(Hi & _)]]; [left; eauto|right; auto|congruence].
Qed.
Lemma lexed_range tok : lexed tok -> t_sid tok = K /\ t_bufsz tok = n * 2 /\
   t_start tok <= t_end tok /\ t_end tok <= n.
Proof. intros H. apply lexed_cases in H. intuition. Qed.

Lemma lexed_type tok : lexed tok -> exists ty, tok_type tok = Ret ty /\ ty <> TokenEnd /\ ty < nsym.
Proof.
  intros Hl. destruct (lexed_cases _ Hl) as (_ & _ & _ & _ & [(ids & Hi & Hvt)|(Hi & _)]); unfold tok_type; rewrite Hi.
  - destruct ids as [|i ids]; [exfalso; apply (vt_ids _ _ _ _ _ _ Hvt); reflexivity|].
    exists i. split; [reflexivity|].
    destruct (vt_state _ _ _ _ _ _ Hvt) as (q & _ & Hrep & _). unfold reported in Hrep.
    destruct (run (c_dfa c) q (sub t (t_start tok) (t_end tok))) as [q'|]; [|discriminate].
    split.
    + apply (wf_ids _ Hwf q'). rewrite Hrep. left; reflexivity.
    + apply (Hsym q'). rewrite Hrep. left; reflexivity.
  - exists TokenUncaughtString. split; [reflexivity|]. split; [discriminate|exact Hsym2].
Qed.

(** How the first token of an event comes about. *)
Inductive first_ok (e : N) (tok : token) : Prop :=
| fo_lexed : lexed tok -> t_start tok = e -> first_ok e tok
| fo_skip tok0 : lexed tok0 -> tok_type tok0 <> Ret TokenNewline -> byte_at t (t_start tok0) = Some cNewline ->
    t_start tok0 + 1 = e -> tok = skip_newline tok0 -> first_ok e tok.

Lemma skip_newline_eq tok : lexed tok -> t_start tok < t_end tok ->
  skip_newline tok = set_t_start tok (t_start tok + 1).
Proof.
  intros Hl Hlt. destruct (lexed_range _ Hl) as (H1 & H2 & H3 & H4).
  unfold skip_newline. rewrite H2. destruct (N.eqb_spec (t_start tok) (n * 2 - 1)); [lia|reflexivity].
Qed.

Lemma lexed_nt tok : lexed tok -> tok_type tok = Ret TokenNewlineTimestamp ->
  byte_at t (t_start tok) = Some cNewline /\ t_start tok < t_end tok.
Proof.
  intros Hl Hty. unfold tok_type in Hty.
  destruct (lexed_cases _ Hl) as (_ & _ & Hr1 & Hr2 & [(ids & Hi & Hvt)|(Hi & _)]); rewrite Hi in Hty; [|discriminate].
  destruct ids as [|i ids]; [discriminate|]. injection Hty as ->.
  destruct (vt_state _ _ _ _ _ _ Hvt) as (q & Hst & Hrep & _).
  set (s := t_start tok) in *. set (e := t_end tok) in *.
  destruct Hst as [->|[Hs0 Hsof]].
  + destruct (wf_nt _ Hwf (sub t s e)) as (w' & Hw); [rewrite Hrep; left; reflexivity|].
    destruct (N.eq_dec s e) as [He|He]; [rewrite He, sub_nil in Hw; discriminate|].
    split; [|lia]. destruct (byte_at_some t s) as [x Hx]; [fold n; lia|].
    rewrite (sub_cons t s e x Hx) in Hw by lia. congruence.
  + destruct (wf_nt _ Hwf (cCharStartOfFile :: sub t s e)) as (w' & Hw); [|discriminate].
    unfold reported. cbn [run]. rewrite Hsof. fold (reported (c_dfa c) q (sub t s e)). rewrite Hrep.
    left; reflexivity.
Qed.

(** * Shape of an event.
    [toks]: the event's tokens; the event covers bytes [e, e'); [fin]: it is the last one. *)
Definition ty_is (tok : token) (ty : N) : Prop := tok_type tok = Ret ty.
Definition is_ts (tok : token) : Prop := ty_is tok TokenFirstTimestamp \/ ty_is tok TokenNewlineTimestamp.

(** Tokens after the first one that do not end the event. *)
Definition body_ok (ts : bool) (tok : token) : Prop :=
  lexed tok /\ t_start tok < t_end tok /\
  if ts then ~ ty_is tok TokenNewlineTimestamp
  else ~ ty_is tok TokenNewline /\ byte_at t (t_start tok) <> Some cNewline.

(** How an event ends. [nxt] is the token the next event begins with, when already known. *)
Inductive ending (ts : bool) : N -> list token -> N -> bool -> option token -> Prop :=
| end_eof : ending ts n [] n true None
| end_newline tok : ts = false -> lexed tok -> t_start tok < t_end tok -> ty_is tok TokenNewline ->
    ending ts (t_start tok) [tok] (t_end tok) false None
| end_next tok : lexed tok -> t_start tok < t_end tok -> byte_at t (t_start tok) = Some cNewline ->
    (if ts then ty_is tok TokenNewlineTimestamp else ~ ty_is tok TokenNewline) ->
    ending ts (t_start tok) [only_newline tok] (t_start tok + 1) false (Some tok).

Inductive event_shape : bool -> N -> list token -> N -> bool -> option token -> Prop :=
| es_empty : event_shape false n [] n true None
| es_lone tok : lexed tok -> ty_is tok TokenNewlineTimestamp ->
    event_shape false (t_start tok) [only_newline tok] (t_start tok + 1) false (Some tok)
| es_normal ts e t0 body E tl e' fin nxt :
    first_ok e t0 -> (ts = true <-> is_ts t0) -> Forall (body_ok ts) body ->
    chain e (t0 :: body) E -> ending ts E tl e' fin nxt ->
    event_shape ts e (t0 :: body ++ tl) e' fin nxt.

(** Parser state between two events. [e] is where the next event's text begins. *)
Inductive at_event (e : N) (p : lparser) : Prop :=
| ae_lex : lp_has_start p = false -> LB e (lp_lex p) (lp_in p) -> at_event e p
| ae_start tok0 : lp_has_start p = true -> lexed tok0 -> tok_type tok0 <> Ret TokenNewline -> byte_at t (t_start tok0) = Some cNewline ->
    t_start tok0 < t_end tok0 ->
    e = t_start tok0 + 1 -> lp_start_tok p = skip_newline tok0 ->
    l_asked (lp_lex p) = false -> LB (t_end tok0) (lp_lex p) (lp_in p) -> at_event e p.

Definition next_of (p : lparser) (nxt : option token) : Prop :=
  match nxt with
  | None => lp_has_start p = false
  | Some tok => lp_has_start p = true /\ lp_start_tok p = skip_newline tok
  end.

(** Result of one parse call. *)
Record parsed (e : N) (p' : lparser) (a : paction) (e' : N) : Prop := {
  pr_shape : exists nxt, event_shape (ob_has_ts (lp_out p')) e (ob_tokens (lp_out p')) e'
                 (match a with ActCompressAndFinish => true | _ => false end) nxt /\ next_of p' nxt;
  pr_act : a = ActCompress \/ a = ActCompressAndFinish;
  pr_first : ob_first (lp_out p') <= ob_pos (lp_out p');
  pr_next : a = ActCompress -> at_event e' p';
  pr_heap : ib_heap (lp_in p') K = m;
  pr_buf : static_buf t K (lp_in p');
  pr_asked : l_asked (lp_lex p') = false
}.

Record PL (e E : N) (p : lparser) : Prop := {
  pl_lb : LB E (lp_lex p) (lp_in p);
  pl_asked : l_asked (lp_lex p) = false;
  pl_heap : ib_heap (lp_in p) K = m;
  pl_start : lp_has_start p = false;
  pl_pos : ob_first (lp_out p) <= ob_pos (lp_out p) < ob_size (lp_out p);
  pl_toks : exists t0 body, ob_tokens (lp_out p) = t0 :: body /\ first_ok e t0 /\
       (ob_has_ts (lp_out p) = true <-> is_ts t0) /\ Forall (body_ok (ob_has_ts (lp_out p))) body /\
       chain e (t0 :: body) E
}.

Lemma LB_static E l b : LB E l b -> static_buf t K b.
Proof. intros []; assumption. Qed.


Lemma static_cons b x : static_buf t K b -> static_buf t K (ib_set_cons b x).
Proof. intros []; constructor; auto. Qed.
Lemma LB_cons_irrel E l b x : LB E l b -> LB E l (ib_set_cons b x).
Proof.
  intros HB. destruct HB; [eapply lb_sof|apply lb_begin|eapply lb_match|apply lb_end];
    eauto using static_cons.
Qed.

Lemma parse_loop_spec sfuel (Hsf : (scan_fuel t <= sfuel)%nat) fuel : forall p e E,
  PL e E p -> n - E < N.of_nat fuel ->
  exists a p' e', parse_loop fuel sfuel c p = Ret (Some a, p') /\ parsed e p' a e' /\
     lp_multi p' = lp_multi p /\ lp_occ p' = lp_occ p /\ e <= e' /\ (a = ActCompress -> e < e') /\
     hd_error (ob_tokens (lp_out p')) = hd_error (ob_tokens (lp_out p)).
Proof.
  induction fuel as [|fuel IH]; intros p e E HP Hf; [lia|].
  destruct HP as [HB Hask Hheap Hstart Hpos (t0 & body & Htoks & Hfirst & Hts & Hbody & Hchain)].
  cbn [parse_loop]. unfold get_next_symbol.
  destruct (scan_spec c t K Hwf sfuel E _ _ Hsf HB) as (tok & l' & b' & Hr & Hfr & Hask' & Hok & HB').
  rewrite Hr. cbn [bind]. rewrite Hask in Hok.
  set (p1 := lp_set_lexin p l' b').
  set (o := lp_out p) in *.
  change (lp_out p1) with o. cbn [lp_set_out lp_out lp_in lp_set_lexin p1 ob_set_curr ob_set_token ob_has_ts].
  assert (Hheap' : ib_heap b' K = m) by (destruct Hfr as (-> & _); exact Hheap).
  pose proof (chain_le _ _ _ Hchain) as HeE.
  set (ts := ob_has_ts o) in *.
  destruct (ob_push o tok Hpos) as (Hp1 & Hp2 & Hp3 & Hp4).
  pose proof Hok as Hok0.
  destruct (token_cases _ _ _ _ _ _ Hok) as (H1 & H2 & H3 & H4 & H5 & Hc). fold n in H2, H5.
  assert (Hch : exists x, tok_char (ib_heap b') tok 0 = Ret x /\ (E < n -> byte_at t E = Some x)).
  { unfold tok_char. rewrite H1, Hheap', H2, H3.
    assert (HE' : (if E + 0 <? n * 2 then E + 0 else 0 - (n * 2 - E)) = E).
    { destruct (N.ltb_spec (E + 0) (n * 2)); lia. }
    rewrite HE'. destruct (m_read E) as [x Hx]; [lia|]. rewrite Hx. exists x. split; [reflexivity|].
    intros Hlt. rewrite <- Hm by lia. exact Hx. }
  destruct Hch as (ch & Hch & Hchb).
  assert (Hfound : forall ty,
    (if ts && (ty =? TokenNewlineTimestamp) then Ret true
     else if negb ts then do ch0 <- tok_char (ib_heap b') tok 0;
            Ret ((ch0 =? cNewline) && negb (ty =? TokenNewline))
          else Ret false)
    = Ret (if ts then ty =? TokenNewlineTimestamp else (ch =? cNewline) && negb (ty =? TokenNewline))).
  { intros ty. rewrite Hch. destruct ts; cbn [andb negb bind]; [|reflexivity].
    destruct (ty =? TokenNewlineTimestamp); reflexivity. }
  assert (Hend_case : t_ids tok = cTokenEndTypes \/ (lexed tok /\ E < t_end tok)).
  { destruct Hc as [(ids & Hi & Hv & Hlt)|[(Hi & Hlt & _)|(Hi & _)]].
    - right. split; [|auto]. exists false. rewrite H3. split; [exact Hok0|]. rewrite Hi. intros [= ->].
      destruct (vt_state _ _ _ _ _ _ Hv) as (q & _ & Hrep & _). unfold reported in Hrep.
      destruct (run (c_dfa c) q (sub t E (t_end tok))) as [q'|]; [|discriminate].
      destruct (wf_ids _ Hwf q' TokenEnd) as [Hx _]; [rewrite Hrep; left; reflexivity|]. congruence.
    - right. split; [|auto]. exists false. rewrite H3. split; [exact Hok0|]. rewrite Hi. discriminate.
    - left. exact Hi. }
  destruct Hend_case as [Hi|[Hlex Hlt]].
  - (* end token *)
    destruct Hc as [(ids & Hi' & Hv & Hlt)|[(Hi' & _)|(_ & HEn & Hte & _)]].
    { exfalso. rewrite Hi in Hi'. injection Hi' as <-.
      destruct (vt_state _ _ _ _ _ _ Hv) as (q & _ & Hrep & _). unfold reported in Hrep.
      destruct (run (c_dfa c) q (sub t E (t_end tok))) as [q'|]; [|discriminate].
      destruct (wf_ids _ Hwf q' TokenEnd) as [Hx _]; [rewrite Hrep; left; reflexivity|]. congruence. }
    { rewrite Hi in Hi'. discriminate. }
    fold n in HEn, Hte.
    unfold tok_type at 1. rewrite Hi. cbn [cTokenEndTypes bind]. rewrite Hfound. cbn [bind].
    change (TokenEnd =? TokenEnd) with true. cbn iota.
    eexists _, _, n. split; [reflexivity|].
    assert (Hot : ob_tokens (ob_set_curr o tok) = t0 :: body) by (rewrite ob_tokens_set_curr; exact Htoks).
    split; [|cbn [lp_multi lp_occ lp_set_out lp_set_lexin p1 lp_out]; fold o; rewrite Hot, Htoks; repeat split; auto; [lia|discriminate]].
    constructor; cbn [lp_out lp_in lp_lex lp_set_out lp_set_lexin p1].
    + exists None. rewrite Hot. split; [|exact Hstart].
      change (ob_has_ts (ob_set_curr o tok)) with ts.
      rewrite <- (app_nil_r body). rewrite HEn in *. econstructor; eauto. constructor.
    + auto.
    + cbn. fold o. apply Hpos.
    + discriminate.
    + exact Hheap'.
    + exact (LB_static _ _ _ HB').
    + exact Hask'.
  - destruct (lexed_type _ Hlex) as (ty & Hty & Hty0 & _).
    rewrite Hty. cbn [bind]. rewrite Hfound. cbn [bind].
    destruct (N.eqb_spec ty TokenEnd) as [|_]; [contradiction|].
    assert (Hchain' : chain e ((t0 :: body) ++ [tok]) (t_end tok)).
    { eapply chain_app; [exact Hchain|]. rewrite <- H3. apply chain_one; lia || auto. }
    destruct (negb ts && (ty =? TokenNewline)) eqn:Enl.
    + (* newline ends an event without timestamp *)
      apply andb_true_iff in Enl as [Ets Ety]. apply negb_true_iff in Ets. apply N.eqb_eq in Ety. subst ty.
      eexists _, _, (t_end tok). split; [reflexivity|].
      split; [|cbn [lp_multi lp_occ lp_set_out lp_set_lexin lp_set_cons p1 lp_out]; fold o;
               change (ob_set_token o (ob_pos o) tok) with (ob_set_curr o tok);
               rewrite Hp1, Htoks; repeat split; auto; intros; lia].
      constructor; cbn [lp_out lp_in lp_lex lp_set_out lp_set_lexin lp_set_cons ib_set_cons ib_heap p1].
      * exists None. cbn. fold o. change (ob_set_token o (ob_pos o) tok) with (ob_set_curr o tok).
        rewrite Hp1, Hp2, Htoks. split; [|exact Hstart].
        cbn [app]. econstructor; eauto. fold ts. rewrite Ets, <- H3. constructor; auto. lia.
      * auto.
      * change (ob_set_token o (ob_pos o) tok) with (ob_set_curr o tok). cbn. unfold ob_first. rewrite Hp2, Hp3.
        fold (ob_first o). lia.
      * intros _. apply ae_lex; [exact Hstart|]. cbn.
        eapply LB_cons_irrel. exact HB'.
      * exact Hheap'.
      * apply static_cons. exact (LB_static _ _ _ HB').
      * exact Hask'.
    + destruct (if ts then ty =? TokenNewlineTimestamp else (ch =? cNewline) && negb (ty =? TokenNewline)) eqn:Efound.
      * (* start of the next event *)
        assert (Hbyte : byte_at t (t_start tok) = Some cNewline).
        { destruct ts.
          - apply N.eqb_eq in Efound. subst ty. apply (lexed_nt _ Hlex Hty).
          - apply andb_true_iff in Efound as [Ec _]. apply N.eqb_eq in Ec. subst ch. rewrite H3. apply Hchb. lia. }
        assert (Hskip : skip_newline tok = set_t_start tok (t_start tok + 1)) by (apply skip_newline_eq; auto; lia).
        destruct (ob_push o (only_newline tok) Hpos) as (Hq1 & Hq2 & Hq3 & Hq4).
        destruct (ob_set_curr_twice o tok (only_newline tok)) as (Hr1 & Hr2 & Hr3).
        assert (Hr4 : ob_has_ts (ob_advance (ob_set_curr (ob_set_curr o tok) (only_newline tok))) = ts).
        { unfold ob_advance, ob_set_curr, ob_set_token; cbn. destruct (ob_pos o + 1 =? ob_size o); reflexivity. }
        eexists _, _, (t_start tok + 1). split; [reflexivity|].
        split; [|cbn [lp_multi lp_occ lp_set_out lp_set_lexin lp_set_cons lp_set_start p1 lp_out]; fold o;
               change (ob_set_token o (ob_pos o) tok) with (ob_set_curr o tok);
               rewrite Hr1, Hq1, Htoks; repeat split; auto; intros; lia].
        constructor; cbn [lp_out lp_in lp_lex lp_set_out lp_set_lexin lp_set_cons lp_set_start ib_set_cons ib_heap p1].
        -- exists (Some tok).
           change (ob_set_token o (ob_pos o) tok) with (ob_set_curr o tok).
           rewrite Hr1, Hr4, Hq1, Htoks. split; [|split; reflexivity].
           cbn [app]. econstructor; eauto. rewrite <- H3. constructor; auto; [lia|].
           destruct ts.
           ++ apply N.eqb_eq in Efound. subst ty. exact Hty.
           ++ apply andb_true_iff in Efound as [_ Ec]. unfold ty_is. rewrite Hty. intros [= ->]. discriminate.
        -- auto.
        -- unfold ob_first. change (ob_set_token o (ob_pos o) tok) with (ob_set_curr o tok).
           rewrite Hr4, Hr2, Hq3. unfold ts. fold (ob_first o). lia.
        -- intros _. apply (ae_start _ _ tok); cbn; auto; try lia.
           { rewrite Hty. intros [= ->]. destruct ts; [apply N.eqb_eq in Efound; discriminate|]. apply andb_true_iff in Efound as [_ Ec]. discriminate. }
           eapply LB_cons_irrel. exact HB'.
        -- exact Hheap'.
        -- apply static_cons. exact (LB_static _ _ _ HB').
        -- exact Hask'.
      * (* the event goes on *)
        change (ob_set_token o (ob_pos o) tok) with (ob_set_curr o tok).
        match goal with |- context [parse_loop fuel sfuel c ?P] => set (p2 := P) end.
        destruct (IH p2 e (t_end tok)) as (a & p' & e' & Hres & Hpar & Hmul & Hocc & Hle & Hlt' & Hhd).
        { constructor; cbn [p2 lp_out lp_in lp_lex lp_set_out lp_set_lexin lp_has_start p1]; auto.
          - unfold ob_first. rewrite Hp2. fold (ob_first o). lia.
          - exists t0, (body ++ [tok]). rewrite Hp1, Hp2, Htoks. fold ts.
            split; [reflexivity|]. split; [exact Hfirst|]. split; [exact Hts|]. split; [|exact Hchain'].
            apply Forall_app. split; [exact Hbody|]. constructor; [|constructor].
            split; [exact Hlex|]. split; [lia|]. unfold ty_is. rewrite Hty. destruct ts.
            + intros [= ->]. discriminate.
            + cbn in Enl. split.
              * intros [= ->]. discriminate.
              * rewrite H3, Hchb by lia. intros [= ->]. rewrite N.eqb_refl, Enl in Efound. discriminate. }
        { lia. }
        exists a, p', e'. split; [exact Hres|]. split; [exact Hpar|]. split; [exact Hmul|].
        split; [exact Hocc|]. split; [exact Hle|]. split; [exact Hlt'|].
        rewrite Hhd. cbn [p2 lp_out lp_set_out]. rewrite Hp1, Htoks. reflexivity.
Qed.

(** * The first token of an event *)
Lemma lexed_of z E tok : token_ok c t K z E tok ->
  (t_ids tok = cTokenEndTypes /\ E = n) \/ lexed tok.
Proof.
  intros Hok. pose proof Hok as Hok0.
  destruct (token_cases _ _ _ _ _ _ Hok) as (H1 & H2 & H3 & H4 & H5 & Hc).
  destruct Hc as [(ids & Hi & Hv & Hlt)|[(Hi & Hlt & _)|(Hi & HE & _)]].
  - right. exists z. rewrite H3. split; [exact Hok0|]. rewrite Hi. intros [= ->].
    destruct (vt_state _ _ _ _ _ _ Hv) as (q & _ & Hrep & _). unfold reported in Hrep.
    destruct (run (c_dfa c) q (sub t E (t_end tok))) as [q'|]; [|discriminate].
    destruct (wf_ids _ Hwf q' TokenEnd) as [Hx _]; [rewrite Hrep; left; reflexivity|]. congruence.
  - right. exists z. rewrite H3. split; [exact Hok0|]. rewrite Hi. discriminate.
  - left. auto.
Qed.

(** The output buffer as reset_log_event_view leaves it. *)
Definition out_fresh (o : obuf) : Prop := ob_pos o = 0 /\ ob_has_ts o = false /\ 2 < ob_size o.

Definition parse_post (e : N) (p : lparser) (hd : Prop -> token -> Prop) (r : out (option paction * lparser)) : Prop :=
  exists a p' e', r = Ret (Some a, p') /\ parsed e p' a e' /\
     lp_multi p' = lp_multi p /\ lp_occ p' = lp_occ p /\ e <= e' /\ (a = ActCompress -> e < e') /\
     forall tok, hd (lp_has_start p = true) tok -> hd_error (ob_tokens (lp_out p')) = Some tok.

Lemma first_sid e tok : first_ok e tok -> t_sid tok = K /\ t_start tok = e /\ t_end tok <= n.
Proof.
  intros [Hl <-|tok0 Hl _ Hb He ->].
  - destruct (lexed_range _ Hl) as (? & ? & ? & ?). auto.
  - destruct (lexed_range _ Hl) as (H1 & H2 & H3 & H4).
    assert (t_start tok0 < n) by (apply byte_at_lt in Hb; exact Hb).
    unfold skip_newline. cbn. rewrite H2. destruct (N.eqb_spec (t_start tok0) (n * 2 - 1)); lia || auto.
Qed.

Lemma parse_first_spec sfuel (Hsf : (scan_fuel t <= sfuel)%nat) fuel p e tok :
  out_fresh (lp_out p) -> first_ok e tok -> e <= t_end tok -> LB (t_end tok) (lp_lex p) (lp_in p) ->
  l_asked (lp_lex p) = false -> ib_heap (lp_in p) K = m ->
  (exists ty, tok_type tok = Ret ty /\ ty <> TokenEnd) -> n < N.of_nat fuel ->
  parse_post e p (fun _ x => x = tok) (parse_first fuel sfuel c p tok).
Proof.
  intros (Ho1 & Ho2 & Ho3) Hfo Hle HB Hask Hh (ty & Hty & Hte) Hf.
  unfold parse_first. rewrite Hty. cbn [bind].
  destruct (N.eqb_spec ty TokenEnd) as [|_]; [contradiction|].
  match goal with |- context [parse_loop fuel sfuel c ?P] => set (p1 := P) end.
  destruct (first_sid _ _ Hfo) as (Hs & Hst & Hen).
  destruct (parse_loop_spec sfuel Hsf fuel p1 e (t_end tok)) as (a & p' & e' & Hr & Hp & Hmu & Hoc & Hle' & Hlt' & Hhd).
  - constructor; cbn [p1 lp_set_start lp_set_out lp_lex lp_in lp_has_start lp_out]; auto.
    + destruct ((ty =? TokenFirstTimestamp) || (ty =? TokenNewlineTimestamp)); cbn; lia.
    + exists tok, []. assert (Hch : chain e [tok] (t_end tok)) by (rewrite <- Hst; apply chain_one; auto; lia).
      destruct ((ty =? TokenFirstTimestamp) || (ty =? TokenNewlineTimestamp)) eqn:Ets.
      * split; [reflexivity|]. split; [exact Hfo|]. split; [|split; [constructor|exact Hch]].
        cbn. split; [|auto]. intros _. apply orb_true_iff in Ets.
        unfold is_ts, ty_is. rewrite Hty. destruct Ets as [E1|E1]; apply N.eqb_eq in E1; subst; auto.
      * split; [reflexivity|]. split; [exact Hfo|]. split; [|split; [constructor|exact Hch]].
        cbn. split; [discriminate|]. unfold is_ts, ty_is. rewrite Hty. intros [[= ->]|[= ->]]; discriminate.
  - lia.
  - exists a, p', e'. repeat (split; [assumption|]). intros x ->. rewrite Hhd.
    cbn [p1 lp_set_start lp_set_out lp_out].
    destruct ((ty =? TokenFirstTimestamp) || (ty =? TokenNewlineTimestamp)); reflexivity.
Qed.

Lemma parse_spec sfuel (Hsf : (scan_fuel t <= sfuel)%nat) fuel p e :
  out_fresh (lp_out p) -> at_event e p -> ib_heap (lp_in p) K = m -> n < N.of_nat fuel ->
  parse_post e p (fun hs x => hs /\ x = lp_start_tok p) (parse fuel sfuel c p).
Proof.
  intros Ho Hae Hh Hf. unfold parse. destruct Ho as (Ho1 & Ho2 & Ho3). rewrite Ho1, N.eqb_refl.
  assert (Hof : forall v, out_fresh (ob_set_delims (lp_out p) v)) by (intros; split; [|split]; assumption).
  destruct Hae as [Hst HB|tok0 Hst Hlex Hnnl Hb Hlt He Hst2 Hask HB].
  - cbn [lp_set_out lp_has_start]. rewrite Hst. unfold get_next_symbol.
    cbn [lp_set_out lp_lex lp_in].
    destruct (scan_spec c t K Hwf sfuel e _ _ Hsf HB) as (tok & l' & b' & Hr & Hfr & Hask' & Hok & HB').
    rewrite Hr. cbn [bind lp_set_lexin lp_set_out lp_out ob_set_delims ob_has_ts lp_in]. rewrite Ho2.
    destruct (token_cases _ _ _ _ _ _ Hok) as (H1 & H2 & H3 & H4 & H5 & _). fold n in H2, H5.
    assert (Hheap' : ib_heap b' K = m) by (destruct Hfr as (-> & _); exact Hh).
    destruct (lexed_of _ _ _ Hok) as [[Hi HE]|Hlex].
    + unfold tok_type at 1. rewrite Hi. cbn [cTokenEndTypes bind].
      change (TokenEnd =? TokenNewlineTimestamp) with false. cbn iota.
      unfold parse_first, tok_type. rewrite Hi. cbn [cTokenEndTypes bind].
      change (TokenEnd =? TokenEnd) with true. cbn iota.
      eexists _, _, n. split; [reflexivity|].
      split; [|cbn; repeat split; auto; [lia|discriminate|rewrite Hst; intros ? [? _]; discriminate]].
      constructor; cbn [lp_out lp_in lp_lex lp_set_out lp_set_lexin]; auto.
      * exists None. split; [|exact Hst]. cbn [ob_has_ts ob_set_pos ob_set_token ob_set_delims].
        rewrite Ho2. unfold ob_tokens, ob_first. cbn. rewrite Ho2. cbn. rewrite HE. constructor.
      * cbn. unfold ob_first. cbn. rewrite Ho2. lia.
      * discriminate.
      * exact (LB_static _ _ _ HB').
    + destruct (lexed_type _ Hlex) as (ty & Hty & Hte & Hsy).
      rewrite Hty. cbn [bind].
      destruct (N.eqb_spec ty TokenNewlineTimestamp) as [->|Hnt].
      * destruct (lexed_nt _ Hlex Hty) as (Hbyte & Hlt).
        eexists _, _, (t_start tok + 1). split; [reflexivity|].
        split; [|cbn; repeat split; auto; [lia|lia|rewrite Hst; intros ? [? _]; discriminate]].
        constructor; cbn [lp_out lp_in lp_lex lp_set_out lp_set_lexin lp_set_start lp_set_cons ib_set_cons ib_heap]; auto.
        -- exists (Some tok). split; [|split; reflexivity].
           cbn [ob_has_ts ob_set_pos ob_set_token ob_set_delims]. rewrite Ho2.
           unfold ob_tokens, ob_first. cbn. rewrite Ho2. cbn. rewrite <- H3.
           apply es_lone; [exact Hlex|exact Hty].
        -- cbn. unfold ob_first. cbn. rewrite Ho2. lia.
        -- intros _. apply (ae_start _ _ tok); cbn; auto; try lia.
           { rewrite Hty. discriminate. }
           eapply LB_cons_irrel. exact HB'.
        -- apply static_cons. exact (LB_static _ _ _ HB').
      * match goal with |- parse_post e p _ (parse_first _ _ _ ?P _) => set (p2 := P) end.
        destruct (parse_first_spec sfuel Hsf fuel p2 e tok) as (a & p' & e' & Hres & Hpar & Hmu & Hoc & Hle' & Hlt' & Hhd);
          cbn [p2 lp_set_lexin lp_set_out lp_out lp_lex lp_in]; auto; try lia.
        -- apply fo_lexed; auto.
        -- eauto.
        -- exists a, p', e'. repeat (split; [assumption|]). rewrite Hst. intros ? [? _]; discriminate.
  - cbn [lp_set_out lp_has_start]. rewrite Hst.
    match goal with |- parse_post e p _ (parse_first _ _ _ ?P _) => set (p2 := P) end.
    change (lp_start_tok p2) with (lp_start_tok p). rewrite Hst2.
    assert (Hsk : skip_newline tok0 = set_t_start tok0 (t_start tok0 + 1)) by (apply skip_newline_eq; auto).
    assert (Hte : t_end (skip_newline tok0) = t_end tok0) by (rewrite Hsk; reflexivity).
    destruct (parse_first_spec sfuel Hsf fuel p2 e (skip_newline tok0)) as (a & p' & e' & Hres & Hpar & Hmu & Hoc & Hle' & Hlt' & Hhd);
      cbn [p2 lp_set_out lp_out lp_lex lp_in]; rewrite ?Hte; auto; try lia.
    + apply (fo_skip _ _ tok0); auto.
    + destruct (lexed_type _ Hlex) as (ty & Hty & Hty0 & _). exists ty. split; [|exact Hty0].
      rewrite Hsk. exact Hty.
    + exists a, p', e'. repeat (split; [assumption|]). intros x [_ ->]. apply Hhd. reflexivity.
Qed.

(** * Metadata *)
Definition has_type (id : N) (tok : token) : bool :=
  match tok_type tok with Ret ty => ty =? id | _ => false end.

(** Every token of an event has a type below [nsym] and starts inside the buffer. *)
Definition ev_tok (tok : token) : Prop :=
  t_sid tok = K /\ t_start tok <= n /\ exists ty, tok_type tok = Ret ty /\ ty < nsym /\ ty <> TokenEnd.

Lemma lexed_ev tok : lexed tok -> ev_tok tok.
Proof.
  intros Hl. destruct (lexed_range _ Hl) as (H1 & H2 & H3 & H4).
  destruct (lexed_type _ Hl) as (ty & Hty & Hte & Hlt).
  split; [exact H1|]. split; [lia|]. eauto.
Qed.
Lemma only_newline_ev tok : lexed tok -> ev_tok (only_newline tok).
Proof.
  intros Hl. destruct (lexed_range _ Hl) as (H1 & H2 & H3 & H4).
  split; [exact H1|]. split; [cbn; lia|]. exists TokenUncaughtString. split; [reflexivity|].
  split; [exact Hsym2|discriminate].
Qed.
Lemma first_ev e tok : first_ok e tok -> e <= n -> ev_tok tok.
Proof.
  intros Hf He. destruct (first_sid _ _ Hf) as (Hs & Hst & Hen).
  split; [exact Hs|]. split; [lia|].
  destruct Hf as [Hl _|tok0 Hl _ Hb _ ->].
  - destruct (lexed_type _ Hl) as (ty & ? & ? & ?). eauto.
  - destruct (lexed_type _ Hl) as (ty & ? & ? & ?). eauto.
Qed.

Lemma shape_ev ts e toks e' fin nxt : event_shape ts e toks e' fin nxt -> Forall ev_tok toks.
Proof.
  intros [|tok Hl Hty|ts' e0 t0 body E tl e1 fin' nxt' Hf Hts Hb Hch Hending].
  - constructor.
  - constructor; [apply only_newline_ev; exact Hl|constructor].
  - pose proof (chain_le _ _ _ Hch). constructor; [eapply first_ev; eauto; lia|].
    apply Forall_app. split.
    + eapply Forall_impl; [|exact Hb]. intros tok (Hl & _). apply lexed_ev; exact Hl.
    + destruct Hending as [|tok Ht Hl Hlt Hty|tok Hl Hlt Hby Hty].
      * constructor.
      * constructor; [apply lexed_ev; exact Hl|constructor].
      * constructor; [apply only_newline_ev; exact Hl|constructor].
Qed.

(** An event's tokens are laid out one after the other. *)
Lemma shape_chain ts e toks e' fin nxt : event_shape ts e toks e' fin nxt -> chain e toks e'.
Proof.
  intros [|tok Hl Hty|ts' e0 t0 body E tl e1 fin' nxt' Hf Hts Hb Hch Hending].
  - constructor. unfold n; lia.
  - destruct (lexed_range _ Hl) as (H1 & H2 & H3 & H4). destruct (lexed_nt _ Hl Hty) as (_ & Hlt).
    change (t_start tok) with (t_start (only_newline tok)) at 1.
    change (t_start tok + 1) with (t_end (only_newline tok)). apply chain_one; cbn; auto; lia.
  - change (t0 :: body ++ tl) with ((t0 :: body) ++ tl). eapply chain_app; [exact Hch|].
    destruct Hending as [|tok Ht Hl Hlt Hty|tok Hl Hlt Hby Hty].
    + constructor. unfold n; lia.
    + destruct (lexed_range _ Hl) as (H1 & H2 & H3 & H4). apply chain_one; auto.
    + destruct (lexed_range _ Hl) as (H1 & H2 & H3 & H4).
      change (t_start tok) with (t_start (only_newline tok)) at 1.
      change (t_start tok + 1) with (t_end (only_newline tok)). apply chain_one; cbn; auto; lia.
Qed.

Lemma occ_add_spec (occ : list (list N)) id slot :
  id < N.of_nat (length occ) ->
  exists occ', occ_add occ id slot = Ret occ' /\ length occ' = length occ /\
    forall j, nth j occ' [] = if Nat.eqb j (N.to_nat id) then nth j occ [] ++ [slot] else nth j occ [].
Proof.
  intros Hlt. unfold occ_add.
  set (i := N.to_nat id). assert (Hi : (i < length occ)%nat) by (unfold i; lia).
  destruct (nth_error occ i) as [l|] eqn:El; [|apply nth_error_None in El; lia].
  eexists. split; [reflexivity|].
  assert (Hlf : length (firstn i occ) = i) by (rewrite firstn_length; lia).
  split.
  - rewrite app_length, Hlf. cbn [length]. rewrite skipn_length. lia.
  - intros j. pose proof (nth_error_nth _ _ [] El) as Hn.
    assert (Hsplit : occ = firstn i occ ++ l :: skipn (S i) occ).
    { pose proof (nth_error_split _ _ El) as (l1 & l2 & Hocc & Hl1). rewrite Hocc at 1.
      f_equal.
      - rewrite Hocc, <- Hl1. rewrite firstn_app, Nat.sub_diag, firstn_all. cbn. rewrite app_nil_r. reflexivity.
      - f_equal. rewrite Hocc, <- Hl1. rewrite skipn_app. rewrite skipn_all2 by lia.
        replace (S (length l1) - length l1)%nat with 1%nat by lia. reflexivity. }
    destruct (Nat.eqb_spec j i) as [->|Hne].
    + rewrite app_nth2 by lia. rewrite Hlf, Nat.sub_diag. cbn [nth]. rewrite Hn. reflexivity.
    + destruct (Nat.lt_ge_cases j i).
      * transitivity (nth j (firstn i occ ++ l :: skipn (S i) occ) []); [|rewrite <- Hsplit; reflexivity].
        rewrite !app_nth1 by lia. reflexivity.
      * transitivity (nth j (firstn i occ ++ l :: skipn (S i) occ) []); [|rewrite <- Hsplit; reflexivity].
        rewrite !app_nth2 by lia. rewrite Hlf.
        destruct (j - i)%nat eqn:Ej; [lia|]. reflexivity.
Qed.

(** The first index, other than 0, whose token starts with a newline. *)
Definition starts_nl (tok : token) : bool :=
  match m (t_start tok) with Some x => x =? cNewline | None => false end.

Lemma meta_loop_spec h o is : h K = m -> Forall (fun i => ev_tok (ob_act o i)) is ->
  forall nlpos occ, N.of_nat (length occ) = nsym ->
  exists occ', meta_loop h o is nlpos occ
      = Ret (match nlpos with
             | 0 => match find (fun i => negb (i =? 0) && starts_nl (ob_act o i)) is with
                    | Some i => i | None => 0 end
             | _ => nlpos end, occ') /\
    length occ' = length occ /\
    forall j, nth j occ' [] = nth j occ [] ++ filter (fun i => has_type (N.of_nat j) (ob_act o i)) is.
Proof.
  intros Hh. induction is as [|i is IH]; intros Hall nlpos occ Hlen.
  - exists occ. cbn [meta_loop find filter]. split; [destruct nlpos; reflexivity|].
    split; [reflexivity|]. intros. rewrite app_nil_r. reflexivity.
  - inversion Hall as [|? ? (Hs & Hst & ty & Hty & Hlt & _) Hall']; subst.
    cbn [meta_loop]. rewrite Hty. cbn [bind].
    destruct (occ_add_spec occ ty i) as (occ1 & Hadd & Hlen1 & Hnth1); [lia|].
    rewrite Hadd. cbn [bind]. unfold tok_delimiter. rewrite Hs, Hh.
    destruct (m_read (t_start (ob_act o i)) Hst) as (x & Hx). rewrite Hx. cbn [bind].
    edestruct (IH Hall') as (occ' & Hr & Hl' & Hn'); [|rewrite Hr]; [lia|].
    exists occ'. split; [|split].
    + do 2 f_equal. cbn [find]. unfold starts_nl at 2. rewrite Hx.
      destruct nlpos as [|np].
      * cbn [N.eqb andb]. rewrite andb_true_r. destruct (x =? cNewline); [|rewrite andb_false_r; reflexivity].
        rewrite andb_true_r. destruct i as [|ip]; reflexivity.
      * rewrite andb_false_r. reflexivity.
    + lia.
    + intros j. rewrite Hn', Hnth1. cbn [filter]. unfold has_type at 2. rewrite Hty.
      destruct (Nat.eqb_spec j (N.to_nat ty)) as [->|Hne].
      * rewrite N2Nat.id, N.eqb_refl. rewrite <- app_assoc. reflexivity.
      * destruct (N.eqb_spec ty (N.of_nat j)); [lia|reflexivity].
Qed.

(** A finished event. *)
Record event_at (e : N) (p : lparser) (e' : N) (fin : bool) : Prop := {
  ea_shape : exists nxt, event_shape (ob_has_ts (lp_out p)) e (ob_tokens (lp_out p)) e' fin nxt /\ next_of p nxt;
  ea_first : ob_first (lp_out p) <= ob_pos (lp_out p);
  ea_heap : ib_heap (lp_in p) K = m;
  ea_occ : N.of_nat (length (lp_occ p)) = nsym /\
    forall id, nth (N.to_nat id) (lp_occ p) [] =
      filter (fun i => has_type id (ob_act (lp_out p) i)) (indices (ob_first (lp_out p)) (ob_pos (lp_out p)));
  ea_multi : lp_multi p = true <->
    ob_has_ts (lp_out p) = true /\
    exists i, 1 <= i /\ i + 1 < ob_pos (lp_out p) /\ starts_nl (ob_act (lp_out p) i) = true
}.

Lemma find_least (f : N -> bool) a b : forall i, find f (indices a b) = Some i ->
  a <= i < b /\ f i = true /\ forall j, a <= j < i -> f j = false.
Proof.
  intros i. remember (N.to_nat (b - a)) as cnt eqn:Ec.
  revert a Ec. induction cnt as [|cnt IH]; intros a Ec.
  - unfold indices. rewrite <- Ec. discriminate.
  - assert (Hi : indices a b = a :: indices (a + 1) b).
    { unfold indices. rewrite <- Ec. replace (N.to_nat (b - (a + 1))) with cnt by lia.
      cbn [seq map]. f_equal; [lia|]. rewrite <- seq_shift, map_map. apply map_ext. intros; lia. }
    rewrite Hi. cbn [find]. destruct (f a) eqn:Ea.
    + intros [= <-]. split; [lia|]. split; [exact Ea|]. intros; lia.
    + intros Hf. destruct (IH (a + 1)) as (H1 & H2 & H3); [lia|exact Hf|].
      split; [lia|]. split; [exact H2|]. intros j Hj. destruct (N.eq_dec j a) as [->|]; [exact Ea|]. apply H3. lia.
Qed.

Lemma metadata_spec p e a e' :
  parsed e p a e' -> lp_multi p = false -> lp_occ p = repeat [] (N.to_nat nsym) ->
  exists p', generate_metadata p = Ret p' /\
    event_at e p' e' (match a with ActCompressAndFinish => true | _ => false end) /\
    lp_lex p' = lp_lex p /\ lp_in p' = lp_in p /\ lp_has_start p' = lp_has_start p /\
    lp_start_tok p' = lp_start_tok p /\ lp_out p' = lp_out p.
Proof.
  intros [(nxt & Hsh & Hnx) Hact Hfirst Hnext Hheap Hbuf Hask] Hmul Hocc.
  unfold generate_metadata. set (o := lp_out p) in *.
  assert (Hall : Forall (fun i => ev_tok (ob_act o i)) (indices (ob_first o) (ob_pos o))).
  { apply shape_ev in Hsh. unfold ob_tokens in Hsh. rewrite Forall_map in Hsh. exact Hsh. }
  destruct (meta_loop_spec (ib_heap (lp_in p)) o _ Hheap Hall 0 (lp_occ p)) as (occ' & Hr & Hl & Hn).
  { rewrite Hocc, repeat_length. lia. }
  rewrite Hr. cbn [bind]. eexists. split; [reflexivity|]. split; [|cbn; auto].
  constructor; cbn [lp_out lp_in lp_occ lp_multi]; auto.
  - eauto.
  - rewrite Hl, Hocc, repeat_length. split; [lia|]. intros id. rewrite Hn, Hocc.
    rewrite nth_repeat. cbn [app]. rewrite N2Nat.id. reflexivity.
  - rewrite Hmul.
    match goal with |- context [find ?F ?L] => set (f := F); destruct (find f L) as [i0|] eqn:Ef end.
    + destruct (find_least _ _ _ _ Ef) as (Hr1 & Hr2 & Hr3). unfold f in Hr2.
      apply andb_true_iff in Hr2 as [Hr2a Hr2b]. apply negb_true_iff in Hr2a. apply N.eqb_neq in Hr2a.
      destruct (ob_has_ts o) eqn:Ets; cbn [andb].
      * destruct (N.ltb_spec 0 i0); [|lia]. cbn [andb].
        destruct (N.ltb_spec (i0 + 1) (ob_pos o)).
        -- split; [|auto]. intros _. split; [reflexivity|]. exists i0. repeat split; auto; lia.
        -- split; [discriminate|]. intros (_ & i & Hi1 & Hi2 & Hi3).
           assert (Hf0 : ob_first o = 0) by (unfold ob_first; rewrite Ets; reflexivity).
           assert (f i = false) as Hfi by (apply Hr3; lia).
           unfold f in Hfi. rewrite Hi3, andb_true_r in Hfi. apply negb_false_iff in Hfi. apply N.eqb_eq in Hfi. lia.
      * split; [discriminate|]. intros [? _]. discriminate.
    + rewrite N.ltb_irrefl, andb_false_r. cbn [andb]. split; [discriminate|].
      intros (Hts & i & Hi1 & Hi2 & Hi3).
      assert (Hf0 : ob_first o = 0) by (unfold ob_first; rewrite Hts; reflexivity).
      assert (Hin : In i (indices (ob_first o) (ob_pos o))) by (apply in_indices; lia).
      apply (find_none _ _ Ef) in Hin. unfold f in Hin. rewrite Hi3, andb_true_r in Hin.
      apply negb_false_iff in Hin. apply N.eqb_eq in Hin. lia.
Qed.

(** * One parse_next_event call *)
Lemma LB_set_storage E l b : LB E l b -> LB E l (ib_set_storage b k m n (ib_pos b) true).
Proof.
  assert (Hst : static_buf t K b -> static_buf t K (ib_set_storage b k m n (ib_pos b) true)).
  { intros [H1 H2 H3 H4 H5 H6 H7 H8]. constructor; cbn; auto.
    - intros p Hp. unfold heap_set, K. cbn. rewrite Nat.eqb_refl. apply Hm. exact Hp.
    - discriminate. }
  intros HB. destruct HB; [eapply lb_sof|apply lb_begin|eapply lb_match|apply lb_end]; cbn; eauto.
Qed.

(** The parser between two calls, the buffer being resubmitted at [offset]: the next event starts at [e]. *)
Definition ready (e offset : N) (p : lparser) : Prop :=
  at_event e (lp_set_lexin p (lp_lex p) (ib_set_storage (lp_in p) k m n offset true)) /\
  length (lp_occ p) = N.to_nat nsym.
Lemma at_event_storage e p : at_event e p ->
  at_event e (lp_set_lexin p (lp_lex p) (ib_set_storage (lp_in p) k m n (ib_pos (lp_in p)) true)).
Proof.
  intros [Hst HB|tok0 Hst Hlex Hnnl Hb Hlt He Hst2 Hask HB].
  - apply ae_lex; cbn; auto. apply LB_set_storage. exact HB.
  - apply (ae_start _ _ tok0); cbn; auto. apply LB_set_storage. exact HB.
Qed.

Lemma parse_next_event_spec sfuel (Hsf : (scan_fuel t <= sfuel)%nat) fuel bp e offset :
  ready e offset (bp_lp bp) -> bp_done bp = false -> n < N.of_nat fuel ->
  exists bp' e', parse_next_event fuel sfuel c k m n offset true bp
      = Ret (true, ib_pos (lp_in (bp_lp bp')), bp') /\
    event_at e (bp_lp bp') e' (bp_done bp') /\ e <= e' <= n /\
    (lp_has_start (bp_lp bp) = true -> hd_error (ob_tokens (lp_out (bp_lp bp'))) = Some (lp_start_tok (bp_lp bp))) /\
    (if bp_done bp' then e' = n else ready e' (ib_pos (lp_in (bp_lp bp'))) (bp_lp bp') /\ e < e').
Proof.
  intros (Hae & Hlen) Hdone Hf. unfold parse_next_event.
  set (p := bp_lp bp) in *.
  match goal with |- context [parse_and_generate_metadata _ _ _ ?P] => set (p1 := P) end.
  unfold parse_and_generate_metadata.
  destruct (parse_spec sfuel Hsf fuel p1 e) as (a & p' & e' & Hr & Hpar & Hmu & Hoc & Hle & Hlt & Hhd); auto.
  - cbn. split; [reflexivity|]. split; [reflexivity|]. vm_compute; reflexivity.
  - destruct Hae as [Hst HB|tok0 Hst Hlex Hnnl Hb Hlt He Hst2 Hask HB].
    + apply ae_lex; cbn; auto.
    + apply (ae_start _ _ tok0); cbn; auto.
  - cbn. unfold heap_set, K. cbn. rewrite Nat.eqb_refl. reflexivity.
  - rewrite Hr. cbn [bind].
    destruct (metadata_spec p' e a e' Hpar) as (p2 & Hg & Hev & G1 & G2 & G3 & G4 & G5).
    + rewrite Hmu. reflexivity.
    + rewrite Hoc. cbn. rewrite <- Hlen. clear. induction (lp_occ p); cbn; congruence.
    + rewrite Hg. cbn [bind].
      assert (He'n : e' <= n).
      { destruct (pr_shape _ _ _ _ Hpar) as (nxt & Hsh & _). apply shape_chain in Hsh. apply chain_le in Hsh. lia. }
      pose proof (ea_occ _ _ _ _ Hev) as (Hocl & _).
      destruct (pr_act _ _ _ _ Hpar) as [->| ->].
      * exists (mkBp p2 (bp_done bp)), e'. cbn [bp_lp bp_done]. rewrite Hdone. split; [reflexivity|].
        split; [exact Hev|]. split; [lia|].
        split; [intros Hs; rewrite G5; apply Hhd; split; [exact Hs|reflexivity]|].
        split; [|auto]. split; [apply at_event_storage|lia].
        pose proof (pr_next _ _ _ _ Hpar eq_refl) as Hn.
        destruct Hn as [Hst HB|tok0 Hst Hlex Hnnl Hb Hlt0 He Hst2 Hask HB].
        -- apply ae_lex; [congruence|]. rewrite G1, G2. exact HB.
        -- apply (ae_start _ _ tok0); try congruence.
      * exists (mkBp p2 true), e'. cbn [bp_lp bp_done]. split; [reflexivity|].
        split; [exact Hev|]. split; [lia|].
        split; [intros Hs; rewrite G5; apply Hhd; split; [exact Hs|reflexivity]|].
        destruct (pr_shape _ _ _ _ Hpar) as (nxt & Hsh & _). inversion Hsh; subst; auto.
        match goal with H : ending _ _ _ _ true _ |- _ => inversion H; subst; auto end.
Qed.

(** * The whole run *)
Inductive events : N -> list lparser -> Prop :=
| evs_last e p : event_at e p n true -> events e [p]
| evs_cons e p e' p' ps : event_at e p e' false -> e < e' ->
    (lp_has_start p = true -> hd_error (ob_tokens (lp_out p')) = Some (lp_start_tok p)) ->
    events e' (p' :: ps) -> events e (p :: p' :: ps).

Lemma drive_ready {A} (obs : lparser -> A) sfuel (Hsf : (scan_fuel t <= sfuel)%nat) fuel (Hf : n < N.of_nat fuel) calls :
  forall bp e offset, ready e offset (bp_lp bp) -> bp_done bp = false -> n - e < N.of_nat calls ->
  exists ps bp', drive obs calls fuel sfuel c k m n offset bp = Ret (map obs ps, bp') /\
    events e ps /\ bp_done bp' = true /\ lp_has_start (bp_lp bp') = false /\
    length (lp_occ (bp_lp bp')) = N.to_nat nsym /\
    (lp_has_start (bp_lp bp) = true -> exists p1 ps', ps = p1 :: ps' /\ hd_error (ob_tokens (lp_out p1)) = Some (lp_start_tok (bp_lp bp))).
Proof.
  induction calls as [|calls IH]; intros bp e offset Hready Hd Hc; [lia|].
  cbn [drive].
  destruct (parse_next_event_spec sfuel Hsf fuel bp e offset Hready Hd Hf) as (bp1 & e' & Hr & Hev & Hle & Hlink & Hnext).
  rewrite Hr. cbn [bind]. destruct (bp_done bp1) eqn:Ed.
  - subst e'. exists [bp_lp bp1], bp1. split; [reflexivity|]. split; [apply evs_last; exact Hev|].
    split; [exact Ed|]. split.
    + destruct (ea_shape _ _ _ _ Hev) as (nxt & Hsh & Hnx).
      assert (nxt = None) as ->; [|exact Hnx].
      inversion Hsh; subst; auto. match goal with H : ending _ _ _ _ true _ |- _ => inversion H; subst; auto end.
    + pose proof (ea_occ _ _ _ _ Hev) as (Ho & _). split; [lia|]. eauto.
  - destruct Hnext as (Hready' & Hlt).
    destruct (IH bp1 e' _ Hready' Ed) as (ps & bp' & Hr' & Hevs & Hd' & Hs' & Hl' & Hlink'); [lia|].
    rewrite Hr'. cbn [bind]. exists (bp_lp bp1 :: ps), bp'. split; [reflexivity|].
    split; [|repeat (split; [assumption|]); eauto].
    destruct ps as [|p1 ps]; [inversion Hevs|].
    eapply evs_cons; eauto. intros Hs1. destruct (Hlink' Hs1) as (p2 & ps2 & [= <- <-] & Hh). exact Hh.
Qed.

(** The state after reset(), seen from the first call (offset 0). *)
Lemma reset_ready bp : (exists q, d_next (c_dfa c) d_root cCharStartOfFile = Some q) ->
  lp_has_start (bp_lp bp) = false -> length (lp_occ (bp_lp bp)) = N.to_nat nsym ->
  ready 0 0 (bp_lp (bp_reset c bp)).
Proof.
  intros (q & Hq) Hs Hl. split; [|exact Hl].
  apply ae_lex; [exact Hs|]. cbn. apply (lb_sof _ _ _ _ _ _ q); cbn; auto.
  constructor; cbn; auto; try lia.
  - intros p Hp. unfold heap_set, K. cbn. rewrite Nat.eqb_refl. apply Hm. exact Hp.
Qed.

(** Everything about a complete run. *)
Theorem drive_spec {A} (obs : lparser -> A) calls fuel sfuel bp :
  (exists q, d_next (c_dfa c) d_root cCharStartOfFile = Some q) ->
  lp_has_start (bp_lp bp) = false -> length (lp_occ (bp_lp bp)) = N.to_nat nsym ->
  (scan_fuel t <= sfuel)%nat -> n < N.of_nat fuel -> n < N.of_nat calls ->
  exists ps bp', drive obs calls fuel sfuel c k m n 0 (bp_reset c bp) = Ret (map obs ps, bp') /\
    events 0 ps /\ bp_done bp' = true /\ lp_has_start (bp_lp bp') = false /\
    length (lp_occ (bp_lp bp')) = N.to_nat nsym.
Proof.
  intros Hq Hs Hl Hsf Hf Hc.
  destruct (drive_ready obs sfuel Hsf fuel Hf calls (bp_reset c bp) 0 0) as (ps & bp' & H1 & H2 & H3 & H4 & H5 & _);
    [apply reset_ready; auto|reflexivity|lia|]. exists ps, bp'. auto.
Qed.
End Parse.
