(** EventExact.v -- where exactly an event without timestamp begins and ends, and when exactly an event is
    multiline. *)
From Verif Require Import Base LexerModel LexerSpec LogParserModel EventSpec StreamModel.
From Verif Require Import LexerProofs LogParserProofs StreamProofs EventProofs.

Section Exact.
Context (c : lexcfg) (nsym : N) (t : list N) (k : nat) (m : mem).
Hypothesis Hus : usable c nsym.
Hypothesis Hh : holds m t.
Hypothesis Hnf : newline_free c.
Hypothesis Hns : ~ In cCharStartOfFile t.
Hypothesis Hnl : forall i, In i (reported (c_dfa c) d_root [cNewline]) -> i = TokenNewline.
Let n := len t.
Let evat := event_at c t k m nsym.

Lemma lexed_nonempty tok : lexed c t k tok -> t_start tok < t_end tok.
Proof.
  intros Hl. destruct (lexed_cases _ _ _ _ Hl) as (H1 & H2 & H3 & H4 & [(ids & Hi & Hvt)|(_ & Hlt & _)]); [|exact Hlt].
  destruct (N.eq_dec (t_start tok) (t_end tok)) as [E|]; [|lia]. exfalso.
  destruct (vt_state _ _ _ _ _ _ Hvt) as (q & Hst & Hrep & _). apply (vt_ids _ _ _ _ _ _ Hvt). rewrite <- Hrep, E, sub_nil.
  unfold reported. cbn [run]. destruct Hst as [->|[_ Hq]]; [apply (wf_root _ (us_wf _ _ Hus))|].
  pose proof (nf_sof _ Hnf) as Hsof. unfold reported in Hsof. cbn [run] in Hsof. rewrite Hq in Hsof. exact Hsof.
Qed.
Lemma first_nonempty e t0 : first_ok c t k e t0 -> ~ is_timestamp t0 -> t_start t0 < t_end t0.
Proof.
  intros [Hl _|tok0 Hl Hnn Hb He ->] Hnt; [apply lexed_nonempty; exact Hl|].
  pose proof (lexed_nonempty _ Hl) as Hlt. rewrite (sknl c nsym t k m Hus Hh _ Hl Hlt) in *. cbn [set_t_start t_start t_end].
  destruct (N.eq_dec (t_start tok0 + 1) (t_end tok0)) as [E|]; [|lia]. exfalso.
  destruct (lexed_cases _ _ _ _ Hl) as (H1 & H2 & H3 & H4 & [(ids & Hi & Hvt)|(_ & _ & Hno)]).
  2:{ apply (Hno (nf_delim _ Hnf) (t_start tok0)); [lia|exact Hb]. }
  destruct (vt_state _ _ _ _ _ _ Hvt) as (q & Hst & Hrep & _). destruct ids as [|i ids]; [apply (vt_ids _ _ _ _ _ _ Hvt); reflexivity|].
  rewrite <- E, (sub_one t _ _ Hb) in Hrep.
  assert (Hty : tok_type tok0 = Ret i) by (unfold tok_type; rewrite Hi; reflexivity).
  destruct Hst as [->|[_ Hq]].
  - apply Hnn. rewrite Hty. f_equal. apply Hnl. rewrite Hrep. left. reflexivity.
  - assert (Hin : In i (reported (c_dfa c) d_root [cCharStartOfFile; cNewline])).
    { unfold reported in *. cbn [run] in *. rewrite Hq. rewrite Hrep. left. reflexivity. }
    apply (nf_var _ Hnf _ _ Hin).
    + intros ->. apply Hnt. left. exact Hty.
    + intros ->. apply Hnt. right. exact Hty.
    + left. reflexivity.
Qed.

(** An event without timestamp: the last one has a newline at most as its first byte; another one is a newline
    right before a timestamp, or ends with its first newline after its first byte. *)
Lemma evat_line e p e' fin : evat e p e' fin -> ev_timestamp p = None ->
  if fin then e' = n /\ forall i, e < i < e' -> byte_at t i <> Some cNewline
  else (e' = e + 1 /\ byte_at t e = Some cNewline /\ lp_has_start p = true /\ is_timestamp (lp_start_tok p)) \/
       (e + 2 <= e' /\ byte_at t (e' - 1) = Some cNewline /\ forall i, e < i < e' - 1 -> byte_at t i <> Some cNewline).
Proof.
  intros H Hts. pose proof (evat_ts c nsym t k m _ _ _ _ H) as Hnt. rewrite Hts in Hnt.
  pose proof (evat_chain c nsym t k m Hus Hh _ _ _ _ H) as Hch.
  destruct (ea_shape _ _ _ _ _ _ _ _ _ H) as (nxt & Hsh & Hnx).
  unfold ev_timestamp in Hts. destruct (ob_has_ts (lp_out p)) eqn:Ets; [discriminate|]. unfold ev_tokens in *.
  assert (Hmid : forall e t0 body, first_ok c t k e t0 -> ~ is_timestamp t0 -> Forall (body_ok c t k false) body ->
            forall E, chain t k e (t0 :: body) E -> e < E /\ forall i, e < i < E -> byte_at t i <> Some cNewline).
  { clear - n evat Hus Hh Hnf Hns Hnl. intros e t0 body Hfo Hn0 Hbd E Hc.
    assert (S0 : t_start t0 = e /\ t_start t0 <= t_end t0) by (inversion Hc; subst; auto). destruct S0 as (S0 & S1).
    assert (S2 : t_end t0 <= E).
    { inversion Hc; subst. match goal with X : chain _ _ (t_end t0) _ _ |- _ => apply (chle c nsym t k m Hus Hh) in X; lia end. }
    pose proof (first_nonempty e t0 Hfo Hn0) as Hne. split; [lia|]. intros i Hi Hb.
    destruct (chain_cover c nsym t k m e (t0 :: body) E i Hc) as (tok & Hin & Hr); [lia|]. destruct Hin as [<-|Hin].
    - destruct Hfo as [Hl Hs|tok0 Hl Hnn Hb0 He0 ->].
      + destruct (lexed_newline c nsym t k m Hnf t0 i Hl Hn0 Hr Hb) as (Hq & _). lia.
      + pose proof (lexed_nonempty _ Hl) as Hlt0. rewrite (sknl c nsym t k m Hus Hh _ Hl Hlt0) in Hr, Hn0. cbn in Hr.
        destruct (lexed_newline c nsym t k m Hnf tok0 i Hl) as (Hq & _); auto; lia.
    - rewrite Forall_forall in Hbd. destruct (Hbd _ Hin) as (Hl & Hlt & Hn1 & Hn2).
      destruct (lexed_newline c nsym t k m Hnf tok i Hl) as (-> & _); auto.
      intros [Hf|Hf].
      + revert Hf. eapply (body_not_first c nsym t k m Hus Hnf Hns); eauto. inversion Hc; subst; eauto.
      + pose proof (lexed_nt c t k m nsym (us_wf _ _ Hus) (proj1 Hh) (us_ids _ _ Hus) (us_nsym _ _ Hus) tok Hl Hf). tauto. }
  inversion Hsh as [Hx Hx2 Hx3 Hx4|tok0 Hl Hty Hx Hx2 Hx3 Hx4|ts e0 t0 body E tl e1 f' nx Hfo Hts' Hbd Hc Hen]; subst.
  - split; [reflexivity|]. intros; lia.
  - left. destruct (lexed_nt c t k m nsym (us_wf _ _ Hus) (proj1 Hh) (us_ids _ _ Hus) (us_nsym _ _ Hus) _ Hl Hty) as (Hb & Hlt).
    cbn [next_of] in Hnx. destruct Hnx as (Hn1 & Hn2). repeat (split; [assumption || reflexivity|]). rewrite Hn2.
    rewrite (sknl c nsym t k m Hus Hh _ Hl Hlt). right. exact Hty.
  - match goal with Hq : _ = ob_tokens _ |- _ => rewrite <- Hq in Hnt end. specialize (Hnt t0 eq_refl).
    destruct (Hmid e t0 body Hfo Hnt Hbd E Hc) as (M1 & M2). inversion Hen; subst.
    + split; [reflexivity|exact M2].
    + right. match goal with Hq : ty_is _ TokenNewline |- _ => rename Hq into Hty end.
      match goal with Hq : lexed _ _ _ tok |- _ => rename Hq into Hl end.
      destruct (lexed_cases _ _ _ _ Hl) as (Z1 & Z2 & Z3 & Z4 & [(ids & Hi & Hvt)|(Hi & _)]);
        unfold ty_is, tok_type in Hty; rewrite Hi in Hty; [|discriminate].
      destruct ids as [|i ids]; [discriminate|]. injection Hty as ->.
      destruct (vt_state _ _ _ _ _ _ Hvt) as (q & Hst & Hrep & _).
      destruct Hst as [->|[Hs0 Hq]]; [|lia].
      assert (W : sub t (t_start tok) (t_end tok) = [cNewline]) by (apply (nf_newline _ Hnf); rewrite Hrep; left; reflexivity).
      assert (L1 : len (sub t (t_start tok) (t_end tok)) = 1) by (rewrite W; reflexivity). rewrite sub_length in L1 by lia.
      assert (B : byte_at t (t_end tok - 1) = Some cNewline).
      { destruct (byte_at_some t (t_start tok)) as [x Hx]; [lia|]. rewrite (sub_cons t _ _ x Hx) in W by lia. injection W as -> _.
        replace (t_end tok - 1) with (t_start tok) by lia. exact Hx. }
      split; [lia|]. split; [exact B|]. intros j Hj. apply M2. lia.
    + right. match goal with |- _ /\ byte_at t (t_start ?x + 1 - 1) = _ /\ _ => replace (t_start x + 1 - 1) with (t_start x) by lia end.
      split; [lia|]. split; [assumption|]. exact M2.
Qed.

End Exact.

(** Multiline exactly if a token after the first and before the last begins with a newline. *)
Section Multi.
Context (c : lexcfg) (nsym : N) (t : list N) (k : nat) (m : mem).
Hypothesis Hus : usable c nsym.
Hypothesis Hh : holds m t.
Lemma evat_multi_exact e p e' fin : event_at c t k m nsym e p e' fin ->
  (ev_multiline p = true <-> ev_timestamp p <> None /\
    exists t0 l1 tok l2, ev_tokens p = t0 :: l1 ++ tok :: l2 /\ l2 <> [] /\ tok_delimiter (ib_heap (lp_in p)) tok = Ret cNewline).
Proof.
  intros H. unfold ev_multiline. rewrite (ea_multi _ _ _ _ _ _ _ _ _ H).
  pose proof (ea_heap _ _ _ _ _ _ _ _ _ H) as Hhp. pose proof (evat_chain c nsym t k m Hus Hh _ _ _ _ H) as Hch.
  assert (Hsid : forall tok, In tok (ev_tokens p) -> t_sid tok = User k).
  { clear - Hch. induction Hch as [|x toks e Hs]; intros tok Hin; [contradiction|]. destruct Hin as [<-|Hin]; auto. }
  assert (D : forall tok, In tok (ev_tokens p) -> tok_delimiter (ib_heap (lp_in p)) tok = Ret cNewline <-> starts_nl m tok = true).
  { intros tok Hin. unfold tok_delimiter, starts_nl. rewrite (Hsid tok Hin), Hhp. destruct (m (t_start tok)) as [x|]; [|split; discriminate].
    split; [intros [= ->]; reflexivity|intros Hx; apply N.eqb_eq in Hx; subst; reflexivity]. }
  clear Hsid Hch Hhp. unfold ev_timestamp, ev_tokens in *. split.
  - intros (Hts & i & Hi1 & Hi2 & Hi3). rewrite Hts. split; [discriminate|].
    assert (Hslots : ob_tokens (lp_out p) = map (ob_act (lp_out p)) (indices 0 (ob_pos (lp_out p)))).
    { unfold ob_tokens, ob_first. rewrite Hts. reflexivity. }
    assert (Hsp : forall cnt j s, (j < cnt)%nat -> map (fun x => s + N.of_nat x) (seq 0 cnt) =
               map (fun x => s + N.of_nat x) (seq 0 j) ++ (s + N.of_nat j) :: map (fun x => s + N.of_nat x) (seq (S j) (cnt - S j))).
    { clear. intros cnt j s Hj. replace cnt with (j + S (cnt - S j))%nat at 1 by lia. rewrite seq_app, map_app. reflexivity. }
    unfold indices in Hslots. rewrite (Hsp _ (N.to_nat i) 0) in Hslots by lia.
    destruct (N.to_nat i) as [|j] eqn:Ej; [lia|]. cbn [seq map app] in Hslots. rewrite map_app in Hslots. cbn [map] in Hslots.
    do 4 eexists. split; [exact Hslots|]. split.
    { rewrite !map_map. replace (N.to_nat (ob_pos (lp_out p) - 0) - S (S j))%nat with (S (N.to_nat (ob_pos (lp_out p) - 0) - S (S (S j))))%nat by lia.
      discriminate. }
    apply D; [rewrite Hslots; right; apply in_or_app; right; left; reflexivity|]. replace (0 + N.of_nat (S j)) with i by lia. exact Hi3.
  - intros (Hts & t0 & l1 & tok & l2 & E & Hne & Hd). destruct (ob_has_ts (lp_out p)) eqn:Ets; [|congruence]. split; [reflexivity|].
    exists (N.of_nat (S (length l1))).
    assert (Hslots : ob_tokens (lp_out p) = map (ob_act (lp_out p)) (indices 0 (ob_pos (lp_out p)))).
    { unfold ob_tokens, ob_first. rewrite Ets. reflexivity. }
    assert (Hlen : length (t0 :: l1 ++ tok :: l2) = N.to_nat (ob_pos (lp_out p))).
    { rewrite <- E, Hslots, map_length, indices_length. lia. }
    cbn [length] in Hlen. rewrite !app_length in Hlen. cbn [length] in Hlen. destruct l2 as [|y l2]; [congruence|]. cbn [length] in Hlen.
    split; [lia|]. split; [lia|]. assert (Hact : ob_act (lp_out p) (N.of_nat (S (length l1))) = tok).
    { assert (Hn : nth_error (t0 :: l1 ++ tok :: y :: l2) (S (length l1)) = Some tok).
      { cbn [nth_error]. rewrite nth_error_app2 by lia. rewrite Nat.sub_diag. reflexivity. }
      rewrite <- E, Hslots in Hn. rewrite nth_error_map in Hn. unfold indices in Hn. rewrite nth_error_map in Hn.
      rewrite (nth_error_nth' _ 0%nat) in Hn by (rewrite seq_length; lia).
      rewrite seq_nth in Hn by lia. cbn [option_map] in Hn. injection Hn as Hn. rewrite <- Hn. f_equal. }
    rewrite Hact. apply D; [rewrite E; right; apply in_or_app; right; left; reflexivity|exact Hd].
Qed.
End Multi.
