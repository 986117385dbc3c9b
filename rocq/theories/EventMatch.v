(** EventMatch.v -- the typed tokens of an event are matches of the DFA. *)
From Verif Require Import Base LexerModel LexerSpec LogParserModel EventSpec StreamModel LexerProofs StreamProofs LogParserProofs EventProofs ReaderFits.

Section Match.
Variables (c : lexcfg) (nsym : N) (t : list N) (k : nat) (m : mem).
Hypothesis Hus : usable c nsym.
Hypothesis Hm : holds m t.

Lemma lexed_match : forall tok ids, lexed c t k tok -> t_ids tok = Some ids -> ids <> [TokenUncaughtString] ->
  exists pre, (pre = [] \/ pre = [cCharStartOfFile]) /\ ids <> [] /\ reported (c_dfa c) d_root (pre ++ sub t (t_start tok) (t_end tok)) = ids.
Proof.
  intros tok ids Hl Hi Hne. destruct (lexed_cases c t k tok Hl) as (H1 & H2 & H3 & H4 & [(ids' & Hi' & Hvt)|(Hi' & _)]).
  - rewrite Hi in Hi'. injection Hi' as <-.
    destruct (vt_state _ _ _ _ _ _ Hvt) as (q & [-> |(S0 & Hq)] & Hrep & _).
    + exists []. split; [auto|]. split; [apply (vt_ids _ _ _ _ _ _ Hvt)|exact Hrep].
    + exists [cCharStartOfFile]. split; [auto|]. split; [apply (vt_ids _ _ _ _ _ _ Hvt)|].
      unfold reported in *. cbn [app run]. rewrite Hq. exact Hrep.
  - rewrite Hi in Hi'. injection Hi' as ->. contradiction.
Qed.

Lemma chain_range : forall a toks e tok, chain t k a toks e -> In tok toks -> t_sid tok = User k /\ t_start tok <= t_end tok <= len t.
Proof.
  induction 1 as [a Ha|tok0 toks e Hs H1 H2 Hc IH]; intros Hin; [contradiction|]. destruct Hin as [-> |Hin]; [auto|]. auto.
Qed.

Lemma evat_match : forall e p e' fin tok ids, event_at c t k m nsym e p e' fin -> In tok (ev_tokens p) ->
  t_ids tok = Some ids -> ids <> [TokenUncaughtString] ->
  exists pre s, lead pre /\ tok_text (ib_heap (lp_in p)) tok = Ret s /\ ids <> [] /\ reported (c_dfa c) d_root (pre ++ s) = ids.
Proof.
  intros e p e' fin tok ids H Hin Hi Hne.
  destruct (chain_range _ _ _ _ (evat_chain c nsym t k m Hus Hm _ _ _ _ H) Hin) as (K1 & K2 & K3).
  assert (tok_text (ib_heap (lp_in p)) tok = Ret (sub t (t_start tok) (t_end tok))) as Et.
  { apply (tok_text_sub c t k m nsym (proj1 Hm) (us_ids _ _ Hus) (us_nsym _ _ Hus)); auto. apply (ea_heap _ _ _ _ _ _ _ _ _ H). }
  assert (lexed c t k tok -> exists pre s, lead pre /\ tok_text (ib_heap (lp_in p)) tok = Ret s /\ ids <> [] /\ reported (c_dfa c) d_root (pre ++ s) = ids) as Hlex.
  { intro Hl. destruct (lexed_match tok ids Hl Hi Hne) as (pre & Hp & Hn & Hr). exists pre, (sub t (t_start tok) (t_end tok)).
    split; [unfold lead; tauto|auto]. }
  destruct (ea_shape _ _ _ _ _ _ _ _ _ H) as (nxt & Hsh & _). unfold ev_tokens in Hin.
  inversion Hsh as [Hx|tok0 Hl Hty Hx|ts e0 t0 body E tl e1 f' nx Hfo Hts Hb Hc Hen]; subst;
    match goal with Q : _ = ob_tokens _ |- _ => rewrite <- Q in Hin end.
  - contradiction.
  - destruct Hin as [<-|[]]. cbn in Hi. injection Hi as <-. contradiction.
  - destruct Hin as [<-|Hin]; [|apply in_app_iff in Hin as [Hin|Hin]].
    + destruct Hfo as [Hl _|tok0 Hl _ Hbn Hst ->]; [exact (Hlex Hl)|].
      destruct (lexed_cases c t k tok0 Hl) as (R1 & R2 & R3 & R4 & _).
      assert (t_start tok0 < t_end tok0) as Hlt.
      { assert (t_start tok0 < len t) as Q.
        { unfold byte_at in Hbn. assert (N.to_nat (t_start tok0) < length t)%nat by (apply nth_error_Some; congruence). unfold len. lia. }
        unfold skip_newline in K2. rewrite R2 in K2. cbn in K2. destruct (N.eqb_spec (t_start tok0) (len t * 2 - 1)); lia. }
      rewrite (sknl c nsym t k m Hus Hm _ Hl Hlt) in *. cbn [t_ids set_t_start t_start t_end] in *.
      destruct (lexed_match tok0 ids Hl Hi Hne) as (pre & Hp & Hn & Hr).
      exists (pre ++ [cNewline]), (sub t (t_start tok0 + 1) (t_end tok0)).
      split; [unfold lead; destruct Hp as [-> | ->]; auto|]. split; [exact Et|]. split; [exact Hn|].
      rewrite <- app_assoc. cbn [app]. rewrite <- Hr. do 2 f_equal. symmetry.
      apply sub_cons; auto.
    + rewrite Forall_forall in Hb. apply Hlex, (Hb _ Hin).
    + inversion Hen; subst; cbn in Hin; [contradiction|destruct Hin as [<-|[]]; auto|].
      destruct Hin as [<-|[]]. cbn in Hi. injection Hi as <-. contradiction.
Qed.
End Match.
