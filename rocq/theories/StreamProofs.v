(** StreamProofs.v -- the whole token stream of a finished buffer. *)
From Verif Require Import Base LexerModel LexerSpec LexerProofs StreamModel.

Section Stream.
Context (c : lexcfg) (t : list N) (k : nat) (m : mem).
Hypothesis Hwf : wf_cfg c.
Let n := len t.
Let K := User k.
Hypothesis Hm : forall p, p < n -> m p = byte_at t p.

Inductive stream (z : bool) : N -> list token -> Prop :=
| st_end tok : token_ok c t K z n tok -> t_ids tok = cTokenEndTypes -> stream z n [tok]
| st_cons E tok toks : token_ok c t K z E tok -> t_ids tok <> cTokenEndTypes ->
    stream false (t_end tok) toks -> stream z E (tok :: toks).

Lemma scan_all_spec fuel (Hf : (scan_fuel t <= fuel)%nat) calls : forall E l b,
  lex_between c t K E l b -> n - E + (if l_asked l then 1 else 0) < N.of_nat calls ->
  exists toks, scan_all calls fuel c l b = Ret toks /\ stream (l_asked l) E toks.
Proof.
  induction calls as [|calls IH]; intros E l b HB Hc; [lia|].
  cbn [scan_all].
  destruct (scan_spec c t K Hwf fuel E l b Hf HB) as (tok & l' & b' & Hr & Hfr & Hask & Hok & HB').
  rewrite Hr. cbn [bind].
  destruct (token_cases _ _ _ _ _ _ Hok) as (H1 & H2 & H3 & H4 & H5 & Hk). fold n in H2, H5.
  assert (Hdec : {t_ids tok = cTokenEndTypes} + {t_ids tok <> cTokenEndTypes}).
  { decide equality. decide equality. apply N.eq_dec. }
  destruct Hdec as [Hi|Hi].
  - rewrite Hi. cbn. exists [tok]. split; [reflexivity|].
    assert (E = n) as ->.
    { destruct Hk as [(ids & Hi' & Hv & _)|[(Hi' & _)|(_ & HE & _)]].
      - exfalso. rewrite Hi in Hi'. injection Hi' as <-.
        destruct (vt_state _ _ _ _ _ _ Hv) as (q & _ & Hrep & _). unfold reported in Hrep.
        destruct (run (c_dfa c) q (sub t E (t_end tok))) as [q'|]; [|discriminate].
        destruct (wf_ids _ Hwf q' TokenEnd) as [Hx _]; [rewrite Hrep; left; reflexivity|]. congruence.
      - rewrite Hi in Hi'. discriminate.
      - exact HE. }
    apply st_end; auto.
  - destruct (IH (t_end tok) l' b' HB') as (toks & Hr' & Hst).
    { rewrite Hask.
      destruct Hk as [(ids & _ & _ & Hlt)|[(_ & Hlt & _)|(Hi' & _)]].
      - destruct (l_asked l); [lia|]. specialize (Hlt eq_refl). lia.
      - destruct (l_asked l); lia.
      - contradiction. }
    rewrite Hask in Hst. exists (tok :: toks). split; [|constructor; auto].
    rewrite Hr'. destruct (t_ids tok) as [[|[|?] [|]]|]; try reflexivity. exfalso. apply Hi. reflexivity.
Qed.

Lemma lex_all_spec fuel calls b :
  (exists q, d_next (c_dfa c) d_root cCharStartOfFile = Some q) ->
  (scan_fuel t <= fuel)%nat -> n + 1 < N.of_nat calls ->
  exists toks, lex_all calls fuel c k m t b = Ret toks /\ stream true 0 toks.
Proof.
  intros (q & Hq) Hf Hc. unfold lex_all. apply scan_all_spec; [exact Hf| |cbn; lia].
  eapply lb_sof; cbn; eauto. constructor; cbn; auto; try lia.
  - intros p Hp. unfold heap_set, K. cbn. rewrite Nat.eqb_refl. apply Hm. exact Hp.
Qed.

Lemma stream_split z E toks : stream z E toks ->
  exists body e, toks = body ++ [e] /\ is_end e /\ tile E body n /\ t_start e = n /\ t_end e = n /\
    Forall (fun tok => exists z, token_ok c t K z (t_start tok) tok /\ ~ is_end tok) body.
Proof.
  induction 1 as [z tok Hok Hi|z E tok toks Hok Hi Hst IH].
  - exists [], tok. destruct (token_cases _ _ _ _ _ _ Hok) as (_ & _ & H3 & H4 & H5 & _).
    repeat split; auto. unfold n in *; lia.
  - destruct IH as (body & e & -> & He & Ht & Hs1 & Hs2 & Hall). exists (tok :: body), e.
    destruct (token_cases _ _ _ _ _ _ Hok) as (_ & _ & H3 & H4 & H5 & _).
    repeat split; auto. constructor; auto. exists z. rewrite H3. auto.
Qed.

(** A position inside the text lies in exactly the token that covers it. *)
Lemma tile_cover E body e i : tile E body e -> E <= i < e ->
  exists tok, In tok body /\ t_start tok <= i < t_end tok.
Proof.
  revert E; induction body as [|tok body IH]; cbn [tile]; intros E Ht Hi; [lia|].
  destruct Ht as (Hs & Hle & Ht). destruct (N.lt_ge_cases i (t_end tok)).
  - exists tok. split; [left; reflexivity|lia].
  - destruct (IH _ Ht) as (tok' & Hin & Hr); [lia|]. exists tok'. split; [right; exact Hin|exact Hr].
Qed.
Lemma tile_le E body e : tile E body e -> E <= e.
Proof. revert E; induction body as [|tok body IH]; cbn; intros E; [lia|]. intros (H1 & H2 & H3). apply IH in H3. lia. Qed.

Lemma token_kinds z tok : token_ok c t K z (t_start tok) tok -> ~ is_end tok ->
  t_start tok <= t_end tok /\ t_end tok <= n /\ t_sid tok = K /\
  ((exists ids, t_ids tok = Some ids /\ is_var tok /\ var_token_ok c t (t_start tok) (t_end tok) ids (t_line tok)) \/
   (is_static tok /\ t_start tok < t_end tok /\ dead c t (t_start tok) (t_end tok) /\
    (c_delim c cNewline = true -> forall p, t_start tok <= p < t_end tok -> byte_at t p <> Some cNewline))).
Proof.
  intros Hok Hne. destruct (token_cases _ _ _ _ _ _ Hok) as (H1 & H2 & H3 & H4 & H5 & Hk). fold n in H5.
  do 3 (split; [assumption|]).
  destruct Hk as [(ids & Hi & Hv & _)|[(Hi & Hlt & Hd & _ & _ & Hnl)|(Hi & _)]]; [left|right; auto|contradiction].
  exists ids. split; [exact Hi|]. split; [|exact Hv]. split; [exact Hne|].
  unfold is_static. rewrite Hi. intros [= ->].
  destruct (vt_state _ _ _ _ _ _ Hv) as (q & _ & Hrep & _). unfold reported in Hrep.
  destruct (run (c_dfa c) q (sub t (t_start tok) (t_end tok))) as [q'|]; [|discriminate].
  destruct (wf_ids _ Hwf q' TokenUncaughtString) as [_ Hx]; [rewrite Hrep; left; reflexivity|]. congruence.
Qed.

(** C06 core. *)
Lemma occurrence_covered E body i j :
  tile E body n -> Forall (fun tok => exists z, token_ok c t K z (t_start tok) tok /\ ~ is_end tok) body ->
  c_delim c cNewline = true -> no_cross c t -> no_cross_sof c t ->
  occurrence c t i j -> E <= i ->
  exists tok, In tok body /\ is_var tok /\ t_start tok <= i < t_end tok /\
   (* unless the token is at the start of the file or starts with a newline, it is the occurrence *)
   (t_start tok = 0 \/ byte_at t (t_start tok) = Some cNewline \/ (t_start tok = i /\ t_end tok = j)).
Proof.
  intros Ht Hall Hnl Hnc Hns Hocc Hi.
  destruct Hocc as (Hij & Hdm & (x & Hx & Hdx) & Hin). pose proof Hdm as ((_ & Hjn) & Hrepj & Hdj). fold n in Hjn.
  destruct (tile_cover _ _ _ i Ht) as (tok & Htok & Hr); [lia|].
  rewrite Forall_forall in Hall. destruct (Hall _ Htok) as (z & Hok & Hne).
  destruct (token_kinds z tok Hok Hne) as (Hle & Hen & Hs & [(ids & Hids & Hv & Hvt)|(Hst & Hlt & Hd & _)]).
  2: { exfalso. apply (Hd Hnl Hnc Hns i j); [lia|]. split; [exact Hij|]. split; [exact Hdm|]. split; [eauto|exact Hin]. }
  exists tok. split; [exact Htok|]. split; [exact Hv|]. split; [exact Hr|].
  destruct (N.eq_dec (t_start tok) 0) as [|Hn0]; [left; assumption|right].
  destruct (byte_at_some t (t_start tok)) as [y Hy]; [fold n; lia|].
  destruct (N.eq_dec y cNewline) as [->|Hyn]; [left; exact Hy|right].
  destruct (vt_state _ _ _ _ _ _ Hvt) as (q & [->|[H0 _]] & Hrep & Hlong); [|lia].
  assert (Hrun : run (c_dfa c) d_root (sub t (t_start tok) (t_end tok)) <> None).
  { intros Hrun. unfold reported in Hrep. rewrite Hrun in Hrep. subst ids. apply (vt_ids _ _ _ _ _ _ Hvt). reflexivity. }
  assert (Hcross : forall p w, t_start tok < p < t_end tok -> byte_at t p = Some w -> c_delim c w = false).
  { intros p w Hp Hw. destruct (c_delim c w) eqn:Ed; [|reflexivity]. exfalso. apply Hrun.
    rewrite (sub_app t (t_start tok) (p + 1) (t_end tok)) by lia. rewrite run_app.
    rewrite (Hnc (t_start tok) p y w); auto. lia. }
  assert (Hs_i : t_start tok = i).
  { destruct (N.eq_dec (t_start tok) i); [assumption|]. rewrite (Hcross i x) in Hdx; [discriminate|lia|exact Hx]. }
  split; [exact Hs_i|].
  destruct (N.lt_trichotomy (t_end tok) j) as [Hlt|[He|Hgt]]; [|exact He|].
  - exfalso. apply (Hlong j); [lia|]. rewrite Hs_i. exact Hdm.
  - exfalso. destruct Hdj as [->|(w & Hw & Hdw)]; [fold n in Hgt; lia|].
    rewrite (Hcross j w) in Hdw; [discriminate|lia|exact Hw].
Qed.
End Stream.

(** The texts of the tokens are the text. *)
From Verif Require Import LogParserModel.
Lemma read_range_byte m t a cnt : (forall p, p < len t -> m p = byte_at t p) ->
  a + N.of_nat cnt <= len t -> read_range m a cnt = Ret (sub t a (a + N.of_nat cnt)).
Proof.
  intros Hm. revert a; induction cnt as [|cnt IH]; intros a H.
  - cbn [read_range]. replace (a + N.of_nat 0) with a by lia. rewrite sub_nil. reflexivity.
  - cbn [read_range]. destruct (byte_at_some t a) as [x Hx]; [lia|].
    rewrite Hm by lia. rewrite Hx. rewrite IH by lia. cbn [bind]. f_equal.
    symmetry. rewrite (sub_cons t a _ x Hx) by lia. do 2 f_equal. lia.
Qed.
Lemma tile_text c t k (Hwf : wf_cfg c) h E body : (forall p, p < len t -> h (User k) p = byte_at t p) ->
  tile E body (len t) ->
  Forall (fun tok => exists z, token_ok c t (User k) z (t_start tok) tok /\ ~ is_end tok) body ->
  concat_out (map (tok_text h) body) = Ret (sub t E (len t)).
Proof.
  intros Hh. revert E. induction body as [|tok body IH]; cbn [tile]; intros E Ht Hall.
  - subst E. cbn. rewrite sub_nil. reflexivity.
  - inversion Hall as [|? ? (z & Hok & Hne) Hall']; subst. destruct Ht as (Hs & Hle & Ht).
    destruct (token_kinds c t k Hwf z tok Hok Hne) as (H1 & H2 & H3 & _).
    cbn [map concat_out]. rewrite (IH _ Ht Hall'). unfold tok_text. rewrite H3.
    destruct (N.leb_spec (t_start tok) (t_end tok)); [|lia].
    rewrite (read_range_byte _ t) by (auto; lia). cbn [bind]. f_equal.
    replace (t_start tok + N.of_nat (N.to_nat (t_end tok - t_start tok))) with (t_end tok) by lia.
    subst E. symmetry. apply sub_app; lia.
Qed.
