(** ReaderFits.v -- if every event fits, together with the two lines after it, into half the initial buffer, the
    ReaderParser never has to enlarge it. *)
From Verif Require Import Base LexerModel LexerSpec LogParserModel EventSpec RingModel RingSpec RingProofs ViewModel ReaderSpec ViewSim LineBound WindowBound.
From Verif Require Import LexerProofs LogParserProofs EventProofs ReaderProofs.

Lemma sub_len : forall t a b, a <= b -> b <= len t -> len (sub t a b) = b - a.
Proof. intros t a b H1 H2. unfold len, sub in *. rewrite firstn_length, skipn_length. lia. Qed.

Section Whole.
Variables (chunk : nat -> N) (log : list N) (c : lexcfg) (nsym : N) (k : nat) (m : mem).
Hypothesis Hroot : d_ids (c_dfa c) d_root = [].
Hypothesis Hsof : sof_quiet c.
Hypothesis Hfills : fills chunk log.
Hypothesis Hm : holds m log.
Variable name : N -> option (list N).
Notation obs := (report_of name nsym).

(** Events that fit: the buffer is never enlarged. *)
Lemma ready_next_start : forall e offset p, usable c nsym -> ready c log k m nsym e offset p -> next_start p = e.
Proof.
  intros e offset p Hus (A & _). unfold next_start. destruct A as [Hst HB|tok0 Hst Hlex Hty Hb Hlt He Hst2 Hask HB]; cbn in *.
  - rewrite Hst. destruct HB as [q S P E A Q1 Q2 M|S P A M La|ids S P A M St|S P A M St]; cbn in *; rewrite M; congruence.
  - rewrite Hst, Hst2. rewrite (skip_newline_eq c log k m nsym (proj1 Hm) (us_ids _ _ Hus) (us_nsym _ _ Hus) tok0 Hlex Hlt). cbn. congruence.
Qed.

Lemma drive_fits : forall fuel sfuel, usable c nsym -> lines_ok log c -> (scan_fuel log <= sfuel)%nat -> len log < N.of_nat fuel ->
  forall calls rp bp offset e ps bp' texts, rstate log c k rp bp offset -> rp_done rp = false ->
  ready c log k m nsym e offset (bp_lp bp) -> len log - e < N.of_nat calls ->
  drive (fun p => p) calls fuel sfuel c k m (len log) offset bp = Ret (ps, bp') ->
  map ev_to_string ps = map Ret texts -> events_fit texts ->
  exists rp', rp_drive chunk obs calls 0 fuel sfuel c rp = Ret (map obs ps, rp').
Proof.
  intros fuel sfuel Hus Hlo Hsf Hfu. induction calls as [|calls IH]; intros rp bp offset e ps bp' texts St Hd Hrd Hc Hdr Htx Hfit; [lia|].
  assert (bp_done bp = false) as Hbd by (rewrite <- (rs_done _ _ _ _ _ _ St); exact Hd).
  destruct (drive_ready c log k m nsym (us_wf _ _ Hus) (proj1 Hm) (proj2 Hm) (us_ids _ _ Hus) (us_nsym _ _ Hus) (fun p => p) sfuel Hsf fuel Hfu (Datatypes.S calls) bp e offset Hrd Hbd Hc)
    as (ps0 & bp0 & Hdr0 & Hevs & _).
  rewrite Hdr in Hdr0. rewrite map_id in Hdr0. injection Hdr0 as <- <-.
  destruct (events_texts c nsym log k m Hus Hm e ps Hevs) as (texts0 & T1 & T2 & He).
  assert (texts0 = texts) as ->.
  { assert (map (@Ret (list N)) texts0 = map Ret texts) as Q by congruence. clear - Q. revert texts Q.
    induction texts0 as [|x l IHl]; intros [|y l'] Q; try discriminate; [reflexivity|]. cbn in Q. injection Q as -> Q. f_equal. apply IHl, Q. }
  destruct (parse_next_event_spec c log k m nsym (us_wf _ _ Hus) (proj1 Hm) (proj2 Hm) (us_ids _ _ Hus) (us_nsym _ _ Hus) sfuel Hsf fuel bp e offset Hrd Hbd Hfu)
    as (bp1 & e' & Hr & Hev & Hle & _ & Hnext).
  pose proof (call_sim chunk log c k m Hroot Hfills Hm fuel sfuel rp bp offset St) as K. rewrite Hr in K.
  cbn [drive rp_drive] in Hdr |- *. rewrite Hr in Hdr. cbn [bind] in Hdr.
  assert (exists x texts', texts = x :: texts' /\ x = sub log e e') as (x & texts' & -> & Ex).
  { pose proof (evat_text c nsym log k m Hus Hm _ _ _ _ Hev) as X. destruct (bp_done bp1).
    - injection Hdr as <- <-. destruct texts as [|x texts']; [discriminate|]. exists x, texts'. split; [reflexivity|]. cbn in Htx. injection Htx as Y _. congruence.
    - destruct (drive (fun p => p) calls fuel sfuel c k m (len log) (ib_pos (lp_in (bp_lp bp1))) bp1) as [(l, bp2)| | |]; cbn [bind] in Hdr; try discriminate.
      injection Hdr as <- <-. destruct texts as [|x texts']; [discriminate|]. exists x, texts'. split; [reflexivity|]. cbn in Htx. injection Htx as Y _. congruence. }
  destruct (rp_parse_next_event chunk 0 fuel sfuel c rp) as [rp1| | |] eqn:Ec; cbn [bind]; try discriminate.
  - destruct K as (off' & bpx & X & Rep & Dn & Next & _). injection X as <- <-. rewrite Dn.
    destruct (bp_done bp1) eqn:Ed.
    + injection Hdr as <- <-. exists rp1. cbn. rewrite Rep. reflexivity.
    + destruct (drive (fun p => p) calls fuel sfuel c k m (len log) (ib_pos (lp_in (bp_lp bp1))) bp1) as [(l, bp2)| | |] eqn:Edr; cbn [bind] in Hdr; try discriminate.
      injection Hdr as <- <-. cbn in Htx. injection Htx as _ Htx.
      destruct (IH rp1 bp1 _ e' l bp2 texts' (Next Hd Dn)) as (rp2 & ->); auto; try apply Hnext; try lia.
      * intros pre y post Q. apply (Hfit (x :: pre) y post). rewrite Q. reflexivity.
      * cbn. exists rp2. rewrite Rep. reflexivity.
  - exfalso. destruct K as [K|(_ & K)]; [discriminate|]. destruct (K Hlo Hbd) as (E' & R & R1 & R2 & R3 & R4 & R5).
    rewrite (ready_next_start e offset (bp_lp bp) Hus Hrd) in R1.
    specialize (Hfit [] x texts' eq_refl). cbn [app] in Hfit. cbv zeta in Hfit. change (x ++ concat texts') with (concat (x :: texts')) in Hfit. rewrite T2 in Hfit.
    rewrite sub_len in Hfit by lia. destruct Hfit as [Q|(n1 & n2 & Q1 & Q2 & Q3 & Q4 & Q5)]; [lia|].
    rewrite Ex, sub_len in Q1 by lia.
    pose proof (byte_at_lt _ _ _ Q4) as L1. pose proof (byte_at_lt _ _ _ Q5) as L2. rewrite sub_len in L1, L2 by lia.
    rewrite byte_at_sub in Q4, Q5 by lia.
    destruct (bp_done bp1) eqn:Ed.
    + lia.
    + destruct Hnext as (Hrd' & _). specialize (R5 _ _ eq_refl Ed). rewrite (ready_next_start e' _ _ Hus Hrd') in R5.
      apply (R4 (e + n1) (e + n2)); try lia; assumption.
Qed.
End Whole.

(** * Every event but the last ends with a newline *)
Section Ends.
Variables (c : lexcfg) (nsym : N) (t : list N) (k : nat) (m : mem).
Hypothesis Hus : usable c nsym.
Hypothesis Hm : holds m t.
Hypothesis Hnl : forall w, In TokenNewline (reported (c_dfa c) d_root w) -> w = [cNewline].

Lemma lexed_from_root : forall tok i, lexed c t k tok -> tok_type tok = Ret i -> i <> TokenUncaughtString ->
  exists w, In i (reported (c_dfa c) d_root w) /\
    (w = sub t (t_start tok) (t_end tok) \/ w = cCharStartOfFile :: sub t (t_start tok) (t_end tok)) /\ t_start tok <= t_end tok /\ t_end tok <= len t.
Proof.
  intros tok i Hl Hty Hne. destruct (lexed_cases c t k tok Hl) as (H1 & H2 & H3 & H4 & [(ids & Hi & Hvt)|(Hi & _)]);
    unfold tok_type in Hty; rewrite Hi in Hty; [|cbn in Hty; congruence].
  destruct ids as [|j ids]; [discriminate|]. injection Hty as ->.
  destruct (vt_state _ _ _ _ _ _ Hvt) as (q & [-> |(S0 & Hq)] & Hrep & _).
  - exists (sub t (t_start tok) (t_end tok)). rewrite Hrep. repeat split; auto; [left; reflexivity|lia..].
  - exists (cCharStartOfFile :: sub t (t_start tok) (t_end tok)). split; [|repeat split; auto; lia].
    unfold reported. cbn [run]. rewrite Hq. fold (reported (c_dfa c) q (sub t (t_start tok) (t_end tok))). rewrite Hrep. left. reflexivity.
Qed.

Lemma evat_ends : forall e p e', event_at c t k m nsym e p e' false -> exists s, sub t e e' = s ++ [cNewline].
Proof.
  intros e p e' H.
  assert (forall p, e <= p -> p + 1 = e' -> byte_at t p = Some cNewline -> exists s, sub t e e' = s ++ [cNewline]) as K.
  { intros q H1 H2 H3. exists (sub t e q). rewrite <- H2. apply sub_snoc; auto. }
  pose proof (chle c nsym t k m Hus Hm _ _ _ (evat_chain c nsym t k m Hus Hm _ _ _ _ H)) as Hle.
  destruct (ea_shape _ _ _ _ _ _ _ _ _ H) as (nxt & Hsh & _).
  inversion Hsh as [Hx|tok0 Hl Hty Hx|ts e0 t0 body E tl e1 f' nx Hfo Hts Hb Hc Hen]; subst.
  - apply (K (t_start tok0)); try lia.
    destruct (lexed_from_root tok0 _ Hl Hty ltac:(discriminate)) as (w & Hin & Hw & L1 & L2).
    destruct (wf_nt _ (us_wf _ _ Hus) _ Hin) as (w' & ->). destruct Hw as [Hw|Hw]; [|discriminate].
    pose proof (sub_len t _ _ L1 L2) as Q. rewrite <- Hw in Q. unfold len at 1 in Q. cbn [length] in Q.
    assert (byte_at (sub t (t_start tok0) (t_end tok0)) 0 = Some cNewline) as B by (rewrite <- Hw; reflexivity).
    rewrite byte_at_sub in B by lia. rewrite N.add_0_r in B. exact B.
  - pose proof (chle c nsym t k m Hus Hm _ _ _ Hc) as Hle2. inversion Hen as [|tok Hts' Hl Hlt Hty|tok Hl Hlt Hb' Hty]; subst.
    + destruct (lexed_from_root tok _ Hl Hty ltac:(discriminate)) as (w & Hin & Hw & L1 & L2).
      apply Hnl in Hin. subst w. destruct Hw as [Hw|Hw]; [|discriminate].
      pose proof (sub_len t _ _ L1 L2) as Q. rewrite <- Hw in Q. unfold len at 1 in Q. cbn [length] in Q.
      assert (byte_at (sub t (t_start tok) (t_end tok)) 0 = Some cNewline) as B by (rewrite <- Hw; reflexivity).
      rewrite byte_at_sub in B by lia. rewrite N.add_0_r in B. apply (K (t_start tok)); try lia. exact B.
    + apply (K (t_start tok)); try lia. exact Hb'.
Qed.

Lemma evat_no_ts : forall e p e' fin, no_timestamps c -> event_at c t k m nsym e p e' fin -> ev_timestamp p = None.
Proof.
  intros e p e' fin Hno H. pose proof (evat_ts c nsym t k m _ _ _ _ H) as T. destruct (ev_timestamp p) as [tok|]; [|reflexivity]. exfalso.
  destruct T as (Hd & Ht).
  assert (forall tok0, lexed c t k tok0 -> tok_type tok0 = tok_type tok -> False) as K.
  { intros tok0 Hl Ety. destruct Ht as [Ht|Ht]; rewrite Ht in Ety;
      destruct (lexed_from_root tok0 _ Hl Ety ltac:(discriminate)) as (w & Hin & _);
      unfold reported in Hin; destruct (run (c_dfa c) d_root w) as [q|]; try contradiction; destruct (Hno q) as (Z1 & Z2); auto. }
  destruct (ea_shape _ _ _ _ _ _ _ _ _ H) as (nxt & Hsh & _). unfold ev_tokens in Hd.
  inversion Hsh as [Hx|tok0 Hl Hty Hx|ts e0 t0 body E tl e1 f' nx Hfo Hts Hb Hc Hen]; subst;
    match goal with Q : _ = ob_tokens _ |- _ => rewrite <- Q in Hd end; cbn in Hd; try discriminate; injection Hd as <-.
  - destruct Ht as [Ht|Ht]; cbn in Ht; discriminate.
  - destruct Hfo as [Hl _|tok0 Hl _ _ _ ->]; [exact (K _ Hl eq_refl)|]. apply (K _ Hl). reflexivity.
Qed.

Lemma events_end : forall e ps texts, events c t k m nsym e ps -> map ev_to_string ps = map Ret texts ->
  forall pre x y post, texts = pre ++ x :: y :: post -> exists s, x = s ++ [cNewline].
Proof.
  intros e ps texts H. revert texts. induction H as [e p H|e p e' p' ps H Hlt Hlink Hr IH]; intros texts Htx pre x y post Ex.
  - apply (f_equal (@length _)) in Htx. rewrite !map_length, Ex, app_length in Htx. cbn in Htx. lia.
  - destruct texts as [|z texts]; [discriminate|]. cbn in Htx. injection Htx as Hz Htx.
    destruct pre as [|z' pre]; cbn in Ex; injection Ex as -> Ex; [|eapply IH; eauto].
    rewrite (evat_text c nsym t k m Hus Hm _ _ _ _ H) in Hz. injection Hz as <-. exact (evat_ends _ _ _ H).
Qed.
Lemma events_in : forall e ps, events c t k m nsym e ps -> forall p, In p ps -> exists e1 e2 fin, event_at c t k m nsym e1 p e2 fin.
Proof. induction 1 as [e p H|e p e' p' ps H Hlt Hlink Hr IH]; intros q Hq; destruct Hq as [<-|Hq]; eauto; contradiction. Qed.

(** Without timestamps and with short lines, events are short. *)
Lemma events_short : forall e ps texts L, newline_free c -> ~ In cCharStartOfFile t -> no_timestamps c -> lines_at_most L t ->
  events c t k m nsym e ps -> map ev_to_string ps = map Ret texts -> forall x, In x texts -> len x <= L + 2.
Proof.
  intros e ps texts L Hnf Hns Hno Hln Hev Htx x Hx.
  apply (in_map Ret) in Hx. rewrite <- Htx in Hx. apply in_map_iff in Hx as (p & Hp & Hin).
  destruct (events_in _ _ Hev p Hin) as (e1 & e2 & fin & H). rewrite (evat_text c nsym t k m Hus Hm _ _ _ _ H) in Hp. injection Hp as <-.
  pose proof (chle c nsym t k m Hus Hm _ _ _ (evat_chain c nsym t k m Hus Hm _ _ _ _ H)) as Hle.
  rewrite sub_len by lia. destruct (N.le_gt_cases (e2 - e1) (L + 2)) as [Q|Q]; [exact Q|exfalso].
  destruct (Hln (e1 + 1) ltac:(lia)) as (i & Hi & Hb).
  destruct (evat_nots_newline c nsym t k m Hus Hm Hnf Hns _ _ _ _ i H (evat_no_ts _ _ _ _ Hno H) ltac:(lia) Hb); lia.
Qed.
End Ends.

(** Events of at most 7999 bytes fit. *)
Lemma short_fit : forall texts, (forall pre x y post, texts = pre ++ x :: y :: post -> exists s, x = s ++ [cNewline]) ->
  (forall x, In x texts -> len x <= 7999) -> events_fit texts.
Proof.
  intros texts He Hs pre x post -> rest. subst rest.
  assert (forall y, In y (x :: post) -> len y <= 7999) as Hs' by (intros y Hy; apply Hs, in_or_app; auto). clear Hs.
  pose proof (Hs' x ltac:(left; reflexivity)) as Lx.
  destruct post as [|y [|z post]].
  - left. cbn [concat]. rewrite app_nil_r. lia.
  - left. pose proof (Hs' y ltac:(right; left; reflexivity)) as Ly. cbn [concat]. rewrite app_nil_r. unfold len in *. rewrite app_length. lia.
  - pose proof (Hs' y ltac:(right; left; reflexivity)) as Ly. pose proof (Hs' z ltac:(right; right; left; reflexivity)) as Lz.
    destruct post as [|w post].
    + left. cbn [concat]. unfold len in *. rewrite !app_length. cbn [length]. lia.
    + right. destruct (He (pre ++ [x]) y z (w :: post)) as (s & ->); [rewrite <- app_assoc; reflexivity|].
      destruct (He (pre ++ [x; s ++ [cNewline]]) z w post) as (s' & ->); [rewrite <- app_assoc; reflexivity|].
      unfold len, byte_at in *. cbn [concat]. rewrite !app_length in *. cbn [length] in *.
      exists (N.of_nat (length x + length s)), (N.of_nat (length x + length s + 1 + length s')).
      repeat split; try lia.
      * rewrite Nnat.Nat2N.id, nth_error_app2, <- !app_assoc, nth_error_app2 by lia.
        match goal with |- nth_error _ ?n = _ => replace n with 0%nat by lia end. reflexivity.
      * rewrite Nnat.Nat2N.id, nth_error_app2, <- !app_assoc, nth_error_app2 by lia. cbn [app].
        match goal with |- nth_error _ ?n = _ => replace n with (S (length s')) by lia end. cbn [nth_error].
        rewrite nth_error_app2, Nat.sub_diag by lia. reflexivity.
Qed.
