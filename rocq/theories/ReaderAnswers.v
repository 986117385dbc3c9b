(** ReaderAnswers.v -- what ReaderParser makes of a Reader that answers with fewer bytes than it was asked for. *)
From Verif Require Import Base LexerModel LexerSpec LogParserModel EventSpec RingModel ReaderSpec LexerProofs LogParserProofs WindowBound FileModel FeedProofs.

(** ** The specification. *)
(** The calls of a Reader, in order: how many bytes it was asked for, and its answer (nothing, at the end of the source). *)
Inductive served (chunk : nat -> N) : reader -> list (N * list N) -> reader -> Prop :=
| served_nil r : served chunk r [] r
| served_cons r asked o r1 l r2 : rd_read chunk r asked = (o, r1) -> served chunk r1 l r2 ->
    served chunk r ((asked, match o with Some bytes => bytes | None => [] end) :: l) r2.
Definition in_full (x : N * list N) : Prop := fst x <= len (snd x).
Definition cut_short (x : N * list N) : Prop := len (snd x) < fst x.
Definition answers (h : list (N * list N)) : list N := concat (map snd h).

(** ** The fields of the buffer that parsing does not change. *)
Definition same_source (b b' : ibuf) : Prop := ib_fin b' = ib_fin b /\ ib_size b' = ib_size b.
Lemma frame_source b b' : same_frame b b' -> same_source b b'.
Proof. unfold same_frame, same_source. tauto. Qed.
Lemma source_refl b : same_source b b.
Proof. split; reflexivity. Qed.
Lemma source_trans a b d : same_source a b -> same_source b d -> same_source a d.
Proof. intros (H1 & H2) (H3 & H4). split; congruence. Qed.
Section Source.
  Variable c : lexcfg.
  Lemma symbol_source fuel p ot p' : get_next_symbol fuel c p = Ret (ot, p') -> same_source (lp_in p) (lp_in p').
  Proof.
    unfold get_next_symbol. intros H. apply bind_ret_inv in H as (((o, l), b) & Sc & H). injection H as <- <-. apply frame_source. exact (scan_frame _ _ _ _ _ _ _ Sc).
  Qed.
  Lemma loop_source : forall fuel sfuel p oa p', parse_loop fuel sfuel c p = Ret (oa, p') -> same_source (lp_in p) (lp_in p').
  Proof.
    induction fuel as [|fuel IH]; intros sfuel p oa p' H; [discriminate H|]. cbn [parse_loop] in H.
    apply bind_ret_inv in H as ((ot, p1) & G & H). apply symbol_source in G. destruct ot as [tok|]; [|injection H as <- <-; exact G].
    apply bind_ret_inv in H as (ty & _ & H). apply bind_ret_inv in H as (found & _ & H). apply (source_trans _ _ _ G).
    destruct (ty =? TokenEnd); [injection H as <- <-; apply source_refl|].
    match type of H with (if ?q then _ else _) = _ => destruct q end; [injection H as <- <-; split; reflexivity|].
    destruct found; [injection H as <- <-; split; reflexivity|]. apply IH in H. exact H.
  Qed.
  Lemma first_source fuel sfuel p tok oa p' : parse_first fuel sfuel c p tok = Ret (oa, p') -> same_source (lp_in p) (lp_in p').
  Proof.
    unfold parse_first. intros H. apply bind_ret_inv in H as (ty & _ & H). destruct (ty =? TokenEnd); [injection H as <- <-; apply source_refl|].
    apply loop_source in H. exact H.
  Qed.
  Lemma parse_source fuel sfuel p oa p' : parse fuel sfuel c p = Ret (oa, p') -> same_source (lp_in p) (lp_in p').
  Proof.
    unfold parse. intros H. destruct (ob_pos (lp_out p) =? 0); [|exact (loop_source _ _ _ _ _ H)]. cbv zeta in H.
    match type of H with (if ?q then _ else _) = _ => destruct q end; [exact (first_source _ _ _ _ _ _ H)|].
    apply bind_ret_inv in H as ((ot, p1) & G & H). apply symbol_source in G. apply (source_trans _ _ _ G).
    destruct ot as [tok|]; [|injection H as <- <-; apply source_refl].
    match type of H with (if ?q then _ else _) = _ => destruct q end; [exact (first_source _ _ _ _ _ _ H)|].
    apply bind_ret_inv in H as (ty & _ & H). destruct (ty =? TokenNewlineTimestamp); [injection H as <- <-; split; reflexivity|exact (first_source _ _ _ _ _ _ H)].
  Qed.
  Lemma meta_source fuel sfuel p oa p' : parse_and_generate_metadata fuel sfuel c p = Ret (oa, p') -> same_source (lp_in p) (lp_in p').
  Proof.
    unfold parse_and_generate_metadata. intros H. apply bind_ret_inv in H as ((oa', q) & Pa & H). apply parse_source in Pa. apply (source_trans _ _ _ Pa).
    destruct oa' as [a|]; [|injection H as <- <-; apply source_refl]. apply bind_ret_inv in H as (q' & Mt & H). injection H as <- <-.
    destruct (meta_out _ _ Mt) as (_ & _ & M & _). rewrite M. apply source_refl.
  Qed.

  (** While the source may go on, no call finishes. *)
  Hypothesis Hids : forall q, nonend (Some (d_ids (c_dfa c) q)).
  Definition goes (p : lparser) : Prop := ib_fin (lp_in p) = false -> opened p.
  Lemma meta_goes fuel sfuel p oa p' : goes p -> parse_and_generate_metadata fuel sfuel c p = Ret (oa, p') ->
    goes p' /\ (oa = Some ActCompressAndFinish -> ib_fin (lp_in p') = true).
  Proof.
    intros G H. pose proof (meta_source _ _ _ _ _ H) as (F & _). destruct (ib_fin (lp_in p)) eqn:E; [split; [intros Q; congruence|auto]|].
    specialize (G E). unfold parse_and_generate_metadata in H. apply bind_ret_inv in H as ((oa', q) & Pa & H).
    destruct (parse_open c Hids _ _ _ _ _ G Pa) as (Na & O). destruct oa' as [a|].
    - apply bind_ret_inv in H as (q' & Mt & H). injection H as <- <-. split; [|intros Q; congruence]. intros _.
      destruct (meta_out _ _ Mt) as (_ & M2 & M3 & M4 & M5). unfold opened in *. rewrite M2, M3, M4, M5. exact O.
    - injection H as <- <-. split; [intros _; exact O|discriminate].
  Qed.
  Lemma grow_goes p : goes p -> goes (lp_grow p).
  Proof.
    unfold goes, lp_grow, increase_buffer_capacity. intros G. destruct (_ <? _); cbn; intros E; destruct (G E) as ((O1 & O2) & O3 & O4); (split; [split; assumption|]).
    - split; [|exact O4]. unfold noend in *.
      destruct (capacity_flips (lp_in p)); match goal with |- context [if ?q then _ else _] => destruct q end; cbn; exact O3.
    - split; [exact O3|exact O4].
  Qed.
  Lemma grow_source p : ib_fin (lp_in (lp_grow p)) = ib_fin (lp_in p) /\ ib_size (lp_in (lp_grow p)) = ib_size (lp_in p) * 2.
  Proof. unfold lp_grow, increase_buffer_capacity. destruct (_ <? _); split; reflexivity. Qed.
End Source.

(** ** The answers up to now, the buffer being at the end of its input before ([f0]) and after ([f1]). *)
Record history (f0 : bool) (h : list (N * list N)) (f1 : bool) : Prop := {
  hi_end : f0 = true -> h = [] /\ f1 = true;
  hi_full : f0 = false -> f1 = false -> Forall in_full h;
  hi_short : f0 = false -> f1 = true -> exists pre x, h = pre ++ [x] /\ Forall in_full pre /\ cut_short x }.
Lemma history_nil f : history f [] f.
Proof. constructor; [intros ->; auto|intros _ _; constructor|intros; congruence]. Qed.
Lemma history_app f0 h1 f1 h2 f2 : history f0 h1 f1 -> history f1 h2 f2 -> history f0 (h1 ++ h2) f2.
Proof.
  intros [A1 A2 A3] [B1 B2 B3]. constructor.
  - intros E. destruct (A1 E) as (-> & E1). destruct (B1 E1) as (-> & E2). auto.
  - intros E0 E2. destruct f1; [destruct (B1 eq_refl); congruence|]. apply Forall_app. auto.
  - intros E0 E2. destruct f1.
    + destruct (B1 eq_refl) as (-> & _). rewrite app_nil_r. auto.
    + destruct (B3 eq_refl E2) as (pre & x & -> & P1 & P2). exists (h1 ++ pre), x. rewrite app_assoc. split; [reflexivity|]. split; [apply Forall_app; auto|exact P2].
Qed.
Lemma served_app chunk r h r1 h2 r2 : served chunk r h r1 -> served chunk r1 h2 r2 -> served chunk r (h ++ h2) r2.
Proof. induction 1; intros; [assumption|]. cbn. econstructor; eauto. Qed.
Lemma answers_app h1 h2 : answers (h1 ++ h2) = answers h1 ++ answers h2.
Proof. unfold answers. rewrite map_app. apply concat_app. Qed.
Lemma served_rest chunk r h r' : served chunk r h r' -> rd_rest r = answers h ++ rd_rest r' /\ rd_calls r' = (rd_calls r + length h)%nat.
Proof.
  induction 1 as [r|r asked o r1 l r2 E S (IH1 & IH2)]; [split; [reflexivity|cbn; lia]|].
  unfold rd_read in E. destruct (rd_rest r) as [|x xs] eqn:Er.
  - injection E as <- <-. cbn in *. split; [exact IH1|]. rewrite IH2. lia.
  - rewrite <- Er in E. injection E as <- <-. cbn [rd_rest rd_calls] in *. unfold answers in *. cbn [map concat snd]. rewrite <- app_assoc, <- IH1, firstn_skipn.
    split; [auto|]. rewrite IH2. cbn. lia.
Qed.

(** ** One read. *)
Definition filler (chunk : nat -> N) (n : N) : Prop := forall k, n <= chunk k.
Lemma half_pos s : 2 <= s -> 1 <= s / 2.
Proof. intros H. apply N.div_le_lower_bound; lia. Qed.
Lemma read_history chunk b r b' r' : 2 <= ib_size b -> read_if_safe chunk b r = (b', r') ->
  exists h, served chunk r h r' /\ history (ib_fin b) h (ib_fin b') /\ ib_size b' = ib_size b /\ Forall (fun x => fst x = ib_size b / 2) h /\
    (ib_full b' = ib_full b) /\
    forall E chunk' n, (ib_fin b' = true -> E = []) -> filler chunk' (len (answers h ++ E)) ->
      exists n', read_if_safe chunk' b (mkReader (answers h ++ E) n) = (b', mkReader E n').
Proof.
  intros Hs. pose proof (half_pos _ Hs) as Hh. unfold read_if_safe. destruct (read_is_safe b) eqn:Sf.
  2: { intros [= <- <-]. exists []. split; [constructor|]. split; [apply history_nil|]. split; [reflexivity|]. split; [constructor|]. split; [reflexivity|]. intros E chunk' n _ _. exists n. reflexivity. }
  assert (Hf : ib_fin b = false) by (unfold read_is_safe in Sf; destruct (ib_fin b); [discriminate Sf|reflexivity]).
  unfold ib_read. destruct (rd_read chunk r (ib_size b / 2)) as [o r1] eqn:Er. intros [= <- <-].
  exists [(ib_size b / 2, match o with Some bytes => bytes | None => [] end)]. split; [econstructor; [exact Er|constructor]|].
  unfold rd_read in Er. destruct (rd_rest r) as [|x xs] eqn:E0.
  - injection Er as <- <-. cbn [ib_fill]. cbn [ib_fin ib_set_fin ib_size ib_full]. rewrite Hf.
    split. { constructor; try discriminate. intros _ _. exists [], (ib_size b / 2, []). split; [reflexivity|]. split; [constructor|]. unfold cut_short, len. cbn [fst snd length]. lia. }
    split; [reflexivity|]. split; [constructor; [reflexivity|constructor]|]. split; [reflexivity|].
    intros E chunk' n HE _. rewrite (HE eq_refl). eexists. reflexivity.
  - rewrite <- E0 in Er. injection Er as <- <-. set (g := rd_amount chunk r (ib_size b / 2)) in *. cbn [ib_fill]. cbn [ib_fin ib_size ib_full]. rewrite Hf.
    assert (Hg : 1 <= g /\ g <= N.max 1 (ib_size b / 2) /\ g <= len (rd_rest r)).
    { assert (1 <= N.of_nat (length (rd_rest r))) by (rewrite E0; cbn [length]; lia). unfold g, rd_amount, len. lia. }
    assert (Hlen : N.of_nat (length (firstn (N.to_nat g) (rd_rest r))) = g) by (rewrite firstn_length; unfold len in Hg; lia).
    rewrite Hlen. split.
    { constructor; try discriminate.
      - intros _. destruct (N.ltb_spec g (ib_size b / 2)); [discriminate|]. intros _. constructor; [|constructor]. unfold in_full, len. cbn [fst snd]. rewrite Hlen. assumption.
      - intros _. destruct (N.ltb_spec g (ib_size b / 2)); [|discriminate]. intros _. exists [], (ib_size b / 2, firstn (N.to_nat g) (rd_rest r)).
        split; [reflexivity|]. split; [constructor|]. unfold cut_short, len. cbn [fst snd]. rewrite Hlen. assumption. }
    split; [reflexivity|]. split; [constructor; [reflexivity|constructor]|]. split; [reflexivity|].
    intros E chunk' n HE Hfill. unfold answers in *. cbn [map concat snd] in *. rewrite app_nil_r in *. set (bytes := firstn (N.to_nat g) (rd_rest r)) in *.
    assert (Hb : bytes <> []) by (intros Q; rewrite Q in Hlen; cbn in Hlen; lia).
    assert (Ha : rd_amount chunk' (mkReader (bytes ++ E) n) (ib_size b / 2) = g).
    { unfold rd_amount. cbn [rd_rest rd_calls]. specialize (Hfill n). unfold len in Hfill. rewrite app_length in *.
      destruct (N.ltb_spec g (ib_size b / 2)) as [L|L]; [rewrite (HE eq_refl) in *; cbn [length] in *|]; lia. }
    unfold rd_read. cbn [rd_rest]. destruct (bytes ++ E) as [|y ys] eqn:Eb; [destruct bytes; [contradiction|discriminate Eb]|]. rewrite <- Eb in *. rewrite Ha. clear Eb y ys.
    assert (F1 : firstn (N.to_nat g) (bytes ++ E) = bytes).
    { rewrite firstn_app. replace (N.to_nat g - length bytes)%nat with 0%nat by lia. cbn [firstn]. rewrite app_nil_r. apply firstn_all2. lia. }
    assert (F2 : skipn (N.to_nat g) (bytes ++ E) = E).
    { rewrite skipn_app. replace (N.to_nat g - length bytes)%nat with 0%nat by lia. rewrite skipn_all2 by lia. reflexivity. }
    cbn [rd_calls]. rewrite F1, F2. eexists. cbn [ib_fill]. rewrite Hlen, Hf. reflexivity.
Qed.

(** ** A call of parse_next_event. *)
(** [p0]: the state before, [p1] after. *)
Record call_ok (chunk : nat -> N) (p0 p1 : lparser) (r r1 : reader) (h : list (N * list N)) (again : (nat -> N) -> reader -> out rparser) (done : bool) : Prop := {
  co_served : served chunk r h r1;
  co_history : history (ib_fin (lp_in p0)) h (ib_fin (lp_in p1));
  co_size : ib_size (lp_in p0) <= ib_size (lp_in p1);
  co_asked : Forall (fun x => ib_size (lp_in p0) / 2 <= fst x) h;
  co_again : forall E chunk' n, (ib_fin (lp_in p1) = true -> E = []) -> filler chunk' (len (answers h ++ E)) ->
    exists n', again chunk' (mkReader (answers h ++ E) n) = Ret (mkRp p1 done (mkReader E n')) }.
Section Calls.
  Variables (chunk : nat -> N) (c : lexcfg).
  Hypothesis Hids : forall q, nonend (Some (d_ids (c_dfa c) q)).
  Lemma read_goes p r p' r' : lp_read chunk p r = (p', r') -> goes p -> 2 <= ib_size (lp_in p) -> goes p'.
  Proof.
    unfold lp_read. destruct (read_if_safe chunk (lp_in p) r) as [b r1] eqn:E. intros [= <- <-] G Hs. intros F. cbn in F.
    destruct (read_history _ _ _ _ _ Hs E) as (h & _ & [H1 _ _] & _ & _ & Hfull & _).
    assert (F0 : ib_fin (lp_in p) = false) by (destruct (ib_fin (lp_in p)); [destruct (H1 eq_refl); congruence|reflexivity]).
    destruct (G F0) as ((O1 & O2) & O3). split; [split; [exact F|cbn; congruence]|exact O3].
  Qed.
  Lemma read_call p r p' r' : lp_read chunk p r = (p', r') -> 2 <= ib_size (lp_in p) ->
    exists h, served chunk r h r' /\ history (ib_fin (lp_in p)) h (ib_fin (lp_in p')) /\ ib_size (lp_in p') = ib_size (lp_in p) /\
      Forall (fun x => fst x = ib_size (lp_in p) / 2) h /\
      forall E chunk' n, (ib_fin (lp_in p') = true -> E = []) -> filler chunk' (len (answers h ++ E)) ->
        exists n', lp_read chunk' p (mkReader (answers h ++ E) n) = (p', mkReader E n').
  Proof.
    unfold lp_read. destruct (read_if_safe chunk (lp_in p) r) as [b r1] eqn:E. intros [= <- <-] Hs.
    destruct (read_history _ _ _ _ _ Hs E) as (h & H1 & H2 & H3 & H4 & _ & H5). exists h. cbn [lp_in lp_set_lexin]. split; [exact H1|]. split; [exact H2|].
    split; [exact H3|]. split; [exact H4|]. intros E' chunk' n HE HF. destruct (H5 E' chunk' n HE HF) as (n' & ->). exists n'. reflexivity.
  Qed.
  Lemma filler_app chunk' (a b e : list N) : filler chunk' (len ((a ++ b) ++ e)) -> filler chunk' (len (a ++ (b ++ e))) /\ filler chunk' (len (b ++ e)).
  Proof. unfold filler, len. intros H. split; intros k; specialize (H k); rewrite !app_length in *; lia. Qed.
  Lemma half_mono a b : a <= b -> a / 2 <= b / 2.
  Proof. intros H. apply N.div_le_mono; lia. Qed.
  Lemma loop_answers fuel sfuel : forall grow p done r rp1, goes p -> 2 <= ib_size (lp_in p) -> rp_loop chunk grow fuel sfuel c p done r = Ret rp1 ->
    goes (rp_lp rp1) /\ (rp_done rp1 = true -> done = true \/ ib_fin (lp_in (rp_lp rp1)) = true) /\
    exists h, call_ok chunk p (rp_lp rp1) r (rp_rd rp1) h (fun chunk' r' => rp_loop chunk' grow fuel sfuel c p done r') (rp_done rp1).
  Proof.
    induction grow as [|grow IH]; intros p done r rp1 G Hs H; cbn [rp_loop] in H;
      (destruct (parse_and_generate_metadata fuel sfuel c p) as [(oa, p1)| | |] eqn:Pm; cbn [bind] in H; try discriminate H);
      destruct (meta_goes c Hids _ _ _ _ _ G Pm) as (G1 & Fin); pose proof (meta_source c _ _ _ _ _ Pm) as (F1 & S1);
      (destruct oa as [a|];
        [injection H as <-; cbn [rp_lp rp_done rp_rd]; split; [exact G1|]; split; [destruct a; auto|]; exists []; constructor;
         [constructor|rewrite F1; apply history_nil|rewrite S1; reflexivity|constructor|intros E chunk' n _ _; exists n; cbn [rp_loop]; rewrite Pm; reflexivity]|]).
    - discriminate H.
    - destruct (lp_read chunk (lp_grow p1) r) as [p2 r'] eqn:Rd. destruct (grow_source p1) as (F2 & S2).
      pose proof (grow_goes _ G1) as G2. assert (Hs2 : 2 <= ib_size (lp_in (lp_grow p1))) by (rewrite S2, S1; lia).
      pose proof (read_goes _ _ _ _ Rd G2 Hs2) as G3. destruct (read_call _ _ _ _ Rd Hs2) as (h1 & R1 & R2 & R3 & R4 & R5).
      destruct (IH p2 done r' rp1 G3 ltac:(rewrite R3; exact Hs2) H) as (G4 & Dn & h2 & [C1 C2 C3 C4 C5]).
      split; [exact G4|]. split; [exact Dn|]. exists (h1 ++ h2). constructor.
      + exact (served_app _ _ _ _ _ _ R1 C1).
      + eapply history_app; [|exact C2]. rewrite <- F1, <- F2. exact R2.
      + etransitivity; [|exact C3]. rewrite R3, S2, S1. lia.
      + apply Forall_app. split.
        * eapply Forall_impl; [|exact R4]. cbn. intros x ->. rewrite S2, S1. apply half_mono. lia.
        * eapply Forall_impl; [|exact C4]. cbn. intros x Hx. etransitivity; [|exact Hx]. rewrite R3, S2, S1. apply half_mono. lia.
      + intros E chunk' n HE HF. rewrite answers_app in *. destruct (filler_app _ _ _ _ HF) as (HF1 & HF2).
        assert (HE1 : ib_fin (lp_in p2) = true -> answers h2 ++ E = []).
        { intros Q. destruct (hi_end _ _ _ C2 Q) as (-> & Q2). rewrite (HE Q2). reflexivity. }
        destruct (R5 (answers h2 ++ E) chunk' n HE1 HF1) as (n1 & Q1). destruct (C5 E chunk' n1 HE HF2) as (n2 & Q2).
        exists n2. cbn [rp_loop]. rewrite Pm. cbn [bind]. rewrite <- app_assoc, Q1. exact Q2.
  Qed.
  Lemma call_answers grow fuel sfuel rp rp1 : goes (rp_lp rp) -> 2 <= ib_size (lp_in (rp_lp rp)) -> rp_parse_next_event chunk grow fuel sfuel c rp = Ret rp1 ->
    goes (rp_lp rp1) /\ (rp_done rp1 = true -> rp_done rp = true \/ ib_fin (lp_in (rp_lp rp1)) = true) /\
    exists h, call_ok chunk (rp_lp rp) (rp_lp rp1) (rp_rd rp) (rp_rd rp1) h
                (fun chunk' r' => rp_parse_next_event chunk' grow fuel sfuel c (mkRp (rp_lp rp) (rp_done rp) r')) (rp_done rp1).
  Proof.
    intros G Hs H. unfold rp_parse_next_event in H. set (p0 := reset_log_event_view (rp_lp rp)) in *.
    destruct (lp_read chunk p0 (rp_rd rp)) as [p1 r1] eqn:Rd.
    assert (G0 : goes p0) by exact G. assert (Hs0 : 2 <= ib_size (lp_in p0)) by exact Hs.
    pose proof (read_goes _ _ _ _ Rd G0 Hs0) as G1. destruct (read_call _ _ _ _ Rd Hs0) as (h1 & R1 & R2 & R3 & R4 & R5).
    destruct (loop_answers fuel sfuel grow p1 (rp_done rp) r1 rp1 G1 ltac:(rewrite R3; exact Hs0) H) as (G4 & Dn & h2 & [C1 C2 C3 C4 C5]).
    split; [exact G4|]. split; [exact Dn|]. exists (h1 ++ h2). change (lp_in p0) with (lp_in (rp_lp rp)) in *. constructor.
    - exact (served_app _ _ _ _ _ _ R1 C1).
    - exact (history_app _ _ _ _ _ R2 C2).
    - rewrite <- R3. exact C3.
    - apply Forall_app. split.
      + eapply Forall_impl; [|exact R4]. cbn. intros x ->. reflexivity.
      + rewrite <- R3. exact C4.
    - intros E chunk' n HE HF. rewrite answers_app in *. destruct (filler_app _ _ _ _ HF) as (HF1 & HF2).
      assert (HE1 : ib_fin (lp_in p1) = true -> answers h2 ++ E = []).
      { intros Q. destruct (hi_end _ _ _ C2 Q) as (-> & Q2). rewrite (HE Q2). reflexivity. }
      destruct (R5 (answers h2 ++ E) chunk' n HE1 HF1) as (n1 & Q1). destruct (C5 E chunk' n1 HE HF2) as (n2 & Q2).
      exists n2. unfold rp_parse_next_event. cbn [rp_lp rp_rd rp_done]. fold p0. rewrite <- app_assoc, Q1. exact Q2.
  Qed.
  Lemma drive_answers {A} (obs : lparser -> A) grow fuel sfuel : forall calls rp l rp', goes (rp_lp rp) -> 2 <= ib_size (lp_in (rp_lp rp)) -> rp_done rp = false ->
    rp_drive chunk obs calls grow fuel sfuel c rp = Ret (l, rp') ->
    ib_fin (lp_in (rp_lp rp')) = true /\
    exists h, served chunk (rp_rd rp) h (rp_rd rp') /\ history (ib_fin (lp_in (rp_lp rp))) h true /\ Forall (fun x => ib_size (lp_in (rp_lp rp)) / 2 <= fst x) h /\
      forall chunk' n, filler chunk' (len (answers h)) ->
        exists n', rp_drive chunk' obs calls grow fuel sfuel c (mkRp (rp_lp rp) (rp_done rp) (mkReader (answers h) n)) = Ret (l, mkRp (rp_lp rp') (rp_done rp') (mkReader [] n')).
  Proof.
    induction calls as [|calls IH]; intros rp l rp' G Hs Hd H; [discriminate H|]. cbn [rp_drive] in H.
    destruct (rp_parse_next_event chunk grow fuel sfuel c rp) as [rp1| | |] eqn:E1; cbn [bind] in H; try discriminate H.
    destruct (call_answers grow fuel sfuel rp rp1 G Hs E1) as (G1 & Dn & h1 & [C1 C2 C3 C4 C5]).
    destruct (rp_done rp1) eqn:Ed.
    - injection H as <- <-. destruct (Dn eq_refl) as [Q|Q]; [congruence|]. split; [exact Q|]. rewrite Q in *. exists h1. split; [exact C1|]. split; [exact C2|]. split; [exact C4|].
      intros chunk' n HF. rewrite <- (app_nil_r (answers h1)) in HF. destruct (C5 [] chunk' n ltac:(reflexivity) HF) as (n' & Q1).
      exists n'. cbn [rp_drive]. rewrite app_nil_r in Q1. rewrite Q1. cbn [bind rp_done rp_lp]. rewrite Ed. reflexivity.
    - destruct (rp_drive chunk obs calls grow fuel sfuel c rp1) as [(l1, rp2)| | |] eqn:E2; cbn [bind] in H; try discriminate H. injection H as <- <-.
      destruct (IH rp1 l1 rp2 G1 ltac:(lia) Ed E2) as (F & h2 & D1 & D2 & D3 & D4). split; [exact F|]. exists (h1 ++ h2).
      split; [exact (served_app _ _ _ _ _ _ C1 D1)|]. split; [exact (history_app _ _ _ _ _ C2 D2)|]. split.
      { apply Forall_app. split; [exact C4|]. eapply Forall_impl; [|exact D3]. cbn. intros x Hx. etransitivity; [|exact Hx]. apply half_mono. exact C3. }
      intros chunk' n HF. rewrite answers_app in *. rewrite <- (app_nil_r (answers h1 ++ answers h2)) in HF. destruct (filler_app _ _ _ _ HF) as (HF1 & HF2).
      rewrite app_nil_r in HF1, HF2.
      assert (HE1 : ib_fin (lp_in (rp_lp rp1)) = true -> answers h2 = []).
      { intros Q. destruct (hi_end _ _ _ D2 Q) as (-> & _). reflexivity. }
      destruct (C5 (answers h2) chunk' n HE1 HF1) as (n1 & Q1). destruct (D4 chunk' n1 HF2) as (n2 & Q2).
      exists n2. cbn [rp_drive]. rewrite Q1. cbn [bind rp_lp rp_done]. rewrite Ed in *. rewrite Q2. reflexivity.
  Qed.
End Calls.
