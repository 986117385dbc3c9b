(** FileMultiple.v -- a schema file whose length is a positive multiple of the buffer's size: its end is never noticed. *)
From Verif Require Import Base LexerModel LexerSpec LogParserModel LexerProofs RingModel GrammarSpec LrModel ParseSpec LrDriver LrSound SchemaModel
  SchemaTable FileModel.

Section Endless.
  Variable c : lexcfg.
  Hypothesis Hd : c_has_delims c = false.
  Hypothesis Hrep : forall w, ~ In TokenEnd (reported (c_dfa c) d_root w).
  Definition tidy (o : option (list N)) : Prop := match o with Some ids => ~ In TokenEnd ids | None => True end.
  Definition reached (q : nat) : Prop := exists w, run (c_dfa c) d_root w = Some q.
  Lemma reached_ids q : reached q -> ~ In TokenEnd (d_ids (c_dfa c) q).
  Proof. intros (w & Hw). specialize (Hrep w). unfold reported in Hrep. rewrite Hw in Hrep. exact Hrep. Qed.
  Lemma reached_root : reached d_root.
  Proof. exists []. reflexivity. Qed.
  Lemma reached_next q x q' : reached q -> LexerModel.d_next (c_dfa c) q x = Some q' -> reached q'.
  Proof. intros (w & Hw) Hn. exists (w ++ [x]). rewrite run_app, Hw. cbn. now rewrite Hn. Qed.

  (** The end of the input is at a position where the cursor never is. *)
  Definition open_end (b : ibuf) : Prop := ib_fin b = true -> ib_last b = ib_size b.
  Record running (b : ibuf) : Prop := { rn_open : open_end b; rn_pos : ib_pos b <> ib_size b; rn_full : ib_full b = false }.
  Record calm (l : lex) (b : ibuf) : Prop := { ca_pos : l_match l = true -> l_match_pos l <> ib_size b; ca_ids : tidy (l_ids l) }.
  Lemma open_frame b b' : same_frame b b' -> open_end b -> open_end b'.
  Proof. intros (F1 & F2 & F3 & F4 & F5 & F6 & F7 & F8) H Q. rewrite F4, F5. apply H. congruence. Qed.
  Lemma next_running b ch b' : running b -> get_next_character b = Ret (Some (ch, b')) -> running b'.
  Proof.
    intros [R1 R2 R3] H. pose proof (open_frame _ _ (gnc_frame _ _ _ H) R1) as O. unfold get_next_character in H.
    destruct (ib_fin b) eqn:Ef; cbn [andb] in H.
    - destruct (N.eqb_spec (ib_pos b) (ib_last b)) as [E|E]; [exfalso; apply R2; rewrite E; exact (R1 Ef)|].
      destruct (_ || _); [discriminate|]. destruct (ib_heap b _ _); [|discriminate]. injection H as _ <-. constructor; [exact O| |exact R3].
      cbn. destruct (N.eqb_spec (ib_pos b + 1) (ib_size b)); [lia|assumption].
    - destruct (_ || _); [discriminate|]. destruct (ib_heap b _ _); [|discriminate]. injection H as _ <-. constructor; [exact O| |exact R3].
      cbn. destruct (N.eqb_spec (ib_pos b + 1) (ib_size b)); [lia|assumption].
  Qed.
  Lemma skip_running : forall fuel ch prev b p b', running b -> prev <> ib_size b -> skip_loop fuel c ch prev b = Ret (Some p, b') ->
    running b' /\ p <> ib_size b'.
  Proof.
    induction fuel as [|fuel IH]; intros ch prev b p b' R Hp; cbn [skip_loop]; [discriminate|]. destruct (_ && _).
    - destruct (get_next_character b) as [[(ch' & b1)|]| | |] eqn:E; try discriminate.
      intros H. pose proof (gnc_frame _ _ _ E) as (_ & _ & _ & F & _). apply (IH ch' (ib_pos b) b1 p b'); [exact (next_running _ _ _ R E)| |exact H].
      rewrite F. apply R.
    - intros [= <- <-]. split; assumption.
  Qed.
  Lemma loop_running : forall fuel q l b tk l' b', reached q -> running b -> calm l b -> scan_loop fuel c q l b = Ret (Some tk, l', b') ->
    l_asked l = false -> running b' /\ calm l' b' /\ tidy (t_ids tk) /\ l_asked l' = false.
  Proof.
    induction fuel as [|fuel IH]; intros q l b tk l' b' Hq R L; cbn [scan_loop]; [discriminate|].
    destruct (get_next_character b) as [[(ch & b1)|]| | |] eqn:E; try discriminate.
    pose proof (gnc_frame _ _ _ E) as (_ & _ & _ & Fsz & _).
    assert (R1 : running b1) by exact (next_running _ _ _ R E). clear E.
    set (l1 := if (c_delim c ch || ib_full b1 || negb (c_has_delims c)) && is_accepting (c_dfa c) q
               then lex_set_match l (d_ids (c_dfa c) q) (ib_pos b) (l_line l) else l).
    assert (L1 : calm l1 b1 /\ l_asked l1 = l_asked l).
    { destruct L as [C1 C2]. unfold l1. destruct (_ && _); (split; [|reflexivity]); constructor; cbn.
      - intros _. rewrite Fsz. apply R.
      - exact (reached_ids q Hq).
      - rewrite Fsz. exact C1.
      - exact C2. }
    clearbody l1. rewrite Hd. cbn [negb andb].
    set (l3 := if ch =? cNewline then lex_inc_line l1 else l1).
    assert (L3 : calm l3 b1 /\ l_asked l3 = l_asked l).
    { destruct L1 as [[C1 C2] C3]. unfold l3. destruct (_ =? _); (split; [|exact C3]); constructor; cbn; assumption. }
    replace (if ch =? cNewline then Ret (LexerModel.d_next (c_dfa c) q ch, lex_inc_line l1) else Ret (LexerModel.d_next (c_dfa c) q ch, l1))
      with (Ret (LexerModel.d_next (c_dfa c) q ch, l3)) by (unfold l3; destruct (_ =? _); reflexivity).
    clearbody l3. cbn [bind]. rewrite (rn_full _ R1). destruct L3 as [L3 A3]. intros H Has.
    destruct (LexerModel.d_next (c_dfa c) q ch) as [q'|] eqn:En.
    - apply (IH q' l3 b1); [exact (reached_next _ _ _ Hq En)|exact R1|exact L3|exact H|congruence].
    - destruct (l_match l3) eqn:Em.
      + assert (R2 : running (ib_set_pos (ib_set_full b1 false) (l_match_pos l3))).
        { destruct R1 as [O P F]. constructor; [exact O|exact (ca_pos _ _ L3 Em)|reflexivity]. }
        destruct L3 as [C1 C2]. cbn zeta in H. destruct (negb _); injection H as <- <- <-.
        * split; [exact R2|]. split; [constructor; [intros _; exact (C1 Em)|exact C2]|]. split; [|cbn; congruence].
          cbn. intros [G|G]; [discriminate G|exact G].
        * split; [exact R2|]. split; [constructor; [discriminate|exact C2]|]. split; [exact C2|cbn; congruence].
      + cbn [andb] in H. destruct (skip_loop fuel c ch (ib_pos b) b1) as [([p|] & b2)| | |] eqn:Es; try discriminate.
        pose proof (skip_frame _ _ _ _ _ _ _ Es) as (_ & _ & _ & Fs2 & _).
        destruct (skip_running _ _ _ _ _ _ R1 ltac:(rewrite Fsz; apply R) Es) as [R2 Hp].
        apply (IH d_root (lex_set_start l3 p) (ib_set_pos b2 p)); [exact reached_root| | |exact H|cbn; congruence].
        * destruct R2 as [O P F]. constructor; [exact O|exact Hp|exact F].
        * destruct L3 as [C1 C2]. constructor; cbn; [rewrite Em; discriminate|exact C2].
  Qed.
  Lemma scan_running fuel l b tk l' b' : running b -> calm l b -> l_asked l = false -> scan fuel c l b = Ret (Some tk, l', b') ->
    running b' /\ calm l' b' /\ tidy (t_ids tk) /\ l_asked l' = false.
  Proof.
    intros R L Has. unfold scan. rewrite Has. destruct (l_match l) eqn:Em.
    - intros [= <- <- <-]. destruct L as [C1 C2]. split; [exact R|]. split; [constructor; [discriminate|exact C2]|]. split; [exact C2|exact Has].
    - intros H. apply (loop_running fuel d_root (lex_begin l (ib_pos b)) b); [exact reached_root|exact R| |exact H|exact Has].
      constructor; cbn; [intros _; apply R|exact Logic.I].
  Qed.

  (** What has been read of the file and what is still to come. *)
  Inductive even (b : ibuf) (f : file) : Prop :=
  | even_fin : ib_fin b = true -> ib_last b = 48000 -> even b f
  | even_low : ib_fin b = false -> ib_lrfh b = true -> ib_last b = 24000 -> (exists k, len (fl_rest f) = 48000 * k + 24000) -> even b f
  | even_high : ib_fin b = false -> ib_lrfh b = false -> (ib_last b = 48000 \/ (ib_last b = 0 /\ fl_rest f <> [])) ->
      (exists k, len (fl_rest f) = 48000 * k) -> even b f.
  Lemma fill_even b f : ib_size b = 48000 -> running b -> even b f ->
    let (b1, f1) := file_fill b f in ib_size b1 = 48000 /\ running b1 /\ even b1 f1.
  Proof.
    intros Sz R Ev. unfold file_fill. destruct (read_is_safe b) eqn:Es; [|auto]. rewrite Sz. change (48000 / 2) with 24000.
    assert (Nf : ib_fin b = false) by (unfold read_is_safe in Es; destruct (ib_fin b); [discriminate|reflexivity]).
    assert (Full : 24000 <= len (fl_rest f) -> file_answer f 24000 = (Some (firstn (N.to_nat 24000) (fl_rest f)), mkFile (skipn (N.to_nat 24000) (fl_rest f)) (fl_broken f)) /\
              N.of_nat (length (firstn (N.to_nat 24000) (fl_rest f))) = 24000 /\ len (skipn (N.to_nat 24000) (fl_rest f)) = len (fl_rest f) - 24000).
    { intros Hl. unfold len in *. assert (Hk : N.of_nat (length (firstn (N.to_nat 24000) (fl_rest f))) = 24000) by (rewrite firstn_length; lia).
      split; [|split; [exact Hk|rewrite skipn_length; lia]]. unfold file_answer, file_read. rewrite Hk. reflexivity. }
    assert (Go : forall l', 24000 <= len (fl_rest f) -> (if 48000 <? ib_last b + 24000 then ib_last b + 24000 - 48000 else ib_last b + 24000) = l' ->
              let (b1, f1) := (let (res, f') := file_answer f 24000 in (ib_fill b res, f')) in
              ib_size b1 = 48000 /\ running b1 /\ ib_fin b1 = false /\ ib_last b1 = l' /\ ib_lrfh b1 = negb (ib_lrfh b) /\ len (fl_rest f1) = len (fl_rest f) - 24000).
    { intros l' Hl El. destruct (Full Hl) as (-> & Hk & Hs). unfold ib_fill. rewrite Hk, Sz. change (48000 / 2) with 24000. change (24000 <? 24000) with false.
      cbn [ib_size ib_fin ib_last ib_lrfh fl_rest]. rewrite Nf. repeat (split; [first [reflexivity|exact Hs|exact El|idtac]|]).
      - destruct R as [O P F]. constructor; [intros Q; cbn in Q; congruence|cbn; rewrite <- Sz; exact P|exact F].
      - exact Hs. }
    destruct Ev as [E1 E2 | E1 E2 E3 (k & E4) | E1 E2 E3 (k & E4)]; [congruence| |].
    - specialize (Go 48000 ltac:(lia) ltac:(rewrite E3; reflexivity)). destruct (file_answer f 24000) as (res & f').
      destruct Go as (G1 & G2 & G3 & G4 & G5 & G6). split; [exact G1|]. split; [exact G2|]. apply even_high; [exact G3|rewrite G5, E2; reflexivity|left; exact G4|].
      exists k. lia.
    - destruct (fl_rest f) as [|x r] eqn:Ef.
      + destruct E3 as [E3 | [_ E3]]; [|congruence]. unfold file_answer, file_read. rewrite Ef. rewrite firstn_nil, skipn_nil. cbn [length N.of_nat N.eqb].
        cbn [ib_fill]. split; [exact Sz|]. split; [|apply even_fin; [reflexivity|exact E3]].
        destruct R as [O P F]. constructor; [intros _; change (ib_last b = ib_size b); congruence|exact P|exact F].
      + assert (Hk : 0 < k) by (unfold len in E4; cbn [length] in E4; lia).
        specialize (Go 24000 ltac:(lia) ltac:(destruct E3 as [-> | [-> _]]; reflexivity)). destruct (file_answer f 24000) as (res & f').
        destruct Go as (G1 & G2 & G3 & G4 & G5 & G6). split; [exact G1|]. split; [exact G2|]. apply even_low; [exact G3|rewrite G5, E2; reflexivity|exact G4|].
        exists (k - 1). lia.
  Qed.
  Lemma even_frame b b' f : same_frame b b' -> even b f -> even b' f.
  Proof.
    intros (F1 & F2 & F3 & F4 & F5 & F6 & F7 & F8) [E1 E2 | E1 E2 E3 E4 | E1 E2 E3 E4]; [apply even_fin|apply even_low|apply even_high]; try congruence; auto; rewrite F5; exact E3.
  Qed.

  Section Parser.
    Context {A : Type}.
    Variable rule : N -> option (list (value stok A) -> out A).
    Variables (resets : N -> bool) (limit : N) (g : grammar) (t : table).
    Hypothesis Hacc : forall s X, action_at g t s X = Ret (ABool true) -> X = TokenEnd.
    Notation dstate := (LrDriver.dstate (tok := token) (A := A)).
    Lemma reduce_next h p tk (st st' : dstate) : reduce (file_rule rule h) resets limit g t p tk st = Ret st' -> d_next st' = Some tk.
    Proof.
      unfold reduce. destruct (_ && _); [discriminate|]. destruct (Nat.ltb _ _); [discriminate|].
      match goal with |- bind ?x _ = _ -> _ => destruct x; cbn [bind]; try discriminate end.
      destruct (skipn _ _); [discriminate|]. match goal with |- bind ?x _ = _ -> _ => destruct x as [[?|?|?]| | |]; cbn [bind]; try discriminate end.
      intros [= <-]. reflexivity.
    Qed.
    Lemma advance_tidy tk b : forall Xs (st : dstate) x st' b', ~ In TokenEnd Xs -> d_next st = None ->
      file_advance rule resets limit g t Xs tk st b = Ret (Some (x, st', b')) ->
      x = false /\ (d_next st' = None \/ d_next st' = Some tk) /\ (b' = b \/ b' = consume tk b).
    Proof.
      induction Xs as [|X Xs IH]; intros st x st' b' Hx Hn; cbn [file_advance]; [discriminate|].
      destruct (file_symbol rule resets limit g t X tk st b) as [[[[x1 s1] b1]|]| | |] eqn:E; cbn [bind]; try discriminate.
      - intros [= <- <- <-]. unfold file_symbol in E. destruct (d_states st) as [|s ss]; [discriminate|].
        destruct (action_at g t s X) as [[[|]|j|p]| | |] eqn:Ea; cbn [bind] in E; try discriminate.
        + apply Hacc in Ea. exfalso. apply Hx. left. exact Ea.
        + injection E as <- <- <-. cbn [d_next]. auto.
        + unfold file_reduce in E. destruct (reduce _ _ _ _ _ _ _ _) as [s2| | |] eqn:Er; cbn [bind] in E; try discriminate. injection E as <- <- <-.
          apply reduce_next in Er. split; [reflexivity|]. split; [right; exact Er|]. destruct (rule p); auto.
      - apply IH; [|exact Hn]. intros G. apply Hx. now right.
    Qed.
    Theorem loop_never sf : forall fuel (st : dstate) l b f v, ib_size b = 48000 -> running b -> calm l b -> l_asked l = false -> even b f ->
      (forall tk, d_next st = Some tk -> tidy (t_ids tk)) -> file_loop rule resets limit g t c file_fill fuel sf st l b f <> Ret v.
    Proof.
      induction fuel as [|fuel IH]; intros st l b f v Sz R L Has Ev Hn; cbn [file_loop]; [discriminate|].
      pose proof (fill_even b f Sz R Ev) as Fe. pose proof (fill_size b f) as Fs. destruct (file_fill b f) as (b1 & f1). destruct Fe as (Sz1 & R1 & Ev1). cbn [fst] in Fs.
      assert (L1 : calm l b1) by (destruct L as [C1 C2]; constructor; [rewrite Fs; exact C1|exact C2]).
      destruct (file_next c sf st l b1) as [[[[tk s1] l1] b2]| | |] eqn:En; cbn [bind]; try discriminate.
      assert (K : ib_size b2 = 48000 /\ running b2 /\ calm l1 b2 /\ l_asked l1 = false /\ even b2 f1 /\ tidy (t_ids tk) /\ d_next s1 = None).
      { unfold file_next in En. destruct (d_next st) as [tk0|] eqn:Ed.
        - injection En as <- <- <- <-. split; [exact Sz1|]. split; [exact R1|]. split; [exact L1|]. split; [exact Has|]. split; [exact Ev1|].
          split; [exact (Hn tk0 eq_refl)|reflexivity].
        - destruct (scan sf c l b1) as [[[[tk1|] l2] b3]| | |] eqn:Es; cbn [bind] in En; try discriminate. injection En as <- <- <- <-.
          destruct (scan_running _ _ _ _ _ _ R1 L1 Has Es) as (S1 & S2 & S3 & S4). pose proof (scan_frame _ _ _ _ _ _ _ Es) as Fr.
          split; [destruct Fr as (_ & _ & _ & F & _); congruence|]. split; [exact S1|]. split; [exact S2|]. split; [exact S4|].
          split; [exact (even_frame _ _ _ Fr Ev1)|]. split; [exact S3|exact Ed]. }
      destruct K as (K1 & K2 & K3 & K4 & K5 & K6 & K7). destruct (t_ids tk) as [Xs|] eqn:Et; [|cbn [bind]; discriminate].
      destruct (file_advance rule resets limit g t Xs tk s1 b2) as [[[[x s2] b3]|]| | |] eqn:Ea; cbn [bind]; try discriminate.
      destruct (advance_tidy tk b2 Xs s1 x s2 b3 K6 K7 Ea) as (-> & Hn2 & Hb). apply IH.
      - destruct Hb as [-> | ->]; exact K1.
      - destruct K2 as [O P F]. destruct Hb as [-> | ->]; constructor; assumption.
      - destruct K3 as [C1 C2]. destruct Hb as [-> | ->]; constructor; assumption.
      - exact K4.
      - destruct Hb as [-> | ->]; [exact K5|]. destruct K5 as [E1 E2 | E1 E2 E3 E4 | E1 E2 E3 E4]; [apply even_fin|apply even_low|apply even_high]; assumption.
      - intros tk0 E0. destruct Hn2 as [Q | Q]; rewrite Q in E0; [discriminate|]. injection E0 as <-. rewrite Et. exact K6.
    Qed.
    Theorem parse_never sf fuel root b f alloc v k : len (fl_rest f) = 48000 * k -> 0 < k ->
      file_parse rule resets limit g t c file_fill fuel sf root b f alloc <> Ret v.
    Proof.
      intros Hl Hk. destruct root as [s|]; [|discriminate]. cbn [file_parse]. apply loop_never.
      - reflexivity.
      - constructor; [intros Q; discriminate Q|discriminate|reflexivity].
      - constructor; [discriminate|exact Logic.I].
      - reflexivity.
      - apply even_high; [reflexivity|reflexivity|right; split; [reflexivity|]|exists k; exact Hl]. intros E. rewrite E in Hl. cbn in Hl. lia.
      - discriminate.
    Qed.
  End Parser.
End Endless.
