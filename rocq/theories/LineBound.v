(** LineBound.v -- how far the lexer looks ahead: if no rule crosses a newline, scan never reads past the second newline. *)
From Verif Require Import Base LexerModel LexerSpec LogParserModel ViewModel ReaderSpec.

Definition no_nl (txt : list N) (a e : N) : Prop := forall n, a <= n -> n < e -> byte_at txt n <> Some cNewline.
(** At most one newline in [a, e). *)
Definition few_nl (txt : list N) (a e : N) : Prop :=
  forall n1 n2, a <= n1 -> n1 < n2 -> n2 < e -> byte_at txt n1 = Some cNewline -> byte_at txt n2 = Some cNewline -> False.

Section Lines.
Variables (c : lexcfg) (txt : list N) (b : ibuf) (phi : N -> N) (lo hi : N) (e : bool).
Hypothesis Hwf : wf_cfg c.
Hypothesis Hline : one_line c.
Hypothesis Hdl : c_delim c cNewline = true.
Hypothesis V : view txt b phi lo hi e.

Lemma no_few : forall a x, no_nl txt a x -> few_nl txt a x.
Proof. intros a x H n1 n2 H1 H2 H3 B _. exact (H n1 H1 ltac:(lia) B). Qed.
Lemma no_cons : forall a x, byte_at txt a <> Some cNewline -> no_nl txt (a + 1) x -> no_nl txt a x.
Proof. intros a x H K n H1 H2. destruct (N.eq_dec n a) as [-> |]; [exact H|apply K; lia]. Qed.
Lemma few_cons : forall a x, no_nl txt (a + 1) x -> few_nl txt a x.
Proof. intros a x H n1 n2 H1 H2 H3 _ B. apply (H n2); [lia|exact H3|exact B]. Qed.
Lemma few_app : forall a p x, no_nl txt a p -> few_nl txt p x -> few_nl txt a x.
Proof.
  intros a p x H K n1 n2 H1 H2 H3 B1 B2. destruct (N.lt_ge_cases n1 p) as [Q|Q]; [exact (H n1 H1 Q B1)|]. exact (K n1 n2 Q H2 H3 B1 B2).
Qed.

Lemma skip_stop : forall fuel ch p r b', lo <= p -> p < hi -> byte_at txt p = Some ch ->
  skip_loop fuel c ch (phi p) (cur b (phi (p + 1)) false) = Ret (r, b') ->
  match r with
  | None => no_nl txt p hi
  | Some pr => exists p' q f, pr = phi p' /\ b' = cur b q f /\ p <= p' /\ p' <= hi /\ no_nl txt p p' /\ (f = true -> p' = hi)
  end.
Proof.
  induction fuel as [|fuel IH]; intros ch p r b' H1 H2 B H; [discriminate|]. cbn [skip_loop] in H. rewrite cur_full, cur_pos in H. cbn [negb andb] in H.
  destruct (negb (c_first c ch) || negb (c_delim c ch)) eqn:C.
  - assert (ch <> cNewline) as Hn.
    { intros ->. destruct (wf_newline _ Hwf) as (q & Q & _). unfold c_first in C. rewrite Q, Hdl in C. discriminate. }
    destruct (N.eq_dec (p + 1) hi) as [Q|Q].
    + rewrite Q, (v_end _ _ _ _ _ _ V) in H. destruct e.
      * destruct fuel as [|fuel]; [discriminate|]. cbn [skip_loop] in H. rewrite cur_full in H. cbn [negb andb] in H. injection H as <- <-.
        exists hi, (phi hi), true. repeat split; try lia. intros n N1 N2. replace n with p by lia. rewrite B. congruence.
      * injection H as <- <-. intros n N1 N2. replace n with p by lia. rewrite B. congruence.
    + destruct (v_get _ _ _ _ _ _ V (p + 1)) as (x & Bx & G); [lia|lia|]. rewrite G in H. specialize (IH x (p + 1) r b' ltac:(lia) ltac:(lia) Bx H).
      assert (byte_at txt p <> Some cNewline) as Hp by (rewrite B; congruence).
      destruct r as [pr|].
      * destruct IH as (p' & q & f & -> & -> & I1 & I2 & I3 & I4). exists p', q, f. repeat split; auto; try lia. apply no_cons; auto.
      * apply no_cons; auto.
  - injection H as <- <-. exists p, (phi (p + 1)), false. repeat split; try lia; try discriminate. intros n N1 N2. lia.
Qed.

Lemma run_snoc : forall w q x, run (c_dfa c) d_root w = Some q -> run (c_dfa c) d_root (w ++ [x]) = d_next (c_dfa c) q x.
Proof.
  intros w q x. generalize d_root. induction w as [|y w IH]; intros r H; cbn in *.
  - injection H as ->. destruct (d_next (c_dfa c) q x); reflexivity.
  - destruct (d_next (c_dfa c) r y); [apply IH; exact H|discriminate].
Qed.

Lemma scan_loop_lines : forall fuel w q l a f l' b', run (c_dfa c) d_root w = Some q -> (l_match l = true -> w <> []) ->
  lo <= a -> a <= hi -> (f = true -> a = hi) ->
  scan_loop fuel c q l (cur b (phi a) f) = Ret (None, l', b') ->
  (l_match l = true -> no_nl txt a hi) /\ few_nl txt a hi.
Proof.
  induction fuel as [|fuel IH]; intros w q l a f l' b' Hw Hm H1 H2 Hf H; [discriminate|].
  destruct (N.eq_dec a hi) as [-> |Hne].
  { split; [intros _ n N1 N2; lia|intros n1 n2 N1 N2 N3; lia]. }
  destruct f; [specialize (Hf eq_refl); lia|]. cbn [scan_loop] in H. rewrite cur_pos in H.
  destruct (v_get _ _ _ _ _ _ V a) as (x & B & G); [lia|lia|]. rewrite G, cur_full, cur_pos in H.
  set (l1 := if (c_delim c x || false || negb (c_has_delims c)) && is_accepting (c_dfa c) q
             then lex_set_match l (d_ids (c_dfa c) q) (phi a) (l_line l) else l) in *.
  assert ((l_match l = true -> l_match l1 = true) /\ (l_match l1 = true -> w <> [])) as (M1 & M2).
  { unfold l1. destruct ((c_delim c x || false || negb (c_has_delims c)) && is_accepting (c_dfa c) q) eqn:C; [|auto].
    split; [reflexivity|]. intros _ ->. cbn in Hw. injection Hw as <-. apply andb_true_iff in C as (_ & C). unfold is_accepting in C. rewrite (wf_root _ Hwf) in C. discriminate. }
  clearbody l1. destruct (N.eqb_spec x cNewline) as [-> |Hx].
  - rewrite (wf_delims _ Hwf) in H. cbn [andb] in H. cbn [l_match lex_inc_line] in H. destruct (l_match l1) eqn:Em; cbn [negb bind] in H.
    + exfalso. specialize (M2 eq_refl). destruct (d_next (c_dfa c) q cNewline) as [n|] eqn:En.
      * rewrite <- (run_snoc w q cNewline Hw) in En. apply Hline in En. apply En. destruct w; [contradiction|]. cbn. apply in_app_iff. right. left. reflexivity.
      * cbn [lex_inc_line l_match] in H. rewrite Em in H.
        match type of H with (if ?g then _ else _) = _ => destruct g end; discriminate.
    + destruct (wf_newline _ Hwf) as (qn & Qn & _). rewrite Qn in H. cbn [bind] in H.
      destruct (IH [cNewline] qn _ (a + 1) false l' b' ltac:(cbn; rewrite Qn; reflexivity) ltac:(discriminate) ltac:(lia) ltac:(lia) ltac:(discriminate) H) as (I1 & _).
      specialize (I1 eq_refl). split; [intro Q; specialize (M1 Q); discriminate|]. apply few_cons. exact I1.
  - cbn [bind] in H. assert (byte_at txt a <> Some cNewline) as Hb by (rewrite B; congruence).
    destruct (d_next (c_dfa c) q x) as [n|] eqn:En.
    + destruct (IH (w ++ [x]) n l1 (a + 1) false l' b' ltac:(rewrite (run_snoc w q x Hw); exact En) ltac:(destruct w; discriminate) ltac:(lia) ltac:(lia) ltac:(discriminate) H) as (I1 & I2).
      split; [intro Q; apply no_cons; auto|]. apply (few_app a (a + 1)); [|exact I2]. intros i N1 N2. replace i with a by lia. exact Hb.
    + destruct (l_match l1) eqn:Em.
      * cbn [lex_restore_line l_last_match_pos l_start_pos] in H. match type of H with (if ?g then _ else _) = _ => destruct g end; discriminate.
      * cbn [andb] in H. destruct (skip_loop fuel c x (phi a) (cur b (phi (a + 1)) false)) as [(r, b2)| | |] eqn:Es; try discriminate.
        pose proof (skip_stop fuel x a r b2 ltac:(lia) ltac:(lia) B Es) as K. destruct r as [pr|].
        -- destruct K as (p' & q' & f' & -> & -> & K1 & K2 & K3 & K4). rewrite cur_set_pos in H.
           destruct (IH [] d_root (lex_set_start l1 (phi p')) p' f' l' b' eq_refl ltac:(cbn; rewrite Em; discriminate) ltac:(lia) K2 K4 H) as (_ & I2).
           split; [intro Q; specialize (M1 Q); discriminate|]. apply (few_app a p'); assumption.
        -- split; [intro Q; specialize (M1 Q); discriminate|]. apply no_few. exact K.
Qed.

(** Where scan was when it asked for more data: in the root, or in the middle of a run. *)
Definition asked_ok (l : lex) : Prop := l_asked l = true -> forall q, l_prev l = Some q -> exists w, w <> [] /\ run (c_dfa c) d_root w = Some q.
Lemma scan_lines : forall fuel l a f l' b', asked_ok l -> lo <= a -> a <= hi -> (f = true -> a = hi) ->
  scan fuel c l (cur b (phi a) f) = Ret (None, l', b') -> few_nl txt a hi \/ (l_asked l = true /\ l_prev l = None).
Proof.
  intros fuel l a f l' b' Ha H1 H2 Hf H. unfold scan in H. destruct (l_asked l) eqn:Ea.
  - destruct (l_prev l) as [q|] eqn:Eq; [left|auto]. destruct (Ha Ea q Eq) as (w & W1 & W2).
    apply (scan_loop_lines fuel w q (lex_unask l) a f l' b' W2 ltac:(auto) H1 H2 Hf H).
  - left. destruct (l_match l) eqn:Em; [discriminate|].
    apply (scan_loop_lines fuel [] d_root (lex_begin l (phi a)) a f l' b' eq_refl ltac:(cbn; rewrite Em; discriminate) H1 H2 Hf H).
Qed.
End Lines.
