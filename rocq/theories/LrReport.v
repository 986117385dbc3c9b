(** LrReport.v -- where LALR1Parser::parse stops if it does not accept: at the first token that cannot continue. *)
From Verif Require Import Base OrdSet GrammarSpec FirstModel FirstProofs LrModel LrSets LrTable ParseSpec
  LrDriver LrSound LrParse LrLookahead LrComplete LrMain.

(** LALR1Parser.tpp 630-650 once more: like parse_loop, but with the state in which report_error is called -- the stacks, the offending token (which
    parse_advance has pushed on m_parse_stack_matches) and the tokens that the lexer has not yet returned. *)
Section Run.
  Context {tok A : Type}.
  Variables (types : tok -> list N) (eof : tok).
  Variable rule : N -> option (list (value tok A) -> out A).
  Variables (resets : N -> bool) (limit : N) (g : grammar) (t : table).
  Notation dstate := (dstate (tok := tok) (A := A)).
  Inductive ending : Type :=
  | Accepted (v : value tok A) (al : N)
  | Rejected (st : dstate) (tk : tok) (rest : list tok).
  Fixpoint parse_run (fuel : nat) (inp : list tok) (st : dstate) : out ending :=
    match fuel with
    | O => OutOfFuel
    | S f =>
        let '(tk, inp', st') := get_next_symbol eof inp st in
        do res <- parse_advance rule resets limit g t (types tk) tk st';
        match res with
        | None => Ret (Rejected st' tk inp')
        | Some (true, st2) =>
            match d_matches st2 with
            | [] => UB
            | VTok _ :: _ => Throw
            | v :: _ => Ret (Accepted v (d_alloc st2))
            end
        | Some (false, st2) => parse_run f inp' st2
        end
    end.
  Definition start_state (alloc : N) : dstate := mkD [0] [] None alloc.
  Lemma parse_loop_run fuel : forall inp st, parse_loop types eof rule resets limit g t fuel inp st =
    do e <- parse_run fuel inp st; match e with Accepted v al => Ret (v, al) | Rejected _ _ _ => Throw end.
  Proof.
    induction fuel as [|fuel IH]; intros inp st; [reflexivity|]. cbn [parse_loop parse_run].
    destruct (get_next_symbol eof inp st) as [[tk inp'] st']. destruct (parse_advance _ _ _ _ _ _ _ _) as [[[[|] st2]|]| | |]; cbn [bind]; try reflexivity.
    - destruct (d_matches st2) as [|[?|? ?] ?]; reflexivity.
    - apply IH.
  Qed.
  Lemma parse_is_run fuel inp alloc : parse types eof rule resets limit g t fuel (Some 0) inp alloc =
    do e <- parse_run fuel inp (start_state alloc); match e with Accepted v al => Ret (v, al) | Rejected _ _ _ => Throw end.
  Proof. apply parse_loop_run. Qed.
End Run.
Arguments Accepted {tok A}. Arguments Rejected {tok A}.

(** ** Every stack can be completed. *)
Section Viable.
  Context {tok : Type}.
  Variables (types : tok -> list N) (cfuel : nat) (g : grammar) (start : N) (sets : list (list item * N)).
  Hypothesis Hwf : wf_grammar g start.
  Hypothesis Ha : automaton cfuel g sets.
  Notation sym := (root_sym (g_prods g)).
  Notation plain := (plain types).
  (** Every terminal of the grammar is the type of some token. *)
  Definition covered : Prop :=
    forall p X, In p (g_prods g) -> In X (p_body p) -> In X (g_terms g) -> exists tk, In X (types tk) /\ plain tk.
  Definition plain_tree (tr : tree tok) : Prop := Forall plain (map fst (yield tr)).

  Lemma derives_bodies P u w x : derives P u w -> In x w -> In x u \/ exists p, In p P /\ In x (p_body p).
  Proof.
    induction 1 as [u|u v w [a p b Hp] _ IH]; [auto|]. intros Hx. destruct (IH Hx) as [H | H]; [|auto].
    apply in_app_iff in H as [H | H]; [left; apply in_app_iff; auto|]. apply in_app_iff in H as [H | H]; [right; eauto|].
    left. apply in_app_iff. right. now right.
  Qed.
  Lemma forest_of u w : derives (g_prods g) u w ->
    (forall x, In x w -> In x (g_terms g) /\ exists tk, In x (types tk) /\ plain tk) ->
    exists us, Forall (well_formed types g) us /\ map sym us = u /\ Forall plain_tree us.
  Proof.
    induction 1 as [u|u v w [a p b Hp] _ IH]; intros Hc.
    - induction u as [|x u IHu]; [exists []; split; [constructor|split; [reflexivity|constructor]]|].
      destruct IHu as (us & U1 & U2 & U3); [intros y Hy; apply Hc; now right|].
      destruct (Hc x (or_introl eq_refl)) as (Hx & tk & T1 & T2). exists (Leaf tk x :: us).
      split; [constructor; [now constructor|exact U1]|]. split; [cbn; now rewrite U2|].
      constructor; [|exact U3]. repeat constructor. exact T2.
    - destruct (IH Hc) as (us & U1 & U2 & U3). apply map_eq_app in U2. destruct U2 as (ua & ur & -> & E1 & E2).
      apply map_eq_app in E2. destruct E2 as (um & ub & -> & E2 & E3).
      apply In_nth_error in Hp as (n & Hn).
      apply Forall_app in U1 as [A1 U1]. apply Forall_app in U1 as [A2 A3]. apply Forall_app in U3 as [B1 U3]. apply Forall_app in U3 as [B2 B3].
      exists (ua ++ Node (N.of_nat n) um :: ub). split; [|split].
      + apply Forall_app. split; [exact A1|]. constructor; [|exact A3]. apply (wf_node types g _ um p); [now rewrite Nat2N.id|exact E2|exact A2].
      + rewrite map_app. cbn [map root_sym]. rewrite Nat2N.id, (nth_error_nth _ _ _ Hn), E1, E3. reflexivity.
      + apply Forall_app. split; [exact B1|]. constructor; [|exact B3]. unfold plain_tree. cbn [yield]. clear -B2.
        induction B2 as [|x um Hx _ IH]; [constructor|]. cbn [flat_map]. rewrite map_app. apply Forall_app. auto.
  Qed.
  Hypothesis Hprod : productive g.
  Hypothesis Hcov : covered.
  Lemma fill_one p X : In p (g_prods g) -> In X (p_body p) -> exists tr, well_formed types g tr /\ sym tr = X /\ plain_tree tr.
  Proof.
    intros Hp HX. destruct (wg_body _ _ Hwf p X Hp HX) as [[HT | HN] _].
    - destruct (Hcov p X Hp HX HT) as (tk & T1 & T2). exists (Leaf tk X). split; [now constructor|]. split; [easy|]. repeat constructor. exact T2.
    - destruct (Hprod X HN) as (w & Hd & Hw). destruct (forest_of [X] w Hd) as (us & U1 & U2 & U3).
      + intros x Hx. split; [auto|]. destruct (derives_bodies _ _ _ x Hd Hx) as [[-> | []] | (q & Q1 & Q2)].
        * exfalso. now apply (wg_sep _ _ Hwf x HN), Hw.
        * apply (Hcov q x Q1 Q2). auto.
      + destruct us as [|tr [|? ?]]; try discriminate U2. injection U2 as U2. inversion U1; inversion U3; subst. eauto.
  Qed.
  Lemma fill_all p l : In p (g_prods g) -> incl l (p_body p) ->
    exists us, Forall (well_formed types g) us /\ map sym us = l /\ Forall plain_tree us.
  Proof.
    intros Hp. induction l as [|X l IH]; intros Hl; [exists []; split; [constructor|split; [reflexivity|constructor]]|].
    destruct IH as (us & U1 & U2 & U3); [intros y Hy; apply Hl; now right|].
    destruct (fill_one p X Hp (Hl X (or_introl eq_refl))) as (tr & T1 & T2 & T3). exists (tr :: us).
    split; [now constructor|]. split; [cbn; congruence|now constructor].
  Qed.

  Definition completes (ts : list (tree tok)) (it : item) : Prop :=
    forall us, Forall (well_formed types g) us -> map sym us = skipn (N.to_nat (i_dot it)) (body_at g (i_prod it)) ->
    exists T rest, well_formed types g T /\ sym T = start /\ map fst (yield T) = consumed ts ++ map fst (flat_map yield us) ++ rest /\ Forall plain rest.
  Lemma closure_completes ts K C : lr0_closure cfuel g K = Ret C -> (forall x, In x K -> valid_item g x) -> (forall x, In x K -> completes ts x) ->
    forall x, In x C -> completes ts x.
  Proof.
    intros HC Hv HK. pose proof (close_spec _ _ _ _ HC) as (_ & CB & CD & CE).
    assert (G : forall x, In x C -> In x C /\ valid_item g x /\ completes ts x); [|intros x Hx; now apply G].
    apply CE; [intros x Hx; auto|]. intros x l y (Hx & Vx & Qx) Hsucc Hy.
    destruct (CD x Hx) as (l' & Hl' & Hl2). rewrite Hl' in Hsucc. injection Hsucc as ->.
    pose proof (lr0_succ_in g x l y Hl' Hy) as (S1 & S2 & S3 & S4 & S5 & S6).
    split; [auto|]. split; [split; [easy|rewrite S3; lia]|]. intros us U1 U2. rewrite S3 in U2. cbn [N.to_nat skipn] in U2.
    destruct Vx as [V1 V2]. destruct (prod_in g (i_prod x) V1) as [_ Hpx]. destruct (prod_in g (i_prod y) S5) as [Hny Hpy].
    unfold at_end in S1. apply N.eqb_neq in S1.
    assert (Esk : skipn (N.to_nat (i_dot x)) (body_at g (i_prod x)) = next_symbol g x :: skipn (S (N.to_nat (i_dot x))) (body_at g (i_prod x))).
    { unfold next_symbol. assert (L : (N.to_nat (i_dot x) < length (body_at g (i_prod x)))%nat) by lia.
      clear -L. generalize (N.to_nat (i_dot x)) as d, (body_at g (i_prod x)) as b, L. clear. induction d as [|d IH]; intros [|z b] L; cbn in *; try lia; [reflexivity|].
      apply IH. lia. }
    destruct (fill_all (prod_at g (i_prod x)) (skipn (S (N.to_nat (i_dot x))) (body_at g (i_prod x))) Hpx) as (vs & W1 & W2 & W3).
    { intros z Hz. unfold body_at in Hz. rewrite <- (firstn_skipn (S (N.to_nat (i_dot x))) (p_body _)). apply in_app_iff. now right. }
    destruct (Qx (Node (i_prod y) us :: vs)) as (T & rest & T1 & T2 & T3 & T4).
    - constructor; [|exact W1]. apply (wf_node types g _ us (prod_at g (i_prod y))); [exact Hny|exact U2|exact U1].
    - rewrite Esk. cbn [map root_sym]. rewrite W2, <- S6. reflexivity.
    - exists T, (map fst (flat_map yield vs) ++ rest). split; [exact T1|]. split; [exact T2|]. split.
      + rewrite T3. cbn [flat_map yield]. now rewrite map_app, <- app_assoc.
      + apply Forall_app. split; [|exact T4]. clear -W3. induction W3 as [|z vs Hz _ IH]; [constructor|]. cbn [flat_map]. rewrite map_app.
        apply Forall_app. auto.
  Qed.
  Lemma stack_completes ss ts : stk cfuel g types sets ss ts -> forall s r K C, ss = s :: r -> knows cfuel g sets s K C ->
    forall x, In x C -> completes ts x.
  Proof.
    induction 1 as [|s ss ts K1 C1 tr j Hs IH HK1 Hne Hj Htr]; intros s0 r K C E HK; injection E as <- <-; pose proof HK as [HK0 HC];
      destruct (kernels_valid _ _ _ Hwf _ _ _ Ha HK0) as [Hv _].
    - apply (closure_completes [] K C HC); [intros x Hx; now apply Hv|].
      assert (K = [root_item g]) as -> by (eapply au_inj; [exact Ha|exact HK0|apply (au_root _ _ _ Ha)]).
      intros x [<- | []] us U1 U2. destruct (root_prod g start Hwf) as (h & Eh & _). unfold body_at in U2. cbn [root_item i_prod i_dot N.to_nat skipn] in U2.
      rewrite Eh in U2. cbn in U2. destruct us as [|u [|? ?]]; try discriminate U2. injection U2 as U2. inversion U1; subst.
      exists u, []. split; [easy|]. split; [reflexivity|]. cbn. rewrite !app_nil_r. split; [reflexivity|constructor].
    - apply (closure_completes (tr :: ts) K C HC); [intros x Hx; now apply Hv|].
      assert (K = goto_kernel g C1 (sym tr)) as -> by (eapply au_inj; eauto).
      intros x Hx us U1 U2. apply goto_kernel_in in Hx. destruct Hx as (it' & Hit' & Hend & Hnext & ->).
      cbn [i_prod i_dot advance] in U2.
      pose proof HK1 as [HK2 HC1]. destruct (kernels_valid _ _ _ Hwf _ _ _ Ha HK2) as [Hv1 _].
      destruct (closure_items g cfuel (root_lt g start Hwf) K1 C1 it' HC1 Hv1 Hit') as ([V1 V2] & _).
      unfold at_end in Hend. apply N.eqb_neq in Hend.
      assert (Esk : skipn (N.to_nat (i_dot it')) (body_at g (i_prod it')) = next_symbol g it' :: skipn (S (N.to_nat (i_dot it'))) (body_at g (i_prod it'))).
      { unfold next_symbol. assert (L : (N.to_nat (i_dot it') < length (body_at g (i_prod it')))%nat) by lia.
        clear -L. generalize (N.to_nat (i_dot it')) as d, (body_at g (i_prod it')) as b, L. clear. induction d as [|d IH]; intros [|z b] L; cbn in *; try lia; [reflexivity|].
        apply IH. lia. }
      destruct (IH s ss K1 C1 eq_refl HK1 it' Hit' (tr :: us)) as (T & rest & T1 & T2 & T3 & T4).
      + now constructor.
      + rewrite Esk. cbn [map]. f_equal; [now symmetry|]. rewrite U2. f_equal. lia.
      + exists T, rest. split; [exact T1|]. split; [exact T2|]. split; [|exact T4]. rewrite T3. unfold consumed. cbn [rev flat_map].
        rewrite flat_map_app, !map_app. cbn [flat_map]. rewrite app_nil_r, <- !app_assoc. reflexivity.
  Qed.
  Lemma kernel_nonempty s K C ss ts : stk cfuel g types sets (s :: ss) ts -> knows cfuel g sets s K C -> K <> [].
  Proof.
    intros Hs [HK _]. inversion Hs as [E1 E2 | s1 ss1 ts1 K1 C1 tr j Hs1 HK1 Hne Hj Htr E1 E2]; subst.
    - assert (K = [root_item g]) as -> by (eapply au_inj; [exact Ha|exact HK|apply (au_root _ _ _ Ha)]). easy.
    - assert (K = goto_kernel g C1 (sym tr)) as -> by (eapply au_inj; eauto). easy.
  Qed.
  (** The tokens read so far begin a sentence. *)
  Theorem stack_viable s ss ts : stk cfuel g types sets (s :: ss) ts ->
    exists T rest, well_formed types g T /\ sym T = start /\ map fst (yield T) = consumed ts ++ rest /\ Forall plain rest.
  Proof.
    intros Hs. destruct (stk_knows cfuel g types sets Ha s ss ts Hs) as (K & C & HK).
    pose proof (kernel_nonempty s K C ss ts Hs HK) as Hne. destruct K as [|x K]; [easy|].
    pose proof HK as [HK0 HC]. destruct (kernels_valid _ _ _ Hwf _ _ _ Ha HK0) as [Hv _].
    destruct (Hv x (or_introl eq_refl)) as [[V1 V2] _].
    assert (Hx : In x C) by (apply (close_spec _ _ _ _ HC); now left).
    destruct (fill_all (prod_at g (i_prod x)) (skipn (N.to_nat (i_dot x)) (body_at g (i_prod x)))) as (us & W1 & W2 & W3).
    { now apply prod_in. }
    { intros z Hz. unfold body_at in Hz. rewrite <- (firstn_skipn (N.to_nat (i_dot x)) (p_body _)). apply in_app_iff. now right. }
    destruct (stack_completes _ _ Hs s ss _ C eq_refl HK x Hx us W1 W2) as (T & rest & T1 & T2 & T3 & T4).
    exists T, (map fst (flat_map yield us) ++ rest). split; [exact T1|]. split; [exact T2|]. split; [exact T3|].
    apply Forall_app. split; [|exact T4]. clear -W3. induction W3 as [|z vs Hz _ IH]; [constructor|]. cbn [flat_map]. rewrite map_app.
    apply Forall_app. auto.
  Qed.
End Viable.

(** ** What a rejection says. *)
Section RunSound.
  Context {tok A : Type}.
  Variables (types : tok -> list N) (eof : tok).
  Variable rule : N -> option (list (value tok A) -> out A).
  Variables (resets : N -> bool) (limit : N).
  Variables (cfuel : nat) (g : grammar) (start : N) (t : table) (sets : list (list item * N)).
  Hypothesis Hwf : wf_grammar g start.
  Hypothesis Ha : automaton cfuel g sets.
  Hypothesis Ht : table_ok cfuel g sets t.
  Hypothesis Htypes : forall tk X, In X (types tk) -> In X (g_terms g).
  Hypothesis Heof : types eof = [TokenEnd].
  Notation plain := (plain types).
  Notation pending := (pending types).
  Notation good := (good types rule cfuel g sets).
  Notation run := (parse_run types eof rule resets limit g t).
  Lemma run_sound : forall fuel inp st ts l st' tk rest, good st ts -> pending st inp l -> Forall plain l ->
    run fuel inp st = Ret (Rejected st' tk rest) ->
    exists ts' l', good st' ts' /\ d_next st' = None /\ consumed ts ++ l = consumed ts' ++ l' /\
      parse_advance rule resets limit g t (types tk) tk st' = Ret None /\
      ((plain tk /\ l' = tk :: rest) \/ (types tk = [TokenEnd] /\ l' = [] /\ rest = [])).
  Proof.
    induction fuel as [|fuel IH]; intros inp st ts l st' tk rest Hg Hp Hl H; [easy|]. cbn [parse_run] in H.
    destruct (get_next_symbol eof inp st) as [[x inp'] st1] eqn:En.
    destruct (next_spec types eof Heof _ _ _ _ _ _ Hp Hl En) as [-> Hcase].
    set (st0 := mkD (d_states st) (d_matches st) None (d_alloc st)) in *.
    assert (Hg' : good st0 ts) by exact Hg.
    apply bind_inv in H. destruct H as (res & Hadv & H). destruct res as [[b st2]|].
    2:{ injection H as <- <- <-. exists ts, l. split; [exact Hg'|]. split; [easy|]. split; [easy|]. split; [exact Hadv|exact Hcase]. }
    apply advance_spec in Hadv. destruct Hadv as (X & HX & Hsym).
    destruct (symbol_spec types rule resets limit cfuel g start t sets Hwf Ha Ht Htypes X x st0 ts b st2 Hg' eq_refl HX Hsym)
      as [(-> & -> & -> & tr & -> & E2 & E3) | [(-> & Hne & Hn & Hal2 & Hg2 & E) |
          (-> & Hn & p & s0 & ss0 & s' & ss' & j & Hg2 & E & _)]].
    - destruct (d_matches st0) as [|[?|? ?] ?]; easy.
    - destruct Hcase as [[Hpl ->] | (E0 & _)]; [|rewrite E0 in HX; destruct HX as [<- | []]; easy].
      assert (Hl' : Forall plain inp') by (clear -Hl; inversion Hl; assumption).
      destruct (IH inp' st2 (Leaf x X :: ts) inp' st' tk rest Hg2) as (ts' & l' & R1 & R2 & R3 & R4); auto; [now left|].
      exists ts', l'. split; [easy|]. split; [easy|]. split; [|easy]. rewrite <- R3, E, <- app_assoc. reflexivity.
    - destruct (IH inp' st2 _ l st' tk rest Hg2) as (ts' & l' & R1 & R2 & R3 & R4); auto.
      + destruct Hcase as [[Hpl' ->] | (E0 & -> & ->)]; [right; left; now exists x|right; right; now exists x].
      + exists ts', l'. split; [easy|]. split; [easy|]. split; [|easy]. now rewrite <- R3, E.
  Qed.
  Lemma run_rest : forall fuel inp st st' tk rest, run fuel inp st = Ret (Rejected st' tk rest) -> exists a, inp = a ++ rest.
  Proof.
    induction fuel as [|fuel IH]; intros inp st st' tk rest H; [easy|]. cbn [parse_run] in H.
    destruct (get_next_symbol eof inp st) as [[x inp'] st1] eqn:En.
    assert (G : exists a, inp = a ++ inp').
    { unfold get_next_symbol in En. destruct (d_next st); [injection En as _ <- _; now exists []|].
      destruct inp as [|y r]; injection En as _ <- _; [now exists []|now exists [y]]. }
    destruct G as (a & ->). apply bind_inv in H. destruct H as (res & Hadv & H). destruct res as [[[|] st2]|].
    - destruct (d_matches st2) as [|[?|? ?] ?]; easy.
    - destruct (IH _ _ _ _ _ H) as (a' & ->). exists (a ++ a'). now rewrite <- app_assoc.
    - injection H as _ _ <-. now exists a.
  Qed.
  Lemma symbol_next X tk st b st2 : parse_symbol rule resets limit g t X tk st = Ret (Some (b, st2)) -> b = false ->
    d_next st2 = d_next st \/ d_next st2 = Some tk.
  Proof.
    unfold parse_symbol. destruct (d_states st) as [|s ss]; [easy|]. intros H. apply bind_inv in H. destruct H as (act & _ & H).
    destruct act as [[|]|j|p].
    - now injection H as <- _.
    - easy.
    - injection H as <- <-. now left.
    - apply bind_inv in H. destruct H as (st3 & Hr & H). injection H as <- <-. intros _. right. unfold reduce in Hr.
      destruct (_ && (limit <? _)); [easy|]. destruct (Nat.ltb _ _); [easy|]. apply bind_inv in Hr. destruct Hr as (ast & _ & Hr).
      destruct (skipn _ (d_states st)); [easy|]. apply bind_inv in Hr. destruct Hr as (a & _ & Hr). destruct a; try easy. now injection Hr as <-.
  Qed.
  Lemma run_eof : forall fuel st st' tk rest, d_next st = None \/ d_next st = Some eof ->
    run fuel [] st = Ret (Rejected st' tk rest) -> tk = eof.
  Proof.
    induction fuel as [|fuel IH]; intros st st' tk rest Hn H; [easy|]. cbn [parse_run] in H.
    assert (En : exists st1, get_next_symbol eof [] st = (eof, [], st1) /\ d_next st1 = None).
    { unfold get_next_symbol. destruct Hn as [E | E]; rewrite E; eauto. }
    destruct En as (st1 & En & Hn1). rewrite En in H. apply bind_inv in H. destruct H as (res & Hadv & H). destruct res as [[[|] st2]|].
    - destruct (d_matches st2) as [|[?|? ?] ?]; easy.
    - apply (IH st2 st' tk rest); [|exact H]. apply advance_spec in Hadv. destruct Hadv as (X & _ & Hsym).
      destruct (symbol_next _ _ _ _ _ Hsym eq_refl) as [E | E]; [left; congruence|now right].
    - now injection H as _ <- _.
  Qed.
  (** The offending token is one of the input's or the end token. *)
  Lemma run_token (P : tok -> Prop) : P eof -> forall fuel inp st st' tk rest, (forall x, In x inp -> P x) -> (forall x, d_next st = Some x -> P x) ->
    run fuel inp st = Ret (Rejected st' tk rest) -> P tk.
  Proof.
    intros Pe. induction fuel as [|fuel IH]; intros inp st st' tk rest Hi Hn H; [easy|]. cbn [parse_run] in H.
    destruct (get_next_symbol eof inp st) as [[x inp'] st1] eqn:En.
    assert (G : P x /\ (forall y, In y inp' -> P y) /\ (forall y, d_next st1 = Some y -> P y)).
    { unfold get_next_symbol in En. destruct (d_next st) as [z|] eqn:Ez.
      - injection En as <- <- <-. cbn. split; [auto|]. split; [auto|discriminate].
      - destruct inp as [|y r]; injection En as <- <- <-; rewrite Ez; (split; [auto using in_eq|]); (split; [auto using in_cons|discriminate]). }
    destruct G as (G1 & G2 & G3). apply bind_inv in H. destruct H as (res & Hadv & H). destruct res as [[[|] st2]|].
    - destruct (d_matches st2) as [|[?|? ?] ?]; easy.
    - apply (IH inp' st2 st' tk rest); [exact G2| |exact H]. apply advance_spec in Hadv. destruct Hadv as (X & _ & Hsym).
      intros y Hy. destruct (symbol_next _ _ _ _ _ Hsym eq_refl) as [E | E]; [apply G3; congruence|congruence].
    - now injection H as _ <- _.
  Qed.
End RunSound.

(** ** Two runs, on inputs with a common beginning, with different semantic rules. *)
Section Lockstep.
  Context {tok A B : Type}.
  Variables (types : tok -> list N) (eof : tok) (g : grammar) (t : table).
  Variable rule : N -> option (list (value tok A) -> out A).
  Variable rule2 : N -> option (list (value tok B) -> out B).
  Variables (resets resets2 : N -> bool) (limit limit2 : N).
  Hypothesis Heof : types eof = [TokenEnd].
  Definition alike (a : dstate (tok := tok) (A := A)) (b : dstate (tok := tok) (A := B)) : Prop :=
    d_states a = d_states b /\ d_next a = d_next b.
  Lemma symbol_alike X tk a b r r2 : alike a b ->
    parse_symbol rule resets limit g t X tk a = Ret r -> parse_symbol rule2 resets2 limit2 g t X tk b = Ret r2 ->
    match r, r2 with None, None => True | Some (x, sa), Some (y, sb) => x = y /\ alike sa sb | _, _ => False end.
  Proof.
    intros [E1 E2] H H2. unfold parse_symbol in H, H2. rewrite <- E1 in H2. destruct (d_states a) as [|s ss] eqn:Es; [easy|].
    apply bind_inv in H. destruct H as (act & Hact & H). rewrite Hact in H2. cbn [bind] in H2. destruct act as [[|]|j|p].
    - injection H as <-. injection H2 as <-. split; [easy|]. split; congruence.
    - injection H as <-. injection H2 as <-. easy.
    - injection H as <-. injection H2 as <-. split; [easy|]. split; cbn; congruence.
    - apply bind_inv in H. destruct H as (st3 & Hr & H). injection H as <-.
      apply bind_inv in H2. destruct H2 as (st4 & Hr2 & H2). injection H2 as <-. split; [easy|]. unfold reduce in Hr, Hr2. rewrite <- E1 in Hr2. rewrite Es in Hr.
      destruct (_ && (limit <? _)); [easy|]. destruct (_ && (limit2 <? _)); [easy|]. destruct (Nat.ltb _ _); [easy|]. destruct (Nat.ltb _ _); [easy|].
      apply bind_inv in Hr. destruct Hr as (ast & _ & Hr). apply bind_inv in Hr2. destruct Hr2 as (ast2 & _ & Hr2).
      destruct (skipn _ (s :: ss)); [easy|]. apply bind_inv in Hr. destruct Hr as (x & Hx & Hr). rewrite Hx in Hr2. cbn [bind] in Hr2.
      destruct x; try easy. injection Hr as <-. injection Hr2 as <-. split; reflexivity.
  Qed.
  Lemma advance_alike Xs tk a b r r2 : alike a b ->
    parse_advance rule resets limit g t Xs tk a = Ret r -> parse_advance rule2 resets2 limit2 g t Xs tk b = Ret r2 ->
    match r, r2 with None, None => True | Some (x, sa), Some (y, sb) => x = y /\ alike sa sb | _, _ => False end.
  Proof.
    intros Hab. revert r r2. induction Xs as [|X Xs IH]; intros r r2 H H2; cbn [parse_advance] in *; [injection H as <-; injection H2 as <-; easy|].
    apply bind_inv in H. destruct H as (q & Hq & H). apply bind_inv in H2. destruct H2 as (q2 & Hq2 & H2).
    pose proof (symbol_alike _ _ _ _ _ _ Hab Hq Hq2) as G. destruct q as [[x sa]|], q2 as [[y sb]|]; try contradiction.
    - injection H as <-. injection H2 as <-. exact G.
    - now apply IH.
  Qed.
  Lemma alike_fail : forall fuel inp st st' tk rest, parse_run types eof rule resets limit g t fuel inp st = Ret (Rejected st' tk rest) ->
    forall fuel2 st2 a r2 v al, alike st st2 -> inp = a ++ rest -> (LrParse.plain types tk \/ (rest = [] /\ r2 = [])) ->
    parse_loop types eof rule2 resets2 limit2 g t fuel2 (a ++ r2) st2 = Ret (v, al) -> False.
  Proof.
    induction fuel as [|fuel IH]; intros inp st st' tk rest H fuel2 st2 a r2 v al Hab Hin Hcase H2; [easy|].
    destruct fuel2 as [|fuel2]; [easy|]. pose proof H as Hrun. cbn [parse_run] in H. cbn [parse_loop] in H2.
    assert (G : exists x a' st1 st3, get_next_symbol eof inp st = (x, a' ++ rest, st1) /\ get_next_symbol eof (a ++ r2) st2 = (x, a' ++ r2, st3) /\ alike st1 st3).
    { destruct Hab as [E1 E2]. unfold get_next_symbol. rewrite <- E2. subst inp. destruct (d_next st) as [x|] eqn:En.
      - eexists x, a, _, _. split; [reflexivity|]. split; [reflexivity|]. split; [exact E1|reflexivity].
      - destruct a as [|x a].
        + cbn [app] in *. destruct rest as [|x rest].
          * assert (r2 = []) as -> .
            { destruct Hcase as [Hp | [_ E]]; [|exact E]. exfalso. apply Hp.
              assert (tk = eof) as -> by exact (run_eof types eof rule resets limit g t _ _ _ _ _ (or_introl En) Hrun). rewrite Heof. now left. }
            eexists eof, [], _, _. split; [reflexivity|]. split; [reflexivity|]. split; [exact E1|congruence].
          * exfalso. unfold get_next_symbol in H. rewrite En in H. apply bind_inv in H. destruct H as (res & Hadv & H). destruct res as [[[|] s2]|].
            -- destruct (d_matches s2) as [|[?|? ?] ?]; easy.
            -- apply (run_rest types eof rule resets limit g t) in H. destruct H as (a & E). apply (f_equal (@length _)) in E. rewrite app_length in E. cbn in E. lia.
            -- injection H as _ _ E. apply (f_equal (@length _)) in E. cbn in E. lia.
        + eexists x, a, _, _. split; [reflexivity|]. split; [reflexivity|]. split; [exact E1|congruence]. }
    destruct G as (x & a' & st1 & st3 & G1 & G2 & G3). rewrite G1 in H. rewrite G2 in H2.
    apply bind_inv in H. destruct H as (res & Hadv & H). apply bind_inv in H2. destruct H2 as (res2 & Hadv2 & H2).
    pose proof (advance_alike _ _ _ _ _ _ G3 Hadv Hadv2) as G. destruct res as [[b sa]|], res2 as [[b2 sb]|]; try contradiction; [|discriminate H2].
    destruct G as [<- G]. destruct b.
    - destruct (d_matches sa) as [|[?|? ?] ?]; easy.
    - eapply IH; eauto.
  Qed.
End Lockstep.

(** ** The first token that cannot continue. *)
Section FirstError.
  Context {tok A : Type}.
  Variables (types : tok -> list N) (eof : tok) (fuel cfuel : nat) (g : grammar) (start : N).
  Variables (t : table) (root : option N).
  Hypothesis Hwf : wf_grammar g start.
  Hypothesis Hgen : generate fuel cfuel g = Ret (t, root).
  Hypothesis Htypes : forall tk X, In X (types tk) -> In X (g_terms g).
  Hypothesis Heof : types eof = [TokenEnd].
  Hypothesis Hprod : productive g.
  Variables (sets : list (list item * lr1set)) (gt : gtab).
  Hypothesis Hsets : item_sets fuel cfuel g = Ret (sets, gt, root).
  Hypothesis Hclean : end_conflict g sets = false.
  Hypothesis Hagree : agree types g t.
  Hypothesis Hcov : covered types g.
  Notation plain := (plain types).
  Definition sentence (w : list tok) : Prop :=
    exists tr, well_formed types g tr /\ root_sym (g_prods g) tr = start /\ map fst (yield tr) = w.
  Theorem first_error (rule : N -> option (list (value tok A) -> out A)) resets limit steps inp alloc st tk rest : Forall plain inp ->
    parse_run types eof rule resets limit g t steps inp (start_state alloc) = Ret (Rejected st tk rest) ->
    exists pre, (exists r, Forall plain r /\ sentence (pre ++ r)) /\
      ((plain tk /\ inp = pre ++ tk :: rest /\ (forall r, Forall plain r -> ~ sentence (pre ++ tk :: r))) \/
       (types tk = [TokenEnd] /\ inp = pre /\ rest = [] /\ ~ sentence pre)).
  Proof.
    intros Hp H. destruct (generate_table fuel cfuel g start Hwf t root Hgen) as (sets0 & Ha & Ht & Er).
    destruct (run_sound types eof rule resets limit cfuel g start t sets0 Hwf Ha Ht Htypes Heof steps inp (start_state alloc) [] inp st tk rest)
      as (ts & l & G & Gn & E & Hadv & Hcase); auto; [split; constructor|now left|].
    cbn in E. exists (consumed ts). split.
    - destruct G as [Hs _]. destruct (d_states st) as [|s ss] eqn:Es; [clear -Hs; inversion Hs|].
      destruct (stack_viable types cfuel g start sets0 Hwf Ha Hprod Hcov s ss ts Hs) as (T & r & T1 & T2 & T3 & T4).
      exists r. split; [exact T4|]. now exists T.
    - assert (Hdead : forall a r2, (LrParse.plain types tk \/ (rest = [] /\ r2 = [])) -> inp = a ++ rest -> Forall plain (a ++ r2) -> ~ sentence (a ++ r2)).
      { intros a r2 Hc Ein Hpl (T & T1 & T2 & T3).
        destruct (complete_main types eof fuel cfuel g start t root Hwf Hgen Htypes Heof Hprod sets gt Hsets Hclean Hagree
                    (build (tok := tok)) (fun _ => false) (slots T) (S (size T)) 0 T) with (v := (match eval build T with Ret v => v | _ => VNt 0 None end))
          as (al & P & _); auto; try lia.
        - rewrite T3. apply Forall_forall. exact Hpl.
        - destruct (eval_build T) as (v & -> & _). reflexivity.
        - rewrite T3, Er in P. unfold parse in P. eapply (alike_fail types eof g t rule build resets (fun _ => false) limit (slots T) Heof _ _ _ _ _ _ H); eauto.
          split; reflexivity. }
      destruct Hcase as [[Hpl ->] | (E1 & -> & ->)].
      + left. split; [exact Hpl|]. split; [exact E|]. intros r Hr Hs. apply (Hdead (consumed ts ++ [tk]) r).
        * now left.
        * now rewrite E, <- app_assoc.
        * rewrite <- app_assoc. rewrite E in Hp. apply Forall_app in Hp as [Hp1 _]. apply Forall_app. split; [exact Hp1|]. cbn. now constructor.
        * now rewrite <- app_assoc.
      + right. rewrite app_nil_r in E. split; [exact E1|]. split; [exact E|]. split; [easy|]. intros Hs. apply (Hdead inp []).
        * right; auto.
        * now rewrite app_nil_r.
        * now rewrite app_nil_r.
        * rewrite app_nil_r, E. exact Hs.
  Qed.
End FirstError.
