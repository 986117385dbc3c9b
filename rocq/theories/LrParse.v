(** LrParse.v -- soundness of parse: what it accepts is a parse tree of the whole input, and what it
    returns is the value of that tree. *)
From Verif Require Import Base OrdSet GrammarSpec FirstModel FirstProofs LrModel LrSets LrTable ParseSpec
  LrDriver LrSound.

Section ParseSound.
  Context {tok A : Type}.
  Variables (types : tok -> list N) (eof : tok).
  Variable rule : N -> option (list (value tok A) -> out A).
  Variable resets : N -> bool.
  Variable limit : N.
  Variables (cfuel : nat) (g : grammar) (start : N) (t : table) (sets : list (list item * N)).
  Hypothesis Hwf : wf_grammar g start.
  Hypothesis Ha : automaton cfuel g sets.
  Hypothesis Ht : table_ok cfuel g sets t.
  Hypothesis Htypes : forall tk X, In X (types tk) -> In X (g_terms g).
  Hypothesis Heof : types eof = [TokenEnd].
  Notation sym := (root_sym (g_prods g)).

  Definition plain (tk : tok) : Prop := ~ In TokenEnd (types tk).
  Definition holds (ts : list (tree tok)) (vs : list (value tok A)) : Prop :=
    Forall2 (fun tr v => eval rule tr = Ret v) ts vs.
  Definition consumed (ts : list (tree tok)) : list tok := map fst (flat_map yield (rev ts)).

  (** The tokens still to be read. *)
  Definition pending (st : dstate (tok := tok) (A := A)) (inp l : list tok) : Prop :=
    (d_next st = None /\ l = inp) \/
    (exists tk, d_next st = Some tk /\ plain tk /\ l = tk :: inp) \/
    (exists tk, d_next st = Some tk /\ types tk = [TokenEnd] /\ inp = [] /\ l = []).

  Lemma next_spec st inp l tk inp' st' : pending st inp l -> Forall plain l ->
    get_next_symbol eof inp st = (tk, inp', st') ->
    st' = mkD (d_states st) (d_matches st) None (d_alloc st) /\
    ((plain tk /\ l = tk :: inp') \/ (types tk = [TokenEnd] /\ l = [] /\ inp' = [])).
  Proof.
    intros Hp Hl. unfold get_next_symbol. destruct Hp as [[E ->] | [(x & E & Hx & ->) | (x & E & Hx & -> & ->)]];
      rewrite E.
    - destruct st as [a b c d]. cbn in E. subst c. destruct inp as [|y r]; intros [= <- <- <-]; cbn.
      + split; [easy|]. right. auto.
      + split; [easy|]. left. inversion Hl. auto.
    - intros [= <- <- <-]. split; [easy|]. left. auto.
    - intros [= <- <- <-]. split; [easy|]. right. auto.
  Qed.

  Lemma advance_spec Xs tk st r : parse_advance rule resets limit g t Xs tk st = Ret (Some r) ->
    exists X, In X Xs /\ parse_symbol rule resets limit g t X tk st = Ret (Some r).
  Proof.
    induction Xs as [|X Xs IH]; cbn [parse_advance]; [easy|].
    intros H. apply bind_inv in H. destruct H as ([x|] & Hx & H).
    - injection H as ->. exists X. split; [now left|easy].
    - destruct (IH H) as (Y & HY & E). exists Y. split; [now right|easy].
  Qed.

  Lemma holds_firstn n ts vs : holds ts vs -> holds (firstn n ts) (firstn n vs) /\ holds (skipn n ts) (skipn n vs).
  Proof.
    intros H. revert n. induction H; intros [|n]; cbn; split; try constructor; auto; try apply IHForall2.
  Qed.
  Lemma holds_evals ts vs : holds ts vs -> evals rule ts = Ret vs.
  Proof. intros H. induction H as [|x v ts vs E H IH]; cbn; [easy|]. now rewrite E, IH. Qed.
  Lemma holds_rev ts vs : holds ts vs -> holds (rev ts) (rev vs).
  Proof.
    intros H. induction H; cbn; [constructor|]. apply Forall2_app; [easy|]. now repeat constructor.
  Qed.
  Lemma action_inv s X v : action_at g t s X = Ret v -> exists K C, knows cfuel g sets s K C /\ entry_ok g sets C X v.
  Proof.
    unfold action_at. destruct (row_of t s) as [row|] eqn:E; [|easy].
    destruct (g_nsym g <=? X); [easy|]. intros [= <-].
    destruct (Ht s row E) as (K & C & HK & H). exists K, C. auto.
  Qed.

  Definition good (st : dstate) (ts : list (tree tok)) : Prop :=
    stk cfuel g types sets (d_states st) ts /\ holds ts (d_matches st).

  (** One step. *)
  Lemma symbol_spec X tk st ts b st2 : good st ts -> d_next st = None -> In X (types tk) ->
    parse_symbol rule resets limit g t X tk st = Ret (Some (b, st2)) ->
    (b = true /\ st2 = st /\ X = TokenEnd /\ exists tr, ts = [tr] /\ sym tr = start /\ well_formed types g tr) \/
    (b = false /\ X <> TokenEnd /\ d_next st2 = None /\ d_alloc st2 = d_alloc st /\
     good st2 (Leaf tk X :: ts) /\ consumed (Leaf tk X :: ts) = consumed ts ++ [tk]) \/
    (b = false /\ d_next st2 = Some tk /\ exists p s ss s' ss' j,
       let n := length (body_at g p) in let ts' := Node p (rev (firstn n ts)) :: skipn n ts in
       good st2 ts' /\ consumed ts' = consumed ts /\ p < N.of_nat (length (g_prods g)) /\ p <> g_root g /\
       map sym (rev (firstn n ts)) = body_at g p /\
       d_alloc st2 <= d_alloc st + N.of_nat n /\ d_states st = s :: ss /\ action_at g t s X = Ret (AReduce p) /\
       d_states st2 = j :: s' :: ss' /\ action_at g t s' (p_head (prod_at g p)) = Ret (AShift j)).
  Proof.
    intros [Hs Hh] Hn HX. unfold parse_symbol. destruct (d_states st) as [|s ss] eqn:Es; [easy|].
    intros H. apply bind_inv in H. destruct H as (act & Hact & H).
    destruct (action_inv s X act Hact) as (K & C & HK & He).
    destruct act as [[|] | j | p]; cbn in He.
    - injection H as <- <-. left. destruct He as (-> & it & H1 & H2 & H3).
      destruct (stk_accept cfuel g start Hwf types sets Ha s ss ts K C it Hs HK H1 H2 H3) as (tr & E1 & E2 & E3 & E4).
      split; [easy|]. split; [easy|]. split; [easy|]. exists tr. auto.
    - easy.
    - injection H as <- <-. right. left. destruct He as [He Hj].
      split; [easy|]. split; [|split; [easy|split; [easy|]]].
      + destruct (goto_kernel g C X) as [|y r] eqn:Eg; [easy|].
        assert (Hy : In y (goto_kernel g C X)) by (rewrite Eg; now left).
        apply goto_kernel_in in Hy. destruct Hy as (it & H1 & H2 & H3 & _).
        pose proof HK as [HK0 HC]. destruct (kernels_valid cfuel g start Hwf _ _ _ Ha HK0) as [Hv _].
        destruct (closure_items g cfuel (root_lt g start Hwf) K C it HC Hv H1) as (Vi & _).
        pose proof (next_in_body g it Vi H2) as Hb. rewrite H3 in Hb.
        apply (wg_body _ _ Hwf _ _ (proj2 (prod_in g _ (proj1 Vi))) Hb).
      + split; [split|]; cbn [d_states d_matches].
        * apply (stk_cons _ _ _ _ _ _ _ K C); auto. constructor; auto. eapply Htypes; eauto.
        * constructor; [easy|exact Hh].
        * unfold consumed. cbn [rev]. rewrite flat_map_app, map_app. easy.
    - right. right. apply bind_inv in H. destruct H as (st' & Hr & H). injection H as <- <-.
      destruct He as (it & H1 & H2 & H3 & H4).
      destruct (stk_complete cfuel g start Hwf types sets Ha s ss ts K C it Hs HK H1 H2)
        as (s' & ss' & K' & C' & R1 & R2 & R3 & R4 & R5 & R6 & R7).
      rewrite H3 in *. unfold reduce in Hr. rewrite Es, R1 in Hr.
      set (n := length (body_at g p)) in *.
      destruct ((0 <? N.of_nat n) && (limit <? d_alloc st + N.of_nat n)); [easy|].
      destruct (Nat.ltb (length (d_matches st)) n); [easy|].
      apply bind_inv in Hr. destruct Hr as (ast & Hast & Hr).
      apply bind_inv in Hr. destruct Hr as (act & Hact' & Hr).
      destruct act as [| j |]; try easy. injection Hr as <-. split; [easy|]. split; [easy|].
      destruct (action_inv s' _ _ Hact') as (K2 & C2 & HK2 & He2).
      destruct (knows_inj cfuel g sets Ha _ _ _ _ _ R2 HK2) as [-> ->].
      cbn in He2. destruct He2 as [G1 G2].
      assert (Hin : In (prod_at g p) (g_prods g) /\ nth_error (g_prods g) (N.to_nat p) = Some (prod_at g p)).
      { destruct R6 as [R6 _]. rewrite H3 in R6. destruct (prod_in g p R6). auto. }
      exists p, s, ss, s', ss', j. cbv zeta. fold n. cbn [d_alloc d_states].
      split; [split|]; [| |split; [|split; [|split; [|split; [exact R7|split; [|auto]]]]]]; cbn [d_states d_matches].
      + apply (stk_cons _ _ _ _ _ _ _ K2 C2); auto.
        econstructor; [apply Hin|exact R7|]. apply Forall_rev.
        assert (Hall : Forall (well_formed types g) ts).
        { clear -Hs. remember (s :: ss) as l. clear Heql. induction Hs; constructor; auto. }
        clear -Hall. generalize n. clear n. induction Hall; intros [|n]; cbn; constructor; auto.
      + destruct (holds_firstn n ts _ Hh) as [P1 P2]. constructor; [|exact P2].
        rewrite eval_node, (holds_evals _ _ (holds_rev _ _ P1)). cbn [bind].
        unfold apply_rule. destruct (rule p) as [f|].
        * apply bind_inv in Hast. destruct Hast as (a & Ea & Hast). injection Hast as <-. now rewrite Ea.
        * injection Hast as <-. easy.
      + unfold consumed. cbn [rev]. rewrite flat_map_app. cbn [flat_map yield]. rewrite app_nil_r.
        rewrite <- flat_map_app. rewrite <- rev_app_distr, firstn_skipn. easy.
      + destruct R6 as [R6 _]. now rewrite H3 in R6.
      + exact H4.
      + destruct (resets p && _); lia.
  Qed.

  Lemma loop_sound fuel : forall inp st ts l v al, good st ts -> pending st inp l -> Forall plain l ->
    parse_loop types eof rule resets limit g t fuel inp st = Ret (v, al) ->
    exists tr, well_formed types g tr /\ sym tr = start /\ map fst (yield tr) = consumed ts ++ l /\
      eval rule tr = Ret v.
  Proof.
    induction fuel as [|fuel IH]; intros inp st ts l v al Hg Hp Hl; cbn [parse_loop]; [easy|].
    destruct (get_next_symbol eof inp st) as [[tk inp'] st'] eqn:En.
    destruct (next_spec _ _ _ _ _ _ Hp Hl En) as [-> Hcase].
    intros H. apply bind_inv in H. destruct H as ([[b st2]|] & Hadv & H); [|easy].
    apply advance_spec in Hadv. destruct Hadv as (X & HX & Hsym).
    assert (Hg' : good (mkD (d_states st) (d_matches st) None (d_alloc st)) ts) by exact Hg.
    destruct (symbol_spec X tk _ ts b st2 Hg' eq_refl HX Hsym)
      as [(-> & -> & -> & tr & -> & E2 & E3) | [(-> & Hne & Hn & _ & Hg2 & E) | (-> & Hn & p & s0 & ss0 & s' & ss' & j & Hg2 & E & _)]].
    - destruct Hcase as [[Hpl _] | (_ & -> & _)]; [contradiction|].
      cbn [d_matches] in H. destruct Hg as [_ Hh]. inversion Hh as [|x vv ? vs Ev Hvs E4 E5]. subst.
      rewrite <- E5 in H. exists tr. split; [easy|]. split; [easy|].
      unfold consumed. cbn. rewrite !app_nil_r. split; [easy|].
      destruct vv; [easy|]. injection H as <- <-. exact Ev.
    - destruct Hcase as [[Hpl ->] | (E0 & _)]; [|rewrite E0 in HX; destruct HX as [<- | []]; easy].
      inversion Hl as [|? ? _ Hl']; subst.
      destruct (IH inp' st2 (Leaf tk X :: ts) inp' v al Hg2 ltac:(now left) Hl' H) as (tr & W1 & W2 & W3 & W4).
      exists tr. rewrite W3, E, <- app_assoc. auto.
    - destruct (IH inp' st2 _ l v al Hg2) as (tr & W1 & W2 & W3 & W4); auto.
      + destruct Hcase as [[Hpl ->] | (E0 & -> & ->)].
        * right. left. now exists tk.
        * right. right. now exists tk.
      + exists tr. rewrite W3, E. auto.
  Qed.

  Theorem parse_sound fuel inp alloc v al : Forall plain inp ->
    parse types eof rule resets limit g t fuel (Some 0) inp alloc = Ret (v, al) ->
    exists tr, well_formed types g tr /\ sym tr = start /\ map fst (yield tr) = inp /\ eval rule tr = Ret v.
  Proof.
    intros Hl H. unfold parse in H.
    apply (loop_sound fuel inp _ [] inp v al) in H; auto.
    - split; cbn; constructor.
    - now left.
  Qed.
End ParseSound.
