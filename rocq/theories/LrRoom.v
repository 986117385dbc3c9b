(** LrRoom.v -- the static array of children: if the parser sets its index back often enough, it behaves as with an array of
    unlimited size. *)
From Verif Require Import Base OrdSet GrammarSpec FirstModel FirstProofs LrModel LrSets LrTable ParseSpec
  LrDriver LrSound LrParse LrSafe.

Section Room.
  Context {tok A : Type}.
  Variables (types : tok -> list N) (eof : tok).
  Variable rule : N -> option (list (value tok A) -> out A).
  Variables (resets : N -> bool) (limit : N).
  Variables (cfuel : nat) (g : grammar) (start : N) (t : table) (sets : list (list item * N)).
  Hypothesis Hwf : wf_grammar g start.
  Hypothesis Ha : automaton cfuel g sets.
  Hypothesis Ht : table_ok cfuel g sets t.
  Hypothesis Htypes : forall tk X, In X (types tk) -> In X (g_terms g).
  Hypothesis Heof : types eof = [TokenEnd].
  Variables (w : N -> N) (wt we : N).
  Hypothesis Hw : weights g t w wt we.
  Notation sym := (root_sym (g_prods g)).
  Notation plain := (plain types).
  Notation pending := (pending types).
  Notation good := (good types rule cfuel g sets).
  Notation dstate := (dstate (tok := tok) (A := A)).

  (** The states on the stack and the transitions between them. *)
  Inductive linked : list N -> list (tree tok) -> Prop :=
  | lk_nil : linked [0] []
  | lk_cons : forall s ss ts tr j, linked (s :: ss) ts -> action_at g t s (sym tr) = Ret (AShift j) -> well_formed types g tr ->
      linked (j :: s :: ss) (tr :: ts).
  (** How many leaves a tree has that no node of a resetting production covers. *)
  Fixpoint fresh (tr : tree tok) : N :=
    match tr with
    | Leaf _ _ => 1
    | Node p ts => if resets p then 0 else fold_right (fun x n => fresh x + n) 0 ts
    end.
  Definition fresh_all (ts : list (tree tok)) : N := fold_right (fun x n => fresh x + n) 0 ts.
  Lemma fresh_app a b : fresh_all (a ++ b) = fresh_all a + fresh_all b.
  Proof. induction a as [|x a IH]; cbn; [easy|]. fold (fresh_all a) (fresh_all (a ++ b)). rewrite IH. lia. Qed.
  Lemma fresh_rev a : fresh_all (rev a) = fresh_all a.
  Proof. induction a as [|x a IH]; cbn; [easy|]. rewrite fresh_app, IH. cbn. fold (fresh_all a). lia. Qed.

  (** Nothing leads to state 0, and the resetting productions' heads only lead out of state 0. *)
  Hypothesis Hzero : forall s X j, action_at g t s X = Ret (AShift j) -> j <> 0.
  Hypothesis Hreset : forall p s j, resets p = true -> action_at g t s (p_head (prod_at g p)) = Ret (AShift j) -> s = 0.
  (** At most [K] leaves are fresh at any time. *)
  Variables (whole : list tok) (K B : N).
  Hypothesis Hfresh : forall ss ts l, linked ss ts -> whole = consumed ts ++ l -> fresh_all ts <= K.
  Hypothesis Hlimit : B + (wt + we + 1) * K <= limit.
  Hypothesis Hbase : forall p, resets p = true -> limit / 2 + w (p_head (prod_at g p)) + we <= B.

  Lemma linked_skipn n : forall ss ts, linked ss ts -> (n <= length ts)%nat -> linked (skipn n ss) (skipn n ts).
  Proof.
    induction n as [|n IH]; intros ss ts H Hn; [exact H|]. destruct H as [|s ss ts tr j H]; [cbn in Hn; lia|].
    cbn [skipn]. apply IH; [exact H|cbn in Hn; lia].
  Qed.
  Lemma linked_zero ss ts : linked (0 :: ss) ts -> ss = [] /\ ts = [].
  Proof. intros H. inversion H as [|? ? ? ? ? ? Hact]; subst; [auto|]. now apply Hzero in Hact. Qed.
  Lemma linked_length ss ts : linked ss ts -> length ss = S (length ts).
  Proof. induction 1; cbn in *; lia. Qed.

  (** Two states that differ in the index only. *)
  Definition alike (a b : dstate) : Prop := d_states a = d_states b /\ d_matches a = d_matches b /\ d_next a = d_next b.
  Definition same_step (a b : out (option (bool * dstate))) : Prop :=
    match a, b with
    | Ret None, Ret None => True
    | Ret (Some (x, sa)), Ret (Some (y, sb)) => x = y /\ alike sa sb
    | UB, UB => True | Throw, Throw => True | OutOfFuel, OutOfFuel => True
    | _, _ => False
    end.
  Definition same_out (a b : out (value tok A * N)) : Prop :=
    match a, b with
    | Ret (v, _), Ret (v', _) => v = v'
    | UB, UB => True | Throw, Throw => True | OutOfFuel, OutOfFuel => True
    | _, _ => False
    end.
  Variables (resets2 : N -> bool) (limit2 : N).
  Definition room (lim : N) (tk : tok) (st : dstate) : Prop :=
    forall s ss X p, d_states st = s :: ss -> In X (types tk) -> action_at g t s X = Ret (AReduce p) ->
      d_alloc st + N.of_nat (length (body_at g p)) <= lim.
  Lemma advance_same Xs tk a b : alike a b -> incl Xs (types tk) -> room limit tk a -> room limit2 tk b ->
    same_step (parse_advance rule resets limit g t Xs tk a) (parse_advance rule resets2 limit2 g t Xs tk b) /\
    forall x sa, parse_advance rule resets limit g t Xs tk a = Ret (Some (x, sa)) -> exists X sb, In X Xs /\
      parse_symbol rule resets limit g t X tk a = Ret (Some (x, sa)) /\
      parse_symbol rule resets2 limit2 g t X tk b = Ret (Some (x, sb)) /\
      parse_advance rule resets2 limit2 g t Xs tk b = Ret (Some (x, sb)).
  Proof.
    intros (E1 & E2 & E3) Hi Ra Rb. induction Xs as [|X Xs IH]; cbn [parse_advance]; [split; [exact Logic.I|easy]|].
    specialize (IH ltac:(intros z Hz; apply Hi; now right)).
    assert (HX : In X (types tk)) by (apply Hi; now left).
    assert (G : same_step (parse_symbol rule resets limit g t X tk a) (parse_symbol rule resets2 limit2 g t X tk b)).
    { unfold parse_symbol. rewrite E1. destruct (d_states b) as [|s ss] eqn:Es; [exact Logic.I|].
      destruct (action_at g t s X) as [[[|]|j|p]| | |] eqn:Eact; cbn [bind same_step]; try exact Logic.I.
      - split; [easy|]. split; [congruence|]. split; congruence.
      - split; [easy|]. unfold alike. cbn. rewrite E2, E3. auto.
      - specialize (Ra s ss X p ltac:(congruence) HX Eact). specialize (Rb s ss X p Es HX Eact). unfold reduce.
        destruct (N.ltb_spec limit (d_alloc a + N.of_nat (length (body_at g p)))); [lia|].
        destruct (N.ltb_spec limit2 (d_alloc b + N.of_nat (length (body_at g p)))); [lia|].
        rewrite !andb_false_r, E2. destruct (Nat.ltb _ _); [exact Logic.I|].
        destruct (match rule p with None => _ | Some f => _ end) as [ast| | |]; cbn [bind same_step]; try exact Logic.I.
        rewrite E1, Es. destruct (skipn _ (s :: ss)) as [|s' ss']; [exact Logic.I|].
        destruct (action_at g t s' _) as [[?|j|?]| | |]; cbn [bind same_step]; try exact Logic.I.
        split; [easy|]. unfold alike. cbn. auto. }
    destruct (parse_symbol rule resets limit g t X tk a) as [[[x sa]|]| | |] eqn:Ea,
             (parse_symbol rule resets2 limit2 g t X tk b) as [[[y sb]|]| | |] eqn:Eb; cbn [bind same_step] in *; try contradiction;
      try (split; [exact Logic.I|easy]).
    - split; [exact G|]. intros x' sa' [= <- <-]. destruct G as [<- _]. exists X, sb. split; [now left|].
      split; [exact Ea|]. split; [exact Eb|reflexivity].
    - destruct IH as [I1 I2]. split; [exact I1|]. intros x sa Hx. destruct (I2 x sa Hx) as (Z & sb & H1 & H2 & H3 & H4).
      exists Z, sb. split; [now right|]. auto.
  Qed.

  Definition room_left (st : dstate) (ts : list (tree tok)) : Prop :=
    d_alloc st + weight w (map sym ts) + noise t we st <= B + (wt + we + 1) * fresh_all ts.
  Lemma body_weight st s ss ts X p : good st ts -> d_states st = s :: ss -> action_at g t s X = Ret (AReduce p) ->
    p < N.of_nat (length (g_prods g)) /\ p <> g_root g /\
    N.of_nat (length (body_at g p)) <= weight w (map sym ts) /\ (length (body_at g p) <= length ts)%nat.
  Proof.
    intros [Hs Hh] Es Hact. rewrite Es in Hs.
    destruct (action_inv cfuel g t sets Ht s X _ Hact) as (Kk & C & HK & it & H1 & H2 & H3 & H4).
    destruct (stk_complete cfuel g start Hwf types sets Ha s ss ts Kk C it Hs HK H1 H2)
      as (s' & ss' & K' & C' & R1 & R2 & R3 & R4 & R5 & R6 & R7).
    rewrite H3 in *. destruct R6 as [R6 _]. rewrite H3 in R6. split; [easy|]. split; [easy|]. split; [|easy].
    destruct (body_at g p) as [|X0 r] eqn:Eb; [cbn; lia|].
    pose proof (ws_body _ _ _ _ _ Hw p R6 H4 ltac:(now rewrite Eb)) as Hb. rewrite Eb in Hb.
    assert (weight w (X0 :: r) <= weight w (map sym ts)); [|lia].
    rewrite <- R7, map_rev, weight_rev. rewrite <- (firstn_skipn (length (X0 :: r)) ts) at 2. rewrite map_app, weight_app. lia.
  Qed.

  (** One step keeps the links, and the index below its bound. *)
  Lemma symbol_room X tk st ts b st2 : good st ts -> linked (d_states st) ts -> d_next st = None -> In X (types tk) ->
    room_left st ts -> (exists l, whole = consumed ts ++ l) ->
    parse_symbol rule resets limit g t X tk st = Ret (Some (b, st2)) -> b = false ->
    exists ts', good st2 ts' /\ linked (d_states st2) ts' /\ room_left st2 ts' /\
      ((ts' = Leaf tk X :: ts /\ X <> TokenEnd /\ d_next st2 = None) \/
       (consumed ts' = consumed ts /\ d_next st2 = Some tk /\ exists s ss p, d_states st = s :: ss /\
          action_at g t s X = Ret (AReduce p) /\
          ts' = Node p (rev (firstn (length (body_at g p)) ts)) :: skipn (length (body_at g p)) ts)).
  Proof.
    intros Hg Hl Hn HX Hr (l & Hwh) Hsym Hb.
    pose proof (symbol_spec types rule resets limit cfuel g start t sets Hwf Ha Ht Htypes X tk st ts b st2 Hg Hn HX Hsym) as Sp.
    unfold parse_symbol in Hsym. destruct (d_states st) as [|s ss] eqn:Es; [easy|].
    apply bind_inv in Hsym. destruct Hsym as (act & Hact & Hsym).
    destruct act as [[|]|j|p]; [injection Hsym as <- <-; easy|easy| |].
    - injection Hsym as Eb <-. exists (Leaf tk X :: ts).
      destruct Sp as [(-> & _) | [(_ & Hne & Hn2 & Hal & Hg2 & E) | (_ & Hn2 & _)]]; [easy| |cbn in Hn2; congruence].
      split; [exact Hg2|]. split; [|split].
      + cbn [d_states]. constructor; [exact Hl|exact Hact|]. constructor; [exact HX|]. eapply Htypes, HX.
      + unfold room_left in *. cbn [map root_sym weight d_alloc fresh_all fresh fold_right].
        fold (fresh_all ts).
        pose proof (ws_term _ _ _ _ _ Hw X (Htypes _ _ HX)).
        match goal with |- context [noise t we ?z] => assert (noise t we z <= we) by (unfold noise; cbn; destruct (quiet t j); lia) end.
        nia.
      + left. auto.
    - apply bind_inv in Hsym. destruct Hsym as (st' & Hred & [= _ ->]).
      destruct Sp as [(-> & _) | [(_ & Hne & Hn2 & _) | (_ & Hn2 & q & s0 & ss0 & s' & ss' & j & Hg2 & E & Hpl & Hpr & Hbody & Hal & Es0 & Hact2 & Es2 & Hgo)]]; [easy| |].
      { exfalso. unfold reduce in Hred. destruct (_ && _); [easy|]. destruct (Nat.ltb _ _); [easy|].
        apply bind_inv in Hred. destruct Hred as (ast & _ & Hred). destruct (skipn _ (d_states st)); [easy|].
        apply bind_inv in Hred. destruct Hred as (a2 & _ & Hred). destruct a2; try easy. injection Hred as <-. now cbn in Hn2. }
      injection Es0 as <- <-. rewrite Hact in Hact2. injection Hact2 as <-.
      destruct (body_weight st s ss ts X p Hg Es Hact) as (_ & _ & Hbw & Hlen).
      exists (Node p (rev (firstn (length (body_at g p)) ts)) :: skipn (length (body_at g p)) ts).
      split; [exact Hg2|].
      (* the next state and index *)
      unfold reduce in Hred. destruct (_ && _); [easy|]. destruct (Nat.ltb _ _); [easy|].
      apply bind_inv in Hred. destruct Hred as (ast & _ & Hred). rewrite Es in Hred.
      pose proof (linked_skipn (length (body_at g p)) _ _ Hl Hlen) as Hl2.
      destruct (skipn (length (body_at g p)) (s :: ss)) as [|s1 ss1] eqn:Esk; [easy|].
      apply bind_inv in Hred. destruct Hred as (a2 & Ha2 & Hred). destruct a2 as [?|j2|?]; try easy. injection Hred as <-.
      cbn [d_states] in Es2. injection Es2 as -> -> ->.
      assert (Hwn : well_formed types g (Node p (rev (firstn (length (body_at g p)) ts)))).
      { destruct Hg2 as [Hs2 _]. clear -Hs2. inversion Hs2; assumption. }
      split; [|split].
      + cbn [d_states]. constructor; [exact Hl2|exact Hgo|exact Hwn].
      + unfold room_left in *. cbn [d_alloc map root_sym weight fresh_all fold_right].
        fold (fresh_all (skipn (length (body_at g p)) ts)).
        change (nth (N.to_nat p) (g_prods g) (mkProd 0 [])) with (prod_at g p).
        match goal with |- context [noise t we ?z] => set (z' := z) in * end.
        assert (Hnoise : noise t we z' <= we) by (unfold noise, z'; cbn; destruct (quiet t j); lia).
        assert (Hno : noise t we st = we) by (unfold noise; rewrite Es, (quiet_reduce g t s X p Hact); easy).
        destruct (resets p) eqn:Er; cbn [andb].
        * assert (s' = 0) by (eapply Hreset; eauto). subst s'. apply linked_zero in Hl2. destruct Hl2 as [_ Ez].
          rewrite Ez. cbn [map weight fresh_all fold_right]. pose proof (Hbase p Er) as Hbp.
          assert (fresh (Node p (rev (firstn (length (body_at g p)) ts))) = 0) as -> by (cbn [fresh]; now rewrite Er).
          destruct (N.ltb_spec (limit / 2) (d_alloc st + N.of_nat (length (body_at g p)))); lia.
        * assert (fresh (Node p (rev (firstn (length (body_at g p)) ts))) = fresh_all (firstn (length (body_at g p)) ts)) as ->.
          { cbn [fresh]. rewrite Er. apply fresh_rev. }
          assert (Ef : fresh_all ts = fresh_all (firstn (length (body_at g p)) ts) + fresh_all (skipn (length (body_at g p)) ts)).
          { rewrite <- fresh_app, firstn_skipn. reflexivity. }
          assert (Ew : weight w (map sym ts) = weight w (body_at g p) + weight w (map sym (skipn (length (body_at g p)) ts))).
          { assert (Eb : weight w (body_at g p) = weight w (map sym (firstn (length (body_at g p)) ts))).
            { rewrite <- Hbody at 1. now rewrite map_rev, weight_rev. }
            rewrite Eb. rewrite <- (firstn_skipn (length (body_at g p)) ts) at 1. now rewrite map_app, weight_app. }
          rewrite <- Ef. rewrite Ew, Hno in Hr. destruct (body_at g p) as [|X0 r] eqn:Eb.
          -- destruct (ws_eps _ _ _ _ _ Hw p Hpl Hpr Eb) as [W1 W2].
             assert (noise t we z' = 0) as -> by (unfold noise, z'; cbn [d_states]; rewrite (W2 _ _ Hgo); easy).
             cbn [length weight] in *. lia.
          -- pose proof (ws_body _ _ _ _ _ Hw p Hpl Hpr ltac:(now rewrite Eb)) as Hb2. rewrite Eb in Hb2. lia.
      + right. split; [exact E|]. split; [reflexivity|]. exists s, ss, p. auto.
  Qed.
  Lemma room_of st s ss ts l tk : good st ts -> d_states st = s :: ss -> linked (d_states st) ts -> room_left st ts ->
    whole = consumed ts ++ l -> room limit tk st.
  Proof.
    intros Hg Es Hl Hr Hwh s1 ss1 X p E1 HX Hact. destruct (body_weight st s1 ss1 ts X p Hg E1 Hact) as (_ & _ & Hb & _).
    pose proof (Hfresh _ _ _ Hl Hwh). unfold room_left in Hr.
    assert ((wt + we + 1) * fresh_all ts <= (wt + we + 1) * K) by (apply N.mul_le_mono_l; lia). lia.
  Qed.

  (** The second parser has room by its own potential (LrSafe.v). *)
  Theorem loop_same : forall fuel inp a b ts l, good a ts -> linked (d_states a) ts -> alike a b -> pending a inp l -> Forall plain l ->
    whole = consumed ts ++ l -> room_left a ts ->
    d_alloc b + potential g t w wt we b ts l <= limit2 ->
    same_out (parse_loop types eof rule resets limit g t fuel inp a) (parse_loop types eof rule resets2 limit2 g t fuel inp b).
  Proof.
    induction fuel as [|fuel IH]; intros inp a b ts l Hg Hl Hab Hp Hpl Hwh Hr Hb; [exact Logic.I|]. cbn [parse_loop].
    assert (Hgb : good b ts) by (destruct Hab as (E1 & E2 & _), Hg as [G1 G2]; split; congruence).
    destruct (get_next_symbol eof inp a) as [[tk inp'] a'] eqn:En.
    destruct (next_spec types eof Heof _ _ _ _ _ _ Hp Hpl En) as [-> Hcase].
    set (a0 := mkD (d_states a) (d_matches a) None (d_alloc a)) in *.
    set (b0 := mkD (d_states b) (d_matches b) None (d_alloc b)).
    assert (Eb : get_next_symbol eof inp b = (tk, inp', b0)).
    { unfold get_next_symbol, b0, a0 in *. destruct Hab as (E1 & E2 & E3). rewrite E3 in En. destruct b as [sb mb nb ab].
      cbn [d_states d_matches d_next d_alloc] in *. destruct nb as [x|]; [injection En as -> ->; reflexivity|].
      destruct inp as [|x r]; injection En as <- <- _; reflexivity. }
    rewrite Eb.
    destruct (d_states a) as [|s ss] eqn:Es; [destruct Hg as [Hs _]; rewrite Es in Hs; inversion Hs|].
    assert (Esb : d_states b = s :: ss) by (destruct Hab as (E1 & _); congruence).
    assert (Hga : good a0 ts) by (destruct Hg as [G1 G2]; split; cbn; [rewrite Es in G1|]; assumption).
    assert (Hgb0 : good b0 ts) by exact Hgb.
    assert (Hra : room_left a0 ts) by (unfold room_left, noise in *; rewrite Es in Hr; exact Hr).
    assert (Rb : room limit2 tk b0).
    { intros s1 ss1 X p E1 HX Hact.
destruct (body_weight b0 s1 ss1 ts X p Hgb0 E1 Hact) as (_ & _ & Hbw & _). cbn [d_alloc b0]. unfold potential in Hb. lia. }
    assert (Ra : room limit tk a0) by (eapply room_of; eauto; reflexivity).
    assert (Hab0 : alike a0 b0) by (destruct Hab as (E1 & E2 & E3); unfold alike, a0, b0; cbn; auto).
    destruct (advance_same (types tk) tk a0 b0 Hab0 (incl_refl _) Ra Rb) as [St Sx].
    destruct (parse_advance rule resets limit g t (types tk) tk a0) as [[[x a2]|]| | |] eqn:Aa,
             (parse_advance rule resets2 limit2 g t (types tk) tk b0) as [[[y b2]|]| | |] eqn:Ab;
      cbn [bind same_step] in *; try contradiction; auto; try exact Logic.I.
    destruct St as [<- Hab2]. destruct x.
    { destruct Hab2 as (_ & E2 & _). rewrite E2. destruct (d_matches b2) as [|v vs]; [exact Logic.I|].
      destruct v; exact Logic.I || reflexivity. }
    destruct (Sx false a2 eq_refl) as (X & b3 & HX & Hsa & Hsb & [= <-]). clear Sx.
    destruct (symbol_room X tk a0 ts false a2 Hga Hl eq_refl HX Hra (ex_intro _ l Hwh) Hsa eq_refl)
      as (ts' & G1 & G2 & G3 & G4).
    pose proof (symbol_spec types rule resets2 limit2 cfuel g start t sets Hwf Ha Ht Htypes X tk b0 ts false b2 Hgb0 eq_refl HX Hsb) as Sb.
    destruct Sb as [(Sb & _) | [(_ & Hne & Hn & Hal & Hg2 & E) |
          (_ & Hn & p & s0 & ss0 & s' & ss' & j & Hg2 & E & Hlt & Hpr & Hbody & Hal & Es0 & Hact & Es2 & Hgo)]]; [easy| |].
    - destruct G4 as [(-> & _ & Hna) | (_ & Hna & _)]; [|destruct Hab2 as (_ & _ & E3); congruence].
      destruct Hcase as [[Hpt ->] | (E0 & _)]; [|rewrite E0 in HX; destruct HX as [<- | []]; easy].
      inversion Hpl as [|? ? _ Hl' E8]; clear E8.
      apply (IH inp' a2 b2 (Leaf tk X :: ts) inp'); auto.
      + now left.
      + rewrite Hwh, E, <- app_assoc. easy.
      + assert (Hpot : potential g t w wt we b2 (Leaf tk X :: ts) inp' + 1 <= potential g t w wt we b ts (tk :: inp')).
        { unfold potential. cbn [map root_sym weight length].
          pose proof (ws_term _ _ _ _ _ Hw X (Htypes _ _ HX)).
          assert (noise t we b2 <= we) by (unfold noise; destruct (d_states b2); [lia|]; destruct (quiet t _); lia).
          nia. }
        rewrite Hal. cbn [d_alloc b0]. lia.
    - destruct G4 as [(-> & _ & Hna) | (Ec & Hna & s1 & ss1 & p1 & F1 & F2 & F3)]; [destruct Hab2 as (_ & _ & E3); congruence|].
      cbn [d_states a0 b0] in F1, Es0. rewrite Esb in Es0. injection F1 as <- <-. injection Es0 as <- <-.
      rewrite Hact in F2. injection F2 as <-. subst ts'. set (n := length (body_at g p)) in *.
      apply (IH inp' a2 b2 (Node p (rev (firstn n ts)) :: skipn n ts) l); auto.
      + destruct Hcase as [[Hpl' ->] | (E0 & -> & ->)].
        * right. left. now exists tk.
        * right. right. now exists tk.
      + now rewrite Ec.
      + assert (Hpot : potential g t w wt we b2 (Node p (rev (firstn n ts)) :: skipn n ts) l + N.max 1 (N.of_nat n)
                       <= potential g t w wt we b ts l).
        { unfold potential. cbn [map root_sym weight].
          change (nth (N.to_nat p) (g_prods g) (mkProd 0 [])) with (prod_at g p).
          assert (Ets : weight w (map sym ts) = weight w (body_at g p) + weight w (map sym (skipn n ts))).
          { rewrite <- Hbody, map_rev, weight_rev. rewrite <- (firstn_skipn n ts) at 1. now rewrite map_app, weight_app. }
          assert (Hno : noise t we b = we).
          { unfold noise. rewrite Esb, (quiet_reduce g t s X p Hact). easy. }
          rewrite Ets, Hno.
          destruct (body_at g p) as [|X0 r] eqn:Ebd.
          - destruct (ws_eps _ _ _ _ _ Hw p Hlt Hpr Ebd) as [W1 W2].
            assert (noise t we b2 = 0) as -> by (unfold noise; rewrite Es2, (W2 _ _ Hgo); easy).
            subst n. cbn. lia.
          - pose proof (ws_body _ _ _ _ _ Hw p Hlt Hpr ltac:(now rewrite Ebd)) as Hb2. rewrite Ebd in Hb2. fold n in Hb2.
            assert (noise t we b2 <= we) by (unfold noise; destruct (d_states b2); [lia|]; destruct (quiet t _); lia).
            assert (1 <= N.of_nat n) by (subst n; cbn; lia). lia. }
        cbn [d_alloc b0] in Hal. lia.
  Qed.

  (** parse on a whole input. *)
  Theorem parse_same fuel alloc alloc2 : Forall plain whole -> alloc + we <= B ->
    alloc2 + ((wt + we + 1) * N.of_nat (length whole) + we) <= limit2 ->
    same_out (parse types eof rule resets limit g t fuel (Some 0) whole alloc)
             (parse types eof rule resets2 limit2 g t fuel (Some 0) whole alloc2).
  Proof.
    intros Hpl Hal Hal2. unfold parse.
    apply (loop_same fuel whole (mkD [0] [] None alloc) (mkD [0] [] None alloc2) [] whole); auto.
    - split; constructor.
    - constructor.
    - unfold alike. auto.
    - now left.
    - unfold room_left, noise. cbn. destruct (quiet t 0); lia.
    - unfold potential, noise. cbn [d_alloc map weight d_states]. destruct (quiet t 0); lia.
  Qed.
End Room.
