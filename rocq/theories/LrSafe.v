(** LrSafe.v -- parse ends, and is never undefined by itself, if every symbol can be given a weight such
    that reductions lose weight. *)
From Verif Require Import Base OrdSet GrammarSpec FirstModel FirstProofs LrModel LrSets LrTable ParseSpec
  LrDriver LrSound LrParse.

(** A row without reductions. *)
Definition is_reduce (a : action) : bool := match a with AReduce _ => true | _ => false end.
Definition quiet (t : table) (s : N) : bool :=
  match row_of t s with
  | Some row => forallb (fun e => negb (is_reduce (snd e))) row
  | None => true
  end.
Fixpoint weight (w : N -> N) (Xs : list N) : N :=
  match Xs with [] => 0 | X :: r => w X + weight w r end.

(** [w] is a weight: terminals weigh at most [wt]; a reduction by a production with a body loses at least
    the length of the body; the head of any other production weighs less than [we], and its gotos lead to
    states without reductions. *)
Record weights (g : grammar) (t : table) (w : N -> N) (wt we : N) : Prop := {
  ws_term : forall X, In X (g_terms g) -> w X <= wt;
  ws_body : forall p, p < N.of_nat (length (g_prods g)) -> p <> g_root g -> body_at g p <> [] ->
            w (p_head (prod_at g p)) + N.of_nat (length (body_at g p)) <= weight w (body_at g p);
  ws_eps : forall p, p < N.of_nat (length (g_prods g)) -> p <> g_root g -> body_at g p = [] ->
           w (p_head (prod_at g p)) < we /\
           forall s j, action_at g t s (p_head (prod_at g p)) = Ret (AShift j) -> quiet t j = true }.

Lemma weight_app w a b : weight w (a ++ b) = weight w a + weight w b.
Proof. induction a as [|x a IH]; cbn; [easy|]. rewrite IH. lia. Qed.
Lemma weight_rev w a : weight w (rev a) = weight w a.
Proof. induction a as [|x a IH]; cbn; [easy|]. rewrite weight_app, IH. cbn. lia. Qed.

Section Safe.
  Context {tok A : Type}.
  Variables (types : tok -> list N) (eof : tok).
  Variable rule : N -> option (list (value tok A) -> out A).
  Variable resets : N -> bool.
  Variable limit : N.
  Variables (cfuel : nat) (g : grammar) (start : N) (t : table) (sets : list (list item * N)).
  Hypothesis Hwf : wf_grammar g start.
  Hypothesis Ha : automaton cfuel g sets.
  Hypothesis Ht : table_ok cfuel g sets t.
  Hypothesis Hrows : forall K i, In (K, i) sets -> exists row, row_of t i = Some row.
  Hypothesis Htypes : forall tk X, In X (types tk) -> In X (g_terms g).
  Hypothesis Heof : types eof = [TokenEnd].
  Variables (w : N -> N) (wt we : N).
  Hypothesis Hw : weights g t w wt we.
  Notation sym := (root_sym (g_prods g)).
  Notation plain := (plain types).
  Notation pending := (pending types).
  Notation good := (good types rule cfuel g sets).

  Definition noise (st : dstate (tok := tok) (A := A)) : N :=
    match d_states st with s :: _ => if quiet t s then 0 else we | [] => we end.
  Definition potential (st : dstate (tok := tok) (A := A)) (ts : list (tree tok)) (l : list tok) : N :=
    (wt + we + 1) * N.of_nat (length l) + weight w (map sym ts) + noise st.

  (** What a step can be: undefined only if evaluating a tree on the stack is. *)
  Definition evaluates_to (whole : list tok) (r : out (value tok A)) : Prop :=
    exists tr a b, well_formed types g tr /\ whole = a ++ map fst (yield tr) ++ b /\ eval rule tr = r.
  (** The same with the stack below that tree; the values of its children are defined. *)
  Definition evaluates_at (whole : list tok) (r : out (value tok A)) : Prop :=
    exists p us vs ts0 s ss K C b, well_formed types g (Node p us) /\ whole = consumed ts0 ++ map fst (yield (Node p us)) ++ b /\
      evals rule us = Ret vs /\ eval rule (Node p us) = r /\
      stk cfuel g types sets (s :: ss) ts0 /\ knows cfuel g sets s K C /\ In (mkItem p 0 cNullSymbol) C.
  Lemma evaluates_weaken whole r : evaluates_at whole r -> evaluates_to whole r.
  Proof.
    intros (p & us & vs & ts0 & s & ss & K & C & b & E1 & E2 & _ & E3 & _). exists (Node p us), (consumed ts0), b. auto.
  Qed.

  Lemma action_ret s ss ts X : stk cfuel g types sets (s :: ss) ts -> X < g_nsym g ->
    exists a, action_at g t s X = Ret a.
  Proof.
    intros Hs HX. destruct (stk_knows cfuel g types sets Ha s ss ts Hs) as (K & C & HK & _).
    destruct (Hrows K s HK) as (row & Hr). unfold action_at. rewrite Hr.
    destruct (N.leb_spec (g_nsym g) X); [lia|]. eauto.
  Qed.
  Lemma quiet_reduce s X p : action_at g t s X = Ret (AReduce p) -> quiet t s = false.
  Proof.
    unfold action_at, quiet. destruct (row_of t s) as [row|]; [|easy].
    destruct (g_nsym g <=? X); [easy|]. intros [= E].
    destruct (forallb _ row) eqn:F; [|easy]. exfalso. rewrite forallb_forall in F.
    assert (G : act_at row X <> ABool false -> In (X, act_at row X) row).
    { clear. unfold act_at. induction row as [|[Y b] row IH]; cbn; [easy|].
      destruct (N.eqb_spec X Y) as [-> |]; [now left|]. auto. }
    rewrite E in G. specialize (F _ (G ltac:(easy))). easy.
  Qed.

  (** What a reduction can fail with. *)
  Lemma reduce_fails p tk st s ss ts X : good st ts -> d_states st = s :: ss ->
    action_at g t s X = Ret (AReduce p) -> d_alloc st + N.of_nat (length (body_at g p)) <= limit ->
    match reduce rule resets limit g t p tk st with
    | Ret _ => True
    | Throw => True
    | UB => evaluates_at (consumed ts) UB
    | OutOfFuel => evaluates_at (consumed ts) OutOfFuel
    end.
  Proof.
    intros [Hs Hh] Es Hact Hl. rewrite Es in Hs.
    destruct (action_inv cfuel g t sets Ht s X _ Hact) as (K & C & HK & it & H1 & H2 & H3 & H4).
    destruct (stk_complete cfuel g start Hwf types sets Ha s ss ts K C it Hs HK H1 H2)
      as (s' & ss' & K' & C' & R1 & R2 & R3 & R4 & R5 & R6 & R7).
    rewrite H3 in *. unfold reduce. rewrite Es, R1.
    set (n := length (body_at g p)) in *.
    destruct (N.ltb_spec limit (d_alloc st + N.of_nat n)); [lia|]. rewrite andb_false_r.
    assert (Hlen : length (d_matches st) = length ts) by (clear -Hh; induction Hh; cbn; congruence).
    destruct (Nat.ltb_spec (length (d_matches st)) n); [lia|].
    assert (Hin : p < N.of_nat (length (g_prods g))) by (destruct R6 as [R6 _]; now rewrite H3 in R6).
    destruct (prod_in g p Hin) as [Hn Hp].
    assert (Hev : forall r, (r = UB \/ r = OutOfFuel) ->
       (do ast <- match rule p with None => Ret None | Some f => do a <- f (rev (firstn n (d_matches st))); Ret (Some a) end;
        Ret (VNt p ast)) = r -> evaluates_at (consumed ts) r).
    { intros r _ Er. destruct (holds_firstn rule n ts _ Hh) as [P1 _].
      exists p, (rev (firstn n ts)), (rev (firstn n (d_matches st))), (skipn n ts), s', ss', K', C', [].
      split; [|split; [|split; [exact (holds_evals rule _ _ (holds_rev rule _ _ P1))|split; [|auto]]]].
      - econstructor; [exact Hn|exact R7|]. apply Forall_rev.
        assert (Hall : Forall (well_formed types g) ts).
        { clear -Hs. remember (s :: ss) as l. clear Heql. induction Hs; constructor; auto. }
        clear -Hall. generalize n. clear n. induction Hall; intros [|n]; cbn; constructor; auto.
      - rewrite app_nil_r. unfold consumed. cbn [yield]. rewrite <- map_app, <- flat_map_app, <- rev_app_distr.
        now rewrite firstn_skipn.
      - rewrite eval_node, (holds_evals rule _ _ (holds_rev rule _ _ P1)). cbn [bind]. rewrite <- Er.
        unfold apply_rule. destruct (rule p) as [f|]; [|easy]. destruct (f _); easy. }
    assert (Hact' : exists a, action_at g t s' (p_head (prod_at g p)) = Ret a).
    { eapply action_ret; [exact R3|]. apply (wg_ids _ _ Hwf). right. apply (wg_nts _ _ Hwf). eauto. }
    destruct Hact' as (a & Eact).
    assert (Hfin : forall ast, match (do act <- action_at g t s' (p_head (prod_at g p));
          match act with
          | AShift j => Ret (mkD (j :: s' :: ss') (VNt p ast :: skipn n (d_matches st)) (Some tk)
                (if resets p && (limit / 2 <? d_alloc st + N.of_nat n) then 0 else d_alloc st + N.of_nat n))
          | _ => Throw
          end) with UB => False | OutOfFuel => False | _ => True end).
    { intros ast. rewrite Eact. cbn [bind]. destruct a; exact Logic.I. }
    destruct (rule p) as [f|]; cbn [bind] in *.
    - destruct (f (rev (firstn n (d_matches st)))) as [x| | |]; cbn [bind] in *.
      + specialize (Hfin (Some x)). destruct (do act <- action_at _ _ _ _; _); easy.
      + apply Hev; auto.
      + exact Logic.I.
      + apply Hev; auto.
    - specialize (Hfin None). destruct (do act <- action_at _ _ _ _; _); easy.
  Qed.
  Lemma advance_cases Xs tk st s ss ts : good st ts -> d_next st = None -> d_states st = s :: ss ->
    (forall X, In X Xs -> In X (types tk)) ->
    (forall X p, In X Xs -> action_at g t s X = Ret (AReduce p) ->
       d_alloc st + N.of_nat (length (body_at g p)) <= limit) ->
    match parse_advance rule resets limit g t Xs tk st with
    | Ret _ => True
    | Throw => True
    | UB => evaluates_at (consumed ts) UB
    | OutOfFuel => evaluates_at (consumed ts) OutOfFuel
    end.
  Proof.
    intros Hg Hn Es. induction Xs as [|X Xs IH]; intros Hsub Hal; cbn [parse_advance]; [exact Logic.I|].
    specialize (IH ltac:(intros; apply Hsub; now right) ltac:(intros Y p HY; apply (Hal Y p); now right)).
    assert (G : match parse_symbol rule resets limit g t X tk st with
                | Ret _ => True | Throw => True | UB => evaluates_at (consumed ts) UB
                | OutOfFuel => evaluates_at (consumed ts) OutOfFuel end).
    { unfold parse_symbol. rewrite Es. pose proof Hg as [Hs _]. rewrite Es in Hs.
      destruct (action_ret s ss ts X Hs) as (a & Ea).
      { apply (wg_ids _ _ Hwf). left. eapply Htypes, Hsub. now left. }
      rewrite Ea. cbn [bind]. destruct a as [[|]|j|p]; try exact Logic.I.
      pose proof (reduce_fails p tk st s ss ts X Hg Es Ea ltac:(apply (Hal X p); [now left|easy])) as R.
      destruct (reduce _ _ _ _ _ _ _ _); exact R. }
    destruct (parse_symbol rule resets limit g t X tk st) as [[x|]| | |]; cbn [bind]; try easy.
  Qed.

  Lemma reduce_room st ts X p s ss l : good st ts -> d_states st = s :: ss ->
    action_at g t s X = Ret (AReduce p) -> d_alloc st + potential st ts l <= limit ->
    d_alloc st + N.of_nat (length (body_at g p)) <= limit.
  Proof.
    intros [Hs Hh] Es Hact Hl. rewrite Es in Hs.
    destruct (action_inv cfuel g t sets Ht s X _ Hact) as (K & C & HK & it & H1 & H2 & H3 & H4).
    destruct (stk_complete cfuel g start Hwf types sets Ha s ss ts K C it Hs HK H1 H2)
      as (s' & ss' & K' & C' & R1 & R2 & R3 & R4 & R5 & R6 & R7).
    rewrite H3 in *. destruct R6 as [R6 _]. rewrite H3 in R6.
    destruct (body_at g p) as [|X0 r] eqn:Eb; [cbn; lia|].
    pose proof (ws_body _ _ _ _ _ Hw p R6 H4 ltac:(now rewrite Eb)) as Hb. rewrite Eb in Hb.
    assert (weight w (X0 :: r) <= weight w (map sym ts)).
    { rewrite <- R7, map_rev, weight_rev.
      rewrite <- (firstn_skipn (length (X0 :: r)) ts) at 2. rewrite map_app, weight_app. lia. }
    unfold potential in Hl. lia.
  Qed.

  Theorem loop_safe : forall fuel inp st ts l, good st ts -> pending st inp l -> Forall plain l ->
    d_alloc st + potential st ts l <= limit -> (N.to_nat (potential st ts l) < fuel)%nat ->
    match parse_loop types eof rule resets limit g t fuel inp st with
    | Ret _ => True
    | Throw => True
    | UB => evaluates_at (consumed ts ++ l) UB
    | OutOfFuel => evaluates_at (consumed ts ++ l) OutOfFuel
    end.
  Proof.
    induction fuel as [|fuel IH]; intros inp st ts l Hg Hp Hl Hlim Hf; [lia|]. cbn [parse_loop].
    destruct (get_next_symbol eof inp st) as [[tk inp'] st'] eqn:En.
    destruct (next_spec types eof Heof _ _ _ _ _ _ Hp Hl En) as [-> Hcase].
    set (st0 := mkD (d_states st) (d_matches st) None (d_alloc st)) in *.
    assert (Hg' : good st0 ts) by exact Hg.
    destruct (d_states st) as [|s ss] eqn:Es.
    { destruct Hg as [Hs _]. rewrite Es in Hs. inversion Hs. }
    pose proof (advance_cases (types tk) tk st0 s ss ts Hg' eq_refl eq_refl ltac:(auto)
       ltac:(intros X p _ Hact; exact (reduce_room st0 ts X p s ss l Hg' eq_refl Hact
              ltac:(unfold potential, noise in *; rewrite Es in *; exact Hlim)))) as G.
    assert (Hext : forall r, evaluates_at (consumed ts) r -> evaluates_at (consumed ts ++ l) r).
    { intros r (p & us & vs & ts0 & s0 & ss0 & K & C & b & E1 & E2 & E3). exists p, us, vs, ts0, s0, ss0, K, C, (b ++ l).
      split; [easy|]. split; [|easy]. now rewrite E2, <- !app_assoc. }
    destruct (parse_advance rule resets limit g t (types tk) tk st0) as [[[b st2]|]| | |] eqn:Hadv; cbn [bind]; auto.
    apply advance_spec in Hadv. destruct Hadv as (X & HX & Hsym).
    destruct (symbol_spec types rule resets limit cfuel g start t sets Hwf Ha Ht Htypes X tk st0 ts b st2 Hg' eq_refl HX Hsym)
      as [(-> & -> & -> & tr & -> & E2 & E3) | [(-> & Hne & Hn & Hal & Hg2 & E) |
          (-> & Hn & p & s0 & ss0 & s' & ss' & j & Hg2 & E & Hpl & Hpr & Hbody & Hal & Es0 & Hact & Es2 & Hgo)]].
    - destruct Hg as [_ Hh]. cbn [d_matches st0]. destruct (d_matches st) as [|vv vs]; [inversion Hh|].
      destruct vv; exact Logic.I.
    - destruct Hcase as [[Hpl ->] | (E0 & _)]; [|rewrite E0 in HX; destruct HX as [<- | []]; easy].
      inversion Hl as [|? ? _ Hl']; subst.
      replace (consumed ts ++ tk :: inp') with (consumed (Leaf tk X :: ts) ++ inp') by (rewrite E, <- app_assoc; easy).
      assert (Hpot : potential st2 (Leaf tk X :: ts) inp' + 1 <= potential st ts (tk :: inp')).
      { unfold potential. cbn [map root_sym weight length].
        pose proof (ws_term _ _ _ _ _ Hw X (Htypes _ _ HX)).
        assert (noise st2 <= we) by (unfold noise; destruct (d_states st2); [lia|]; destruct (quiet t _); lia).
        nia. }
      apply IH; auto; [now left| |lia]. rewrite Hal. cbn [d_alloc st0]. lia.
    - rewrite <- E. cbn [d_states st0] in Es0. injection Es0 as <- <-.
      set (n := length (body_at g p)) in *.
      assert (Hpot : potential st2 (Node p (rev (firstn n ts)) :: skipn n ts) l + N.max 1 (N.of_nat n) <= potential st ts l).
      { unfold potential. cbn [map root_sym weight].
        change (nth (N.to_nat p) (g_prods g) (mkProd 0 [])) with (prod_at g p).
        assert (Ets : weight w (map sym ts) = weight w (body_at g p) + weight w (map sym (skipn n ts))).
        { rewrite <- Hbody, map_rev, weight_rev. rewrite <- (firstn_skipn n ts) at 1. now rewrite map_app, weight_app. }
        assert (Hno : noise st = we).
        { unfold noise. rewrite Es, (quiet_reduce s X p Hact). easy. }
        rewrite Ets, Hno.
        destruct (body_at g p) as [|X0 r] eqn:Eb.
        - destruct (ws_eps _ _ _ _ _ Hw p Hpl Hpr Eb) as [W1 W2].
          assert (noise st2 = 0) as -> by (unfold noise; rewrite Es2, (W2 _ _ Hgo); easy).
          subst n. cbn. lia.
        - pose proof (ws_body _ _ _ _ _ Hw p Hpl Hpr ltac:(now rewrite Eb)) as Hb. rewrite Eb in Hb. fold n in Hb.
          assert (noise st2 <= we) by (unfold noise; destruct (d_states st2); [lia|]; destruct (quiet t _); lia).
          assert (1 <= N.of_nat n) by (subst n; cbn; lia). lia. }
      apply IH; auto.
      + destruct Hcase as [[Hpl' ->] | (E0 & -> & ->)].
        * right. left. now exists tk.
        * right. right. now exists tk.
      + cbn [d_alloc st0] in Hal. lia.
      + lia.
  Qed.

  Theorem parse_safe_at fuel inp alloc : Forall plain inp ->
    let cost := (wt + we + 1) * N.of_nat (length inp) + we in
    alloc + cost <= limit -> (N.to_nat cost < fuel)%nat ->
    match parse types eof rule resets limit g t fuel (Some 0) inp alloc with
    | Ret _ => True
    | Throw => True
    | UB => evaluates_at inp UB
    | OutOfFuel => evaluates_at inp OutOfFuel
    end.
  Proof.
    intros Hl cost Hlim Hf. unfold parse.
    assert (Hpot : potential (mkD [0] [] None alloc) [] inp <= cost).
    { unfold potential, noise. cbn. destruct (quiet t 0); unfold cost; lia. }
    apply (loop_safe fuel inp (mkD [0] [] None alloc) [] inp); auto.
    - split; constructor.
    - now left.
    - cbn [d_alloc]. lia.
    - lia.
  Qed.
  Theorem parse_safe fuel inp alloc : Forall plain inp ->
    let cost := (wt + we + 1) * N.of_nat (length inp) + we in
    alloc + cost <= limit -> (N.to_nat cost < fuel)%nat ->
    match parse types eof rule resets limit g t fuel (Some 0) inp alloc with
    | Ret _ => True
    | Throw => True
    | UB => evaluates_to inp UB
    | OutOfFuel => evaluates_to inp OutOfFuel
    end.
  Proof.
    intros Hl cost Hlim Hf. pose proof (parse_safe_at fuel inp alloc Hl Hlim Hf) as G.
    destruct (parse types eof rule resets limit g t fuel (Some 0) inp alloc); auto using evaluates_weaken.
  Qed.

  (** ** What lies below. If the bodies that begin with [H] belong to productions for [H], and [H] is not the head of the root
      production, then a completed [H] lies on the stack above what some body has before [H]. *)
  Theorem context H p s ss ts K C : stk cfuel g types sets (s :: ss) ts -> knows cfuel g sets s K C ->
    In (mkItem p 0 cNullSymbol) C -> p_head (prod_at g p) = H -> p_head (prod_at g (g_root g)) <> H ->
    (forall q b, q < N.of_nat (length (g_prods g)) -> body_at g q = H :: b -> p_head (prod_at g q) = H) ->
    exists q d, q < N.of_nat (length (g_prods g)) /\ (0 < d)%nat /\ nth_error (body_at g q) d = Some H /\
      (d <= length ts)%nat /\ map sym (rev (firstn d ts)) = firstn d (body_at g q).
  Proof.
    intros Hs HK Hin Hp Hroot Hleft. pose proof HK as [HK1 HC].
    destruct (kernels_valid _ _ _ Hwf _ _ _ Ha HK1) as [Hv Hdot].
    pose proof (close_spec _ _ _ _ HC) as (_ & CB & CD & CE).
    set (goal := exists q d, _).
    assert (G : In (mkItem p 0 cNullSymbol) C /\ valid_item g (mkItem p 0 cNullSymbol) /\
                (i_dot (mkItem p 0 cNullSymbol) = 0 -> p_head (prod_at g (i_prod (mkItem p 0 cNullSymbol))) = H -> goal)).
    2: { now apply G. }
    revert Hin. generalize (mkItem p 0 cNullSymbol). apply CE.
    - intros x Hx. split; [auto|]. split; [now apply Hv|]. intros H0 Hh. destruct Hdot as [-> | Hdot]; [|now elim (Hdot x Hx)].
      destruct Hx as [<- | []]. now elim Hroot.
    - intros x l y (Hx & Vx & Qx) Hsucc Hy.
      destruct (CD x Hx) as (l' & Hl' & Hl2). rewrite Hl' in Hsucc. injection Hsucc as ->.
      pose proof (lr0_succ_in g x l y Hl' Hy) as (S1 & S2 & S3 & S4 & S5 & S6).
      split; [auto|]. split; [split; [easy|rewrite S3; lia]|]. intros _ Hh. rewrite S6 in Hh.
      destruct Vx as [V1 V2].
      assert (Hnth : nth_error (body_at g (i_prod x)) (N.to_nat (i_dot x)) = Some H).
      { unfold at_end in S1. apply N.eqb_neq in S1. unfold next_symbol in Hh. rewrite <- Hh. apply nth_error_nth'. lia. }
      destruct (N.eq_dec (i_dot x) 0) as [E0 | E0].
      + apply Qx; [easy|]. rewrite E0 in Hnth. cbn in Hnth. destruct (body_at g (i_prod x)) as [|z b] eqn:Eb; [easy|].
        injection Hnth as ->. now apply (Hleft _ b).
      + destruct (stk_back cfuel g start Hwf types sets Ha (N.to_nat (i_dot x)) s ss ts K C x Hs HK Hx eq_refl)
          as (s' & ss' & K' & C' & R1 & R2 & R3 & R4 & R5 & R6).
        exists (i_prod x), (N.to_nat (i_dot x)). split; [easy|]. split; [lia|]. auto.
  Qed.
End Safe.
