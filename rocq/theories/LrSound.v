(** LrSound.v -- what generate's table says about the LR(0) automaton, and the soundness of parse. *)
From Verif Require Import Base OrdSet GrammarSpec FirstModel FirstProofs LrModel LrSets LrTable ParseSpec
  LrDriver.

Lemma bind_inv {A B} (x : out A) (f : A -> out B) y : bind x f = Ret y -> exists a, x = Ret a /\ f a = Ret y.
Proof. destruct x as [a| | |]; cbn; try easy. intros H. now exists a. Qed.

(** ** The parts of generate. *)
Section Parts.
  Variables (fuel cfuel : nat) (g : grammar).
  Record parts (sets : list (list item * lr1set)) (gt : gtab) (root : option N)
    (a : lr0) (nul : list N) (fs : fmap) (sp : fmap * pmap) (m : lmap) : Prop := {
    pt_lr0 : lr0_kernels fuel cfuel g = Ret a;
    pt_first : first_sets fuel g = Ret (nul, fs);
    pt_spread : spread cfuel g nul fs (flat_map fst (k_sets a)) ([], []) = Ret sp;
    pt_la : la_loop fuel (snd sp) (la_start g (fst sp) (flat_map fst (k_sets a))) = Ret m;
    pt_sets : lr1_sets cfuel g nul fs m (k_sets a) [] None = Ret (sets, root);
    pt_gt : gt = k_goto a }.
  Lemma item_sets_parts sets gt root : item_sets fuel cfuel g = Ret (sets, gt, root) ->
    exists a nul fs sp m, parts sets gt root a nul fs sp m.
  Proof.
    unfold item_sets. intros H. apply bind_inv in H. destruct H as (a & Ha & H).
    apply bind_inv in H. destruct H as ([nul fs] & Hf & H).
    apply bind_inv in H. destruct H as (sp & Hsp & H).
    apply bind_inv in H. destruct H as (m & Hm & H).
    apply bind_inv in H. destruct H as ([s r] & Hs & H). cbn in H. injection H as <- <- <-.
    exists a, nul, fs, sp, m. now constructor.
  Qed.
  Lemma generate_parts t root : generate fuel cfuel g = Ret (t, root) ->
    exists sets gt, item_sets fuel cfuel g = Ret (sets, gt, root) /\ all_actions g sets gt sets = Ret t.
  Proof.
    unfold generate. intros H. apply bind_inv in H. destruct H as ([[sets gt] r] & H1 & H).
    apply bind_inv in H. destruct H as (t' & H2 & H). injection H as <- <-. now exists sets, gt.
  Qed.
End Parts.

(** ** The automaton behind the table. *)
Section Sound.
  Variables (fuel cfuel : nat) (g : grammar) (start : N).
  Hypothesis Hwf : wf_grammar g start.

  Lemma root_lt : g_root g < N.of_nat (length (g_prods g)).
  Proof.
    destruct (wg_root _ _ Hwf) as (h & H & _).
    assert (N.to_nat (g_root g) < length (g_prods g))%nat by (apply nth_error_Some; congruence). lia.
  Qed.
  Lemma root_prod : exists h, prod_at g (g_root g) = mkProd h [start] /\
    forall p, In p (g_prods g) -> ~ In h (p_body p).
  Proof.
    destruct (wg_root _ _ Hwf) as (h & H & Hn). exists h. split; [|easy]. unfold prod_at.
    now rewrite (nth_error_nth _ _ _ H).
  Qed.
  Lemma prod_in p : p < N.of_nat (length (g_prods g)) ->
    nth_error (g_prods g) (N.to_nat p) = Some (prod_at g p) /\ In (prod_at g p) (g_prods g).
  Proof.
    intros H. unfold prod_at. split; [apply nth_error_nth'; lia|apply nth_In; lia].
  Qed.
  Lemma is_token_iff X : is_token g X = true <-> In X (g_terms g).
  Proof.
    unfold is_token. rewrite existsb_exists. split.
    - intros (y & Hy & E). apply N.eqb_eq in E. now subst.
    - intros H. exists X. split; [easy|apply N.eqb_refl].
  Qed.
  Lemma next_in_body it : valid_item g it -> at_end g it = false ->
    In (next_symbol g it) (p_body (prod_at g (i_prod it))).
  Proof.
    intros [V1 V2] E. unfold at_end in E. apply N.eqb_neq in E. unfold next_symbol.
    apply nth_In. unfold body_at in *. lia.
  Qed.

  Definition knows (sets : list (list item * N)) (i : N) (K C : list item) : Prop :=
    In (K, i) sets /\ lr0_closure cfuel g K = Ret C.

  (** The LR(0) automaton: what lr0_kernels_spec says. *)
  Record automaton (sets : list (list item * N)) : Prop := {
    au_inj : forall K K' i, In (K, i) sets -> In (K', i) sets -> K = K';
    au_key : forall K i j, In (K, i) sets -> In (K, j) sets -> i = j;
    au_reach : forall K i, In (K, i) sets -> reachK g cfuel K;
    au_root : In ([root_item g], 0) sets;
    au_closed : forall K i, In (K, i) sets -> exists C, lr0_closure cfuel g K = Ret C }.

  (** What the entries of the table stand for. *)
  Definition entry_ok (sets : list (list item * N)) (C : list item) (X : N) (v : action) : Prop :=
    match v with
    | ABool false => True
    | ABool true => X = TokenEnd /\ exists it, In it C /\ at_end g it = true /\ i_prod it = g_root g
    | AShift j => goto_kernel g C X <> [] /\ In (goto_kernel g C X, j) sets
    | AReduce p => exists it, In it C /\ at_end g it = true /\ i_prod it = p /\ p <> g_root g
    end.
  Definition table_ok (sets : list (list item * N)) (t : table) : Prop :=
    forall i row, row_of t i = Some row -> exists K C, knows sets i K C /\
      forall X, entry_ok sets C X (act_at row X).

  Lemma lr0_automaton a : lr0_kernels fuel cfuel g = Ret a -> automaton (k_sets a).
  Proof.
    intros H. apply lr0_kernels_spec in H. destruct H as (A1 & A2 & A3 & A4 & A5 & A6 & A7 & A8).
    constructor; auto. intros K i j. now apply key_unique.
  Qed.

  Lemma kernels_valid sets K i : automaton sets -> In (K, i) sets ->
    (forall x, In x K -> valid_item g x /\ i_la x = cNullSymbol) /\
    (K = [root_item g] \/ forall x, In x K -> i_dot x <> 0).
  Proof. intros Ha HK. apply (reachK_items g cfuel root_lt). now apply (au_reach _ Ha K i). Qed.

  Lemma root_of sets root sets1 nul fs m : automaton sets ->
    lr1_sets cfuel g nul fs m sets [] None = Ret (sets1, root) -> root = Some 0.
  Proof.
    intros Ha H. apply lr1_sets_spec in H. destruct H as (_ & _ & _ & _ & F).
    destruct F as [[_ F] | (K & i & H1 & H2 & ->)].
    - specialize (F _ _ (au_root _ Ha)). cbn in F. unfold is_root in F. cbn in F.
      rewrite N.eqb_refl in F. easy.
    - destruct (kernels_valid sets K i Ha H1) as [_ [-> | Hd]].
      + f_equal. eapply au_key; eauto. now apply au_root.
      + apply existsb_exists in H2. destruct H2 as (x & Hx & E). unfold is_root in E.
        apply andb_true_iff in E. destruct E as [_ E]. apply N.eqb_eq in E. now apply Hd in Hx.
  Qed.

  Lemma parts_table t root sets1 gt a nul fs sp m :
    parts fuel cfuel g sets1 gt root a nul fs sp m -> all_actions g sets1 gt sets1 = Ret t ->
    automaton (k_sets a) /\ table_ok (k_sets a) t /\ root = Some 0.
  Proof.
    intros P Ht.
    pose proof (lr0_automaton a (pt_lr0 _ _ _ _ _ _ _ _ _ _ _ P)) as Ha.
    split; [easy|]. split; [|eapply root_of; eauto using pt_sets].
    pose proof (lr0_kernels_spec _ _ _ _ (pt_lr0 _ _ _ _ _ _ _ _ _ _ _ P)) as (_ & _ & _ & _ & A5 & _).
    pose proof (lr1_sets_spec _ _ _ _ _ _ _ _ _ _ (pt_sets _ _ _ _ _ _ _ _ _ _ _ P)) as (B & _).
    apply all_actions_spec in Ht. destruct Ht as [Ht _].
    intros i row Hrow. destruct (Ht i row Hrow) as (K1 & v & Hin & Hi & [Hfrom _]).
    destruct (B K1 v Hin) as [[] | (K & i' & HK & E1 & E2 & E3)].
    rewrite Hi in E2. subst i'. destruct (au_closed _ Ha K i HK) as (C & HC).
    exists K, C. split; [now split|]. intros X. specialize (Hfrom X).
    assert (Hproj : forall x, In x (s_closure v) -> In (strip x) C).
    { eapply closure_project; [exact HC|exact E3|]. intros x Hx. rewrite E1 in Hx.
      apply lr1_kernel_in in Hx. destruct Hx as (y & Hy & P1 & P2 & _).
      replace (strip x) with y; [easy|]. destruct (kernels_valid _ K i Ha HK) as [Hv _].
      destruct (Hv y Hy) as [_ Hl]. destruct y, x. unfold strip. cbn in *. congruence. }
    destruct (act_at row X) as [[|]|j|p]; cbn in *.
    - destruct Hfrom as (-> & it & Hit & [Q1 Q2]). split; [easy|]. exists (strip it). auto.
    - easy.
    - destruct Hfrom as (Hn & it & Hit & Q1 & Q2 & _). unfold next_of in Hn.
      destruct (goto_at gt i X) as [j'|] eqn:Eg; [|easy].
      destruct (existsb _ sets1); [|easy]. injection Hn as ->.
      rewrite (pt_gt _ _ _ _ _ _ _ _ _ _ _ P) in Eg. apply A5 in Eg.
      destruct Eg as (K' & C' & R1 & R2 & R3 & R4).
      assert (K' = K) as -> by (eapply au_inj; eauto). rewrite HC in R2. injection R2 as <-. easy.
    - destruct Hfrom as (it & Hit & (Q1 & Q2 & Q3) & Q4). exists (strip it). cbn. subst p. auto.
  Qed.

  Theorem generate_table t root : generate fuel cfuel g = Ret (t, root) ->
    exists sets, automaton sets /\ table_ok sets t /\ root = Some 0.
  Proof.
    intros H. apply generate_parts in H. destruct H as (sets1 & gt & Hs & Ht).
    apply item_sets_parts in Hs. destruct Hs as (a & nul & fs & sp & m & P).
    exists (k_sets a). now apply (parts_table t root sets1 gt a nul fs sp m).
  Qed.

  (** ** Stacks. *)
  Section Stack.
    Context {tok A : Type}.
    Variables (types : tok -> list N) (sets : list (list item * N)).
    Hypothesis Ha : automaton sets.
    Notation sym := (root_sym (g_prods g)).

    Inductive stk : list N -> list (tree tok) -> Prop :=
    | stk_nil : stk [0] []
    | stk_cons : forall s ss ts K C tr j, stk (s :: ss) ts -> knows sets s K C ->
        goto_kernel g C (sym tr) <> [] -> In (goto_kernel g C (sym tr), j) sets ->
        well_formed types g tr -> stk (j :: s :: ss) (tr :: ts).

    (** Behind an item lie the symbols of its body before the dot. *)
    Lemma stk_back d : forall s ss ts K C it, stk (s :: ss) ts -> knows sets s K C -> In it C ->
      N.to_nat (i_dot it) = d ->
      exists s' ss' K' C', skipn d (s :: ss) = s' :: ss' /\ knows sets s' K' C' /\
        stk (s' :: ss') (skipn d ts) /\ (d <= length ts)%nat /\
        In (mkItem (i_prod it) 0 cNullSymbol) C' /\
        map sym (rev (firstn d ts)) = firstn d (body_at g (i_prod it)).
    Proof.
      induction d as [|d IH]; intros s ss ts K C it Hs HK Hit Hd.
      - exists s, ss, K, C. cbn. split; [easy|]. split; [easy|]. split; [easy|]. split; [lia|]. split; [|easy].
        destruct HK as [HK HC]. destruct (kernels_valid _ _ _ Ha HK) as [Hv _].
        destruct (closure_items g cfuel root_lt K C it HC Hv Hit) as (_ & Hl & _).
        destruct it as [p dd la]. cbn in *. assert (dd = 0) as -> by lia. now subst la.
      - pose proof HK as HK0. destruct HK as [HK HC].
        destruct (kernels_valid _ _ _ Ha HK) as [Hv Hdot].
        destruct (closure_items g cfuel root_lt K C it HC Hv Hit) as ([V1 V2] & Hl & [Hin | (E0 & _)]); [|lia].
        destruct Hdot as [-> | Hdot].
        { destruct Hin as [<- | []]. cbn in Hd. lia. }
        inversion Hs as [E1 E2 | s1 ss1 ts1 K1 C1 tr j Hs1 HK1 Hne Hj Htr E1 E2]; subst.
        { exfalso. assert (K = [root_item g]) as -> by (eapply au_inj; [exact Ha|exact HK|apply (au_root _ Ha)]).
          apply (Hdot (root_item g)); [now left|easy]. }
        assert (K = goto_kernel g C1 (sym tr)) as -> by (eapply au_inj; eauto).
        apply goto_kernel_in in Hin. destruct Hin as (it' & Hit' & Hend & Hnext & ->).
        cbn [i_prod i_dot advance] in *.
        destruct (IH s1 ss1 ts1 K1 C1 it' Hs1 HK1 Hit' ltac:(lia)) as (s' & ss' & K' & C' & R1 & R2 & R3 & R4 & R5 & R6).
        exists s', ss', K', C'. cbn [skipn firstn length]. split; [easy|]. split; [easy|]. split; [easy|].
        split; [lia|]. split; [easy|].
        cbn [rev]. rewrite map_app, R6. cbn [map].
        assert (Hlt : (d < length (body_at g (i_prod it')))%nat) by lia.
        rewrite <- Hnext. unfold next_symbol. replace (N.to_nat (i_dot it')) with d by lia.
        generalize (body_at g (i_prod it')) Hlt. clear. intros l. revert l.
        induction d as [|d IHd]; intros [|x l] Hlt; cbn in *; try lia; [easy|]. f_equal. apply IHd. lia.
    Qed.
    Lemma stk_knows s ss ts : stk (s :: ss) ts -> exists K C, knows sets s K C.
    Proof.
      intros H. inversion H as [E1 E2 | s1 ss1 ts1 K1 C1 tr j Hs1 HK1 Hne Hj Htr E1 E2]; subst.
      - destruct (au_closed _ Ha _ _ (au_root _ Ha)) as (C & HC). exists [root_item g], C.
        split; [apply au_root, Ha|easy].
      - destruct (au_closed _ Ha _ _ Hj) as (C & HC). eexists _, C. split; eauto.
    Qed.
    Lemma stk_zero ss ts : stk (0 :: ss) ts -> ss = [] /\ ts = [].
    Proof.
      intros H. inversion H as [E1 E2 | s1 ss1 ts1 K1 C1 tr j Hs1 HK1 Hne Hj Htr E1 E2]; subst; [easy|].
      exfalso. assert (E : goto_kernel g C1 (sym tr) = [root_item g])
        by (eapply au_inj; [exact Ha|exact Hj|apply (au_root _ Ha)]).
      assert (Hin : In (root_item g) (goto_kernel g C1 (sym tr))) by (rewrite E; now left).
      apply goto_kernel_in in Hin. destruct Hin as (x & _ & _ & _ & Ex).
      apply (f_equal i_dot) in Ex. cbn in Ex. lia.
    Qed.
    Lemma knows_inj s K C K' C' : knows sets s K C -> knows sets s K' C' -> K = K' /\ C = C'.
    Proof.
      intros [A1 A2] [B1 B2]. assert (K = K') as <- by (eapply au_inj; eauto). split; [easy|]. congruence.
    Qed.

    (** A completed item: its whole body lies on the stack. *)
    Lemma stk_complete s ss ts K C it : stk (s :: ss) ts -> knows sets s K C -> In it C ->
      at_end g it = true ->
      let d := length (body_at g (i_prod it)) in
      exists s' ss' K' C', skipn d (s :: ss) = s' :: ss' /\ knows sets s' K' C' /\
        stk (s' :: ss') (skipn d ts) /\ (d <= length ts)%nat /\
        In (mkItem (i_prod it) 0 cNullSymbol) C' /\ valid_item g it /\
        map sym (rev (firstn d ts)) = body_at g (i_prod it).
    Proof.
      intros Hs HK Hit He d. unfold at_end in He. apply N.eqb_eq in He.
      destruct (stk_back d s ss ts K C it Hs HK Hit) as (s' & ss' & K' & C' & R1 & R2 & R3 & R4 & R5 & R6);
        [unfold d; lia|].
      exists s', ss', K', C'. split; [easy|]. split; [easy|]. split; [easy|]. split; [easy|]. split; [easy|].
      split; [|rewrite R6; apply firstn_all].
      destruct HK as [HK HC]. destruct (kernels_valid _ _ _ Ha HK) as [Hv _].
      now destruct (closure_items g cfuel root_lt K C it HC Hv Hit).
    Qed.
    (** A completed root item: the stack holds one tree, of the start symbol. *)
    Lemma stk_accept s ss ts K C it : stk (s :: ss) ts -> knows sets s K C -> In it C ->
      at_end g it = true -> i_prod it = g_root g ->
      exists tr, ts = [tr] /\ ss = [0] /\ sym tr = start /\ well_formed types g tr.
    Proof.
      intros Hs HK Hit He Hr.
      destruct (stk_complete s ss ts K C it Hs HK Hit He) as (s' & ss' & K' & C' & R1 & R2 & R3 & R4 & R5 & R6 & R7).
      destruct root_prod as (h & Eh & Hh). unfold body_at in *. rewrite Hr, Eh in *. cbn in R1, R3, R4, R7.
      assert (Hz : s' = 0).
      { pose proof R2 as [HK' HC']. destruct (kernels_valid _ _ _ Ha HK') as [Hv Hdot].
        destruct (closure_items g cfuel root_lt K' C' _ HC' Hv R5) as (_ & _ & [Hin | (_ & it' & Hi' & He' & _ & Hn)]).
        - destruct Hdot as [-> | Hdot]; [|exfalso; now apply (Hdot _ Hin)].
          eapply au_key; [exact Ha|exact HK'|apply (au_root _ Ha)].
        - exfalso. cbn in Hn. rewrite Eh in Hn. cbn in Hn.
          destruct (closure_items g cfuel root_lt K' C' _ HC' Hv Hi') as (Vi & _).
          apply (Hh (prod_at g (i_prod it'))); [apply prod_in, Vi|]. rewrite Hn. now apply next_in_body. }
      subst s'. apply stk_zero in R3. destruct R3 as [-> R3].
      destruct ts as [|tr ts]; [cbn in R4; lia|]. cbn in R3, R7. subst ts. cbn in R7. injection R7 as R7.
      exists tr. split; [easy|]. split; [easy|]. split; [easy|]. inversion Hs; subst. easy.
    Qed.
  End Stack.
End Sound.
