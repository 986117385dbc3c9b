(** LrLookahead.v -- the lookaheads of generate are large enough: the table follows every LR(1) item. *)
From Verif Require Import Base OrdSet GrammarSpec FirstModel FirstProofs LrModel LrSets LrTable ParseSpec
  LrDriver LrSound.

(** ** FIRST sets, for every fuel that is enough. *)
Lemma first_loop_mono ps fuel : forall nul fs r k, first_loop fuel ps nul fs = Ret r ->
  first_loop (fuel + k) ps nul fs = Ret r.
Proof.
  induction fuel as [|fuel IH]; intros nul fs r k; cbn [first_loop Nat.add]; [easy|].
  destruct (f_changed _); auto.
Qed.
Lemma first_sets_ret fuel g nul fs : first_sets fuel g = Ret (nul, fs) ->
  (forall X, In X nul <-> vanishes g X) /\ (forall X t, In t (fref fs X) <-> begins g X t) /\ sortedN nul.
Proof.
  intros H. unfold first_sets in H.
  pose proof (first_loop_mono _ _ _ _ _ (S (length (g_prods g) * S (length (g_terms g)))) H) as H'.
  destruct (first_sets_exact g (fuel + S (length (g_prods g) * S (length (g_terms g))))) as (nul' & fs' & E & S1 & S2 & S3);
    [lia|].
  unfold first_sets in E. rewrite H' in E. injection E as <- <-. split; [easy|]. split; [easy|]. apply S1.
Qed.

Lemma skipn_In {B} n (l : list B) x : In x (skipn n l) -> In x l.
Proof. intros H. rewrite <- (firstn_skipn n l). apply in_or_app. now right. Qed.
Lemma fget_fref fs s f : fget fs s = Some f -> fref fs s = f.
Proof. unfold fref. now intros ->. Qed.

Lemma lookaheads_la nul fs rest : forall la1 la2 l1 l2,
  lookaheads nul fs rest la1 = Ret l1 -> lookaheads nul fs rest la2 = Ret l2 ->
  forall y, In y l1 -> (In y l2 /\ exists s, In y (fref fs s)) \/ (y = la1 /\ In la2 l2).
Proof.
  induction rest as [|s r IH]; intros la1 la2 l1 l2; cbn.
  - intros [= <-] [= <-] y [<- | []]. right. cbn. auto.
  - destruct (fget fs s) as [f|] eqn:Ef; [|easy]. apply fget_fref in Ef.
    destruct (omem N.compare s nul).
    + intros H1 H2. apply bind_inv in H1, H2. destruct H1 as (a1 & E1 & H1), H2 as (a2 & E2 & H2).
      injection H1 as <-. injection H2 as <-. intros y Hy. apply in_app_or in Hy. destruct Hy as [Hy | Hy].
      * left. split; [apply in_or_app; now left|]. exists s. now rewrite Ef.
      * destruct (IH _ _ _ _ E1 E2 y Hy) as [[H3 H4] | [H3 H4]].
        -- left. split; [apply in_or_app; now right|easy].
        -- right. split; [easy|apply in_or_app; now right].
    + intros [= <-] [= <-] y Hy. left. split; [easy|]. exists s. now rewrite Ef.
Qed.

(** The first token of a sequence of trees, and what follows it, is among the lookaheads. *)
Section FirstOfTrees.
  Context {tok : Type} (types : tok -> list N) (g : grammar) (nul : list N) (fs : fmap).
  Hypothesis Hnul : forall X, In X nul <-> vanishes g X.
  Hypothesis Hfs : forall X t, In t (fref fs X) <-> begins g X t.
  Hypothesis Hsort : sortedN nul.

  Lemma yield_terms (tr : tree tok) : well_formed types g tr -> forall t X, In (t, X) (yield tr) -> 
    In X (g_terms g) /\ In X (types t).
  Proof.
    induction tr as [t0 X0 | p ts IH] using tree_ind'; intros H t X Hin; inversion H; subst.
    - destruct Hin as [[= <- <-] | []]. auto.
    - cbn in Hin. apply in_flat_map in Hin. destruct Hin as (x & Hx & Hin).
      rewrite Forall_forall in *. eauto.
  Qed.
  Lemma lookaheads_trees rest : forall ts la l, lookaheads nul fs rest la = Ret l ->
    map (root_sym (g_prods g)) ts = rest -> Forall (well_formed types g) ts ->
    match flat_map yield ts with
    | [] => In la l
    | (_, X) :: _ => In X l
    end.
  Proof.
    induction rest as [|s r IH]; intros ts la l; cbn.
    - intros [= <-] E _. destruct ts; [|easy]. cbn. auto.
    - destruct (fget fs s) as [f|] eqn:Ef; [|easy]. apply fget_fref in Ef. intros H E Hts.
      destruct ts as [|x ts]; [easy|]. injection E as E1 E2. inversion Hts as [|? ? Hx Hts']; subst.
      pose proof (tree_derives types g x Hx) as Hd. cbn [flat_map].
      destruct (yield x) as [|[tk X] w] eqn:Ey.
      + cbn in *. apply Hnul in Hd. apply (proj2 (omemN _ _ Hsort)) in Hd. rewrite Hd in H.
        apply bind_inv in H. destruct H as (l' & E & H). injection H as <-.
        specialize (IH ts la l' E eq_refl Hts'). destruct (flat_map yield ts) as [|[? ?] ?];
          apply in_or_app; now right.
      + cbn in *. assert (Hb : begins g (root_sym (g_prods g) x) X).
        { split; [|eexists; exact Hd]. eapply yield_terms; [exact Hx|]. rewrite Ey. now left. }
        apply Hfs in Hb. destruct (omem N.compare _ nul).
        * apply bind_inv in H. destruct H as (l' & E & H). injection H as <-. apply in_or_app. now left.
        * injection H as <-. exact Hb.
  Qed.
  Lemma lookaheads_some rest : forall la l, lookaheads nul fs rest la = Ret l ->
    (forall s, In s rest -> In s (g_terms g) \/
       exists w, derives (g_prods g) [s] w /\ forall t, In t w -> In t (g_terms g)) ->
    exists y, In y l.
  Proof.
    induction rest as [|s r IH]; intros la l; cbn; [intros [= <-]; exists la; now left|].
    destruct (fget fs s) as [f|] eqn:Ef; [|easy]. apply fget_fref in Ef. intros H Hp.
    destruct (omem N.compare s nul) eqn:Em.
    - apply bind_inv in H. destruct H as (l' & E & H). injection H as <-.
      destruct (IH la l' E) as (y & Hy); [intros; apply Hp; now right|]. exists y. apply in_or_app. now right.
    - injection H as <-. apply (proj1 (omemNf _ _ Hsort)) in Em.
      assert (Hb : exists t, begins g s t).
      { destruct (Hp s ltac:(now left)) as [Ht | (w & Hd & Hw)].
        - exists s. split; [easy|]. exists []. constructor.
        - destruct w as [|t w]; [exfalso; apply Em; now apply Hnul|].
          exists t. split; [apply Hw; now left|]. now exists w. }
      destruct Hb as (t & Hb). exists t. apply Hfs in Hb. now rewrite Ef in Hb.
  Qed.
End FirstOfTrees.

(** ** The sets built by generate. *)
Lemma lr1_sets_all cfuel g nul fs m sets : forall acc root r,
  lr1_sets cfuel g nul fs m sets acc root = Ret r ->
  forall K i, In (K, i) sets -> exists C, lr1_closure cfuel g nul fs (lr1_kernel m K) = Ret C.
Proof.
  induction sets as [|[K i] sets IH]; intros acc root r; cbn [lr1_sets]; [easy|].
  destruct (lr1_closure cfuel g nul fs (lr1_kernel m K)) as [C| | |] eqn:E; cbn [bind]; try easy.
  intros H K' i' [[= <- <-] | Hin]; eauto.
Qed.

Section Lookahead.
  Variables (fuel cfuel : nat) (g : grammar) (start : N).
  Hypothesis Hwf : wf_grammar g start.
  Variables (sets : list (list item * lr1set)) (gt : gtab) (root : option N)
    (a : lr0) (nul : list N) (fs : fmap) (sp : fmap * pmap) (m : lmap).
  Hypothesis P : parts fuel cfuel g sets gt root a nul fs sp m.
  Notation sets0 := (k_sets a).

  Lemma la_auto : automaton cfuel g sets0.
  Proof. eapply lr0_automaton. apply (pt_lr0 _ _ _ _ _ _ _ _ _ _ _ P). Qed.
  Lemma la_first : (forall X, In X nul <-> vanishes g X) /\ (forall X t, In t (fref fs X) <-> begins g X t) /\ sortedN nul.
  Proof. eapply first_sets_ret. apply (pt_first _ _ _ _ _ _ _ _ _ _ _ P). Qed.
  Lemma first_small s y : In y (fref fs s) -> y <> cNullSymbol.
  Proof.
    intros H. apply (proj1 (proj2 la_first)) in H. destruct H as [H _].
    pose proof (wg_ids _ _ Hwf y (or_introl H)). pose proof (wg_null _ _ Hwf). unfold cNullSymbol. lia.
  Qed.

  Definition has (i : N) (x : item) : Prop :=
    exists K C1, In (K, i) sets0 /\ lr1_closure cfuel g nul fs (lr1_kernel m K) = Ret C1 /\ In x C1.

  Lemma in_its K i k : In (K, i) sets0 -> In k K -> In k (flat_map fst sets0).
  Proof. intros H Hk. apply in_flat_map. exists (K, i). auto. Qed.
  Lemma kernel_la K i k : In (K, i) sets0 -> In k K -> valid_item g k /\ i_la k = cNullSymbol.
  Proof. intros H Hk. apply (kernels_valid cfuel g start Hwf _ K i la_auto H). easy. Qed.
  Lemma self_strip k : i_la k = cNullSymbol -> strip k = k.
  Proof. destruct k; cbn. now intros ->. Qed.

  Lemma decompose K i C1 x : In (K, i) sets0 -> lr1_closure cfuel g nul fs (lr1_kernel m K) = Ret C1 ->
    In x C1 -> exists k Ck, In k K /\ lr1_closure cfuel g nul fs [k] = Ret Ck /\
      ((In (strip x) Ck /\ In (i_la x) (aget m k)) \/ (In x Ck /\ i_la x <> cNullSymbol)).
  Proof.
    intros HK HC. apply close_spec in HC. destruct HC as (_ & _ & _ & E). revert x. apply E.
    - intros x Hx. apply lr1_kernel_in in Hx. destruct Hx as (k & Hk & E1 & E2 & Hl).
      pose proof (spread_spec _ _ _ _ _ _ _ (pt_spread _ _ _ _ _ _ _ _ _ _ _ P)) as [_ Hs].
      destruct (Hs k (in_its K i k HK Hk)) as (Ck & HCk & _). exists k, Ck. split; [easy|]. split; [easy|].
      left. split; [|easy]. apply close_spec in HCk. destruct HCk as (_ & B & _).
      replace (strip x) with k; [apply B; now left|]. destruct (kernel_la K i k HK Hk) as [_ L].
      destruct k, x. unfold strip. cbn in *. congruence.
    - intros x l y (k & Ck & Hk & HCk & Hx) Hl Hy. exists k, Ck. split; [easy|]. split; [easy|].
      pose proof HCk as HC'. apply close_spec in HC'. destruct HC' as (_ & _ & Cl & _).
      destruct (lr1_succ_in _ _ _ _ _ _ Hl Hy) as (S1 & S2 & S3 & S4 & las & S5 & S6).
      destruct Hx as [[Hx Hm] | [Hx Hm]].
      + destruct (Cl _ Hx) as (l' & Hl' & Hin).
        destruct (lr1_succ_out _ _ _ _ _ Hl' ltac:(now rewrite at_end_strip) ltac:(now rewrite next_strip))
          as (las' & S5' & Hout). cbn [strip i_dot i_prod i_la] in S5'.
        destruct (lookaheads_la _ _ _ _ _ _ _ S5 S5' _ S6) as [[L1 (s & L2)] | [L1 L2]].
        * right. split; [|eapply first_small; eauto]. apply Hin.
          specialize (Hout (i_prod y) (i_la y) S4 L1). destruct y. cbn in *. subst. exact Hout.
        * left. split; [|now rewrite L1]. apply Hin.
          specialize (Hout (i_prod y) cNullSymbol S4 L2). unfold strip. rewrite S3. exact Hout.
      + destruct (Cl _ Hx) as (l' & Hl' & Hin). rewrite Hl in Hl'. injection Hl' as <-.
        right. split; [now apply Hin|].
        destruct (lookaheads_la _ _ _ _ _ _ _ S5 S5 _ S6) as [[L1 (s & L2)] | [L1 L2]].
        * eapply first_small; eauto.
        * now rewrite L1.
  Qed.

  (** An LR(1) item lies over an LR(0) item. *)
  Lemma project K i C C1 x : In (K, i) sets0 -> lr0_closure cfuel g K = Ret C ->
    lr1_closure cfuel g nul fs (lr1_kernel m K) = Ret C1 -> In x C1 -> In (strip x) C.
  Proof.
    intros HK HC HC1. revert x. eapply closure_project; [exact HC|exact HC1|].
    intros x Hx. apply lr1_kernel_in in Hx. destruct Hx as (k & Hk & E1 & E2 & _).
    replace (strip x) with k; [easy|]. destruct (kernel_la K i k HK Hk) as [_ L].
    destruct k, x. unfold strip. cbn in *. congruence.
  Qed.
  Lemma next_sym K i C x : In (K, i) sets0 -> lr0_closure cfuel g K = Ret C -> In x C ->
    at_end g x = false -> (In (next_symbol g x) (g_terms g) \/ In (next_symbol g x) (g_nts g)) /\
      next_symbol g x <> TokenEnd.
  Proof.
    intros HK HC Hx He. destruct (kernels_valid cfuel g start Hwf _ _ _ la_auto HK) as [Hv _].
    destruct (closure_items g cfuel (root_lt g start Hwf) K C x HC Hv Hx) as (Vi & _).
    apply (wg_body _ _ Hwf (prod_at g (i_prod x))); [apply prod_in, Vi|now apply next_in_body].
  Qed.

  (** Lookaheads follow the dot. *)
  Lemma goto_la K i C C1 x : In (K, i) sets0 -> lr0_closure cfuel g K = Ret C ->
    lr1_closure cfuel g nul fs (lr1_kernel m K) = Ret C1 -> In x C1 -> at_end g x = false ->
    exists j, goto_at gt i (next_symbol g x) = Some j /\ In (goto_kernel g C (next_symbol g x), j) sets0 /\
      In (advance x) (lr1_kernel m (goto_kernel g C (next_symbol g x))).
  Proof.
    intros HK HC HC1 Hx He.
    pose proof (project K i C C1 x HK HC HC1 Hx) as Hsx.
    destruct (next_sym K i C (strip x) HK HC Hsx He) as [Hsym _]. rewrite next_strip in Hsym.
    set (X := next_symbol g x) in *.
    assert (Hk : In (advance (strip x)) (goto_kernel g C X)).
    { apply goto_kernel_in. exists (strip x). auto. }
    pose proof (lr0_kernels_spec _ _ _ _ (pt_lr0 _ _ _ _ _ _ _ _ _ _ _ P)) as (_ & _ & _ & _ & _ & A6 & _).
    destruct (A6 K i C X HK HC) as (j & Hg & Hj); [now apply in_or_app|intros E; rewrite E in Hk; easy|].
    exists j. split; [now rewrite (pt_gt _ _ _ _ _ _ _ _ _ _ _ P)|]. split; [easy|].
    apply lr1_kernel_in. exists (advance (strip x)). split; [easy|]. split; [easy|]. split; [easy|].
    cbn [advance i_la].
    pose proof (la_loop_spec _ _ _ _ (proj1 (la_start_spec g (fst sp) (flat_map fst sets0)))
                  (pt_la _ _ _ _ _ _ _ _ _ _ _ P)) as (_ & L2 & L3).
    pose proof (la_start_spec g (fst sp) (flat_map fst sets0)) as [_ Hst].
    destruct (decompose K i C1 x HK HC1 Hx) as (k & Ck & Hkk & HCk & Hcase).
    pose proof (spread_spec _ _ _ _ _ _ _ (pt_spread _ _ _ _ _ _ _ _ _ _ _ P)) as [_ Hspr].
    destruct (Hspr k (in_its K i k HK Hkk)) as (Ck' & HCk' & Hcov).
    rewrite HCk in HCk'. injection HCk' as <-.
    destruct Hcase as [[Hin Hl] | [Hin Hl]].
    - destruct (Hcov _ Hin) as [_ Hc]. apply (L3 k); [|easy]. apply Hc; [easy|easy|].
      destruct (kernels_valid cfuel g start Hwf _ _ _ la_auto HK) as [Hv _].
      destruct (closure_items g cfuel (root_lt g start Hwf) K C _ HC Hv Hsx) as ([_ V] & _). exact V.
    - destruct (Hcov _ Hin) as [Hc _]. apply L2.
      apply (proj1 (Hst (advance (strip x)) (in_its _ j _ Hj Hk))). now apply Hc.
  Qed.

  Lemma root_la : In TokenEnd (aget m (root_item g)).
  Proof.
    pose proof (la_loop_spec _ _ _ _ (proj1 (la_start_spec g (fst sp) (flat_map fst sets0)))
                  (pt_la _ _ _ _ _ _ _ _ _ _ _ P)) as (_ & L2 & _).
    pose proof (la_start_spec g (fst sp) (flat_map fst sets0)) as [_ Hst]. apply L2.
    apply (Hst (root_item g)); [|easy]. apply (in_its [root_item g] 0); [apply (au_root _ _ _ la_auto)|now left].
  Qed.

  (** ** In a productive grammar every item has a lookahead, and so no two sets coincide. *)
  Hypothesis Hprod : productive g.

  Lemma over K i C C1 : In (K, i) sets0 -> lr0_closure cfuel g K = Ret C ->
    lr1_closure cfuel g nul fs (lr1_kernel m K) = Ret C1 ->
    (forall k, In k K -> exists la, In la (aget m k)) ->
    forall x, In x C -> exists la, In (mkItem (i_prod x) (i_dot x) la) C1.
  Proof.
    intros HK HC HC1 Hne. pose proof HC as HC'. apply close_spec in HC'. destruct HC' as (_ & B0 & D0 & E).
    assert (G : forall x, In x C -> In x C /\ exists la, In (mkItem (i_prod x) (i_dot x) la) C1);
      [|intros x Hx; now apply G].
    apply close_spec in HC1. destruct HC1 as (_ & B1 & D1 & _). apply E.
    - intros x Hx. split; [auto|]. destruct (Hne x Hx) as (la & Hla). exists la. apply B1.
      apply lr1_kernel_in. exists x. auto.
    - intros x l y [Hx (la & Hla)] Hl Hy. destruct (D0 x Hx) as (l0 & Hl0 & Hin0).
      rewrite Hl in Hl0. injection Hl0 as <-. split; [auto|].
      destruct (lr0_succ_in _ _ _ _ Hl Hy) as (S1 & S2 & S3 & S4 & S5 & S6).
      destruct (D1 _ Hla) as (l1 & Hl1 & Hin1).
      destruct (lr1_succ_out _ _ _ _ _ Hl1 S1 S2) as (las & Hlas & Hout). cbn [i_prod i_dot i_la] in *.
      destruct (lookaheads_some g nul fs (proj1 la_first) (proj1 (proj2 la_first)) (proj2 (proj2 la_first)) _ _ _ Hlas) as (la' & Hla').
      + intros s Hs. apply (skipn_In _ _ _) in Hs. 
        destruct (kernels_valid cfuel g start Hwf _ _ _ la_auto HK) as [Hv _].
        destruct (closure_items g cfuel (root_lt g start Hwf) K C x HC Hv Hx) as (Vi & _).
        destruct (wg_body _ _ Hwf (prod_at g (i_prod x)) s (proj2 (prod_in g _ (proj1 Vi))) Hs) as [[H | H] _]; [now left|].
        right. now apply Hprod.
      + exists la'. rewrite S3. apply Hin1. apply Hout; [|easy]. apply prods_of_spec. auto.
  Qed.

  Lemma nonempty K : reachK g cfuel K -> (exists i, In (K, i) sets0) /\
    forall k, In k K -> exists la, In la (aget m k).
  Proof.
    intros H. induction H as [|K C X HK [(i & Hi) IH] HC Hn].
    - split; [exists 0; apply (au_root _ _ _ la_auto)|]. intros k [<- | []]. exists TokenEnd. apply root_la.
    - destruct (lr1_sets_all _ _ _ _ _ _ _ _ _ (pt_sets _ _ _ _ _ _ _ _ _ _ _ P) K i Hi) as (C1 & HC1).
      assert (G : forall k, In k (goto_kernel g C X) -> (exists i, In (goto_kernel g C X, i) sets0) /\
                  exists la, In la (aget m k)).
      { intros k Hk. apply goto_kernel_in in Hk. destruct Hk as (x & Hx & He & <- & ->).
        destruct (over K i C C1 Hi HC HC1 IH x Hx) as (la & Hla).
        destruct (goto_la K i C C1 _ Hi HC HC1 Hla He) as (j & _ & Hj & Hin).
        cbn [next_symbol i_dot i_prod] in Hj, Hin.
        change (next_symbol g (mkItem (i_prod x) (i_dot x) la)) with (next_symbol g x) in *.
        split; [now exists j|]. apply lr1_kernel_in in Hin. destruct Hin as (y & Hy & E1 & E2 & Hl).
        cbn in E1, E2, Hl. exists la. replace (advance x) with y; [easy|].
        destruct (kernel_la _ _ _ Hj Hy) as [_ Ly].
        destruct (kernels_valid cfuel g start Hwf _ _ _ la_auto Hi) as [Hv _].
        destruct (closure_items g cfuel (root_lt g start Hwf) K C x HC Hv Hx) as (_ & Lx & _).
        destruct x, y. cbn in *. unfold advance. cbn. congruence. }
      split; [|intros k Hk; now apply G].
      destruct (goto_kernel g C X) as [|k r] eqn:E; [easy|]. apply (G k). now left.
  Qed.
  Lemma reach_sorted K : reachK g cfuel K -> sortedI K.
  Proof.
    intros H. destruct H; [constructor; [constructor|intros ? []]|]. apply sorted_osetI.
  Qed.
  Lemma kernels_differ K K' i i' : In (K, i) sets0 -> In (K', i') sets0 ->
    lr1_kernel m K = lr1_kernel m K' -> K = K' /\ i = i'.
  Proof.
    intros H H' E.
    assert (G : forall K K' i i', In (K, i) sets0 -> In (K', i') sets0 -> lr1_kernel m K = lr1_kernel m K' ->
                forall k, In k K -> In k K').
    { clear K K' i i' H H' E. intros K K' i i' H H' E k Hk.
      destruct (nonempty K (au_reach _ _ _ la_auto K i H)) as [_ Hne]. destruct (Hne k Hk) as (la & Hla).
      assert (Hin : In (mkItem (i_prod k) (i_dot k) la) (lr1_kernel m K'))
        by (rewrite <- E; apply lr1_kernel_in; exists k; auto).
      apply lr1_kernel_in in Hin. destruct Hin as (k' & Hk' & E1 & E2 & _). cbn in *.
      destruct (kernel_la K i k H Hk) as [_ L1]. destruct (kernel_la K' i' k' H' Hk') as [_ L2].
      replace k with k'; [easy|]. destruct k, k'. cbn in *. congruence. }
    assert (K = K') as <-.
    { apply (osorted_ext icmp icmp_eq icmp_trans).
      - eapply reach_sorted, (au_reach _ _ _ la_auto); eauto.
      - eapply reach_sorted, (au_reach _ _ _ la_auto); eauto.
      - intros x. split; [eapply G; eauto|eapply G; eauto]. }
    split; [easy|]. eapply (au_key _ _ _ la_auto); eauto.
  Qed.

  (** ** Rows. *)
  Variable t : table.
  Hypothesis Hall : all_actions g sets gt sets = Ret t.

  Lemma row_exists K i : In (K, i) sets0 -> exists row C1, row_of t i = Some row /\
    lr1_closure cfuel g nul fs (lr1_kernel m K) = Ret C1 /\ row_inv g sets gt i C1 row /\
    exists v, In (lr1_kernel m K, v) sets /\ s_closure v = C1.
  Proof.
    intros HK.
    pose proof (lr1_sets_spec _ _ _ _ _ _ _ _ _ _ (pt_sets _ _ _ _ _ _ _ _ _ _ _ P)) as (B1 & B2 & _).
    destruct (B2 K i HK) as (v & Hv & E1 & E2 & E3).
    { intros K' i' HK' E. symmetry. now apply (kernels_differ K K' i i'). }
    apply all_actions_spec in Hall. destruct Hall as [R1 R2].
    destruct (R2 _ _ Hv) as (row & Hrow). rewrite E2 in Hrow.
    destruct (R1 i row Hrow) as (K1' & v' & Hin' & Hi' & Hrinv).
    destruct (B1 _ _ Hin') as [[] | (K' & i' & HK' & F1 & F2 & F3)].
    assert (i' = i) as -> by congruence.
    assert (K' = K) as -> by (eapply (au_inj _ _ _ la_auto); eauto).
    exists row, (s_closure v'). rewrite <- F1. split; [easy|]. split; [easy|]. split; [easy|].
    exists v'. split; [easy|easy].
  Qed.

  (** ** What the table does for an item of a state. *)
  Theorem has_root : has 0 (mkItem (g_root g) 0 TokenEnd).
  Proof.
    destruct (row_exists _ _ (au_root _ _ _ la_auto)) as (row & C1 & _ & HC1 & _).
    exists [root_item g], C1. split; [apply (au_root _ _ _ la_auto)|]. split; [easy|].
    apply close_spec in HC1. apply HC1. apply lr1_kernel_in. exists (root_item g).
    split; [now left|]. split; [easy|]. split; [easy|]. apply root_la.
  Qed.
  Theorem has_closure i x q : has i x -> at_end g x = false -> In q (prods_of g (next_symbol g x)) ->
    exists las, lookaheads nul fs (skipn (S (N.to_nat (i_dot x))) (body_at g (i_prod x))) (i_la x) = Ret las /\
      forall la, In la las -> has i (mkItem q 0 la).
  Proof.
    intros (K & C1 & HK & HC1 & Hx) He Hq. pose proof HC1 as HC1'. apply close_spec in HC1'.
    destruct HC1' as (_ & _ & D & _). destruct (D x Hx) as (l & Hl & Hin).
    destruct (lr1_succ_out _ _ _ _ _ Hl He) as (las & Hlas & Hout).
    - destruct (is_token g (next_symbol g x)) eqn:E; [|easy]. apply is_token_iff in E. exfalso.
      apply prods_of_spec in Hq. destruct Hq as [Hq Eq].
      apply (wg_sep _ _ Hwf (next_symbol g x)); [|easy]. apply (wg_nts _ _ Hwf).
      exists (prod_at g q). split; [now apply prod_in|easy].
    - exists las. split; [easy|]. intros la Hla. exists K, C1. split; [easy|]. split; [easy|]. auto.
  Qed.
  Theorem has_shift i x : has i x -> at_end g x = false ->
    exists j, action_at g t i (next_symbol g x) = Ret (AShift j) /\ has j (advance x).
  Proof.
    intros (K & C1 & HK & HC1 & Hx) He.
    destruct (row_exists K i HK) as (row & C1' & Hrow & HC1' & [_ Hfor] & _).
    rewrite HC1 in HC1'. injection HC1' as <-.
    destruct (au_closed _ _ _ la_auto K i HK) as (C & HC).
    pose proof (project K i C C1 x HK HC HC1 Hx) as Hsx.
    destruct (next_sym K i C (strip x) HK HC Hsx He) as [Hsym Hne]. rewrite next_strip in Hsym, Hne.
    destruct (goto_la K i C C1 x HK HC HC1 Hx He) as (j & Hg & Hj & Hadv).
    destruct (Hfor x Hx) as (F1 & _ & _).
    destruct (F1 (next_symbol g x)) as (j' & Hn & Hact).
    { split; [easy|]. split; [easy|]. rewrite is_token_iff. exact Hsym. }
    unfold next_of in Hn. rewrite Hg in Hn. destruct (existsb _ sets); [|easy]. injection Hn as <-.
    exists j. split.
    - unfold action_at. rewrite Hrow. pose proof (wg_ids _ _ Hwf _ Hsym) as Hlt.
      destruct (N.leb_spec (g_nsym g) (next_symbol g x)); [lia|].
      destruct Hact as [-> | [E _]]; easy.
    - destruct (row_exists _ j Hj) as (row2 & C2 & _ & HC2 & _).
      exists (goto_kernel g C (next_symbol g x)), C2. split; [easy|]. split; [easy|].
      apply close_spec in HC2. now apply HC2.
  Qed.

  (** No state both accepts and reduces at the end of the input. *)
  Hypothesis Hclean : forall K v x y, In (K, v) sets -> In x (s_closure v) -> In y (s_closure v) ->
    at_end g x = true -> i_prod x = g_root g -> at_end g y = true -> i_prod y <> g_root g -> i_la y <> TokenEnd.

  Lemma la_terms K i C1 x : In (K, i) sets0 -> lr1_closure cfuel g nul fs (lr1_kernel m K) = Ret C1 ->
    row_of t i <> None -> In x C1 -> at_end g x = true -> i_prod x <> g_root g -> i_la x < g_nsym g.
  Proof.
    intros HK HC1 _ Hx He Hr.
    (* add_action would have been undefined *)
    pose proof (lr1_sets_spec _ _ _ _ _ _ _ _ _ _ (pt_sets _ _ _ _ _ _ _ _ _ _ _ P)) as (B1 & B2 & _).
    destruct (B2 K i HK) as (v & Hv & E1 & E2 & E3).
    { intros K' i' HK' E. symmetry. now apply (kernels_differ K K' i i'). }
    rewrite HC1 in E3. injection E3 as E3. rewrite E3 in Hx.
    clear -Hall Hv Hx He Hr.
    assert (G : forall all l t, all_actions g all gt l = Ret t -> In (lr1_kernel m K, v) l -> i_la x < g_nsym g).
    { intros all. induction l as [|[K1 s] l IH]; intros t0; cbn [all_actions]; [easy|].
      intros H. apply bind_inv in H. destruct H as (a1 & Ha1 & H). apply bind_inv in H. destruct H as (t1 & Ht1 & _).
      intros [[= -> ->] | Hin]; [|eauto]. clear -Ha1 Hx He Hr. revert a1 Ha1.
      generalize (@nil (N * action)) as acc. revert Hx. generalize (s_closure v) as its.
      induction its as [|y its IH]; intros Hx acc a1; cbn [set_actions]; [easy|].
      intros H. apply bind_inv in H. destruct H as (a2 & H2 & H). destruct Hx as [-> | Hx]; [|eauto].
      clear H. unfold add_action in H2. rewrite He in H2. cbn [negb] in H2.
      destruct (N.eqb_spec (i_prod x) (g_root g)); [easy|].
      destruct (N.leb_spec (g_nsym g) (i_la x)); [easy|lia]. }
    eapply G; eauto.
  Qed.

  Theorem has_reduce i x : has i x -> at_end g x = true -> i_prod x <> g_root g ->
    action_at g t i (i_la x) = Ret (AReduce (i_prod x)).
  Proof.
    intros (K & C1 & HK & HC1 & Hx) He Hr.
    destruct (row_exists K i HK) as (row & C1' & Hrow & HC1' & [_ Hfor] & v & Hv & Ev).
    rewrite HC1 in HC1'. injection HC1' as <-.
    unfold action_at. rewrite Hrow.
    destruct (N.leb_spec (g_nsym g) (i_la x)) as [L | L].
    - pose proof (la_terms K i C1 x HK HC1 ltac:(congruence) Hx He Hr). lia.
    - destruct (Hfor x Hx) as (_ & F2 & _). destruct (F2 (i_la x)) as [-> | (E & y & Hy & Q1 & Q2)]; [easy|easy|].
      exfalso. rewrite <- Ev in Hx, Hy. apply (Hclean _ v y x Hv Hy Hx Q1 Q2 He Hr E).
  Qed.
  Theorem has_accept i x : has i x -> at_end g x = true -> i_prod x = g_root g ->
    action_at g t i TokenEnd = Ret (ABool true).
  Proof.
    intros (K & C1 & HK & HC1 & Hx) He Hr.
    destruct (row_exists K i HK) as (row & C1' & Hrow & HC1' & [_ Hfor] & v & Hv & Ev).
    rewrite HC1 in HC1'. injection HC1' as <-.
    unfold action_at. rewrite Hrow.
    pose proof (wg_ids _ _ Hwf _ (or_introl (wg_end _ _ Hwf))) as Hlt.
    destruct (N.leb_spec (g_nsym g) TokenEnd); [lia|].
    destruct (Hfor x Hx) as (_ & _ & F3). destruct F3 as [-> | (y & Hy & [Q | Q])]; [easy|easy| |].
    - exfalso. destruct Q as (Q1 & Q2 & _). destruct (au_closed _ _ _ la_auto K i HK) as (C & HC).
      pose proof (project K i C C1 y HK HC HC1 Hy) as Hsy.
      destruct (next_sym K i C (strip y) HK HC Hsy Q1) as [_ Hne]. rewrite next_strip in Hne. easy.
    - exfalso. destruct Q as (Q1 & Q2 & Q3). rewrite <- Ev in Hx, Hy.
      apply (Hclean _ v x y Hv Hx Hy He Hr Q1 Q2 Q3).
  Qed.
End Lookahead.
