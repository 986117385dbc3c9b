(** LrOutcome.v -- how LALR1Parser::generate ends, for a well-formed grammar: a table, the exception about a conflict, and when. *)
From Verif Require Import Base OrdSet GrammarSpec FirstModel FirstProofs LrModel LrSets LrTable LrSound LrLookahead LrTerm.

(** ** The lookaheads in the item sets are terminals. *)
Section Lookaheads.
  Variables (fuel cfuel : nat) (g : grammar) (start : N).
  Hypothesis Hwf : wf_grammar g start.
  Variables (sets : list (list item * lr1set)) (gt : gtab) (root : option N)
    (a : lr0) (nul : list N) (fs : fmap) (sp : fmap * pmap) (m : lmap).
  Hypothesis P : parts fuel cfuel g sets gt root a nul fs sp m.
  Notation sets0 := (k_sets a).
  Lemma oc_keys X : In X (g_terms g) \/ In X (g_nts g) -> keyed fs X.
  Proof.
    pose proof (pt_first _ _ _ _ _ _ _ _ _ _ _ P) as Hk. unfold first_sets in Hk. apply first_loop_keys in Hk. destruct Hk as (A & B).
    intros [H | H].
    - apply A. now apply first_init_keys.
    - apply (wg_nts _ _ Hwf) in H. destruct H as (p & Hp & <-). auto.
  Qed.
  Lemma oc_vals X t : In t (fref fs X) -> In t (g_terms g).
  Proof.
    intros H. pose proof (first_sets_ret _ _ _ _ (pt_first _ _ _ _ _ _ _ _ _ _ _ P)) as (_ & Hb & _). apply Hb in H. now destruct H.
  Qed.
  Lemma closure_in_uni K C : incl K (uni g (cNullSymbol :: g_terms g)) -> lr1_closure cfuel g nul fs K = Ret C ->
    incl C (uni g (cNullSymbol :: g_terms g)).
  Proof.
    intros HK HC. apply close_spec in HC. destruct HC as (_ & _ & _ & E).
    intros x Hx. revert x Hx. apply E; [exact HK|]. intros y l z Hy Hl Hz. destruct (lr1_succ_total g start Hwf nul fs oc_keys oc_vals y Hy) as (l' & Hl' & Hi).
    rewrite Hl in Hl'. injection Hl' as <-. now apply Hi.
  Qed.
  Lemma spread_ret its : forall s s', spread cfuel g nul fs its s = Ret s' -> incl its (uni g [cNullSymbol]) ->
    fvals g (fst s) -> fvals g (fst s').
  Proof.
    induction its as [|it its IH]; intros s s'; cbn [spread]; [now intros [= <-]|]. intros H Hi Hv.
    apply bind_inv in H. destruct H as (C & HC & H). apply (IH _ _ H); [intros x Hx; apply Hi; now right|].
    apply classify_fold_vals; [exact Hv|]. apply (closure_in_uni [it]); [|exact HC].
    intros x [<- | []]. apply U0_U1. apply Hi. now left.
  Qed.
  Lemma la_loop_ret p f : forall m0 m1, lsorted m0 -> la_loop f p m0 = Ret m1 -> lvals g m0 -> lvals g m1.
  Proof.
    induction f as [|f IH]; intros m0 m1 Hs; cbn [la_loop]; [discriminate|].
    pose proof (la_pass_grows g start fs oc_keys oc_vals (flat_map snd p) p (false, m0) Hs (fun x Hx => Hx)) as G. unfold la_pass.
    destruct (fold_left _ p (false, m0)) as [ch m2]. destruct G as (G1 & _ & G3 & _). cbn [fst snd] in *.
    destruct ch; [|intros [= <-]; auto]. intros H Hv. apply (IH _ _ G1 H). auto.
  Qed.
  Lemma oc_lvals : lvals g m.
  Proof.
    apply (la_loop_ret _ _ _ _ (proj1 (la_start_spec g (fst sp) (flat_map fst sets0))) (pt_la _ _ _ _ _ _ _ _ _ _ _ P)).
    apply (la_start_vals g start Hwf). apply (spread_ret _ _ _ (pt_spread _ _ _ _ _ _ _ _ _ _ _ P)).
    - intros x Hx. apply in_flat_map in Hx. destruct Hx as ([K i] & HK & Hx). apply uni_in.
      destruct (kernel_la fuel cfuel g start Hwf _ _ _ _ _ _ _ _ P K i x HK Hx) as (V & L). split; [easy|left; congruence].
    - intros X t [].
  Qed.
  Lemma oc_la K i C1 x : In (K, i) sets0 -> lr1_closure cfuel g nul fs (lr1_kernel m K) = Ret C1 -> In x C1 ->
    valid_item g x /\ In (i_la x) (g_terms g).
  Proof.
    intros HK HC. pose proof HC as HC'. apply close_spec in HC'. destruct HC' as (_ & _ & _ & E). revert x. apply E.
    - intros x Hx. apply lr1_kernel_in in Hx. destruct Hx as (k & Hk & E1 & E2 & Hl).
      destruct (kernel_la fuel cfuel g start Hwf _ _ _ _ _ _ _ _ P K i k HK Hk) as ((V1 & V2) & _).
      split; [unfold valid_item; rewrite E1, E2; auto|]. exact (oc_lvals _ _ Hl).
    - intros x l y (V & L) Hl Hy.
      destruct (lr1_succ_total g start Hwf nul fs oc_keys oc_vals x) as (l' & Hl' & Hi).
      { apply uni_in. split; [easy|now right]. }
      rewrite Hl in Hl'. injection Hl' as <-. specialize (Hi y Hy). apply uni_in in Hi. destruct Hi as (Vy & _). split; [easy|].
      destruct (lr1_succ_in _ _ _ _ _ _ Hl Hy) as (_ & _ & _ & _ & las & S5 & S6).
      destruct (lookaheads_total g nul fs oc_vals (skipn (S (N.to_nat (i_dot x))) (body_at g (i_prod x))) (i_la x)) as (l2 & Hl2 & Hv).
      + intros s Hs. apply oc_keys.
        apply (proj1 (wg_body _ _ Hwf (prod_at g (i_prod x)) s (LrTerm.prod_in g x (proj1 V)) (skip_in _ _ _ Hs))).
      + rewrite S5 in Hl2. injection Hl2 as <-. destruct (Hv _ S6) as [-> | H]; easy.
  Qed.
End Lookaheads.

(** ** What the items of a state demand. *)
(** The item [y] demands a reduction on the symbol [X], and another item demands a shift of, or a reduction on, [X] as well. *)
Definition conflict (g : grammar) (C : list item) (X : N) : Prop :=
  exists x y, In x C /\ In y C /\ x <> y /\ reduces g y X /\ (shifts g x X \/ reduces g x X).
Lemma conflict_mono g C C' X : incl C C' -> conflict g C X -> conflict g C' X.
Proof. intros H (x & y & Hx & Hy & R). exists x, y. auto. Qed.

Section Rows.
  Variables (g : grammar) (sets : list (list item * lr1set)) (gt : gtab) (i : N).
  Definition fine (it : item) : Prop :=
    (at_end g it = false -> (In (next_symbol g it) (g_terms g) \/ In (next_symbol g it) (g_nts g)) /\
       next_symbol g it < g_nsym g /\ exists j, next_of sets gt i (next_symbol g it) = Some j) /\
    (at_end g it = true -> i_la it < g_nsym g).
  Lemma add_action_outcome its a it : row_inv g sets gt i its a -> fine it -> ~ In it its ->
    (exists a', add_action g sets gt i a it = Ret a') \/
    (add_action g sets gt i a it = Throw /\ exists X, conflict g (its ++ [it]) X).
  Proof.
    intros [Hfrom _] [F1 F2] Hn. unfold add_action.
    assert (Hself : In it (its ++ [it])) by (apply in_or_app; right; now left).
    assert (Hold : forall x, In x its -> In x (its ++ [it])) by (intros; apply in_or_app; now left).
    destruct (at_end g it) eqn:Ee; cbn [negb].
    - destruct (N.eqb_spec (i_prod it) (g_root g)) as [Er | Er]; [left; eauto|].
      destruct (N.leb_spec (g_nsym g) (i_la it)) as [L | L]; [specialize (F2 eq_refl); lia|].
      specialize (Hfrom (i_la it)).
      assert (Hr : reduces g it (i_la it)) by (split; [easy|split; easy]).
      destruct (act_at a (i_la it)) as [b|j|p] eqn:Ea; [left; eauto| |].
      + right. split; [easy|]. destruct Hfrom as (_ & x & Hx & Hs). exists (i_la it), x, it.
        split; [auto|]. split; [auto|]. split; [congruence|]. split; [easy|now left].
      + right. split; [easy|]. destruct Hfrom as (x & Hx & Hs & _). exists (i_la it), x, it.
        split; [auto|]. split; [auto|]. split; [congruence|]. split; [easy|now right].
    - destruct (F1 eq_refl) as (Hk & Hlt & j & Hj). set (X := next_symbol g it) in *.
      assert (Es : negb (is_token g X) && negb (existsb (N.eqb X) (g_nts g)) = false).
      { destruct Hk as [Hk | Hk].
        - unfold is_token. apply existsb_N in Hk. now rewrite Hk.
        - apply existsb_N in Hk. rewrite Hk. apply andb_false_r. }
      rewrite Es. destruct (N.leb_spec (g_nsym g) X) as [L | L]; [lia|]. rewrite Hj.
      assert (Hs : shifts g it X).
      { split; [easy|]. split; [easy|]. destruct Hk as [Hk | Hk]; [left; now apply existsb_N|now right]. }
      specialize (Hfrom X). destruct (act_at a X) as [b|j'|p] eqn:Ea; [left; eauto| |].
      + destruct Hfrom as (E & _). rewrite Hj in E. injection E as <-. rewrite N.eqb_refl. left. eauto.
      + right. split; [easy|]. destruct Hfrom as (y & Hy & Hr & _). exists X, it, y.
        split; [auto|]. split; [auto|]. split; [congruence|]. split; [easy|now left].
  Qed.
  Lemma set_actions_outcome its : forall done a, row_inv g sets gt i done a -> (forall it, In it its -> fine it) ->
    NoDup (done ++ its) ->
    (exists a', set_actions g sets gt i its a = Ret a') \/
    (set_actions g sets gt i its a = Throw /\ exists X, conflict g (done ++ its) X).
  Proof.
    induction its as [|it its IH]; intros done a Hr Hf Hnd; cbn [set_actions]; [left; eauto|].
    destruct (add_action_outcome done a it Hr) as [(a' & Ha) | (Ha & X & HX)].
    - apply Hf. now left.
    - apply NoDup_remove_2 in Hnd. intros K. apply Hnd. apply in_or_app. now left.
    - rewrite Ha. cbn [bind]. pose proof (add_action_inv g sets gt i done a it a' Hr Ha) as Hr'.
      replace (done ++ it :: its) with ((done ++ [it]) ++ its) in * by (now rewrite <- app_assoc).
      apply IH; [easy|intros x Hx; apply Hf; now right|easy].
    - right. rewrite Ha. split; [easy|]. exists X. revert HX. apply conflict_mono.
      intros x Hx. apply in_app_or in Hx. apply in_or_app. destruct Hx as [Hx | [<- | []]]; [now left|right; now left].
  Qed.
End Rows.

Section Outcome.
  Variables (fuel cfuel : nat) (g : grammar) (start : N).
  Hypothesis Hwf : wf_grammar g start.
  Hypothesis Hprod : productive g.
  Variables (sets : list (list item * lr1set)) (gt : gtab) (root : option N)
    (a : lr0) (nul : list N) (fs : fmap) (sp : fmap * pmap) (m : lmap).
  Hypothesis P : parts fuel cfuel g sets gt root a nul fs sp m.
  Notation sets0 := (k_sets a).
  Lemma set_origin K1 v : In (K1, v) sets -> exists K, In (K, s_index v) sets0 /\ K1 = lr1_kernel m K /\
    lr1_closure cfuel g nul fs (lr1_kernel m K) = Ret (s_closure v).
  Proof.
    intros H. pose proof (lr1_sets_spec _ _ _ _ _ _ _ _ _ _ (pt_sets _ _ _ _ _ _ _ _ _ _ _ P)) as (B1 & _).
    destruct (B1 _ _ H) as [[] | (K & i & HK & F1 & F2 & F3)]. exists K. rewrite F2. split; [easy|]. split; [easy|]. congruence.
  Qed.
  Lemma set_there K i : In (K, i) sets0 -> exists v, In (lr1_kernel m K, v) sets /\ s_index v = i.
  Proof.
    intros HK. pose proof (lr1_sets_spec _ _ _ _ _ _ _ _ _ _ (pt_sets _ _ _ _ _ _ _ _ _ _ _ P)) as (_ & B2 & _).
    destruct (B2 K i HK) as (v & Hv & _ & E2 & _); [|now exists v].
    intros K' i' HK' E. symmetry. now apply (kernels_differ fuel cfuel g start Hwf _ _ _ _ _ _ _ _ P Hprod K K').
  Qed.
  Lemma all_fine K1 v x : In (K1, v) sets -> In x (s_closure v) -> fine g sets gt (s_index v) x.
  Proof.
    intros Hv Hx. destruct (set_origin K1 v Hv) as (K & HK & _ & HC1). split; intros He.
    - destruct (au_closed _ _ _ (la_auto _ _ _ _ _ _ _ _ _ _ _ P) K _ HK) as (C & HC).
      pose proof (project fuel cfuel g start Hwf _ _ _ _ _ _ _ _ P K _ C _ x HK HC HC1 Hx) as Hsx.
      destruct (next_sym fuel cfuel g start Hwf _ _ _ _ _ _ _ _ P K _ C (strip x) HK HC Hsx He) as [Hsym _]. rewrite next_strip in Hsym.
      split; [easy|]. split; [exact (wg_ids _ _ Hwf _ Hsym)|].
      destruct (goto_la fuel cfuel g start Hwf _ _ _ _ _ _ _ _ P K _ C _ x HK HC HC1 Hx He) as (j & Hg & Hj & _).
      exists j. unfold next_of. rewrite Hg. destruct (set_there _ j Hj) as (w & Hw & Ew).
      assert (E : existsb (fun kv : list item * lr1set => s_index (snd kv) =? j) sets = true); [|now rewrite E].
      apply existsb_exists. eexists. split; [exact Hw|]. cbn [snd]. now apply N.eqb_eq.
    - apply (wg_ids _ _ Hwf). left.
      now apply (oc_la fuel cfuel g start Hwf _ _ _ _ _ _ _ _ P K _ _ x HK HC1).
  Qed.
  Lemma all_actions_outcome : (exists t, all_actions g sets gt sets = Ret t) \/
    (all_actions g sets gt sets = Throw /\ exists K1 v X, In (K1, v) sets /\ conflict g (s_closure v) X).
  Proof.
    assert (G : forall l, incl l sets -> (exists t, all_actions g sets gt l = Ret t) \/
      (all_actions g sets gt l = Throw /\ exists K1 v X, In (K1, v) sets /\ conflict g (s_closure v) X)); [|apply G; intros x; easy].
    induction l as [|[K1 v] l IH]; intros Hi; cbn [all_actions]; [left; eauto|].
    assert (Hv : In (K1, v) sets) by (apply Hi; now left).
    destruct (set_actions_outcome g sets gt (s_index v) (s_closure v) [] []) as [(r & Hr) | (Hr & X & HX)].
    - split; [intros X; cbn; easy|intros it []].
    - intros it. now apply (all_fine K1 v).
    - destruct (set_origin K1 v Hv) as (K & _ & _ & HC). apply close_spec in HC. destruct HC as (Hs & _).
      exact (osorted_NoDup icmp icmp_eq _ Hs).
    - rewrite Hr. cbn [bind]. destruct IH as [(t & Ht) | (Ht & Hc)]; [intros x Hx; apply Hi; now right| |].
      + rewrite Ht. left. cbn [bind]. eauto.
      + right. rewrite Ht. now split.
    - right. rewrite Hr. split; [easy|]. exists K1, v, X. now split.
  Qed.
  (** A table in spite of a conflict: only at the end of the input, in a state with an accepting item. *)
  Lemma table_conflict t K1 v X : all_actions g sets gt sets = Ret t -> In (K1, v) sets -> conflict g (s_closure v) X ->
    X = TokenEnd /\ exists it, In it (s_closure v) /\ at_end g it = true /\ i_prod it = g_root g.
  Proof.
    intros Ht Hv (x & y & Hx & Hy & Hne & Hr & Hxr). apply all_actions_spec in Ht. destruct Ht as [R1 R2].
    destruct (R2 K1 v Hv) as (row & Hrow). destruct (R1 _ _ Hrow) as (K1' & v' & Hv' & Ei & [_ Hfor]).
    destruct (set_origin K1 v Hv) as (K & HK & E1 & HC). destruct (set_origin K1' v' Hv') as (K' & HK' & E2 & HC').
    rewrite Ei in HK'. assert (K' = K) as -> by (eapply (au_inj _ _ _ (la_auto _ _ _ _ _ _ _ _ _ _ _ P)); eauto).
    rewrite HC in HC'. injection HC' as E. rewrite <- E in Hfor.
    destruct (Hfor y Hy) as (_ & Ry & _). destruct (Ry X Hr) as [Ay | D]; [|exact D].
    destruct (Hfor x Hx) as (Sx & Rx & _). destruct Hxr as [Hs | Hxr].
    - destruct (Sx X Hs) as (j & _ & [A | D]); [congruence|exact D].
    - destruct (Rx X Hxr) as [A | D]; [|exact D]. exfalso. apply Hne. rewrite Ay in A. injection A as A.
      destruct Hr as (H1 & _ & H2). destruct Hxr as (H3 & _ & H4). unfold at_end in *.
      apply N.eqb_eq in H1, H3. destruct x, y. cbn in *. subst. congruence.
  Qed.
End Outcome.

(** ** More fuel changes nothing. *)
Lemma item_sets_mono f f' c c' g s : (f <= f')%nat -> (c <= c')%nat -> item_sets f c g = Ret s -> item_sets f' c' g = Ret s.
Proof.
  intros Hf Hc H. unfold item_sets in *. apply bind_inv in H. destruct H as (a & Ha & H).
  apply bind_inv in H. destruct H as ([nul fs] & Hfs & H). apply bind_inv in H. destruct H as (sp & Hsp & H).
  apply bind_inv in H. destruct H as (m & Hm & H). apply bind_inv in H. destruct H as (sr & Hsr & H).
  unfold lr0_kernels, first_sets in *. rewrite (lr0_loop_mono g f f' c c' _ _ a Hf Hc Ha). cbn [bind].
  rewrite (LrTerm.first_loop_mono (g_prods g) f f' _ _ (nul, fs) Hf Hfs). cbn [bind].
  rewrite (spread_mono g nul fs c c' _ _ sp Hc Hsp). cbn [bind]. rewrite (la_loop_mono (snd sp) f f' _ m Hf Hm). cbn [bind].
  rewrite (lr1_sets_mono g nul fs c c' m _ _ _ sr Hc Hsr). exact H.
Qed.
