(** LrSets.v -- the item sets: closures and the LR(0) automaton (partial correctness). *)
From Verif Require Import Base OrdSet GrammarSpec FirstModel FirstProofs LrModel.

Lemma icmp_eq a b : icmp a b = Eq <-> a = b.
Proof.
  destruct a as [p d l], b as [p' d' l']. unfold icmp. cbn.
  destruct (N.compare p p') eqn:E1.
  - apply Ncmp_eq in E1. subst. destruct (N.compare d d') eqn:E2.
    + apply Ncmp_eq in E2. subst. rewrite Ncmp_eq. split; [now intros ->|congruence].
    + split; [easy|]. intros H. injection H as -> ->. rewrite N.compare_refl in E2. easy.
    + split; [easy|]. intros H. injection H as -> ->. rewrite N.compare_refl in E2. easy.
  - split; [easy|]. intros H. injection H as -> -> ->. rewrite N.compare_refl in E1. easy.
  - split; [easy|]. intros H. injection H as -> -> ->. rewrite N.compare_refl in E1. easy.
Qed.
Lemma icmp_opp a b : icmp b a = CompOpp (icmp a b).
Proof.
  unfold icmp. rewrite (Ncmp_opp (i_prod a)), (Ncmp_opp (i_dot a)), (Ncmp_opp (i_la a)).
  destruct (N.compare (i_prod a) (i_prod b)); cbn; try easy.
  destruct (N.compare (i_dot a) (i_dot b)); cbn; easy.
Qed.
Lemma icmp_trans a b c : icmp a b = Lt -> icmp b c = Lt -> icmp a c = Lt.
Proof.
  unfold icmp.
  destruct (N.compare (i_prod a) (i_prod b)) eqn:E1; [| |easy].
  - apply Ncmp_eq in E1. rewrite E1.
    destruct (N.compare (i_prod b) (i_prod c)); [|easy|easy].
    destruct (N.compare (i_dot a) (i_dot b)) eqn:E2; [| |easy].
    + apply Ncmp_eq in E2. rewrite E2.
      destruct (N.compare (i_dot b) (i_dot c)); [|easy|easy]. apply Ncmp_trans.
    + destruct (N.compare (i_dot b) (i_dot c)) eqn:E3; [| |easy].
      * apply Ncmp_eq in E3. rewrite <- E3, E2. easy.
      * rewrite (Ncmp_trans _ _ _ E2 E3). easy.
  - destruct (N.compare (i_prod b) (i_prod c)) eqn:E2; [| |easy].
    + apply Ncmp_eq in E2. rewrite <- E2, E1. easy.
    + rewrite (Ncmp_trans _ _ _ E1 E2). easy.
Qed.
Lemma item_eqb_eq a b : item_eqb a b = true <-> a = b.
Proof. unfold item_eqb. rewrite <- icmp_eq. destruct (icmp a b); easy. Qed.
Lemma item_eqb_refl a : item_eqb a a = true.
Proof. now apply item_eqb_eq. Qed.
Lemma item_eqb_neq a b : a <> b -> item_eqb a b = false.
Proof. intros H. destruct (item_eqb a b) eqn:E; [apply item_eqb_eq in E; easy|easy]. Qed.

Notation sortedI := (osorted icmp).
Definition In_oinsI := @In_oins item icmp icmp_eq.
Definition omemI := @omem_iff item icmp icmp_eq icmp_trans.
Definition omemIf := @omem_false item icmp icmp_eq icmp_trans.
Definition sorted_oinsI := @sorted_oins item icmp icmp_eq icmp_opp icmp_trans.
Definition In_osetI := @In_oset item icmp icmp_eq.
Definition sorted_osetI := @sorted_oset item icmp icmp_eq icmp_opp icmp_trans.
Lemma kcmp_eq a b : kcmp a b = Eq <-> a = b. Proof. apply lexcmp_eq, icmp_eq. Qed.
Lemma kcmp_opp a b : kcmp b a = CompOpp (kcmp a b). Proof. apply lexcmp_opp, icmp_opp. Qed.
Lemma kcmp_trans a b c : kcmp a b = Lt -> kcmp b c = Lt -> kcmp a c = Lt.
Proof. apply lexcmp_trans; [apply icmp_eq|apply icmp_trans]. Qed.

(** ** Closures. *)
Section Close.
  Variable succ : item -> out (list item).
  Lemma close_inv fuel : forall q acc C,
    osorted icmp acc ->
    (forall x, In x acc -> exists l, succ x = Ret l /\ forall y, In y l -> In y acc \/ In y q) ->
    close fuel succ q acc = Ret C ->
    sortedI C /\ (forall x, In x acc -> In x C) /\ (forall x, In x q -> In x C) /\
    (forall x, In x C -> exists l, succ x = Ret l /\ forall y, In y l -> In y C) /\
    (forall Q : item -> Prop, (forall x, In x acc -> Q x) -> (forall x, In x q -> Q x) ->
       (forall x l y, Q x -> succ x = Ret l -> In y l -> Q y) -> forall x, In x C -> Q x).
  Proof.
    induction fuel as [|fuel IH]; intros q acc C Hs Hcl; cbn; [easy|].
    destruct q as [|it q].
    - intros [= <-]. split; [easy|]. split; [easy|]. split; [easy|]. split; [|auto].
      intros x Hx. destruct (Hcl x Hx) as (l & Hl & Hy). exists l. split; [easy|].
      intros y Hin. destruct (Hy y Hin) as [H | []]. exact H.
    - destruct (omem icmp it acc) eqn:E.
      + apply (omemI _ _ Hs) in E. intros H. apply IH in H; [|easy|].
        * destruct H as (A & B & D & F & G). split; [easy|]. split; [easy|]. split.
          -- intros x [<- | Hx]; auto.
          -- split; [easy|]. intros Q Q1 Q2 Q3. apply G; auto. intros x Hx. apply Q2. now right.
        * intros x Hx. destruct (Hcl x Hx) as (l & Hl & Hy). exists l. split; [easy|].
          intros y Hin. destruct (Hy y Hin) as [H' | [<- | H']]; auto.
      + destruct (succ it) as [new| | |] eqn:En; cbn; try easy. intros H.
        apply IH in H.
        * destruct H as (A & B & D & F & G). split; [easy|]. split; [|split; [|split]].
          -- intros x Hx. apply B. apply In_oinsI. now right.
          -- intros x [<- | Hx].
             ++ apply B. apply In_oinsI. now left.
             ++ apply D. rewrite rev_append_rev. apply in_or_app. now right.
          -- easy.
          -- intros Q Q1 Q2 Q3. apply G; auto.
             ++ intros x Hx. apply In_oinsI in Hx. destruct Hx as [-> | Hx]; [apply Q2; now left|auto].
             ++ intros x Hx. rewrite rev_append_rev in Hx. apply in_app_or in Hx.
                destruct Hx as [Hx | Hx]; [|apply Q2; now right].
                apply in_rev in Hx. eapply Q3; [|exact En|exact Hx]. apply Q2. now left.
        * now apply sorted_oinsI.
        * intros x Hx. apply In_oinsI in Hx. rewrite rev_append_rev. destruct Hx as [-> | Hx].
          -- exists new. split; [easy|]. intros y Hy. right. apply in_or_app. left. now apply -> in_rev.
          -- destruct (Hcl x Hx) as (l & Hl & Hy). exists l. split; [easy|].
             intros y Hin. destruct (Hy y Hin) as [H' | [<- | H']].
             ++ left. apply In_oinsI. now right.
             ++ left. apply In_oinsI. now left.
             ++ right. apply in_or_app. now right.
  Qed.
  Lemma close_spec fuel K C : close fuel succ (rev K) [] = Ret C ->
    sortedI C /\ (forall x, In x K -> In x C) /\
    (forall x, In x C -> exists l, succ x = Ret l /\ forall y, In y l -> In y C) /\
    (forall Q : item -> Prop, (forall x, In x K -> Q x) ->
       (forall x l y, Q x -> succ x = Ret l -> In y l -> Q y) -> forall x, In x C -> Q x).
  Proof.
    intros H. apply close_inv in H; [|constructor|intros ? []].
    destruct H as (A & _ & B & D & E). split; [easy|]. split; [|split; [easy|]].
    - intros x Hx. apply B. now apply -> in_rev.
    - intros Q Q1 Q2. apply E; auto; [intros ? []|]. intros x Hx. apply Q1. now apply in_rev.
  Qed.
End Close.

Lemma heads_from_spec ps : forall n X i, In i (heads_from n ps X) <->
  n <= i /\ exists p, nth_error ps (N.to_nat (i - n)) = Some p /\ p_head p = X.
Proof.
  induction ps as [|p ps IH]; intros n X i; cbn [heads_from].
  - split; [intros []|]. intros (_ & p & H & _). destruct (N.to_nat (i - n)); easy.
  - assert (G : In i (heads_from (n + 1) ps X) <->
      n + 1 <= i /\ exists q, nth_error (p :: ps) (N.to_nat (i - n)) = Some q /\ p_head q = X).
    { rewrite IH. split; intros (H & q & Hq & Eq); (split; [easy|]); exists q; (split; [|easy]).
      - replace (N.to_nat (i - n)) with (S (N.to_nat (i - (n + 1)))) by lia. exact Hq.
      - replace (N.to_nat (i - n)) with (S (N.to_nat (i - (n + 1)))) in Hq by lia. exact Hq. }
    destruct (N.eqb_spec (p_head p) X) as [E | E]; cbn [In]; rewrite G.
    + split.
      * intros [<- | (H & q & Hq)]; (split; [lia|]); [|now exists q].
        exists p. rewrite N.sub_diag. easy.
      * intros (H & q & Hq & Eq). destruct (N.eq_dec n i) as [-> | Hne]; [now left|].
        right. split; [lia|]. now exists q.
    + split.
      * intros (H & q & Hq). split; [lia|]. now exists q.
      * intros (H & q & Hq & Eq). split; [|now exists q].
        destruct (N.eq_dec n i) as [-> | Hne]; [|lia]. rewrite N.sub_diag in Hq. cbn in Hq.
        injection Hq as <-. easy.
Qed.
Lemma prods_of_spec g X i : In i (prods_of g X) <->
  i < N.of_nat (length (g_prods g)) /\ p_head (prod_at g i) = X.
Proof.
  unfold prods_of. rewrite heads_from_spec. rewrite N.sub_0_r. unfold prod_at. split.
  - intros (_ & p & Hp & E). split.
    + assert (N.to_nat i < length (g_prods g))%nat by (apply nth_error_Some; congruence). lia.
    + rewrite (nth_error_nth _ _ _ Hp). exact E.
  - intros [Hi E]. split; [lia|]. exists (nth (N.to_nat i) (g_prods g) (mkProd 0 [])). split; [|easy].
    apply nth_error_nth'. lia.
Qed.

(** Items that make sense for the grammar. *)
Definition valid_item (g : grammar) (it : item) : Prop :=
  i_prod it < N.of_nat (length (g_prods g)) /\ i_dot it <= N.of_nat (length (body_at g (i_prod it))).

Section Lr0.
  Variables (g : grammar) (cfuel : nat).
  Notation syms := (g_terms g ++ g_nts g).

  Lemma lr0_succ_in it l y : lr0_succ g it = Ret l -> In y l ->
    at_end g it = false /\ is_token g (next_symbol g it) = false /\
    i_dot y = 0 /\ i_la y = cNullSymbol /\
    i_prod y < N.of_nat (length (g_prods g)) /\ p_head (prod_at g (i_prod y)) = next_symbol g it.
  Proof.
    unfold lr0_succ. destruct (at_end g it); [intros [= <-] []|].
    destruct (is_token g (next_symbol g it)); [intros [= <-] []|].
    destruct (prods_of g (next_symbol g it)) as [|a ps] eqn:E; [easy|].
    intros H Hy. rewrite <- E in H. injection H as <-.
    apply in_map_iff in Hy. destruct Hy as (p & <- & Hp). apply prods_of_spec in Hp. cbn. easy.
  Qed.

  (** m_lr0_item_sets as a map. *)
  Notation ksorted sets := (osorted kcmp (map fst (sets : list (list item * N)))).
  Lemma kfind_in K sets i : kfind K sets = Some i -> In (K, i) sets.
  Proof.
    induction sets as [|[K' j] r IH]; cbn; [easy|]. destruct (kcmp K K') eqn:E; [|easy|auto].
    apply kcmp_eq in E. intros [= <-]. subst. now left.
  Qed.
  Lemma kfind_none K sets : ksorted sets -> kfind K sets = None -> ~ In K (map fst sets).
  Proof.
    induction sets as [|[K' j] r IH]; cbn; [easy|]. intros H. inversion H as [|x l Hs Hlt]; subst.
    destruct (kcmp K K') eqn:E; [easy| |].
    - intros _ [<- | Hin].
      + rewrite (proj2 (kcmp_eq K' K') eq_refl) in E. easy.
      + apply Hlt in Hin. pose proof (kcmp_trans _ _ _ E Hin) as K1.
        rewrite (proj2 (kcmp_eq K K) eq_refl) in K1. easy.
    - intros Hf [<- | Hin]; [rewrite (proj2 (kcmp_eq K' K') eq_refl) in E; easy|]. now apply IH.
  Qed.
  Lemma kins_keys K i sets : map fst (kins K i sets) = oins kcmp K (map fst sets).
  Proof.
    induction sets as [|[K' j] r IH]; cbn; [easy|]. destruct (kcmp K K') eqn:E; cbn; [|easy|now rewrite IH].
    apply kcmp_eq in E. now subst.
  Qed.
  Lemma kins_sorted K i sets : ksorted sets -> ksorted (kins K i sets).
  Proof. intros H. rewrite kins_keys. now apply (sorted_oins kcmp kcmp_eq kcmp_opp kcmp_trans). Qed.
  Lemma kins_in K i sets K' j : ~ In K (map fst sets) ->
    In (K', j) (kins K i sets) <-> (K', j) = (K, i) \/ In (K', j) sets.
  Proof.
    induction sets as [|[K2 j2] r IH]; cbn; [intuition|]. intros H.
    destruct (kcmp K K2) eqn:E; cbn.
    - apply kcmp_eq in E. subst. exfalso. apply H. now left.
    - intuition.
    - rewrite IH by tauto. intuition.
  Qed.
  Lemma kins_length K i sets : ~ In K (map fst sets) -> length (kins K i sets) = S (length sets).
  Proof.
    induction sets as [|[K2 j2] r IH]; cbn; [easy|]. intros H.
    destruct (kcmp K K2) eqn:E; cbn; [|easy|rewrite IH; tauto].
    apply kcmp_eq in E. subst. exfalso. apply H. now left.
  Qed.
  Lemma key_unique sets K i j : ksorted sets -> In (K, i) sets -> In (K, j) sets -> i = j.
  Proof.
    intros Hs Hi Hj. assert (H : NoDup (map fst sets)) by (apply (osorted_NoDup kcmp kcmp_eq); easy).
    clear Hs. induction sets as [|[K' k] r IH]; [easy|]. cbn in H. apply NoDup_cons_iff in H.
    destruct H as [Hn Hd]. destruct Hi as [Hi | Hi], Hj as [Hj | Hj].
    - congruence.
    - injection Hi as -> ->. exfalso. apply Hn. now apply (in_map fst) in Hj.
    - injection Hj as -> ->. exfalso. apply Hn. now apply (in_map fst) in Hi.
    - auto.
  Qed.

  (** The kernels that can be built from the root kernel. *)
  Inductive reachK : list item -> Prop :=
  | rk_root : reachK [root_item g]
  | rk_goto : forall K C X, reachK K -> lr0_closure cfuel g K = Ret C -> goto_kernel g C X <> [] ->
      reachK (goto_kernel g C X).

  Definition edge (sets : list (list item * N)) (i X j : N) : Prop :=
    exists K C, In (K, i) sets /\ lr0_closure cfuel g K = Ret C /\ goto_kernel g C X <> [] /\
                In (goto_kernel g C X, j) sets.
  Definition has_gotos (gt : gtab) (i : N) (C : list item) (Xs : list N) : Prop :=
    forall X, In X Xs -> goto_kernel g C X <> [] -> exists j, In (i, X, j) gt.

  Record lr0_inv (Ex : list item -> N -> Prop) (work : list (N * list item)) (a : lr0) : Prop := {
    li_sorted : ksorted (k_sets a);
    li_lt : forall K i, In (K, i) (k_sets a) -> i < N.of_nat (length (k_sets a));
    li_inj : forall K K' i, In (K, i) (k_sets a) -> In (K', i) (k_sets a) -> K = K';
    li_work : forall i K, In (i, K) work -> In (K, i) (k_sets a);
    li_reach : forall K i, In (K, i) (k_sets a) -> reachK K;
    li_root : In ([root_item g], 0) (k_sets a);
    li_goto : forall i X j, In (i, X, j) (k_goto a) -> edge (k_sets a) i X j;
    li_done : forall K i, In (K, i) (k_sets a) -> Ex K i \/ In (i, K) work \/
      exists C, lr0_closure cfuel g K = Ret C /\ has_gotos (k_goto a) i C syms }.

  Lemma go_to_inv Ex K i C X work a a' work' :
    lr0_inv Ex work a -> In (K, i) (k_sets a) -> lr0_closure cfuel g K = Ret C ->
    go_to g i C (a, work) X = (a', work') ->
    lr0_inv Ex work' a' /\ (forall e, In e (k_sets a) -> In e (k_sets a')) /\
    (forall e, In e (k_goto a) -> In e (k_goto a')) /\
    (goto_kernel g C X <> [] -> exists j, In (i, X, j) (k_goto a')).
  Proof.
    intros Hinv HK HC. unfold go_to.
    destruct (goto_kernel g C X) as [|it0 K0] eqn:EK; [intros [= <- <-]; easy|]. rewrite <- EK.
    assert (Hne : goto_kernel g C X <> []) by congruence. clear EK it0 K0.
    destruct (kfind (goto_kernel g C X) (k_sets a)) as [j|] eqn:Ef.
    - intros [= <- <-]. cbn [k_sets k_goto]. apply kfind_in in Ef.
      split; [|split; [easy|split; [intros e He; now right|intros _; exists j; now left]]].
      destruct Hinv. constructor; cbn [k_sets k_goto]; auto.
      + intros i' X' j' [[= <- <- <-] | H]; auto. exists K, C. easy.
      + intros K' i' H'. destruct (li_done0 K' i' H') as [H | [H | (C' & H1 & H2)]]; auto.
        right. right. exists C'. split; [easy|]. intros Y HY HYn. destruct (H2 Y HY HYn) as (j' & Hj').
        exists j'. now right.
    - intros [= <- <-]. cbn [k_sets k_goto]. set (j := N.of_nat (length (k_sets a))).
      pose proof (kfind_none _ _ (li_sorted _ _ _ Hinv) Ef) as Hn.
      assert (Hin : forall K' j', In (K', j') (kins (goto_kernel g C X) j (k_sets a)) <->
                    (K', j') = (goto_kernel g C X, j) \/ In (K', j') (k_sets a))
        by (intros; now apply kins_in).
      split; [|split; [|split]].
      + destruct Hinv. constructor; cbn [k_sets k_goto].
        * now apply kins_sorted.
        * intros K' i'. rewrite Hin, kins_length by easy. intros [[= -> ->] | H]; [lia|].
          apply li_lt0 in H. lia.
        * intros K1 K2 i'. rewrite !Hin. intros [E1 | H1] [E2 | H2].
          -- congruence.
          -- injection E1 as -> ->. apply li_lt0 in H2. lia.
          -- injection E2 as -> ->. apply li_lt0 in H1. lia.
          -- eapply li_inj0; eauto.
        * intros i' K' [[= <- <-] | H]; apply Hin; [now left|right; auto].
        * intros K' i' H. apply Hin in H. destruct H as [[= -> ->] | H]; [|eauto].
          econstructor; eauto.
        * apply Hin. now right.
        * intros i' X' j' [[= <- <- <-] | H].
          -- exists K, C. rewrite !Hin. auto.
          -- destruct (li_goto0 _ _ _ H) as (K' & C' & A & B & D & E). exists K', C'. rewrite !Hin. auto.
        * intros K' i' H. apply Hin in H. destruct H as [[= -> ->] | H].
          -- right. left. now left.
          -- destruct (li_done0 K' i' H) as [H' | [H' | (C' & H1 & H2)]]; auto.
             ++ right. left. now right.
             ++ right. right. exists C'. split; [easy|]. intros Y HY HYn.
                destruct (H2 Y HY HYn) as (j' & Hj'). exists j'. now right.
      + intros [K' j'] H. apply Hin. now right.
      + intros e He. now right.
      + intros _. exists j. now left.
  Qed.

  Lemma go_to_fold Ex K i C : forall Xs work a a' work',
    lr0_inv Ex work a -> In (K, i) (k_sets a) -> lr0_closure cfuel g K = Ret C ->
    fold_left (go_to g i C) Xs (a, work) = (a', work') ->
    lr0_inv Ex work' a' /\ (forall e, In e (k_sets a) -> In e (k_sets a')) /\
    (forall e, In e (k_goto a) -> In e (k_goto a')) /\ has_gotos (k_goto a') i C Xs.
  Proof.
    induction Xs as [|X Xs IH]; intros work a a' work' Hinv HK HC; cbn [fold_left].
    - intros [= <- <-]. split; [easy|]. split; [easy|]. split; [easy|]. intros X [].
    - destruct (go_to g i C (a, work) X) as [a1 w1] eqn:E.
      destruct (go_to_inv Ex K i C X work a a1 w1 Hinv HK HC E) as (A & B & D & F). intros H.
      destruct (IH w1 a1 a' work' A (B _ HK) HC H) as (A' & B' & D' & F').
      split; [easy|]. split; [auto|]. split; [auto|].
      intros Y [<- | HY] Hn; [|now apply F']. destruct (F Hn) as (j & Hj). eauto.
  Qed.

  Lemma lr0_loop_inv fuel : forall work a a', lr0_inv (fun _ _ => False) work a ->
    lr0_loop fuel cfuel g work a = Ret a' -> lr0_inv (fun _ _ => False) [] a'.
  Proof.
    induction fuel as [|fuel IH]; intros work a a' Hinv; cbn [lr0_loop]; [easy|].
    destruct work as [|[i K] w]; [now intros [= <-]|].
    destruct (lr0_closure cfuel g K) as [C| | |] eqn:HC; cbn [bind]; try easy.
    destruct (fold_left (go_to g i C) syms (a, w)) as [a1 w1] eqn:E. intros H.
    assert (HK : In (K, i) (k_sets a)) by (apply (li_work _ _ _ Hinv); now left).
    assert (Hinv' : lr0_inv (fun K' i' => K' = K /\ i' = i) w a).
    { destruct Hinv. constructor; auto.
      - intros i' K' H'. apply li_work0. now right.
      - intros K' i' H'. destruct (li_done0 K' i' H') as [[] | [[[= <- <-] | H2] | H2]]; auto. }
    destruct (go_to_fold _ K i C syms w a a1 w1 Hinv' HK HC E) as (A & B & D & F).
    apply (IH w1 a1 a'); [|easy]. destruct A. constructor; auto.
    intros K' i' H'. destruct (li_done0 K' i' H') as [[-> ->] | [H2 | H2]]; auto.
    right. right. now exists C.
  Qed.

  (** ** What generate_lr0_kernels leaves behind. *)
  Theorem lr0_kernels_spec fuel a : lr0_kernels fuel cfuel g = Ret a ->
    ksorted (k_sets a) /\
    (forall K K' i, In (K, i) (k_sets a) -> In (K', i) (k_sets a) -> K = K') /\
    (forall K i, In (K, i) (k_sets a) -> reachK K) /\
    In ([root_item g], 0) (k_sets a) /\
    (forall i X j, goto_at (k_goto a) i X = Some j -> edge (k_sets a) i X j) /\
    (forall K i C X, In (K, i) (k_sets a) -> lr0_closure cfuel g K = Ret C -> In X syms ->
       goto_kernel g C X <> [] ->
       exists j, goto_at (k_goto a) i X = Some j /\ In (goto_kernel g C X, j) (k_sets a)) /\
    (forall K i, In (K, i) (k_sets a) -> exists C, lr0_closure cfuel g K = Ret C) /\
    (forall K i, In (K, i) (k_sets a) -> i < N.of_nat (length (k_sets a))).
  Proof.
    intros H. apply lr0_loop_inv in H.
    - destruct H.
      assert (Hgoto : forall i X j, goto_at (k_goto a) i X = Some j -> In (i, X, j) (k_goto a)).
      { intros i X j. generalize (k_goto a) as gt.
        induction gt as [|[[i' X'] j'] r IH]; cbn; [easy|].
        destruct (N.eqb_spec i i') as [-> | Hi]; cbn; [|auto].
        destruct (N.eqb_spec X X') as [-> | HX]; cbn; [|auto]. intros [= ->]. now left. }
      assert (Hgoto' : forall i X j, In (i, X, j) (k_goto a) -> exists j', goto_at (k_goto a) i X = Some j').
      { intros i X j. generalize (k_goto a) as gt.
        induction gt as [|[[i' X'] j'] r IH]; cbn; [easy|].
        intros [[= -> -> ->] | Hin]; [rewrite !N.eqb_refl; cbn; now exists j|].
        destruct ((i =? i') && (X =? X')); [now exists j'|auto]. }
      split; [easy|]. split; [easy|]. split; [easy|]. split; [easy|].
      split; [intros; apply li_goto0; auto|]. split; [|split; [|easy]].
      + intros K i C X HK HC HX Hn.
        destruct (li_done0 K i HK) as [[] | [[] | (C' & HC' & Hg)]].
        rewrite HC in HC'. injection HC' as <-.
        destruct (Hg X HX Hn) as (j0 & Hj0). destruct (Hgoto' _ _ _ Hj0) as (j & Hj).
        exists j. split; [easy|]. destruct (li_goto0 _ _ _ (Hgoto _ _ _ Hj)) as (K1 & C1 & A & B & D & E).
        assert (K1 = K) as -> by eauto. rewrite HC in B. injection B as <-. exact E.
      + intros K i HK. destruct (li_done0 K i HK) as [[] | [[] | (C' & HC' & Hg)]]. now exists C'.
    - constructor; cbn [k_sets k_goto].
      + cbn. constructor; [constructor|intros ? []].
      + intros K i [[= <- <-] | []]. cbn. lia.
      + intros K K' i [[= <- <-] | []] [[= <-] | []]. easy.
      + intros i K [[= <- <-] | []]. now left.
      + intros K i [[= <- <-] | []]. constructor.
      + now left.
      + intros i X j [].
      + intros K i [[= <- <-] | []]. right. left. now left.
  Qed.

  (** ** The shape of the kernels. *)
  Hypothesis root_ok : g_root g < N.of_nat (length (g_prods g)).

  Lemma closure_items K C it : lr0_closure cfuel g K = Ret C ->
    (forall x, In x K -> valid_item g x /\ i_la x = cNullSymbol) -> In it C ->
    valid_item g it /\ i_la it = cNullSymbol /\
    (In it K \/ (i_dot it = 0 /\ exists it', In it' C /\ at_end g it' = false /\
                 is_token g (next_symbol g it') = false /\
                 p_head (prod_at g (i_prod it)) = next_symbol g it')).
  Proof.
    intros H HK Hit. apply close_spec in H. destruct H as (A & B & D & E).
    assert (G : In it C /\ valid_item g it /\ i_la it = cNullSymbol /\
      (In it K \/ (i_dot it = 0 /\ exists it', In it' C /\ at_end g it' = false /\
                 is_token g (next_symbol g it') = false /\
                 p_head (prod_at g (i_prod it)) = next_symbol g it'))); [|tauto].
    revert it Hit. apply E.
    - intros x Hx. destruct (HK x Hx). split; [auto|]. auto.
    - intros x l y (Hx & Hv & Hl & _) Hsucc Hy.
      destruct (D x Hx) as (l' & Hl' & Hin). rewrite Hl' in Hsucc. injection Hsucc as ->.
      pose proof (lr0_succ_in x l y Hl' Hy) as (S1 & S2 & S3 & S4 & S5 & S6).
      split; [auto|]. split; [split; [easy|rewrite S3; lia]|]. split; [easy|].
      right. split; [easy|]. exists x. auto.
  Qed.

  Lemma goto_kernel_in C X it : In it (goto_kernel g C X) <->
    exists it', In it' C /\ at_end g it' = false /\ next_symbol g it' = X /\ it = advance it'.
  Proof.
    unfold goto_kernel. rewrite In_osetI, in_map_iff. split.
    - intros (x & <- & Hx). apply filter_In in Hx. destruct Hx as [Hx Hf].
      apply andb_true_iff in Hf. destruct Hf as [Hf1 Hf2]. apply negb_true_iff in Hf1.
      apply N.eqb_eq in Hf2. exists x. auto.
    - intros (x & Hx & H1 & H2 & ->). exists x. split; [easy|]. apply filter_In. split; [easy|].
      rewrite H1, H2, N.eqb_refl. easy.
  Qed.

  Lemma reachK_items K : reachK K ->
    (forall x, In x K -> valid_item g x /\ i_la x = cNullSymbol) /\
    (K = [root_item g] \/ forall x, In x K -> i_dot x <> 0).
  Proof.
    intros H. induction H as [|K C X HK [IH _] HC Hn].
    - split; [|now left]. intros x [<- | []]. split; [|easy]. split; [easy|]. cbn. lia.
    - split.
      + intros x Hx. apply goto_kernel_in in Hx. destruct Hx as (y & Hy & H1 & H2 & ->).
        destruct (closure_items K C y HC IH Hy) as ([V1 V2] & L & _).
        split; [|exact L]. split; [exact V1|]. cbn. unfold at_end in H1. apply N.eqb_neq in H1. lia.
      + right. intros x Hx. apply goto_kernel_in in Hx. destruct Hx as (y & Hy & H1 & H2 & ->).
        cbn. lia.
  Qed.
End Lr0.
