(** LrTable.v -- lookaheads, LR(1) sets and the action table (partial correctness). *)
From Verif Require Import Base OrdSet GrammarSpec FirstModel FirstProofs LrModel LrSets.

(** ** Association lists keyed by items. *)
Lemma aget_aset {V} (m : list (item * list V)) x v y :
  aget (aset m x v) y = if item_eqb y x then v else aget m y.
Proof.
  induction m as [|[z w] r IH]; cbn.
  - destruct (item_eqb y x); easy.
  - destruct (item_eqb x z) eqn:E; cbn.
    + apply item_eqb_eq in E. subst. destruct (item_eqb y z); easy.
    + destruct (item_eqb y z) eqn:E2; [|exact IH]. apply item_eqb_eq in E2. subst.
      destruct (item_eqb z x) eqn:E3; [|easy]. apply item_eqb_eq in E3. subst.
      rewrite item_eqb_refl in E. easy.
Qed.
Lemma aget_in {V} (m : list (item * list V)) x v : In v (aget m x) -> In (x, aget m x) m.
Proof.
  induction m as [|[z w] r IH]; cbn; [easy|].
  destruct (item_eqb x z) eqn:E; [|auto]. apply item_eqb_eq in E. subst. intros _. now left.
Qed.

Definition strip (it : item) : item := mkItem (i_prod it) (i_dot it) cNullSymbol.
Lemma at_end_strip g it : at_end g (strip it) = at_end g it. Proof. reflexivity. Qed.
Lemma next_strip g it : next_symbol g (strip it) = next_symbol g it. Proof. reflexivity. Qed.

Lemma lr1_succ_in g nul fs it l y : lr1_succ g nul fs it = Ret l -> In y l ->
  at_end g it = false /\ is_token g (next_symbol g it) = false /\ i_dot y = 0 /\
  In (i_prod y) (prods_of g (next_symbol g it)) /\
  exists las, lookaheads nul fs (skipn (S (N.to_nat (i_dot it))) (body_at g (i_prod it))) (i_la it) = Ret las
              /\ In (i_la y) las.
Proof.
  unfold lr1_succ. destruct (at_end g it); [intros [= <-] []|].
  destruct (is_token g (next_symbol g it)); [intros [= <-] []|].
  destruct (lookaheads _ _ _ _) as [las| | |]; cbn [bind]; try easy.
  destruct (prods_of g (next_symbol g it)) as [|a ps] eqn:E; [easy|].
  intros H Hy. rewrite <- E in H |- *. injection H as <-.
  apply in_flat_map in Hy. destruct Hy as (p & Hp & Hy). apply in_map_iff in Hy.
  destruct Hy as (la & <- & Hla). cbn. repeat split; auto. exists las. easy.
Qed.
Lemma lr1_succ_out g nul fs it l : lr1_succ g nul fs it = Ret l ->
  at_end g it = false -> is_token g (next_symbol g it) = false ->
  exists las, lookaheads nul fs (skipn (S (N.to_nat (i_dot it))) (body_at g (i_prod it))) (i_la it) = Ret las
   /\ forall p la, In p (prods_of g (next_symbol g it)) -> In la las -> In (mkItem p 0 la) l.
Proof.
  unfold lr1_succ. intros H E1 E2. rewrite E1, E2 in H.
  destruct (lookaheads _ _ _ _) as [las| | |]; cbn [bind] in H; try easy.
  exists las. split; [easy|]. intros p la Hp Hla.
  destruct (prods_of g (next_symbol g it)) as [|a ps] eqn:E; [easy|]. rewrite <- E in H, Hp.
  injection H as <-. apply in_flat_map. exists p. split; [easy|]. apply in_map_iff. now exists la.
Qed.

(** The LR(1) closure lies over the LR(0) closure. *)
Lemma closure_project g nul fs f0 f1 K K1 C0 C1 :
  lr0_closure f0 g K = Ret C0 -> lr1_closure f1 g nul fs K1 = Ret C1 ->
  (forall x, In x K1 -> In (strip x) K) -> forall x, In x C1 -> In (strip x) C0.
Proof.
  intros H0 H1 HK. apply close_spec in H0, H1. destruct H0 as (_ & A0 & B0 & _), H1 as (_ & _ & _ & E1).
  apply E1.
  - intros x Hx. auto.
  - intros x l y Hx Hl Hy. destruct (B0 _ Hx) as (l0 & Hl0 & Hin). apply Hin.
    pose proof (lr1_succ_in _ _ _ _ _ _ Hl Hy) as (S1 & S2 & S3 & S4 & _).
    unfold lr0_succ in Hl0. rewrite at_end_strip, next_strip, S1, S2 in Hl0.
    destruct (prods_of g (next_symbol g x)) as [|a ps] eqn:E; [easy|]. rewrite <- E in Hl0, S4.
    injection Hl0 as <-. apply in_map_iff. exists (i_prod y). split; [|easy].
    unfold strip. now rewrite S3.
Qed.

(** ** Spontaneous and propagated lookaheads. *)
Section Spread.
  Variables (g : grammar) (nul : list N) (fs : fmap) (cfuel : nat).

  Definition sp_le (a b : fmap * pmap) : Prop :=
    (forall x y, In y (fref (fst a) x) -> In y (fref (fst b) x)) /\
    (forall x y, In y (aget (snd a) x) -> In y (aget (snd b) x)).
  Lemma sp_le_refl a : sp_le a a. Proof. split; auto. Qed.
  Lemma sp_le_trans a b c : sp_le a b -> sp_le b c -> sp_le a c.
  Proof. intros [A1 A2] [B1 B2]. split; auto. Qed.

  Definition covered (it l1 : item) (sp : fmap * pmap) : Prop :=
    (i_la l1 <> cNullSymbol -> In (i_la l1) (fref (fst sp) (i_prod l1))) /\
    (i_la l1 = cNullSymbol -> at_end g l1 = false -> i_dot l1 <= N.of_nat (length (body_at g (i_prod l1))) ->
     In (advance (strip l1)) (aget (snd sp) it)).
  Lemma covered_le it l1 a b : sp_le a b -> covered it l1 a -> covered it l1 b.
  Proof. intros [A1 A2] [B1 B2]. split; auto. Qed.

  Lemma classify_spec it l1 sp : sp_le sp (classify g it sp l1) /\ covered it l1 (classify g it sp l1).
  Proof.
    destruct sp as [s p]. unfold classify. destruct (N.eqb_spec (i_la l1) cNullSymbol) as [E | E]; cbn [negb].
    - destruct (N.ltb_spec (i_dot l1) (N.of_nat (length (body_at g (i_prod l1))))) as [L | L].
      + split.
        * split; cbn; [easy|]. intros x y Hy. rewrite aget_aset. destruct (item_eqb x it) eqn:Ex; [|easy].
          apply item_eqb_eq in Ex. subst. apply In_oinsI. now right.
        * split; [easy|]. intros _ _ _. cbn. rewrite aget_aset, item_eqb_refl. apply In_oinsI. now left.
      + split; [apply sp_le_refl|]. split; [easy|]. intros _ He Hd. unfold at_end in He.
        apply N.eqb_neq in He. lia.
    - split.
      + split; cbn; [|easy]. intros x y Hy. rewrite fref_fset. destruct (N.eqb_spec x (i_prod l1)) as [-> | Hx]; [|easy].
        apply In_oinsN. now right.
      + split; [|easy]. intros _. cbn. rewrite fref_fset, N.eqb_refl. apply In_oinsN. now left.
  Qed.
  Lemma classify_fold it C : forall sp, sp_le sp (fold_left (classify g it) C sp) /\
    forall l1, In l1 C -> covered it l1 (fold_left (classify g it) C sp).
  Proof.
    induction C as [|x C IH]; intros sp; cbn; [split; [apply sp_le_refl|easy]|].
    destruct (classify_spec it x sp) as [A B]. destruct (IH (classify g it sp x)) as [A' B'].
    split; [eapply sp_le_trans; eauto|]. intros l1 [<- | H]; [|auto]. eapply covered_le; eauto.
  Qed.
  Lemma spread_spec its : forall sp sp', spread cfuel g nul fs its sp = Ret sp' ->
    sp_le sp sp' /\
    forall it, In it its -> exists C, lr1_closure cfuel g nul fs [it] = Ret C /\
      forall l1, In l1 C -> covered it l1 sp'.
  Proof.
    induction its as [|it its IH]; intros sp sp'; cbn.
    - intros [= <-]. split; [apply sp_le_refl|easy].
    - destruct (lr1_closure cfuel g nul fs [it]) as [C| | |] eqn:EC; cbn [bind]; try easy.
      intros H. apply IH in H. destruct H as [H1 H2]. destruct (classify_fold it C sp) as [A B].
      split; [eapply sp_le_trans; eauto|]. intros x [<- | Hx]; [|auto].
      exists C. split; [easy|]. intros l1 Hl. eapply covered_le; [exact H1|auto].
  Qed.
End Spread.

(** ** The lookahead map. *)
Definition lsorted (m : lmap) : Prop := forall it, sortedN (aget m it).
Definition lle (m m' : lmap) : Prop := forall it l, In l (aget m it) -> In l (aget m' it).

Lemma la_start_spec g s its :
  lsorted (la_start g s its) /\
  forall it, In it its -> (forall l, In l (fref s (i_prod it)) -> In l (aget (la_start g s its) it)) /\
    (i_prod it = g_root g -> In TokenEnd (aget (la_start g s its) it)).
Proof.
  unfold la_start.
  set (f := fun m it => _).
  assert (Hf : forall m it, lsorted m -> lsorted (f m it) /\ lle m (f m it) /\
     (forall l, In l (fref s (i_prod it)) -> In l (aget (f m it) it)) /\
     (i_prod it = g_root g -> In TokenEnd (aget (f m it) it))).
  { intros m it Hm. unfold f. set (m1 := aset m it _).
    assert (H1 : lsorted m1).
    { intros x. unfold m1. rewrite aget_aset. destruct (item_eqb x it); [apply sorted_ounionN|]; apply Hm. }
    assert (H2 : lle m m1).
    { intros x l Hl. unfold m1. rewrite aget_aset. destruct (item_eqb x it) eqn:E; [|easy].
      apply item_eqb_eq in E. subst. apply In_ounionN. now right. }
    assert (H3 : forall l, In l (fref s (i_prod it)) -> In l (aget m1 it)).
    { intros l Hl. unfold m1. rewrite aget_aset, item_eqb_refl. apply In_ounionN. now left. }
    destruct (N.eqb_spec (i_prod it) (g_root g)) as [E | E].
    - split; [|split; [|split]].
      + intros x. rewrite aget_aset. destruct (item_eqb x it); [apply sorted_oinsN|]; apply H1.
      + intros x l Hl. rewrite aget_aset. destruct (item_eqb x it) eqn:Ex; [|now apply H2].
        apply item_eqb_eq in Ex. subst. apply In_oinsN. right. now apply H2.
      + intros l Hl. rewrite aget_aset, item_eqb_refl. apply In_oinsN. right. auto.
      + intros _. rewrite aget_aset, item_eqb_refl. apply In_oinsN. now left.
    - split; [easy|]. split; [easy|]. split; [easy|]. easy. }
  assert (G : forall its m, lsorted m -> lsorted (fold_left f its m) /\ lle m (fold_left f its m) /\
     forall it, In it its -> (forall l, In l (fref s (i_prod it)) -> In l (aget (fold_left f its m) it)) /\
       (i_prod it = g_root g -> In TokenEnd (aget (fold_left f its m) it))).
  { clear its. induction its as [|x its IH]; intros m Hm; cbn; [split; [easy|]; split; easy|].
    destruct (Hf m x Hm) as (A & B & C & D). destruct (IH (f m x) A) as (A' & B' & C').
    split; [easy|]. split; [intros it l Hl; apply B'; now apply B|].
    intros it [<- | Hit]; [|auto]. split.
    - intros l Hl. apply B'. auto.
    - intros E. apply B'. auto. }
  destruct (G its []) as (A & B & C); [|easy]. intros it. cbn. constructor.
Qed.

Lemma la_edge_spec from st to : lsorted (snd st) ->
  lsorted (snd (la_edge from st to)) /\ lle (snd st) (snd (la_edge from st to)) /\
  (fst (la_edge from st to) = false -> fst st = false /\
     (forall x, aget (snd (la_edge from st to)) x = aget (snd st) x) /\
     (forall l, In l (aget (snd st) from) -> In l (aget (snd st) to))).
Proof.
  destruct st as [ch m]. intros Hm. cbn in Hm. cbn [la_edge fst snd]. split; [|split].
  - intros x. rewrite aget_aset. destruct (item_eqb x to); [apply sorted_ounionN|]; apply Hm.
  - intros x l Hl. rewrite aget_aset. destruct (item_eqb x to) eqn:E; [|easy].
    apply item_eqb_eq in E. subst. apply In_ounionN. now right.
  - intros H. apply orb_false_iff in H. destruct H as [-> H]. apply Nat.ltb_ge in H. split; [easy|].
    assert (L : length (ounion N.compare (aget m from) (aget m to)) = length (aget m to)).
    { pose proof (ounion_length N.compare (aget m from) (aget m to)). lia. }
    split.
    + intros x. rewrite aget_aset. destruct (item_eqb x to) eqn:E; [|easy].
      apply item_eqb_eq in E. subst. now apply ounion_same_eq.
    + intros l Hl. eapply ounion_sameN; eauto.
Qed.
Lemma la_edges_spec from tos : forall st, lsorted (snd st) ->
  lsorted (snd (fold_left (la_edge from) tos st)) /\ lle (snd st) (snd (fold_left (la_edge from) tos st)) /\
  (fst (fold_left (la_edge from) tos st) = false -> fst st = false /\
     (forall x, aget (snd (fold_left (la_edge from) tos st)) x = aget (snd st) x) /\
     (forall to l, In to tos -> In l (aget (snd st) from) -> In l (aget (snd st) to))).
Proof.
  induction tos as [|to tos IH]; intros st Hs; cbn [fold_left].
  - split; [easy|]. split; [intros ? ?; easy|]. intros H. split; [easy|]. split; [easy|]. intros ? ? [].
  - destruct (la_edge_spec from st to Hs) as (A & B & C).
    destruct (IH _ A) as (A' & B' & C'). split; [easy|].
    split; [intros x l Hl; apply B'; now apply B|]. intros H.
    destruct (C' H) as (D1 & D2 & D3). destruct (C D1) as (E1 & E2 & E3).
    split; [easy|]. split; [intros x; now rewrite D2, E2|].
    intros x l [<- | Hx] Hl; [auto|]. rewrite <- E2. apply D3; [easy|]. now rewrite E2.
Qed.
Lemma la_pass_spec p : forall st, lsorted (snd st) ->
  let st' := fold_left (fun st (kv : item * list item) => fold_left (la_edge (fst kv)) (snd kv) st) p st in
  lsorted (snd st') /\ lle (snd st) (snd st') /\
  (fst st' = false -> fst st = false /\ (forall x, aget (snd st') x = aget (snd st) x) /\
     (forall from tos to l, In (from, tos) p -> In to tos -> In l (aget (snd st) from) ->
        In l (aget (snd st) to))).
Proof.
  induction p as [|[from tos] p IH]; intros st Hs st'.
  - unfold st'. cbn. split; [easy|]. split; [intros ? ?; easy|]. intros H. split; [easy|]. split; [easy|]. easy.
  - unfold st'. cbn [fold_left fst snd]. clear st'. destruct (la_edges_spec from tos st Hs) as (A & B & C).
    destruct (IH _ A) as (A' & B' & C'). split; [easy|].
    split; [intros x l Hl; apply B'; now apply B|]. intros H.
    destruct (C' H) as (D1 & D2 & D3). destruct (C D1) as (E1 & E2 & E3).
    split; [easy|]. split; [intros x; now rewrite D2, E2|].
    intros f ts to l [[= <- <-] | Hx] Ht Hl; [eauto|]. rewrite <- E2.
    apply (D3 f ts to l Hx Ht). now rewrite E2.
Qed.
Lemma la_loop_spec p fuel : forall m m', lsorted m -> la_loop fuel p m = Ret m' ->
  lsorted m' /\ lle m m' /\
  (forall from to l, In to (aget p from) -> In l (aget m' from) -> In l (aget m' to)).
Proof.
  induction fuel as [|fuel IH]; intros m m' Hm; cbn [la_loop]; [easy|].
  pose proof (la_pass_spec p (false, m) Hm) as G. cbn zeta in G. fold (la_pass p m) in G.
  destruct (la_pass p m) as [ch m1]. cbn [fst snd] in G. destruct G as (A & B & C).
  destruct ch.
  - intros H. destruct (IH m1 m' A H) as (A' & B' & C'). split; [easy|]. split; [|easy].
    intros it l Hl. apply B'. now apply B.
  - intros [= <-]. split; [easy|]. split; [easy|]. destruct (C eq_refl) as (_ & D & E).
    intros from to l Ht Hl. rewrite D in *. eapply E; eauto. eapply aget_in; eauto.
Qed.

(** ** The LR(1) sets. *)
Lemma lr1_kernel_in m K it : In it (lr1_kernel m K) <->
  exists x, In x K /\ i_prod it = i_prod x /\ i_dot it = i_dot x /\ In (i_la it) (aget m x).
Proof.
  unfold lr1_kernel. rewrite In_osetI, in_flat_map. split.
  - intros (x & Hx & H). apply in_map_iff in H. destruct H as (l & <- & Hl). exists x. easy.
  - intros (x & Hx & E1 & E2 & Hl). exists x. split; [easy|]. apply in_map_iff. exists (i_la it).
    split; [|easy]. destruct it. cbn in *. congruence.
Qed.

Notation skeys sets := (map fst (sets : list (list item * lr1set))).
Lemma sins_keys K v sets : skeys (sins K v sets) = oins kcmp K (skeys sets).
Proof.
  induction sets as [|[K' w] r IH]; cbn; [easy|]. destruct (kcmp K K') eqn:E; cbn; [|easy|now rewrite IH].
  apply kcmp_eq in E. now subst.
Qed.
Lemma sins_in K v sets K' w : In (K', w) (sins K v sets) -> (K', w) = (K, v) \/ In (K', w) sets.
Proof.
  induction sets as [|[K2 w2] r IH]; cbn.
  - intros [H | []]. now left.
  - destruct (kcmp K K2) eqn:E; cbn.
    + intros [H | H]; auto.
    + intros [H | H]; auto.
    + intros [H | H]; auto. apply IH in H. destruct H; auto.
Qed.
Lemma sins_new K v sets : In (K, v) (sins K v sets).
Proof.
  induction sets as [|[K2 w2] r IH]; cbn; [now left|]. destruct (kcmp K K2) eqn:E; cbn; auto.
Qed.
Lemma sins_old K v sets K' w : K' <> K -> In (K', w) sets -> In (K', w) (sins K v sets).
Proof.
  intros Hn. induction sets as [|[K2 w2] r IH]; cbn; [easy|]. intros [[= -> ->] | H].
  - destruct (kcmp K K') eqn:E; cbn; auto. apply kcmp_eq in E. congruence.
  - destruct (kcmp K K2) eqn:E; cbn; auto.
Qed.

Section Lr1.
  Variables (g : grammar) (nul : list N) (fs : fmap) (cfuel : nat) (m : lmap).
  Definition from_set (K : list item) (i : N) (K1 : list item) (v : lr1set) : Prop :=
    K1 = lr1_kernel m K /\ s_index v = i /\ lr1_closure cfuel g nul fs K1 = Ret (s_closure v).

  Lemma lr1_sets_spec sets : forall acc root out root',
    lr1_sets cfuel g nul fs m sets acc root = Ret (out, root') ->
    (forall K1 v, In (K1, v) out -> In (K1, v) acc \/ exists K i, In (K, i) sets /\ from_set K i K1 v) /\
    (forall K i, In (K, i) sets -> (forall K' i', In (K', i') sets -> lr1_kernel m K' = lr1_kernel m K -> i' = i) ->
       exists v, In (lr1_kernel m K, v) out /\ from_set K i (lr1_kernel m K) v) /\
    (forall K1 v, In (K1, v) acc -> (forall K i, In (K, i) sets -> lr1_kernel m K <> K1) -> In (K1, v) out) /\
    (osorted kcmp (skeys acc) -> osorted kcmp (skeys out)) /\
    ((root' = root /\ forall K i, In (K, i) sets -> existsb (is_root g) K = false) \/
     exists K i, In (K, i) sets /\ existsb (is_root g) K = true /\ root' = Some i).
  Proof.
    induction sets as [|[K i] sets IH]; intros acc root out root'; cbn [lr1_sets].
    - intros [= <- <-]. split; [auto|]. split; [easy|]. split; [auto|]. split; [auto|]. left. easy.
    - destruct (lr1_closure cfuel g nul fs (lr1_kernel m K)) as [C| | |] eqn:EC; cbn [bind]; try easy.
      intros H. apply IH in H. destruct H as (A & B & D & E & F). split; [|split; [|split; [|split]]].
      + intros K1 v Hin. destruct (A K1 v Hin) as [H | (K' & i' & H1 & H2)].
        * apply sins_in in H. destruct H as [[= -> ->] | H]; [|now left].
          right. exists K, i. split; [now left|]. split; [easy|]. split; [easy|]. exact EC.
        * right. exists K', i'. split; [now right|easy].
      + intros K' i' Hin Huniq.
        assert (dec : (exists K2 i2, In (K2, i2) sets /\ lr1_kernel m K2 = lr1_kernel m K') \/
                      forall K2 i2, In (K2, i2) sets -> lr1_kernel m K2 <> lr1_kernel m K').
        { clear. induction sets as [|[K2 i2] r IHr]; [right; easy|].
          destruct (kcmp (lr1_kernel m K2) (lr1_kernel m K')) eqn:Ec.
          - apply kcmp_eq in Ec. left. exists K2, i2. split; [now left|easy].
          - destruct IHr as [(K3 & i3 & H1 & H2) | H]; [left; exists K3, i3; split; [now right|easy]|].
            right. intros K3 i3 [[= <- <-] | H3]; [|eauto]. intros E0. rewrite E0 in Ec.
            rewrite (proj2 (kcmp_eq _ _) eq_refl) in Ec. easy.
          - destruct IHr as [(K3 & i3 & H1 & H2) | H]; [left; exists K3, i3; split; [now right|easy]|].
            right. intros K3 i3 [[= <- <-] | H3]; [|eauto]. intros E0. rewrite E0 in Ec.
            rewrite (proj2 (kcmp_eq _ _) eq_refl) in Ec. easy. }
        destruct dec as [(K2 & i2 & H2 & E2) | Hno].
        * assert (i2 = i') as -> by (apply (Huniq K2 i2); [now right|easy]).
          destruct (B K2 i' H2) as (v & Hv1 & Hv2).
          { intros K3 i3 H3 E3. apply (Huniq K3 i3); [now right|congruence]. }
          exists v. rewrite <- E2. split; [easy|]. unfold from_set in *. intuition congruence.
        * destruct Hin as [[= -> ->] | Hin]; [|exfalso; eapply Hno; eauto].
          exists (mkLr1 i' C). split; [|repeat split; auto].
          apply D; [apply sins_new|auto].
      + intros K1 v Hin Hno. apply D; [|intros K' i' H'; apply (Hno K' i'); now right].
        apply sins_old; [|easy]. intros ->. apply (Hno K i); [now left|easy].
      + intros Hs. apply E. rewrite sins_keys. now apply (sorted_oins kcmp kcmp_eq kcmp_opp kcmp_trans).
      + destruct F as [[-> F] | (K' & i' & H1 & H2 & ->)].
        * destruct (existsb (is_root g) K) eqn:Er.
          -- right. exists K, i. split; [now left|easy].
          -- left. split; [easy|]. intros K' i' [[= <- <-] | H]; eauto.
        * right. exists K', i'. split; [now right|easy].
  Qed.
End Lr1.

(** ** Actions. *)
Lemma act_at_set a X v Y : act_at (act_set a X v) Y = if Y =? X then v else act_at a Y.
Proof.
  induction a as [|[Z w] r IH]; cbn.
  - destruct (Y =? X); easy.
  - destruct (N.eqb_spec X Z) as [-> | H]; cbn.
    + destruct (Y =? Z); easy.
    + destruct (N.eqb_spec Y Z) as [-> | H2]; [|exact IH].
      destruct (N.eqb_spec Z X); congruence.
Qed.

Section Actions.
  Variables (g : grammar) (sets : list (list item * lr1set)) (gt : gtab) (i : N).
  Definition shifts (it : item) (X : N) : Prop :=
    at_end g it = false /\ next_symbol g it = X /\ (is_token g X = true \/ In X (g_nts g)).
  Definition reduces (it : item) (X : N) : Prop :=
    at_end g it = true /\ i_prod it <> g_root g /\ i_la it = X.
  Definition accepts (it : item) : Prop := at_end g it = true /\ i_prod it = g_root g.

  (** Where an entry comes from. *)
  Definition act_from (its : list item) (X : N) (v : action) : Prop :=
    match v with
    | ABool false => True
    | ABool true => X = TokenEnd /\ exists it, In it its /\ accepts it
    | AShift j => next_of sets gt i X = Some j /\ exists it, In it its /\ shifts it X
    | AReduce p => exists it, In it its /\ reduces it X /\ i_prod it = p
    end.
  (** What an item demands of the finished row. The entry for the end token is not protected: an
      accepting item overwrites it without a check, and is overwritten without a check. *)
  Definition dirty (its : list item) (X : N) : Prop :=
    X = TokenEnd /\ exists it, In it its /\ accepts it.
  Definition act_for (its : list item) (it : item) (a : acts) : Prop :=
    (forall X, shifts it X -> exists j, next_of sets gt i X = Some j /\
        (act_at a X = AShift j \/ dirty its X)) /\
    (forall X, reduces it X -> act_at a X = AReduce (i_prod it) \/ dirty its X) /\
    (accepts it -> act_at a TokenEnd = ABool true \/
       exists it', In it' its /\ (shifts it' TokenEnd \/ reduces it' TokenEnd)).

  Lemma existsb_N X l : existsb (N.eqb X) l = true <-> In X l.
  Proof.
    rewrite existsb_exists. split; [intros (y & H & E); apply N.eqb_eq in E; now subst|].
    intros H. exists X. split; [easy|apply N.eqb_refl].
  Qed.
  Lemma existsb_Nf X l : existsb (N.eqb X) l = false <-> ~ In X l.
  Proof. rewrite <- existsb_N. destruct (existsb _ l); split; intros; try easy; congruence. Qed.

  Lemma act_from_mono its its' X v : (forall x, In x its -> In x its') -> act_from its X v -> act_from its' X v.
  Proof.
    intros H. destruct v as [[] | j | p]; cbn; auto.
    - intros (E & it & H1 & H2). eauto.
    - intros (E & it & H1 & H2). eauto.
    - intros (it & H1 & H2). eauto.
  Qed.

  Definition row_inv (its : list item) (a : acts) : Prop :=
    (forall X, act_from its X (act_at a X)) /\ (forall it, In it its -> act_for its it a).

  Lemma dirty_mono its its' X : (forall x, In x its -> In x its') -> dirty its X -> dirty its' X.
  Proof. intros H (E & it & H1 & H2). split; [easy|]. eauto. Qed.

  (** Setting the entry [X] to [v] where a bool was, for the sake of [it]. *)
  Lemma set_inv its a it X v b : row_inv its a -> act_at a X = ABool b ->
    act_from (its ++ [it]) X v -> (shifts it X \/ reduces it X) ->
    act_for (its ++ [it]) it (act_set a X v) -> row_inv (its ++ [it]) (act_set a X v).
  Proof.
    intros [Hfrom Hfor] Eb Hv Hw Hit.
    assert (Hsub : forall x, In x its -> In x (its ++ [it])) by (intros; apply in_or_app; now left).
    assert (Hself : In it (its ++ [it])) by (apply in_or_app; right; now left).
    split.
    - intros Y. rewrite act_at_set. destruct (N.eqb_spec Y X) as [-> | HY]; [easy|].
      eapply act_from_mono; [exact Hsub|auto].
    - intros x Hx. apply in_app_or in Hx. destruct Hx as [Hx | [<- | []]]; [|easy].
      destruct (Hfor x Hx) as (A & B & C). split; [|split].
      + intros Y HY. destruct (A Y HY) as (j & H1 & H2). exists j. split; [easy|].
        destruct H2 as [H2 | H2]; [|right; eapply dirty_mono; eauto].
        rewrite act_at_set. destruct (N.eqb_spec Y X) as [-> | Hn]; [congruence|now left].
      + intros Y HY. destruct (B Y HY) as [H2 | H2]; [|right; eapply dirty_mono; eauto].
        rewrite act_at_set. destruct (N.eqb_spec Y X) as [-> | Hn]; [congruence|now left].
      + intros Ha. rewrite act_at_set. destruct (N.eqb_spec TokenEnd X) as [<- | Hn].
        * right. exists it. tauto.
        * destruct (C Ha) as [H | (it' & H1 & H2)]; [now left|]. right. exists it'. auto.
  Qed.

  Lemma row_same its a it : row_inv its a -> act_for (its ++ [it]) it a -> row_inv (its ++ [it]) a.
  Proof.
    intros [Hfrom Hfor] Hit.
    assert (Hsub : forall x, In x its -> In x (its ++ [it])) by (intros; apply in_or_app; now left).
    split.
    - intros Y. eapply act_from_mono; [exact Hsub|auto].
    - intros x Hx. apply in_app_or in Hx. destruct Hx as [Hx | [<- | []]]; [|easy].
      destruct (Hfor x Hx) as (A & B & C). split; [|split].
      + intros Y HY. destruct (A Y HY) as (j & H1 & H2). exists j. split; [easy|].
        destruct H2 as [H2 | H2]; [now left|right; eapply dirty_mono; eauto].
      + intros Y HY. destruct (B Y HY) as [H2 | H2]; [now left|right; eapply dirty_mono; eauto].
      + intros Ha. destruct (C Ha) as [H | (it' & H1 & H2)]; [now left|]. right. exists it'. auto.
  Qed.

  Lemma add_action_inv its a it a' : row_inv its a -> add_action g sets gt i a it = Ret a' ->
    row_inv (its ++ [it]) a'.
  Proof.
    intros Hrow. unfold add_action.
    assert (Hself : In it (its ++ [it])) by (apply in_or_app; right; now left).
    destruct (at_end g it) eqn:Ee; cbn [negb].
    - assert (Hns : forall X, ~ shifts it X) by (intros X (E & _); congruence).
      destruct (N.eqb_spec (i_prod it) (g_root g)) as [Er | Er].
      + (* accept *) intros [= <-]. destruct Hrow as [Hfrom Hfor].
        assert (Hacc : accepts it) by (split; easy).
        assert (Hsub : forall x, In x its -> In x (its ++ [it])) by (intros; apply in_or_app; now left).
        split.
        * intros X. rewrite act_at_set. destruct (N.eqb_spec X TokenEnd) as [-> | HX].
          -- cbn. split; [easy|]. now exists it.
          -- eapply act_from_mono; [exact Hsub|auto].
        * intros x Hx. split; [|split].
          -- intros X HX. apply in_app_or in Hx. destruct Hx as [Hx | [<- | []]]; [|now apply Hns in HX].
             destruct (Hfor x Hx) as (A & _). destruct (A X HX) as (j & H1 & H2). exists j. split; [easy|].
             rewrite act_at_set. destruct (N.eqb_spec X TokenEnd) as [-> | Hn].
             ++ right. split; [easy|]. now exists it.
             ++ destruct H2 as [H2 | H2]; [now left|right; eapply dirty_mono; eauto].
          -- intros X HX. apply in_app_or in Hx. destruct Hx as [Hx | [<- | []]]; [|destruct HX as (_ & H & _); easy].
             destruct (Hfor x Hx) as (_ & B & _).
             rewrite act_at_set. destruct (N.eqb_spec X TokenEnd) as [-> | Hn].
             ++ right. split; [easy|]. now exists it.
             ++ destruct (B X HX) as [H2 | H2]; [now left|right; eapply dirty_mono; eauto].
          -- intros _. rewrite act_at_set, N.eqb_refl. now left.
      + (* reduce *) destruct (g_nsym g <=? i_la it); [easy|].
        destruct (act_at a (i_la it)) as [b|j|p] eqn:Ea; [|easy|easy]. intros [= <-].
        assert (Hr : reduces it (i_la it)) by (split; [easy|split; easy]).
        apply (set_inv its a it (i_la it) _ b); auto.
        * cbn. exists it. auto.
        * split; [intros X HX; now apply Hns in HX|]. split.
          -- intros X (_ & _ & <-). left. rewrite act_at_set, N.eqb_refl. easy.
          -- intros (_ & H). easy.
    - assert (Hnr : forall X, ~ reduces it X) by (intros X (E & _); congruence).
      assert (Hna : ~ accepts it) by (intros (E & _); congruence).
      set (X := next_symbol g it).
      destruct (negb (is_token g X) && negb (existsb (N.eqb X) (g_nts g))) eqn:Es.
      + intros [= <-]. apply row_same; [easy|]. split; [|split; [intros Y HY; now apply Hnr in HY|easy]].
        intros Y (_ & <- & HY). exfalso. apply andb_true_iff in Es. destruct Es as [E1 E2].
        apply negb_true_iff in E1, E2. fold X in HY. destruct HY as [HY | HY]; [congruence|].
        apply existsb_N in HY. congruence.
      + assert (Hs : shifts it X).
        { split; [easy|]. split; [easy|]. apply andb_false_iff in Es.
          destruct Es as [E | E]; apply negb_false_iff in E; [now left|right; now apply existsb_N]. }
        destruct (g_nsym g <=? X); [easy|].
        destruct (next_of sets gt i X) as [j|] eqn:Ej; [|easy].
        assert (Hfor' : forall a'', act_at a'' X = AShift j -> act_for (its ++ [it]) it a'').
        { intros a'' Ha. split; [|split; [intros Y HY; now apply Hnr in HY|easy]].
          intros Y (_ & <- & _). exists j. split; [easy|now left]. }
        destruct (act_at a X) as [b|j'|p] eqn:Ea; [| |easy].
        * intros [= <-]. apply (set_inv its a it X _ b); auto.
          -- cbn. split; [easy|]. now exists it.
          -- apply Hfor'. rewrite act_at_set, N.eqb_refl. easy.
        * destruct (N.eqb_spec j' j) as [-> | ]; [|easy]. intros [= <-]. apply row_same; auto.
  Qed.
  Lemma set_actions_inv its : forall done a a', row_inv done a ->
    set_actions g sets gt i its a = Ret a' -> row_inv (done ++ its) a'.
  Proof.
    induction its as [|it its IH]; intros done a a' Hr; cbn [set_actions].
    - intros [= <-]. now rewrite app_nil_r.
    - destruct (add_action g sets gt i a it) as [a1| | |] eqn:E; cbn [bind]; try easy. intros H.
      replace (done ++ it :: its) with ((done ++ [it]) ++ its) by (now rewrite <- app_assoc).
      eapply IH; [|exact H]. eapply add_action_inv; eauto.
  Qed.
  Lemma set_actions_spec its a : set_actions g sets gt i its [] = Ret a -> row_inv its a.
  Proof.
    intros H. apply (set_actions_inv its [] [] a); [|easy]. split; [intros X; cbn; easy|easy].
  Qed.
End Actions.

(** The rows of the table. *)
Fixpoint row_of (t : table) (i : N) : option acts :=
  match t with
  | [] => None
  | (j, a) :: r => if i =? j then Some a else row_of r i
  end.
Lemma all_actions_spec g all gt sets : forall t, all_actions g all gt sets = Ret t ->
  (forall i a, row_of t i = Some a -> exists K1 v, In (K1, v) sets /\ s_index v = i /\
     row_inv g all gt i (s_closure v) a) /\
  (forall K1 v, In (K1, v) sets -> exists a, row_of t (s_index v) = Some a).
Proof.
  induction sets as [|[K1 s] sets IH]; intros t; cbn [all_actions].
  - intros [= <-]. cbn. easy.
  - destruct (set_actions g all gt (s_index s) (s_closure s) []) as [a| | |] eqn:E; cbn [bind]; try easy.
    destruct (all_actions g all gt sets) as [t1| | |]; cbn [bind]; try easy. intros [= <-].
    destruct (IH t1 eq_refl) as [A B]. split.
    + intros i a'. cbn. destruct (N.eqb_spec i (s_index s)) as [-> | Hi].
      * intros [= <-]. exists K1, s. split; [now left|]. split; [easy|]. now apply set_actions_spec.
      * intros H. destruct (A i a' H) as (K' & v & H1 & H2). exists K', v. split; [now right|easy].
    + intros K' v [[= -> ->] | H]; cbn.
      * rewrite N.eqb_refl. now exists a.
      * destruct (s_index v =? s_index s); [now exists a|eauto].
Qed.
