(** LrValid.v -- a grammar for which generate returns a table is LR(1). *)
From Verif Require Import Base OrdSet GrammarSpec FirstModel FirstProofs LrModel LrSets LrTable LrDriver LrSound LrLookahead LrTerm
  LrOutcome LrMain LrSpec.

Lemma first_of_cons g X beta la b : first_of g (X :: beta) la b -> begins g X b \/ (vanishes g X /\ first_of g beta la b).
Proof.
  intros [(u & Y & v & E & Hu & Hb) | [Hv E]].
  - destruct u as [|Z u]; cbn in E; injection E as <- E; [now left|]. right. split; [apply Hu; now left|].
    left. exists u, Y, v. split; [easy|]. split; [intros W HW; apply Hu; now right|easy].
  - right. split; [apply Hv; now left|]. right. split; [intros W HW; apply Hv; now right|easy].
Qed.
Section Lookaheads.
  Variables (g : grammar) (nul : list N) (fs : fmap).
  Hypothesis Hnul : forall X, In X nul <-> vanishes g X.
  Hypothesis Hfs : forall X t, In t (fref fs X) <-> begins g X t.
  Hypothesis Hsort : sortedN nul.
  Lemma lookaheads_first rest : forall la b las, lookaheads nul fs rest la = Ret las -> first_of g rest la b -> In b las.
  Proof.
    induction rest as [|s r IH]; intros la b las; cbn [lookaheads].
    - intros [= <-] [(u & X & v & E & _) | [_ ->]]; [now destruct u|now left].
    - destruct (fget fs s) as [f|] eqn:E; [|discriminate]. intros H Hf.
      assert (Hs : forall t, begins g s t -> In t f) by (intros t Ht; apply Hfs in Ht; unfold fref in Ht; now rewrite E in Ht).
      apply first_of_cons in Hf. destruct (omem N.compare s nul) eqn:Em.
      + apply bind_inv in H. destruct H as (l & Hl & [= <-]). apply in_or_app. destruct Hf as [Hf | [_ Hf]]; [left; auto|right; eauto].
      + injection H as <-. destruct Hf as [Hf | [Hv _]]; [auto|]. apply Hnul in Hv. exfalso.
        apply (omemN s nul Hsort) in Hv. congruence.
  Qed.
End Lookaheads.

Section Valid.
  Variables (fuel cfuel : nat) (g : grammar) (start : N).
  Hypothesis Hwf : wf_grammar g start.
  Hypothesis Hprod : productive g.
  Variables (sets : list (list item * lr1set)) (gt : gtab) (root : option N)
    (a : lr0) (nul : list N) (fs : fmap) (sp : fmap * pmap) (m : lmap).
  Hypothesis P : parts fuel cfuel g sets gt root a nul fs sp m.
  Variable t : table.
  Hypothesis Hall : all_actions g sets gt sets = Ret t.
  Notation has := (has cfuel g a nul fs m).

  (** The states that the parser reaches by shifting. *)
  Inductive goes : list N -> N -> Prop :=
  | goes_nil : goes [] 0
  | goes_snoc : forall gamma i X j, goes gamma i -> action_at g t i X = Ret (AShift j) -> goes (gamma ++ [X]) j.
  Lemma goes_fun gamma i : goes gamma i -> forall j, goes gamma j -> i = j.
  Proof.
    assert (Hinv : forall l k, goes l k -> (l = [] /\ k = 0) \/ exists l' i' X', l = l' ++ [X'] /\ goes l' i' /\ action_at g t i' X' = Ret (AShift k)).
    { intros l k Hk. destruct Hk as [|l' i' X' k Hg Ha]; [left; auto|right]. exists l', i', X'. auto. }
    intros H. induction H as [|gamma i X j H IH Ha]; intros k Hk; apply Hinv in Hk; destruct Hk as [(E & ->) | (l & i' & X' & E & H' & Ha')].
    - reflexivity.
    - destruct l; discriminate E.
    - destruct gamma; discriminate E.
    - apply app_inj_tail in E. destruct E as [<- <-]. assert (i = i') as <- by now apply IH. congruence.
  Qed.
  Lemma valid_has gamma x : valid g gamma x -> exists i, goes gamma i /\ has i x.
  Proof.
    intros H. induction H as [|gamma x q p b H (i & Hi & IH) He Hq Hh Hf|gamma x H (i & Hi & IH) He].
    - exists 0. split; [constructor|]. exact (has_root fuel cfuel g start Hwf _ _ _ _ _ _ _ _ P Hprod t Hall).
    - exists i. split; [exact Hi|].
      destruct (has_closure cfuel g start Hwf a nul fs m i x q IH He) as (las & Hlas & Hin).
      { apply prods_of_spec. assert (N.to_nat q < length (g_prods g))%nat by (apply nth_error_Some; congruence). split; [lia|].
        unfold prod_at. now rewrite (nth_error_nth _ _ _ Hq). }
      apply Hin. pose proof (first_sets_ret _ _ _ _ (pt_first _ _ _ _ _ _ _ _ _ _ _ P)) as (F1 & F2 & F3).
      exact (lookaheads_first g nul fs F1 F2 F3 _ _ _ _ Hlas Hf).
    - destruct (has_shift fuel cfuel g start Hwf _ _ _ _ _ _ _ _ P Hprod t Hall i x IH He) as (j & Hj & Hin).
      exists j. split; [econstructor; eauto|exact Hin].
  Qed.
  Lemma has_set i x : has i x -> exists K v, In (K, v) sets /\ s_index v = i /\ In x (s_closure v) /\
    forall y, has i y -> In y (s_closure v).
  Proof.
    intros (K & C1 & HK & HC & Hx). destruct (set_there fuel cfuel g start Hwf Hprod _ _ _ _ _ _ _ _ P K i HK) as (v & Hv & Ei).
    destruct (set_origin fuel cfuel g _ _ _ _ _ _ _ _ P _ _ Hv) as (K' & _ & E1 & HC').
    rewrite <- E1, HC in HC'. injection HC' as E. exists (lr1_kernel m K), v.
    split; [exact Hv|]. split; [exact Ei|]. split; [now rewrite <- E|].
    intros y (Ky & Cy & HKy & HCy & Hy). assert (Ky = K) as -> by (eapply (au_inj _ _ _ (la_auto _ _ _ _ _ _ _ _ _ _ _ P)); eauto).
    rewrite HC in HCy. injection HCy as <-. now rewrite <- E.
  Qed.
  Lemma valid_ok gamma x : valid g gamma x -> valid_item g x.
  Proof.
    intros H. destruct (valid_has gamma x H) as (i & _ & K & C1 & HK & HC & Hx).
    exact (proj1 (oc_la fuel cfuel g start Hwf _ _ _ _ _ _ _ _ P K i C1 x HK HC Hx)).
  Qed.
  Lemma valid_root gamma x : valid g gamma x -> i_prod x = g_root g -> i_la x = TokenEnd.
  Proof.
    intros H. induction H as [|gamma x q p b H IH He Hq Hh Hf|gamma x H IH He]; cbn [i_prod i_la]; auto.
    intros ->. exfalso. destruct (wg_root _ _ Hwf) as (h & Hr & Hno). rewrite Hr in Hq. injection Hq as <-. cbn [p_head] in Hh.
    pose proof (valid_ok gamma x H) as Hv. apply (Hno (prod_at g (i_prod x))); [exact (LrTerm.prod_in g x (proj1 Hv))|].
    rewrite Hh. unfold at_end in He. apply N.eqb_neq in He. destruct Hv as [_ V]. unfold next_symbol, body_at in *. apply nth_In. lia.
  Qed.
  Theorem table_lr1 : end_conflict g sets = false -> lr1 g.
  Proof.
    intros Hclean gamma x y X Hx Hy (Hne & (Ey & Ly) & Hxx).
    destruct (valid_has gamma x Hx) as (i & Hi & Hax). destruct (valid_has gamma y Hy) as (i' & Hi' & Hay).
    assert (i' = i) as -> by (symmetry; eapply goes_fun; eauto).
    destruct (has_set i x Hax) as (K & v & Hv & _ & Hxv & Hall'). pose proof (Hall' y Hay) as Hyv.
    pose proof (end_conflict_clean g sets Hclean K v) as Hc.
    assert (Hex : forall z, In z (s_closure v) -> at_end g z = true -> i_prod z <> g_root g -> i_la z = X -> conflict g (s_closure v) X -> False).
    { intros z Hz Ez Rz Lz Hcf. destruct (table_conflict fuel cfuel g _ _ _ _ _ _ _ _ P t K v X Hall Hv Hcf) as (-> & it & Hit & E1 & E2).
      exact (Hc it z Hv Hit Hz E1 E2 Ez Rz Lz). }
    destruct (N.eq_dec (i_prod y) (g_root g)) as [Ry | Ry].
    - pose proof (valid_root gamma y Hy Ry) as Le. assert (X = TokenEnd) by congruence. subst X.
      destruct Hxx as [(Ex & Nx) | (Ex & Lx)].
      + pose proof (valid_ok gamma x Hx) as Vx.
        apply (proj2 (wg_body _ _ Hwf (prod_at g (i_prod x)) (next_symbol g x) (LrTerm.prod_in g x (proj1 Vx))
          ltac:(unfold at_end in Ex; apply N.eqb_neq in Ex; destruct Vx as [_ V]; unfold next_symbol, body_at in *; apply nth_In; lia))).
        congruence.
      + destruct (N.eq_dec (i_prod x) (g_root g)) as [Rx | Rx].
        * apply Hne. unfold at_end in *. apply N.eqb_eq in Ey, Ex. destruct x, y. cbn in *. congruence.
        * apply (Hc y x Hv Hyv Hxv Ey Ry Ex Rx). congruence.
    - destruct Hxx as [(Ex & Nx) | (Ex & Lx)].
      + apply (Hex y Hyv Ey Ry Ly). exists x, y. split; [exact Hxv|]. split; [exact Hyv|]. split; [exact Hne|].
        split; [split; [exact Ey|split; [exact Ry|exact Ly]]|]. left. split; [exact Ex|]. split; [exact Nx|].
        rewrite <- Nx. destruct (next_known g start Hwf x (valid_ok gamma x Hx) Ex) as [Hk | Hk]; [left|right; exact Hk].
        now apply existsb_N.
      + destruct (N.eq_dec (i_prod x) (g_root g)) as [Rx | Rx].
        * pose proof (valid_root gamma x Hx Rx) as Le. apply (Hc x y Hv Hxv Hyv Ex Rx Ey Ry). congruence.
        * apply (Hex y Hyv Ey Ry Ly). exists x, y. split; [exact Hxv|]. split; [exact Hyv|]. split; [exact Hne|].
          split; [split; [exact Ey|split; [exact Ry|exact Ly]]|]. right. split; [exact Ex|split; [exact Rx|exact Lx]].
  Qed.
End Valid.
