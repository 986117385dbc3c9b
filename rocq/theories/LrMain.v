(** LrMain.v -- soundness, completeness and unambiguity for the parsers that generate builds. *)
From Verif Require Import Base OrdSet GrammarSpec FirstModel FirstProofs LrModel LrSets LrTable ParseSpec
  LrDriver LrSound LrParse LrLookahead LrComplete.

(** A state whose items both accept the input and reduce something at its end. generate does not report
    this conflict. *)
Definition accepting (g : grammar) (x : item) : bool := at_end g x && (i_prod x =? g_root g).
Definition reducing_end (g : grammar) (x : item) : bool :=
  at_end g x && negb (i_prod x =? g_root g) && (i_la x =? TokenEnd).
Definition end_conflict (g : grammar) (sets : list (list item * lr1set)) : bool :=
  existsb (fun kv => existsb (accepting g) (s_closure (snd kv)) && existsb (reducing_end g) (s_closure (snd kv))) sets.

Lemma end_conflict_clean g sets : end_conflict g sets = false ->
  forall K v x y, In (K, v) sets -> In x (s_closure v) -> In y (s_closure v) ->
    at_end g x = true -> i_prod x = g_root g -> at_end g y = true -> i_prod y <> g_root g -> i_la y <> TokenEnd.
Proof.
  intros H K v x y Hin Hx Hy E1 E2 E3 E4 E5.
  assert (end_conflict g sets = true); [|congruence]. apply existsb_exists. exists (K, v). split; [easy|].
  apply andb_true_iff. split; apply existsb_exists.
  - exists x. split; [easy|]. unfold accepting. rewrite E1, E2, N.eqb_refl. easy.
  - exists y. split; [easy|]. unfold reducing_end. apply N.eqb_neq in E4. rewrite E3, E4, E5. easy.
Qed.

Section Main.
  Context {tok : Type}.
  Variables (types : tok -> list N) (eof : tok) (fuel cfuel : nat) (g : grammar) (start : N).
  Variables (t : table) (root : option N).
  Hypothesis Hwf : wf_grammar g start.
  Hypothesis Hgen : generate fuel cfuel g = Ret (t, root).
  Hypothesis Htypes : forall tk X, In X (types tk) -> In X (g_terms g).
  Hypothesis Heof : types eof = [TokenEnd].
  Notation sym := (root_sym (g_prods g)).

  Theorem sound_main {A} (rule : N -> option (list (value tok A) -> out A)) resets limit steps inp alloc v al :
    (forall tk, In tk inp -> ~ In TokenEnd (types tk)) ->
    parse types eof rule resets limit g t steps root inp alloc = Ret (v, al) ->
    exists tr, well_formed types g tr /\ sym tr = start /\ map fst (yield tr) = inp /\ eval rule tr = Ret v.
  Proof.
    intros Hp H. destruct (generate_table fuel cfuel g start Hwf t root Hgen) as (sets & Ha & Ht & ->).
    eapply (parse_sound types eof rule resets limit cfuel g start t sets); eauto.
    apply Forall_forall. exact Hp.
  Qed.

  Hypothesis Hprod : productive g.
  Variables (sets : list (list item * lr1set)) (gt : gtab).
  Hypothesis Hsets : item_sets fuel cfuel g = Ret (sets, gt, root).
  Hypothesis Hclean : end_conflict g sets = false.
  Hypothesis Hagree : agree types g t.

  Theorem complete_main {A} (rule : N -> option (list (value tok A) -> out A)) resets limit steps alloc tr v :
    well_formed types g tr -> sym tr = start ->
    (forall tk, In tk (map fst (yield tr)) -> ~ In TokenEnd (types tk)) -> eval rule tr = Ret v ->
    alloc + slots tr <= limit -> (size tr < steps)%nat ->
    exists al, parse types eof rule resets limit g t steps root (map fst (yield tr)) alloc = Ret (v, al) /\
      al <= alloc + slots tr.
  Proof.
    intros Hw Hs Hp Hev Hal Hst.
    destruct (generate_table fuel cfuel g start Hwf t root Hgen) as (_ & _ & _ & Er).
    pose proof Hgen as Hg. apply generate_parts in Hg. destruct Hg as (sets' & gt' & Hs' & Hall).
    rewrite Hsets in Hs'. injection Hs' as <- <-.
    pose proof Hsets as Hparts. apply item_sets_parts in Hparts.
    destruct Hparts as (a & nul & fs & sp & m & P).
    pose proof (end_conflict_clean g sets Hclean) as Hc. rewrite Er.
    apply (parse_complete types eof rule resets limit g start t Hwf Htypes Heof Hagree
             (has cfuel g a nul fs m)); auto.
    - exact (has_shift fuel cfuel g start Hwf sets gt root a nul fs sp m P Hprod t Hall).
    - exact (has_reduce fuel cfuel g start Hwf sets gt root a nul fs sp m P Hprod t Hall Hc).
    - exact (has_accept fuel cfuel g start Hwf sets gt root a nul fs sp m P Hprod t Hall Hc).
    - intros i x q ts Hx He Hq Hm Hf. split.
      + intros ->. destruct Hx as (K & C1 & HK & HC1 & Hx).
        pose proof (la_auto fuel cfuel g sets gt root a nul fs sp m P) as Ha.
        destruct (au_closed _ _ _ Ha K i HK) as (C & HC).
        pose proof (project fuel cfuel g start Hwf sets gt root a nul fs sp m P K i C C1 x HK HC HC1 Hx) as Hsx.
        destruct (kernels_valid cfuel g start Hwf _ _ _ Ha HK) as [Hv _].
        destruct (closure_items g cfuel (root_lt g start Hwf) K C _ HC Hv Hsx) as (Vi & _).
        destruct (root_prod g start Hwf) as (h & Eh & Hh).
        apply prods_of_spec in Hq. destruct Hq as [_ Eq]. rewrite Eh in Eq. cbn in Eq.
        apply (Hh (prod_at g (i_prod x))); [apply prod_in, Vi|]. rewrite Eq.
        exact (next_in_body g (strip x) Vi He).
      + destruct (has_closure cfuel g start Hwf a nul fs m i x q Hx He Hq) as (las & Hlas & Hin).
        apply Hin.
        pose proof (la_first fuel cfuel g sets gt root a nul fs sp m P) as (F1 & F2 & F3).
        pose proof (lookaheads_trees types g nul fs F1 F2 F3 _ ts _ _ Hlas Hm Hf) as L.
        destruct (flat_map yield ts) as [|[tk X] w]; exact L.
    - exact (has_root fuel cfuel g start Hwf sets gt root a nul fs sp m P Hprod t Hall).
    - apply Forall_forall. exact Hp.
  Qed.

  (** ** One tree per input. *)
  Fixpoint skel (tr : tree tok) : tree tok :=
    match tr with Leaf tk _ => Leaf tk 0 | Node p ts => Node p (map skel ts) end.
  Definition of_value (v : value tok (tree tok)) : tree tok :=
    match v with VTok tk => Leaf tk 0 | VNt p (Some x) => x | VNt p None => Node p [] end.
  Definition build (p : N) : option (list (value tok (tree tok)) -> out (tree tok)) :=
    Some (fun vs => Ret (Node p (map of_value vs))).
  Lemma eval_build tr : exists v, eval build tr = Ret v /\ of_value v = skel tr.
  Proof.
    induction tr as [tk X | p ts IH] using tree_ind'; [now exists (VTok tk)|].
    rewrite eval_node.
    assert (G : exists vs, evals build ts = Ret vs /\ map of_value vs = map skel ts).
    { clear -IH. induction IH as [|x ts (v & E1 & E2) Hts (vs & E3 & E4)]; [now exists []|].
      exists (v :: vs). cbn [evals map]. rewrite E1. cbn [bind]. rewrite E3, E2, E4. easy. }
    destruct G as (vs & E1 & E2). rewrite E1. cbn [bind]. unfold apply_rule, build. cbn.
    eexists. split; [reflexivity|]. cbn. now rewrite E2.
  Qed.
  Lemma skel_inj tr : forall tr', well_formed types g tr -> well_formed types g tr' -> sym tr = sym tr' ->
    skel tr = skel tr' -> tr = tr'.
  Proof.
    induction tr as [tk X | p ts IH] using tree_ind'; intros tr' H H' Es E; destruct tr' as [tk' X' | p' ts'];
      cbn in E; try easy.
    - injection E as <-. cbn in Es. now subst.
    - injection E as <- E. f_equal. inversion H as [|? ? pr Hn Hb Hf]; inversion H' as [|? ? pr' Hn' Hb' Hf']; subst.
      rewrite Hn in Hn'. injection Hn' as <-. rewrite <- Hb' in Hb. clear -IH E Hb Hf Hf'.
      revert ts' E Hb Hf'. induction ts as [|x ts IHts]; intros [|x' ts'] E Hb Hf'; try easy.
      cbn in E, Hb. injection E as E1 E2. injection Hb as B1 B2.
      inversion IH; inversion Hf; inversion Hf'; subst. f_equal; auto.
  Qed.
  Theorem one_tree tr tr' : well_formed types g tr -> well_formed types g tr' ->
    sym tr = start -> sym tr' = start ->
    (forall tk, In tk (map fst (yield tr)) -> ~ In TokenEnd (types tk)) ->
    map fst (yield tr) = map fst (yield tr') -> tr = tr'.
  Proof.
    intros H H' E E' Hp Ey. apply skel_inj; auto; [congruence|].
    destruct (eval_build tr) as (v & Ev & Eo). destruct (eval_build tr') as (v' & Ev' & Eo').
    destruct (complete_main build (fun _ => false) (slots tr + slots tr')
               (S (size tr + size tr')) 0 tr v H E Hp Ev) as (al & P1 & _); [lia|lia|].
    destruct (complete_main build (fun _ => false) (slots tr + slots tr')
               (S (size tr + size tr')) 0 tr' v' H' E') as (al' & P2 & _); auto; [now rewrite <- Ey|lia|lia|].
    rewrite Ey, P2 in P1. injection P1 as -> _. congruence.
  Qed.
End Main.
