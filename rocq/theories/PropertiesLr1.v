(** PropertiesLr1.v -- C77: which grammars generate accepts. *)
From Verif Require Import Base OrdSet GrammarSpec SchemaModel SchemaGrammar GrammarCalls FirstModel FirstProofs LrModel LrSets LrTable
  LrSound LrLookahead LrMain LrTerm LrOutcome SchemaTable LrSpec LrValid PropertiesLalr PropertiesGrammar.
From Coq Require Import String.
Local Open Scope list_scope.
Local Open Scope N_scope.

(** ** A grammar that generate accepts is LR(1): no two items valid for one viable prefix clash -- if no state both accepts and
    reduces at the end of the input, which generate does not check (C48_refuted). *)
Theorem C77_accepted_is_lr1_partial : forall fuel cfuel g start sets gt root t, wf_grammar g start -> productive g ->
  item_sets fuel cfuel g = Ret (sets, gt, root) -> generate fuel cfuel g = Ret (t, root) ->
  end_conflict g sets = false -> lr1 g.
Proof.
  intros fuel cfuel g start sets gt root t Hwf Hp Hs Hgen Hc.
  destruct (item_sets_parts _ _ _ _ _ _ Hs) as (a & nul & fs & sp & m & P). unfold generate in Hgen. rewrite Hs in Hgen. cbn [bind] in Hgen.
  apply bind_inv in Hgen. destruct Hgen as (t' & Ht & _).
  exact (table_lr1 fuel cfuel g start Hwf Hp _ _ _ _ _ _ _ _ P t' Ht Hc).
Qed.
Print Assumptions C77_accepted_is_lr1_partial.

(** ** An LALR(1) grammar that generate refuses. *)
(** A finite list of the items valid for each prefix, and a check that it is complete, for grammars in which nothing but a
    terminal, or nothing at all, follows a non-terminal. *)
Definition veqb (a b : list N * item) : bool :=
  (if list_eq_dec N.eq_dec (fst a) (fst b) then true else false) && item_eqb (snd a) (snd b).
Definition vmem (L : list (list N * item)) (a : list N * item) : bool := existsb (veqb a) L.
Lemma vmem_in L a : vmem L a = true -> In a L.
Proof.
  unfold vmem. intros H. apply existsb_exists in H. destruct H as (b & Hb & E). unfold veqb in E.
  destruct (list_eq_dec N.eq_dec (fst a) (fst b)) as [E1|]; [|discriminate]. cbn [andb] in E.
  apply item_eqb_eq in E. destruct a, b. cbn [fst snd] in *. now subst.
Qed.
Definition vclosed (g : grammar) (L : list (list N * item)) : bool :=
  vmem L ([], mkItem (g_root g) 0 TokenEnd) &&
  forallb (fun e => let '(gamma, x) := e in
    at_end g x ||
    (vmem L (gamma ++ [next_symbol g x], mkItem (i_prod x) (i_dot x + 1) (i_la x)) &&
     forallb (fun q => match behind g x with
                       | [] => vmem L (gamma, mkItem q 0 (i_la x))
                       | c :: _ => is_token g c && vmem L (gamma, mkItem q 0 c)
                       end) (prods_of g (next_symbol g x)))) L.
Lemma first_of_terminal g start c r la b : wf_grammar g start -> In c (g_terms g) -> first_of g (c :: r) la b -> b = c.
Proof.
  intros Hwf Hc. assert (Hd : forall u v, derives (g_prods g) u v -> u = [c] -> v = [c]).
  { intros u v H. induction H as [u|u w v Hs H IH]; intros ->; [reflexivity|]. exfalso.
    remember [c] as e eqn:E. destruct Hs as [u p y Hp]. destruct u as [|z u]; cbn in E.
    - injection E as E _. apply (wg_sep _ _ Hwf (p_head p)); [apply (wg_nts _ _ Hwf); now exists p|now rewrite E].
    - injection E as _ E. now destruct u. }
  intros H. apply first_of_cons in H. destruct H as [(_ & w & H) | (H & _)].
  - specialize (Hd _ _ H eq_refl). congruence.
  - specialize (Hd _ _ H eq_refl). discriminate.
Qed.
Lemma vclosed_ok g start L : wf_grammar g start -> vclosed g L = true -> forall gamma x, valid g gamma x -> In (gamma, x) L.
Proof.
  intros Hwf H. unfold vclosed in H. apply andb_true_iff in H. destruct H as [H0 H]. rewrite forallb_forall in H.
  intros gamma x Hv. induction Hv as [|gamma x q p b Hv IH He Hq Hh Hf|gamma x Hv IH He].
  - now apply vmem_in.
  - specialize (H _ IH). cbn beta iota in H. rewrite He in H. cbn [orb] in H. apply andb_true_iff in H. destruct H as [_ H].
    rewrite forallb_forall in H. specialize (H q). destruct (behind g x) as [|c r] eqn:E.
    + destruct Hf as [(u & X & v & E2 & _) | [_ ->]]; [now destruct u|]. apply vmem_in, H. apply prods_of_spec.
      assert (N.to_nat q < List.length (g_prods g))%nat by (apply nth_error_Some; congruence). split; [lia|].
      unfold prod_at. now rewrite (nth_error_nth _ _ _ Hq).
    + assert (Hin : In q (prods_of g (next_symbol g x))).
      { apply prods_of_spec. assert (N.to_nat q < List.length (g_prods g))%nat by (apply nth_error_Some; congruence). split; [lia|].
        unfold prod_at. now rewrite (nth_error_nth _ _ _ Hq). }
      specialize (H Hin). apply andb_true_iff in H. destruct H as [Ht H].
      assert (Hc : In c (g_terms g)) by (unfold is_token in Ht; now apply existsb_N in Ht).
      rewrite (first_of_terminal g start c r _ _ Hwf Hc Hf). now apply vmem_in.
  - specialize (H _ IH). cbn beta iota in H. rewrite He in H. cbn [orb] in H. apply andb_true_iff in H. destruct H as [H _]. now apply vmem_in.
Qed.
Definition clashb (g : grammar) (x y : item) : bool :=
  negb (item_eqb x y) && at_end g y &&
  (if at_end g x then i_la x =? i_la y else next_symbol g x =? i_la y).
Lemma clashb_ok g x y X : clash g x y X -> clashb g x y = true.
Proof.
  intros (Hne & (Ey & Ly) & Hx). unfold clashb. rewrite Ey.
  assert (E : item_eqb x y = false).
  { destruct (item_eqb x y) eqn:E; [|reflexivity]. exfalso. apply Hne. exact (proj1 (item_eqb_eq x y) E). }
  rewrite E. cbn [negb andb]. destruct Hx as [(-> & H) | (-> & H)]; apply N.eqb_eq; congruence.
Qed.
(** Two items that clash, of prefixes that (by [L]) may have the same core. *)
Definition vcore (L : list (list N * item)) (gamma : list N) (y : item) : bool :=
  existsb (fun h => (if list_eq_dec N.eq_dec (fst h) gamma then true else false) &&
                    (i_prod (snd h) =? i_prod y) && (i_dot (snd h) =? i_dot y)) L.
Definition vlalr (g : grammar) (L : list (list N * item)) : bool :=
  forallb (fun e => forallb (fun f =>
    negb (clashb g (snd e) (snd f)) || negb (vcore L (fst e) (snd f) && vcore L (fst f) (snd e))) L) L.
Lemma vlalr_ok g start L : wf_grammar g start -> vclosed g L = true -> vlalr g L = true -> lalr1 g.
Proof.
  intros Hwf Hc Hl gamma x y X (g1 & C1 & V1) (g2 & C2 & V2) Hcl. pose proof (vclosed_ok g start L Hwf Hc) as HL.
  unfold vlalr in Hl. rewrite forallb_forall in Hl. specialize (Hl _ (HL _ _ V1)). rewrite forallb_forall in Hl.
  specialize (Hl _ (HL _ _ V2)). cbn [fst snd] in Hl. rewrite (clashb_ok g x y X Hcl) in Hl. cbn [negb orb] in Hl.
  assert (G : forall h z, (exists l, valid g h (mkItem (i_prod z) (i_dot z) l)) -> vcore L h z = true).
  { intros h z (l & Vl). apply existsb_exists. exists (h, mkItem (i_prod z) (i_dot z) l). split; [now apply HL|].
    cbn [fst snd i_prod i_dot]. destruct (list_eq_dec N.eq_dec h h) as [_|K]; [|now elim K]. now rewrite !N.eqb_refl. }
  rewrite (G g1 y), (G g2 x) in Hl; [discriminate| |].
  - apply C2, C1. exists (i_la x). now destruct x.
  - apply C1, C2. exists (i_la y). now destruct y.
Qed.

(** S -> a A c | b A d | b B c, A -> e, B -> e: the grammar of the three sentences aec, bed, bec. The lookaheads that
    generate_lr1_item_sets collects are kept per production (m_spontaneous_map) and per item (lookaheads), not per item set
    (LALR1Parser.tpp 302-350): the item A -> e . gets the lookahead c, which it has after "a" only, also in the state after "be",
    where B -> e . has it; generate reports a conflict that an LALR(1) table does not have. *)
Definition lalr_calls : list (gcall unit) :=
  map CRule ["a"; "b"; "c"; "d"; "e"]%string ++
  map (fun p => CProd (fst p) (snd p) tt)
    [("S", ["a"; "A"; "c"]); ("S", ["b"; "A"; "d"]); ("S", ["b"; "B"; "c"]); ("A", ["e"]); ("B", ["e"])]%string.
Definition three : grammar := mkGrammar
  [mkProd 13 [8; 14; 10]; mkProd 15 [13]; mkProd 13 [9; 14; 11]; mkProd 13 [9; 16; 10]; mkProd 14 [12]; mkProd 16 [12]]
  [0; 1; 2; 3; 4; 5; 6; 7; 8; 9; 10; 11; 12] [15; 13; 14; 16] 1 17.
Definition three_items : list (list N * item) :=
  let it p d l := mkItem p d l in
  [([], it 1 0 0); ([13], it 1 1 0); ([], it 0 0 0); ([], it 2 0 0); ([], it 3 0 0);
   ([8], it 0 1 0); ([8], it 4 0 10); ([8; 12], it 4 1 10); ([8; 14], it 0 2 0); ([8; 14; 10], it 0 3 0);
   ([9], it 2 1 0); ([9], it 3 1 0); ([9], it 4 0 11); ([9], it 5 0 10); ([9; 12], it 4 1 11); ([9; 12], it 5 1 10);
   ([9; 14], it 2 2 0); ([9; 14; 11], it 2 3 0); ([9; 16], it 3 2 0); ([9; 16; 10], it 3 3 0)].
Theorem C77_refuted : sensible lalr_calls /\ b_grammar (registered tt lalr_calls) = three /\
  wf_grammar three 13 /\ productive three /\ lalr1 three /\
  forall fuel cfuel, (100 <= fuel)%nat -> (100 <= cfuel)%nat -> generate fuel cfuel three = Throw.
Proof.
  assert (Hwf : wf_grammar three 13) by (apply wf_check_ok; vm_compute; reflexivity).
  split; [apply sensible_check_ok; vm_compute; reflexivity|]. split; [vm_compute; reflexivity|]. split; [exact Hwf|].
  split; [apply (live_productive _ 5); vm_compute; reflexivity|]. split.
  - apply (vlalr_ok three 13 three_items Hwf); vm_compute; reflexivity.
  - assert (E0 : match item_sets 100 100 three with Ret (sets, gt, _) => all_actions three sets gt sets = Throw | _ => False end)
      by (vm_compute; reflexivity).
    clear Hwf. revert E0. generalize three. intros g E0 fuel cfuel Hf Hc.
    destruct (item_sets 100 100 g) as [[[sets gt] root]| | |] eqn:E; [|destruct E0..].
    unfold generate. rewrite (item_sets_mono 100 fuel 100 cfuel g _ Hf Hc E). cbn [bind]. rewrite E0. reflexivity.
Qed.
Print Assumptions C77_refuted.

(** Non-vacuity, and SchemaParser's own grammar is LR(1). *)
Theorem C77_schema_lr1 : wf_grammar schema_grammar schema_start /\ productive schema_grammar /\ lr1 schema_grammar.
Proof.
  split; [exact schema_wf|]. split; [exact schema_productive|]. destruct schema_generated as (H1 & sets & gt & H2 & H3).
  exact (C77_accepted_is_lr1_partial _ _ _ _ _ _ _ _ schema_wf schema_productive H2 H1 H3).
Qed.
Print Assumptions C77_schema_lr1.
