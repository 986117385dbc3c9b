(** PropertiesRegex.v -- C07, C08, C09, C10, C11, C12, C37: from patterns to the DFA. *)
From Verif Require Import Base LexerModel LexerSpec RegexModel RegexSpec RegexProofs RegexLang DfaModel DfaProofs DfaExact.
From Coq Require Import Permutation.

Lemma accepts_full rules A : nfa_of_rules rules = Ret A ->
  forall i w, accepts A i w <-> exists r, In (i, r) rules /\ img (full r) w.
Proof.
  intros HA i w. unfold accepts. split.
  - intros (v & E & Hv). apply (nfa_of_rules_spec rules A HA) in Hv as (r & Hi & Hr). exists r. split; [exact Hi|].
    exists v. auto.
  - intros (r & Hi & v & E & Hv). exists v. split; [exact E|]. apply (nfa_of_rules_spec rules A HA). eauto.
Qed.

(** C07 (partial): a set of rules none of whose patterns contains the special form of a bare integer always
    gives an NFA, and if the patterns are faithful, it accepts a string with id i iff some rule with id i
    matches the string as documented -- with R* read as R+ and R{0,M} as R{1,M}.
    Missing: R* and R{0,M} do not match the empty repetition, an unbounded repetition at the end of an
    alternative is shared with the other alternative, [^] matches nothing (see the refutations). *)
Theorem C07_nfa_exists : forall rules, (forall i r, In (i, r) rules -> no_int r = true) ->
  exists A, nfa_of_rules rules = Ret A.
Proof.
  intros rules H. unfold nfa_of_rules.
  assert (G : forall n, exists n' es acc, add_rules rules n = Ret (n', es, acc)).
  { induction rules as [|(i & r) rules IH]; intros n; cbn [add_rules]; [eauto|].
    destruct (add_to_nfa_total r (H i r (or_introl eq_refl)) n_root n (S n)) as (n1 & e1 & ->). cbn [bind].
    destruct (IH (fun j x Hx => H j x (or_intror Hx)) n1) as (n2 & e2 & acc & ->). cbn [bind]. eauto. }
  destruct (G 1%nat) as (n' & es & acc & ->). cbn [bind]. eauto.
Qed.
Print Assumptions C07_nfa_exists.
Theorem C07_patterns_match_partial : forall rules A,
  nfa_of_rules rules = Ret A ->
  (forall i r, In (i, r) rules -> faithful (star_as_plus r)) ->
  forall i w, accepts A i w <-> exists r, In (i, r) rules /\ matches (star_as_plus r) w.
Proof.
  intros rules A HA Hf i w. rewrite (accepts_full rules A HA). split; intros (r & Hi & Hw); exists r; (split; [exact Hi|]).
  - apply (full_matches _ (Hf i r Hi)). destruct Hw as (v & E & Hv). exists v. split; [exact E|]. apply full_star_as_plus. exact Hv.
  - apply (full_matches _ (Hf i r Hi)) in Hw as (v & E & Hv). exists v. split; [exact E|]. apply full_star_as_plus. exact Hv.
Qed.
Print Assumptions C07_patterns_match_partial.
(** Non-vacuity: (?<x>[a-c]+)b{2,3}|d*e is faithful. *)
Definition ex_pat : regex :=
  ROr (RCat (RCapture (RMult (RGroup false false [(97, 99)]) 1 0) 1) (RMult (RLit 98) 2 3))
      (RCat (ROr REmpty (RMult (RLit 100) 1 0)) (RLit 101)).
Example C07_example : faithful (star_as_plus ex_pat) /\ no_int ex_pat = true /\ matches (star_as_plus ex_pat) [99; 97; 98; 98].
Proof.
  split; [|split; [reflexivity|]].
  - cbn. unfold ranges_ok. repeat split; auto; try lia; try discriminate.
    intros lo hi [[= <- <-]|[]]. lia.
  - left. exists [99; 97], [98; 98]. split; [reflexivity|]. split.
    + exists 2%nat. split; [|lia]. exists [99], [97]. split; [reflexivity|]. split.
      * exists 99. split; [reflexivity|]. unfold cSizeOfByte. split; [lia|]. exists 97, 99. split; [left; reflexivity|lia].
      * exists [97], []. split; [reflexivity|]. split; [|reflexivity]. exists 97. split; [reflexivity|].
        unfold cSizeOfByte. split; [lia|]. exists 97, 99. split; [left; reflexivity|lia].
    + exists 2%nat. split; [|lia]. exists [98], [98]. split; [reflexivity|]. split; [split; [reflexivity|unfold cSizeOfByte; lia]|].
      exists [98], []. split; [reflexivity|]. split; [split; [reflexivity|unfold cSizeOfByte; lia]|reflexivity].
Qed.

(** C08: for every set of rules and every memory layout, the construction terminates and the DFA reports,
    after any string, exactly the ids of the accepting NFA states the string leads to; it is stuck exactly
    when the string leads to no NFA state. *)
Theorem C08_dfa_equals_nfa : forall addr rules A, nfa_of_rules rules = Ret A ->
  exists F, forall fuel, (F <= fuel)%nat -> exists f, nfa_to_dfa fuel addr A = Ret f /\
    forall w,
      (forall i, In i (reported (dfa_of f) d_root w) <-> accepts A i w) /\
      (run (dfa_of f) d_root w = None <->
       forall q, ~ exists u, bytes_of u = w /\ path (g_edges (n_edges A)) n_root u q).
Proof.
  intros addr rules A HA. destruct (nfa_to_dfa_reports addr rules A HA) as (F & H). exists F. intros fuel Hf.
  destruct (H fuel Hf) as (f & E & _ & Hn & Hr). exists f. split; [exact E|]. intros w. split; [|apply Hn].
  intros i. destruct (Hr w) as (ids & Hs & Hp & _). rewrite (accepts_full rules A HA), <- (selected_in _ _ _ Hs i).
  split; intros Hi; (eapply Permutation_in; [|exact Hi]); [exact Hp|symmetry; exact Hp].
Qed.
Print Assumptions C08_dfa_equals_nfa.

(** C09: id i is reported iff the NFA of some rule registered under i, taken alone, accepts the string. *)
Theorem C09_all_matching_ids : forall addr rules A, nfa_of_rules rules = Ret A ->
  exists F, forall fuel, (F <= fuel)%nat -> exists f, nfa_to_dfa fuel addr A = Ret f /\
    forall w i, In i (reported (dfa_of f) d_root w) <->
      exists r B, In (i, r) rules /\ nfa_of_rules [(i, r)] = Ret B /\ accepts B i w.
Proof.
  intros addr rules A HA. destruct (nfa_to_dfa_reports addr rules A HA) as (F & H). exists F. intros fuel Hf.
  destruct (H fuel Hf) as (f & E & _ & Hn & Hr). exists f. split; [exact E|]. intros w i.
  destruct (Hr w) as (ids & Hs & Hp & _).
  assert (G : In i (reported (dfa_of f) d_root w) <-> In i ids)
    by (split; intros Hi; (eapply Permutation_in; [|exact Hi]); [exact Hp|symmetry; exact Hp]).
  rewrite G, (selected_in _ _ _ Hs i). split.
  - intros (r & Hi & Hw).
    assert (HB : exists B, nfa_of_rules [(i, r)] = Ret B).
    { clear -HA Hi. unfold nfa_of_rules in HA. apply bind_Ret in HA as (((n & es) & acc) & HA & _).
      assert (T : no_int r = true).
      { revert HA. generalize 1%nat. revert n es acc. induction rules as [|(j & x) rules IH]; intros n es acc m HA; [destruct Hi|].
        cbn [add_rules] in HA. apply bind_Ret in HA as ((n1 & e1) & H1 & HA).
        apply bind_Ret in HA as (((n2 & e2) & acc2) & H2 & _). destruct Hi as [[= -> ->]|Hi]; [|eapply IH; eauto].
        destruct (no_int r) eqn:En; [reflexivity|]. exfalso. eapply add_to_nfa_int; eauto. }
      destruct (C07_nfa_exists [(i, r)]) as (B & HB); [|eauto]. intros j x [[= <- <-]|[]]. exact T. }
    destruct HB as (B & HB). exists r, B. split; [exact Hi|]. split; [exact HB|].
    apply (accepts_full _ _ HB). exists r. split; [left; reflexivity|exact Hw].
  - intros (r & B & Hi & HB & Hw). apply (accepts_full _ _ HB) in Hw as (x & [[= <-]|[]] & Hw). eauto.
Qed.
Print Assumptions C09_all_matching_ids.

(** C10 (partial): the reported ids are, with repetitions, the ids of the matching rules; and if later states
    are allocated at higher addresses they are listed in rule order. *)
Theorem C10_type_order_partial : forall addr rules A, nfa_of_rules rules = Ret A ->
  exists F, forall fuel, (F <= fuel)%nat -> exists f, nfa_to_dfa fuel addr A = Ret f /\
    forall w, exists ids,
      selected (fun r => exists B, nfa_of_rules [(0, r)] = Ret B /\ accepts B 0 w) rules ids /\
      Permutation (reported (dfa_of f) d_root w) ids /\
      ((forall a b, (a < b)%nat -> addr a < addr b) -> reported (dfa_of f) d_root w = ids).
Proof.
  intros addr rules A HA. destruct (nfa_to_dfa_reports addr rules A HA) as (F & H). exists F. intros fuel Hf.
  destruct (H fuel Hf) as (f & E & _ & Hn & Hr). exists f. split; [exact E|]. intros w.
  destruct (Hr w) as (ids & Hs & Hp & Hm). exists ids. split; [|auto].
  assert (T : forall i r, In (i, r) rules -> no_int r = true).
  { unfold nfa_of_rules in HA. apply bind_Ret in HA as (((n & es) & acc) & HA & _). clear -HA.
    revert HA. generalize 1%nat. revert n es acc. induction rules as [|(j & x) rules IH]; intros n es acc m HA i r Hi; [destruct Hi|].
    cbn [add_rules] in HA. apply bind_Ret in HA as ((n1 & e1) & H1 & HA).
    apply bind_Ret in HA as (((n2 & e2) & acc2) & H2 & _). destruct Hi as [[= -> ->]|Hi]; [|eapply IH; eauto].
    destruct (no_int r) eqn:En; [reflexivity|]. exfalso. eapply add_to_nfa_int; eauto. }
  clear -Hs T. induction Hs as [|i r rules ids HP Hs IH|i r rules ids HP Hs IH]; constructor.
  - destruct (C07_nfa_exists [(0, r)]) as (B & HB).
    { intros j x [[= <- <-]|[]]. eapply T. left. reflexivity. }
    exists B. split; [exact HB|]. apply (accepts_full _ _ HB). exists r. split; [left; reflexivity|exact HP].
  - apply IH. intros j x Hx. apply (T j). right. exact Hx.
  - intros (B & HB & Hw). apply HP. apply (accepts_full _ _ HB) in Hw as (x & [[= <-]|[]] & Hw). exact Hw.
  - apply IH. intros j x Hx. apply (T j). right. exact Hx.
Qed.
Print Assumptions C10_type_order_partial.

(** Examples and refutations are computed with the modelled construction itself. *)
Definition build (addr : nat -> N) (rules : list (N * regex)) : out fdfa :=
  do A <- nfa_of_rules rules; nfa_to_dfa 100 addr A.
Definition report (addr : nat -> N) (rules : list (N * regex)) (w : list N) : out (list N) :=
  do f <- build addr rules; Ret (reported (dfa_of f) d_root w).
(** Non-vacuity: three overlapping rules. *)
Definition ex_rules : list (N * regex) :=
  [(8, RMult (RGroup false false [(48, 57)]) 1 0); (9, RCat (RLit 49) (RLit 50)); (10, RLit 120)].
Example C08_example : report N.of_nat ex_rules [49; 50] = Ret [8; 9] /\ report N.of_nat ex_rules [49; 51] = Ret [8] /\
  report N.of_nat ex_rules [120; 120] = Ret [] /\ (forall a b, (a < b)%nat -> N.of_nat a < N.of_nat b).
Proof. repeat split; try (vm_compute; reflexivity). intros. lia. Qed.

(** C10 refuted: with another layout (here: later states at lower addresses), the later rule comes first. *)
Theorem C10_refuted : exists addr, (forall a b, addr a = addr b -> (a < 1000)%nat -> (b < 1000)%nat -> a = b) /\
  report addr ex_rules [49; 50] = Ret [9; 8].
Proof. exists (fun a => 1000 - N.of_nat a). split; [intros; lia|vm_compute; reflexivity]. Qed.
Print Assumptions C10_refuted.

(** C07 refuted: "a*" does not match the empty string ... *)
Definition a_star : regex := ROr REmpty (RMult (RLit 97) 1 0).
Theorem C07_refuted_star : matches a_star [] /\
  forall i A, nfa_of_rules [(i, a_star)] = Ret A -> ~ accepts A i [].
Proof.
  split; [left; reflexivity|]. intros i A HA Hw. apply (accepts_full _ _ HA) in Hw as (r & [[= <-]|[]] & v & E & Hv).
  destruct Hv as (u & s & -> & Hu & _). unfold a_star in Hu. rewrite (lead_star_empty _ u) in Hu.
  destruct Hu as [(H & _)|(k & (x & y & -> & _ & -> & _) & _)]; [discriminate|].
  rewrite !bytes_app in E. destruct (bytes_of x); discriminate.
Qed.
Print Assumptions C07_refuted_star.
(** ... and "a+|b" matches "ba". *)
Definition a_plus_or_b : regex := ROr (RMult (RLit 97) 1 0) (RLit 98).
Theorem C07_refuted_alternative : ~ matches a_plus_or_b [98; 97] /\
  forall i A, nfa_of_rules [(i, a_plus_or_b)] = Ret A -> accepts A i [98; 97].
Proof.
  split.
  - intros [(k & Hk & _)|(H & _)]; [|discriminate]. destruct k as [|k]; [discriminate|].
    destruct Hk as (u & v & E & (-> & _) & _). discriminate.
  - intros i A HA. apply (accepts_full _ _ HA). exists a_plus_or_b. split; [left; reflexivity|].
    exists [SByte 98; SByte 97]. split; [reflexivity|]. exists [SByte 98], [SByte 97]. split; [reflexivity|]. split.
    + right. cbn. unfold cSizeOfByte. split; [reflexivity|lia].
    + apply l_star_one. left. cbn. left. unfold cSizeOfByte. split; [reflexivity|lia].
Qed.
Print Assumptions C07_refuted_alternative.

(** C11: get_intersect terminates and returns exactly the ids of the first rule set that are reported for a
    byte string which the second rule set accepts, whatever the memory layouts. *)
Theorem C11_get_intersect_exact : forall addr1 addr2 k1 k2 rules1 rules2 A1 A2,
  nfa_of_rules rules1 = Ret A1 -> nfa_of_rules rules2 = Ret A2 ->
  (forall a b, k1 a = k1 b -> a = b) -> (forall a b, k2 a = k2 b -> a = b) ->
  exists F, forall fuel, (F <= fuel)%nat -> exists f1 f2 res,
    nfa_to_dfa fuel addr1 A1 = Ret f1 /\ nfa_to_dfa fuel addr2 A2 = Ret f2 /\
    get_intersect fuel k1 k2 (dfa_of f1) (dfa_of f2) = Ret res /\
    forall i, In i res <-> exists w, (forall b, In b w -> b < cSizeOfByte) /\
      accepts A1 i w /\ exists j, accepts A2 j w.
Proof.
  intros addr1 addr2 k1 k2 rules1 rules2 A1 A2 H1 H2 I1 I2.
  destruct (C08_dfa_equals_nfa addr1 rules1 A1 H1) as (F1 & G1). destruct (C08_dfa_equals_nfa addr2 rules2 A2 H2) as (F2 & G2).
  destruct (nfa_to_dfa_sets addr1 A1) as (S1 & sets1 & tr1 & T1). destruct (nfa_to_dfa_sets addr2 A2) as (S2 & sets2 & tr2 & T2).
  destruct (nfa_to_dfa_reports addr1 rules1 A1 H1) as (R1 & B1). destruct (nfa_to_dfa_reports addr2 rules2 A2 H2) as (R2 & B2).
  exists (F1 + F2 + S1 + S2 + R1 + R2 + S (length sets1 * length sets2))%nat. intros fuel Hf.
  destruct (G1 fuel ltac:(lia)) as (f1 & E1 & D1). destruct (G2 fuel ltac:(lia)) as (f2 & E2 & D2).
  destruct (T1 fuel ltac:(lia)) as (X1 & _). destruct (T2 fuel ltac:(lia)) as (X2 & _).
  destruct (B1 fuel ltac:(lia)) as (g1 & Y1 & (P1 & Q1) & _). destruct (B2 fuel ltac:(lia)) as (g2 & Y2 & (P2 & Q2) & _).
  rewrite E1 in Y1. rewrite E2 in Y2. injection Y1 as <-. injection Y2 as <-.
  rewrite E1 in X1. rewrite E2 in X2. injection X1 as X1. injection X2 as X2.
  assert (L1 : length (f_states f1) = length sets1) by (rewrite X1; cbn; apply map_length).
  assert (L2 : length (f_states f2) = length sets2) by (rewrite X2; cbn; apply map_length).
  rewrite L1 in P1, Q1. rewrite L2 in P2, Q2.
  destruct (get_intersect_spec k1 k2 (dfa_of f1) (dfa_of f2) (length sets1) (length sets2) I1 I2 P1 P2 Q1 Q2 fuel ltac:(lia))
    as (res & E & Hres).
  exists f1, f2, res. split; [exact E1|]. split; [exact E2|]. split; [exact E|]. intros i. rewrite Hres.
  split; intros (w & Hb & Hi & Hj); exists w; (split; [exact Hb|]).
  - split; [apply (proj1 (D1 w)); exact Hi|]. destruct (reported (dfa_of f2) d_root w) as [|j l] eqn:Ej; [congruence|].
    exists j. apply (proj1 (D2 w)). rewrite Ej. left. reflexivity.
  - split; [apply (proj1 (D1 w)); exact Hi|]. destruct Hj as (j & Hj). apply (proj1 (D2 w)) in Hj. intros Ej. rewrite Ej in Hj. exact Hj.
Qed.
Print Assumptions C11_get_intersect_exact.
(** (The ids in the order of insertion; C++ keeps a set.) *)
Example C11_example :
  (do f1 <- build N.of_nat ex_rules; do f2 <- build N.of_nat [(9, RMult (RLit 49) 1 0)];
   get_intersect 100 N.of_nat N.of_nat (dfa_of f1) (dfa_of f2)) = Ret [8; 8].
Proof. vm_compute. reflexivity. Qed.

(** C12: a bracket expression accepts exactly the one-byte strings of its set. *)
Theorem C12_brackets_exact : forall i wc neg rs A,
  nfa_of_rules [(i, RGroup wc neg rs)] = Ret A ->
  (forall lo hi, In (lo, hi) rs -> lo <= hi) -> (neg = true -> rs <> []) ->
  forall w, accepts A i w <-> exists b, w = [b] /\ b < cSizeOfByte /\
    (if neg then ~ exists lo hi, In (lo, hi) rs /\ lo <= b <= hi else exists lo hi, In (lo, hi) rs /\ lo <= b <= hi).
Proof.
  intros i wc neg rs A HA Hok Hne w.
  rewrite (C07_patterns_match_partial _ A HA) by (intros j r [[= _ <-]|[]]; split; assumption).
  split.
  - intros (r & [[= <-]|[]] & Hw). exact Hw.
  - intros Hw. eexists. split; [left; reflexivity|exact Hw].
Qed.
Print Assumptions C12_brackets_exact.
(** Overlapping, unordered ranges meet the hypotheses: [^c-fa-da] *)
Example C12_example : (forall lo hi, In (lo, hi) [(99, 102); (97, 100); (97, 97)] -> lo <= hi) /\
  (true = true -> [(99, 102); (97, 100); (97, 97)] <> @nil range) /\
  report N.of_nat [(8, RGroup false true [(99, 102); (97, 100); (97, 97)])] [103] = Ret [8] /\
  report N.of_nat [(8, RGroup false true [(99, 102); (97, 100); (97, 97)])] [101] = Ret [].
Proof.
  split; [|split; [discriminate|split; vm_compute; reflexivity]].
  intros lo hi [[= <- <-]|[[= <- <-]|[[= <- <-]|[]]]]; lia.
Qed.
(** C12 refuted for "[^]", which the schema grammar accepts: it matches nothing instead of every byte. *)
Theorem C12_refuted_empty_complement : forall i wc A,
  nfa_of_rules [(i, RGroup wc true [])] = Ret A -> forall w, ~ accepts A i w.
Proof.
  intros i wc A HA w Hw. apply (accepts_full _ _ HA) in Hw as (r & [[= <-]|[]] & v & E & Hv).
  destruct Hv as (u & s & -> & (b & -> & Hb & lo & hi & [] & _) & _).
Qed.
Print Assumptions C12_refuted_empty_complement.

(** C37: along every accepting path of a rule whose captures are not under a repetition with minimum zero,
    every capture group of the rule is recorded, as matched (entered and left) or as unmatched. *)
Theorem C37_captures_recorded_partial : forall rules A i w, nfa_of_rules rules = Ret A -> accepts_tagged A i w ->
  (forall i r, In (i, r) rules -> no_zero_capture r) ->
  exists r, In (i, r) rules /\ forall t, In t (pos_tags r) -> rec_matched w t \/ rec_unmatched w t.
Proof.
  intros rules A i w HA Hw Hz. apply (nfa_of_rules_spec rules A HA) in Hw as (r & Hi & Hr).
  exists r. split; [exact Hi|]. intros t Ht. eapply full_recorded; eauto.
Qed.
Print Assumptions C37_captures_recorded_partial.
(** The tagged words of a faithful pattern are the documented ones ... *)
Theorem C37_tagged_language_partial : forall i r A, nfa_of_rules [(i, r)] = Ret A -> faithful (star_as_plus r) ->
  forall w, accepts_tagged A i w <-> tmatches (star_as_plus r) w.
Proof.
  intros i r A HA Hf w. rewrite (nfa_of_rules_spec _ A HA), <- (full_tmatches _ Hf w), (full_star_as_plus r w). split.
  - intros (x & [[= <-]|[]] & Hx). exact Hx.
  - intros Hx. exists r. split; [left; reflexivity|exact Hx].
Qed.
Print Assumptions C37_tagged_language_partial.
(** ... so an alternative not taken never records its captures as matched. *)
Theorem C37_alternative_partial : forall i l r A w, nfa_of_rules [(i, ROr l r)] = Ret A ->
  faithful (ROr l r) -> NoDup (pos_tags (ROr l r)) -> accepts_tagged A i w ->
  (forall t, In t (pos_tags r) -> rec_never w t /\ rec_unmatched w t) \/
  (forall t, In t (pos_tags l) -> rec_never w t /\ rec_unmatched w t).
Proof.
  intros i l r A w HA Hf Hnd Hw. apply (nfa_of_rules_spec _ A HA) in Hw as (x & [[= <-]|[]] & Hx).
  apply (full_tmatches _ Hf) in Hx. cbn [tmatches] in Hx. cbn [pos_tags] in Hnd.
  assert (Hdis : forall t, In t (pos_tags l) -> In t (pos_tags r) -> False).
  { clear -Hnd. induction (pos_tags l) as [|a m IH]; intros t H H2; [destruct H|].
    inversion Hnd as [|? ? Hn Hnd']; subst. destruct H as [->|H]; [|eapply IH; eauto].
    apply Hn. apply in_app_iff. auto. }
  assert (Gen : forall ts L u, then_neg ts L u -> (forall y t, L y -> In t ts -> rec_never y t) ->
    forall t, In t ts -> rec_never u t /\ rec_unmatched u t).
  { intros ts L u Hu HL t Ht. destruct ts as [|a ts]; [destruct Ht|]. destruct Hu as (y & z & -> & Hy & ->).
    destruct (HL y t Hy Ht) as (N1 & N2). split; [split; intros H; apply in_app_iff in H as [H|[H|[]]]; auto; discriminate|].
    exists (a :: ts). split; [apply in_app_iff; right; left; reflexivity|exact Ht]. }
  destruct Hx as [Hx|Hx]; [left|right]; eapply Gen; eauto; intros y t Hy Ht;
    (split; intros Hs; eapply Hdis; eauto; eapply tmatches_own; eauto).
Qed.
Print Assumptions C37_alternative_partial.
Example C37_example : faithful (star_as_plus ex_pat) /\ no_zero_capture ex_pat /\ In 1 (pos_tags ex_pat) /\
  faithful (ROr (RCapture (RLit 97) 1) (RCapture (RLit 98) 2)) /\ NoDup (pos_tags (ROr (RCapture (RLit 97) 1) (RCapture (RLit 98) 2))).
Proof.
  split; [apply C07_example|]. cbn. repeat split; auto; try discriminate; try contradiction.
  repeat constructor; cbn; intuition discriminate.
Qed.
(** C37 refuted: "((?<x>a)){0}" records nothing on the empty string ... *)
Theorem C37_refuted_zero : forall i A, nfa_of_rules [(i, RMult (RCapture (RLit 97) 1) 0 0)] = Ret A ->
  accepts_tagged A i [].
Proof.
  intros i A HA. apply (nfa_of_rules_spec _ A HA). eexists. split; [left; reflexivity|].
  exists [], []. split; [reflexivity|]. split; [left; auto|apply l_star_nil].
Qed.
Print Assumptions C37_refuted_zero.
(** ... and "(?<x>a)+|b" on "ba" records x both as unmatched and as matched. *)
Theorem C37_refuted_alternative : forall i A,
  nfa_of_rules [(i, ROr (RMult (RCapture (RLit 97) 1) 1 0) (RLit 98))] = Ret A ->
  exists w, accepts_tagged A i w /\ bytes_of w = [98; 97] /\ rec_matched w 1 /\ rec_unmatched w 1.
Proof.
  intros i A HA. exists [SByte 98; SNeg [1]; SStart 1; SByte 97; SEnd 1].
  split; [|split; [reflexivity|split; [split; cbn; auto 10|exists [1]; cbn; auto 10]]].
  apply (nfa_of_rules_spec _ A HA). eexists. split; [left; reflexivity|].
  exists [SByte 98; SNeg [1]], [SStart 1; SByte 97; SEnd 1]. split; [reflexivity|]. split.
  - right. exists [SByte 98], [SNeg [1]]. split; [reflexivity|]. split; [split; [reflexivity|unfold cSizeOfByte; lia]|].
    exists [], [SNeg [1]]. split; [reflexivity|]. split; [apply l_star_nil|reflexivity].
  - apply l_star_one. left. cbn [neg_trail pos_tags trail]. left.
    exists [SStart 1], [SByte 97; SEnd 1]. split; [reflexivity|]. split; [reflexivity|].
    exists [SByte 97], [SEnd 1]. split; [reflexivity|]. split; [split; [reflexivity|unfold cSizeOfByte; lia]|].
    exists [], [SEnd 1]. split; [reflexivity|]. split; [apply l_star_nil|reflexivity].
Qed.
Print Assumptions C37_refuted_alternative.
