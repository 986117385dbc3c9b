(** PropertiesRegexExact.v -- C64 and C65, the exact counterparts of C10 and C07: the exact language of a registered pattern, and
    the exact order in which a fixed memory layout makes the DFA list the matching rules. *)
From Coq Require Import List NArith Lia Permutation.
From Verif Require Import Base LexerModel LexerSpec RegexModel RegexSpec RegexProofs RegexLang DfaModel DfaProofs DfaExact DfaOrder PropertiesRegex.
Import ListNotations. Local Open Scope N_scope.

(** C65: for every set of rules, the automaton accepts a string with id i exactly when the string is, for some rule
    registered under i, a word of [lead] of its pattern followed by any number of words of [trail] of it (with the
    capture marks erased). [lead] and [trail] (RegexSpec.v) are defined by recursion on the pattern alone: [trail] is
    what the construction leaves as loops on the end state, which is where it departs from the documentation. *)
Theorem C65_exact : forall rules A, nfa_of_rules rules = Ret A ->
  forall i w, accepts A i w <->
    exists r, In (i, r) rules /\ exists u, bytes_of u = w /\ l_cat (lead r) (l_star (trail r)) u.
Proof. intros rules A HA i w. exact (accepts_full rules A HA i w). Qed.
Print Assumptions C65_exact.
(** The two refuted readings, as instances: "a*" accepts exactly the strings of one or more a, ... *)
Lemma one_a u : l_cat (lead a_star) (l_star (trail a_star)) u -> exists n, u = repeat (SByte 97) (S n).
Proof.
  intros (x & y & -> & Hx & Hy). 
  assert (Ex : x = [SByte 97]).
  { destruct Hx as [[]|[(H & _)|(k & (p & q & -> & Hp & -> & _) & [Hk|(H1 & H2)])]]; [discriminate| |lia].
    assert (k = 0)%nat by lia. subst k. cbn in Hp. rewrite Hp. reflexivity. }
  subst x. enough (exists n, y = repeat (SByte 97) n) as (n & ->) by (exists n; reflexivity).
  destruct Hy as (k & Hk). revert y Hk. induction k as [|k IH]; intros y Hk; [exists 0%nat; exact Hk|].
  destruct Hk as (p & q & -> & Hp & Hq). destruct (IH q Hq) as (n & ->).
  assert (Ep : p = [SByte 97]); [|subst; exists (S n); reflexivity].
  destruct Hp as [[]|[(-> & _)|[]]]. reflexivity.
Qed.
Example C65_exact_star : forall i A, nfa_of_rules [(i, a_star)] = Ret A ->
  forall w, accepts A i w <-> exists n, w = repeat 97 (S n).
Proof.
  intros i A HA w. rewrite (C65_exact _ A HA). split.
  - intros (r & [[= <-]|[]] & u & <- & Hu). destruct (one_a u Hu) as (n & ->). exists n. clear.
    induction (S n) as [|m IH]; [reflexivity|]. cbn. f_equal. exact IH.
  - intros (n & ->). exists a_star. split; [left; reflexivity|]. exists (repeat (SByte 97) (S n)). split.
    { induction (S n) as [|m IH]; [reflexivity|]. cbn. f_equal. exact IH. }
    exists [SByte 97], (repeat (SByte 97) n). split; [reflexivity|]. split.
    + right. right. exists 0%nat. split; [|left; reflexivity]. exists [], [SByte 97]. cbn. unfold cSizeOfByte. repeat (split; [reflexivity || lia|]). lia.
    + exists n. induction n as [|n IH]; [reflexivity|]. exists [SByte 97], (repeat (SByte 97) n). split; [reflexivity|]. split; [|exact IH].
      right. left. cbn. unfold cSizeOfByte. split; [reflexivity|lia].
Qed.

(** C64: whatever the memory layout (any injective assignment of addresses to the states of the automaton), there is
    ONE order of the rules such that after every string the ids reported are those of the matching rules in that
    order. So two tokens of one lexer never rank the same two rules differently; what varies between runs is
    only which order it is. *)
Theorem C64_consistent_order : forall addr rules A, nfa_of_rules rules = Ret A -> (forall a b, addr a = addr b -> a = b) ->
  exists rules', Permutation rules rules' /\
  exists F, forall fuel, (F <= fuel)%nat -> exists f, nfa_to_dfa fuel addr A = Ret f /\
    forall w, selected (fun r => exists B, nfa_of_rules [(0, r)] = Ret B /\ accepts B 0 w) rules' (reported (dfa_of f) d_root w).
Proof.
  intros addr rules A HA Hinj. destruct (nfa_to_dfa_order addr rules A HA Hinj) as (rules' & HP & F & H).
  exists rules'. split; [exact HP|]. exists F. intros fuel Hf.
  destruct (H fuel Hf) as (f & E & Hr). exists f. split; [exact E|]. intros w. specialize (Hr w).
  assert (T : forall i r, In (i, r) rules' -> no_int r = true).
  { intros i r Hi. apply (Permutation_in _ (Permutation_sym HP)) in Hi. revert i r Hi.
    unfold nfa_of_rules in HA. apply bind_Ret in HA as (((n & es) & acc) & HA & _). clear -HA.
    revert HA. generalize 1%nat. revert n es acc. induction rules as [|(j & x) rules IH]; intros n es acc m HA i r Hi; [destruct Hi|].
    cbn [add_rules] in HA. apply bind_Ret in HA as ((n1 & e1) & H1 & HA).
    apply bind_Ret in HA as (((n2 & e2) & acc2) & H2 & _). destruct Hi as [[= -> ->]|Hi]; [|eapply IH; eauto].
    destruct (no_int r) eqn:En; [reflexivity|]. exfalso. eapply add_to_nfa_int; eauto. }
  clear -Hr T. induction Hr as [|i r rules ids HP Hs IH|i r rules ids HP Hs IH]; constructor.
  - destruct (C07_nfa_exists [(0, r)]) as (B & HB).
    { intros j x [[= <- <-]|[]]. eapply T. left. reflexivity. }
    exists B. split; [exact HB|]. apply (accepts_full _ _ HB). exists r. split; [left; reflexivity|exact HP].
  - apply IH. intros j x Hx. apply (T j). right. exact Hx.
  - intros (B & HB & Hw). apply HP. apply (accepts_full _ _ HB) in Hw as (x & [[= <-]|[]] & Hw). exact Hw.
  - apply IH. intros j x Hx. apply (T j). right. exact Hx.
Qed.
Print Assumptions C64_consistent_order.
(** Non-vacuity: a layout that is neither increasing nor decreasing (states 2k and 2k+1 swapped), injective; both
    layouts below are consistent in themselves and differ from one another. *)
Definition swapped (a : nat) : N := if Nat.even a then N.of_nat a + 1 else N.of_nat a - 1.
Example C64_consistent_example : (forall a b, swapped a = swapped b -> a = b) /\
  report swapped ex_rules [49; 50] = Ret [8; 9] /\ report (fun a => if Nat.leb a 1000 then 1000 - N.of_nat a else N.of_nat a) ex_rules [49; 50] = Ret [9; 8].
Proof.
  split; [|split; vm_compute; reflexivity].
  intros a b. unfold swapped. destruct (Nat.even a) eqn:Ea, (Nat.even b) eqn:Eb; intros E.
  - lia.
  - apply Nat.even_spec in Ea as (k & ->). rewrite <- Nat.negb_odd in Eb. apply Bool.negb_false_iff, Nat.odd_spec in Eb as (j & ->). lia.
  - apply Nat.even_spec in Eb as (k & ->). rewrite <- Nat.negb_odd in Ea. apply Bool.negb_false_iff, Nat.odd_spec in Ea as (j & ->). lia.
  - rewrite <- Nat.negb_odd in Ea, Eb. apply Bool.negb_false_iff, Nat.odd_spec in Ea as (k & ->). apply Bool.negb_false_iff, Nat.odd_spec in Eb as (j & ->). lia.
Qed.
