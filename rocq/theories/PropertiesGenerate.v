(** PropertiesGenerate.v -- C76: LALR1Parser::generate always ends, and how. *)
From Verif Require Import Base OrdSet GrammarSpec SchemaModel SchemaGrammar GrammarCalls FirstModel LrModel LrSets LrTable
  LrSound LrLookahead LrTerm LrOutcome SchemaTable PropertiesLalr PropertiesGrammar.
From Coq Require Import String.
Local Open Scope list_scope.
Local Open Scope N_scope.

(** ** generate ends, for every well-formed grammar: from some number of steps on, its result no longer depends on how many
    steps it is given. The item sets, at least, always come out. *)
Theorem C76_generate_ends : forall g start, wf_grammar g start ->
  exists F s r, r <> OutOfFuel /\ forall fuel cfuel, (F <= fuel)%nat -> (F <= cfuel)%nat ->
    item_sets fuel cfuel g = Ret s /\ generate fuel cfuel g = r.
Proof.
  intros g start Hwf. destruct (item_sets_total g start Hwf) as (F1 & s & H1).
  destruct (generate_ends g start Hwf) as (F2 & r & Hr & H2). exists (Nat.max F1 F2), s, r. split; [exact Hr|].
  intros fuel cfuel Hf Hc. split; [apply H1|apply H2]; lia.
Qed.
Print Assumptions C76_generate_ends.

(** ** If moreover every non-terminal derives some sequence of tokens, the result is a table, or the exception about a conflict;
    the exception means that in one of the item sets an item demands a reduction on a symbol on which another item demands a
    shift, or a reduction as well. *)
Theorem C76_table_or_conflict : forall g start, wf_grammar g start -> productive g ->
  exists F sets gt root, forall fuel cfuel, (F <= fuel)%nat -> (F <= cfuel)%nat ->
    item_sets fuel cfuel g = Ret (sets, gt, root) /\
    ((exists t, generate fuel cfuel g = Ret (t, root)) \/
     generate fuel cfuel g = Throw /\ exists K v X, In (K, v) sets /\ conflict g (s_closure v) X).
Proof.
  intros g start Hwf Hp. destruct (item_sets_total g start Hwf) as (F & [[sets gt] root] & H).
  exists F, sets, gt, root. intros fuel cfuel Hf Hc. pose proof (H fuel cfuel Hf Hc) as E. split; [exact E|].
  destruct (item_sets_parts _ _ _ _ _ _ E) as (a & nul & fs & sp & m & P). unfold generate. rewrite E. cbn [bind].
  destruct (all_actions_outcome fuel cfuel g start Hwf Hp _ _ _ _ _ _ _ _ P) as [(t & Ht) | (Ht & Hx)]; rewrite Ht; cbn [bind].
  - left. now exists t.
  - right. now split.
Qed.
Print Assumptions C76_table_or_conflict.

(** ** And it throws whenever there is such a conflict, with one exception: at the end of the input, in a state in which an item
    accepts. *)
Theorem C76_conflicts_found : forall fuel cfuel g start sets gt root t, wf_grammar g start -> productive g ->
  item_sets fuel cfuel g = Ret (sets, gt, root) -> generate fuel cfuel g = Ret (t, root) ->
  forall K v X, In (K, v) sets -> conflict g (s_closure v) X ->
    X = TokenEnd /\ exists it, In it (s_closure v) /\ at_end g it = true /\ i_prod it = g_root g.
Proof.
  intros fuel cfuel g start sets gt root t Hwf Hp Hs Hgen K v X.
  destruct (item_sets_parts _ _ _ _ _ _ Hs) as (a & nul & fs & sp & m & P). unfold generate in Hgen. rewrite Hs in Hgen. cbn [bind] in Hgen.
  apply bind_inv in Hgen. destruct Hgen as (t' & Ht & _).
  exact (table_conflict fuel cfuel g _ _ _ _ _ _ _ _ P t' K v X Ht).
Qed.
Print Assumptions C76_conflicts_found.

(** ** What a conflict is, in terms of dots: the statement of [conflict], unfolded. *)
Theorem C76_conflict_means : forall g C X, conflict g C X <->
  exists x y, In x C /\ In y C /\ x <> y /\
    (** y: A -> alpha . with the lookahead X, not the root production *)
    (at_end g y = true /\ i_prod y <> g_root g /\ i_la y = X) /\
    (** x: B -> beta . X gamma, or another such item *)
    ((at_end g x = false /\ next_symbol g x = X /\ (In X (g_terms g) \/ In X (g_nts g))) \/
     (at_end g x = true /\ i_prod x <> g_root g /\ i_la x = X)).
Proof.
  intros g C X.
  assert (H : is_token g X = true <-> In X (g_terms g)) by apply existsb_N.
  split; intros (x & y & H1 & H2 & H3 & H4 & H5); exists x, y; (split; [exact H1|]); (split; [exact H2|]); (split; [exact H3|]);
    (split; [exact H4|]); (destruct H5 as [(A & B & D) | H5]; [left|now right]); (split; [exact A|]); (split; [exact B|]);
    (destruct D as [D | D]; [left; now apply H|now right]).
Qed.
Print Assumptions C76_conflict_means.

(** ** Without the condition on the non-terminals: generate can lose an item set (two sets whose items that have a lookahead are the
    same collapse into one map entry of m_lr1_item_sets, LALR1Parser.tpp 366) and then finds no m_next entry for a symbol that an
    item expects: the assert at 446 fails; without it, a null item set is stored in the table.
    S -> x P | y Q, P -> A | M1 D, Q -> A | M2 D, A -> a, M1 -> a M1, M2 -> a M2, D -> D m, on the calls of the API. *)
Definition dead_calls : list (gcall unit) :=
  map CRule ["x"; "y"; "a"; "m"]%string ++
  map (fun p => CProd (fst p) (snd p) tt)
    [("S", ["x"; "P"]); ("S", ["y"; "Q"]); ("P", ["A"]); ("P", ["M1"; "D"]); ("Q", ["A"]); ("Q", ["M2"; "D"]);
     ("A", ["a"]); ("M1", ["a"; "M1"]); ("M2", ["a"; "M2"]); ("D", ["D"; "m"])]%string.
Theorem C76_unproductive : let g := b_grammar (registered tt dead_calls) in
  sensible dead_calls /\ (exists start, wf_grammar g start) /\
  forall fuel cfuel, (300 <= fuel)%nat -> (300 <= cfuel)%nat -> generate fuel cfuel g = UB.
Proof.
  assert (Hs : sensible dead_calls) by (apply sensible_check_ok; vm_compute; reflexivity).
  assert (E0 : match item_sets 300 300 (b_grammar (registered tt dead_calls)) with
               | Ret (sets, gt, _) => all_actions (b_grammar (registered tt dead_calls)) sets gt sets = UB | _ => False end)
    by (vm_compute; reflexivity).
  assert (Hw : exists start, wf_grammar (b_grammar (registered tt dead_calls)) start)
    by (exists 12; apply wf_check_ok; vm_compute; reflexivity).
  cbv zeta. revert E0 Hw. generalize (b_grammar (registered tt dead_calls)). intros g E0 Hw.
  split; [exact Hs|]. split; [exact Hw|].
  intros fuel cfuel Hf Hc. destruct (item_sets 300 300 g) as [[[sets gt] root]| | |] eqn:E; [|destruct E0..].
  unfold generate. rewrite (item_sets_mono 300 fuel 300 cfuel g _ Hf Hc E). cbn [bind]. rewrite E0. reflexivity.
Qed.
Print Assumptions C76_unproductive.

(** ** The hypotheses are met, and each outcome occurs: SchemaParser's grammar gives a table (C48_schema_grammar);
    E -> E p E | a is ambiguous, and generate throws; S -> S | A | a, A -> S gives a table in spite of a conflict (the state after S:
    S -> S . and A -> S ., both at the end of the input, where $START_PRIME -> S . accepts). *)
Definition sum : grammar := mkGrammar [mkProd 10 [10; 9; 10]; mkProd 11 [10]; mkProd 10 [8]] [0; 1; 2; 3; 4; 5; 6; 7; 8; 9] [10; 11] 1 12.
Definition twice : grammar :=
  mkGrammar [mkProd 9 [9]; mkProd 11 [9]; mkProd 10 [9]; mkProd 9 [10]; mkProd 9 [8]] [0; 1; 2; 3; 4; 5; 6; 7; 8] [9; 11; 10] 1 12.
Example C76_examples :
  (wf_grammar schema_grammar schema_start /\ productive schema_grammar) /\
  (wf_grammar sum 10 /\ productive sum /\ generate 100 100 sum = Throw) /\
  (wf_grammar twice 9 /\ productive twice /\
   exists sets gt root t, item_sets 40 200 twice = Ret (sets, gt, root) /\ generate 40 200 twice = Ret (t, root) /\
     exists K v, In (K, v) sets /\ conflict twice (s_closure v) TokenEnd).
Proof.
  split; [split; [exact schema_wf|exact schema_productive]|]. split.
  - split; [apply wf_check_ok; vm_compute; reflexivity|]. split; [apply (live_productive _ 5)|]; vm_compute; reflexivity.
  - split; [apply wf_check_ok; vm_compute; reflexivity|]. split; [apply (live_productive _ 5); vm_compute; reflexivity|].
    assert (K : match item_sets 40 200 twice with
                | Ret (s, gt, root) => nth_error (map (fun kv => s_closure (snd kv)) s) 0 = Some [mkItem 0 1 0; mkItem 1 1 0; mkItem 2 1 0] /\
                                 exists t, all_actions twice s gt s = Ret t
                | _ => False end) by (vm_compute; split; [reflexivity|eexists; reflexivity]).
    assert (Hc : conflict twice [mkItem 0 1 0; mkItem 1 1 0; mkItem 2 1 0] TokenEnd).
    { apply C76_conflict_means. exists (mkItem 0 1 0), (mkItem 2 1 0). split; [left; reflexivity|].
      split; [right; right; left; reflexivity|]. split; [discriminate|].
      split; [|right]; (split; [reflexivity|]); (split; [vm_compute; discriminate|reflexivity]). }
    unfold generate. revert K. generalize (item_sets 40 200 twice). intros [[[sets gt] root]| | |] K; [|destruct K..].
    destruct K as (K & t & Ht). exists sets, gt, root, t. split; [reflexivity|]. split; [cbn [bind]; rewrite Ht; reflexivity|].
    apply nth_error_In, in_map_iff in K. destruct K as ([K1 v] & E & Hv). exists K1, v. split; [exact Hv|].
    cbn [snd] in E. rewrite E. exact Hc.
Qed.
