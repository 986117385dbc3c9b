(** PropertiesLalr.v -- C38, C39, C48, C49: the LALR(1) generator and parser, and SchemaParser's instance of it. *)
From Verif Require Import Base OrdSet GrammarSpec FirstModel FirstProofs LrModel LrSets LrTable ParseSpec LrDriver LrSound
  LrParse LrLookahead LrComplete LrMain LrSafe SchemaModel SchemaGrammar SchemaTable SchemaSafe.
From Coq Require Import String.
Local Open Scope list_scope.
Local Open Scope N_scope.

(** ** C39: generate_first_sets ends, and computes exactly the symbols that can vanish and the terminals that can begin. *)
Theorem C39_first_and_nullable_are_exact : forall g fuel,
  (List.length (g_prods g) * S (List.length (g_terms g)) < fuel)%nat ->
  exists nul fs, first_sets fuel g = Ret (nul, fs) /\
    (forall X, In X nul <-> derives (g_prods g) [X] []) /\
    (forall X t, In t (fref fs X) <-> In t (g_terms g) /\ exists w, derives (g_prods g) [X] (t :: w)).
Proof.
  intros g fuel Hf. destruct (first_sets_exact g fuel Hf) as (nul & fs & H & _ & Hn & Hb). exists nul, fs. auto.
Qed.
Print Assumptions C39_first_and_nullable_are_exact.

(** Non-vacuity: S -> W S | a; W -> epsilon | b (a = 8, b = 9, S = 10, W = 11). *)
Example C39_example : exists fs, first_sets 100 (mkGrammar [mkProd 10 [11; 10]; mkProd 12 [10]; mkProd 10 [8]; mkProd 11 []; mkProd 11 [9]]
    [0; 1; 2; 3; 4; 5; 6; 7; 8; 9] [10; 12; 11] 1 13) = Ret ([11], fs) /\ fref fs 10 = [8; 9] /\ fref fs 11 = [9].
Proof. eexists. split; [vm_compute; reflexivity|]. split; reflexivity. Qed.

(** ** C38: what parse returns is the value of a parse tree of the whole input. *)
Theorem C38_accepted_inputs_are_derivations :
  forall (tok A : Type) (types : tok -> list N) (eof : tok) (fuel cfuel : nat) (g : grammar) (start : N) (t : table) (root : option N)
    (rule : N -> option (list (value tok A) -> out A)) resets limit steps inp alloc v al,
  wf_grammar g start -> generate fuel cfuel g = Ret (t, root) ->
  (forall tk X, In X (types tk) -> In X (g_terms g)) -> types eof = [TokenEnd] ->
  (forall tk, In tk inp -> ~ In TokenEnd (types tk)) ->
  parse types eof rule resets limit g t steps root inp alloc = Ret (v, al) ->
  exists tr, well_formed types g tr /\ root_sym (g_prods g) tr = start /\ map fst (yield tr) = inp /\
    derives (g_prods g) [start] (map snd (yield tr)) /\ eval rule tr = Ret v.
Proof.
  intros tok A types eof fuel cfuel g start t root rule resets limit steps inp alloc v al Hwf Hgen Hty Heof Hp H.
  destruct (sound_main types eof fuel cfuel g start t root Hwf Hgen Hty Heof rule resets limit steps inp alloc v al Hp H)
    as (tr & H1 & H2 & H3 & H4).
  exists tr. split; [easy|]. split; [easy|]. split; [easy|]. split; [|easy]. rewrite <- H2. now apply (tree_derives types).
Qed.
Print Assumptions C38_accepted_inputs_are_derivations.

(** ** C48 (partial): an input that the grammar derives has one parse tree, and parse returns its value if m_all_children has room
    for it. Missing: grammars in which a state both accepts and reduces at the end of the input (generate does not report them:
    C48_refuted), and non-terminals that derive nothing. [agree]: the types of a token never ask for different actions. *)
Theorem C48_derivations_are_accepted_partial :
  forall (tok A : Type) (types : tok -> list N) (eof : tok) (fuel cfuel : nat) (g : grammar) (start : N) (t : table) (root : option N)
    sets gt (rule : N -> option (list (value tok A) -> out A)) resets limit steps alloc tr v,
  wf_grammar g start -> productive g -> generate fuel cfuel g = Ret (t, root) ->
  item_sets fuel cfuel g = Ret (sets, gt, root) -> end_conflict g sets = false ->
  (forall tk X, In X (types tk) -> In X (g_terms g)) -> types eof = [TokenEnd] -> agree types g t ->
  well_formed types g tr -> root_sym (g_prods g) tr = start ->
  (forall tk, In tk (map fst (yield tr)) -> ~ In TokenEnd (types tk)) -> eval rule tr = Ret v ->
  alloc + slots tr <= limit -> (size tr < steps)%nat ->
  exists al, parse types eof rule resets limit g t steps root (map fst (yield tr)) alloc = Ret (v, al) /\
    al <= alloc + slots tr.
Proof.
  intros tok A types eof fuel cfuel g start t root sets gt rule resets limit steps alloc tr v Hwf Hp Hgen Hs Hc Hty Heof Hag.
  exact (complete_main types eof fuel cfuel g start t root Hwf Hgen Hty Heof Hp sets gt Hs Hc Hag rule resets limit steps alloc tr v).
Qed.
Print Assumptions C48_derivations_are_accepted_partial.

Theorem C48_one_tree_partial :
  forall (tok : Type) (types : tok -> list N) (eof : tok) (fuel cfuel : nat) (g : grammar) (start : N) (t : table) (root : option N)
    sets gt (tr tr' : tree tok),
  wf_grammar g start -> productive g -> generate fuel cfuel g = Ret (t, root) ->
  item_sets fuel cfuel g = Ret (sets, gt, root) -> end_conflict g sets = false ->
  (forall tk X, In X (types tk) -> In X (g_terms g)) -> types eof = [TokenEnd] -> agree types g t ->
  well_formed types g tr -> well_formed types g tr' -> root_sym (g_prods g) tr = start -> root_sym (g_prods g) tr' = start ->
  (forall tk, In tk (map fst (yield tr)) -> ~ In TokenEnd (types tk)) ->
  map fst (yield tr) = map fst (yield tr') -> tr = tr'.
Proof.
  intros tok types eof fuel cfuel g start t root sets gt tr tr' Hwf Hp Hgen Hs Hc Hty Heof Hag.
  exact (one_tree types eof fuel cfuel g start t root Hwf Hgen Hty Heof Hp sets gt Hs Hc Hag tr tr').
Qed.
Print Assumptions C48_one_tree_partial.

(** C48 refuted: generate reports no conflict for S -> A, A -> S, A -> a (symbols a = 8, S = 9, A = 10), whose only sentence "a"
    has a parse tree; parse reduces forever, until it writes behind the end of m_all_children. *)
Definition cyclic : grammar :=
  mkGrammar [mkProd 9 [10]; mkProd 11 [9]; mkProd 10 [9]; mkProd 10 [8]] [0; 1; 2; 3; 4; 5; 6; 7; 8] [9; 11; 10] 1 12.
Definition cyclic_table : table := Eval vm_compute in table_in (gen_all 40 200 cyclic).
Theorem C48_refuted : wf_grammar cyclic 9 /\ productive cyclic /\ generate 40 200 cyclic = Ret (cyclic_table, Some 0) /\
  well_formed (fun x : N => [x]) cyclic (Node 0 [Node 3 [Leaf 8 8]]) /\
  parse (A := unit) (fun x => [x]) 0 (fun _ => None) (fun _ => false) cSizeOfAllChildren cyclic cyclic_table (N.to_nat 30000) (Some 0) [8] 0 = UB.
Proof.
  split; [apply wf_check_ok; vm_compute; reflexivity|]. split; [apply (live_productive _ 5); vm_compute; reflexivity|].
  split; [vm_compute; reflexivity|]. split.
  - econstructor; [reflexivity|reflexivity|]. constructor; [|constructor].
    econstructor; [reflexivity|reflexivity|]. constructor; [|constructor]. constructor; [now left|]. cbn. tauto.
  - vm_cast_no_check (eq_refl (@UB (value N unit * N))).
Qed.
Print Assumptions C48_refuted.

(** ** C48 for SchemaParser's own grammar: nothing is missing. generate accepts it; whatever types the lexer reports for a text
    (among those of the lexical rules that match it), a sequence of texts is parsed iff it has a parse tree with a value, the tree
    is unique, and every other sequence ends in an exception, or in what the semantic actions themselves do. (7 slots per token
    and one more are assumed to be left in m_all_children: see C49.) *)
Theorem C48_schema_grammar : generate sfuel scfuel schema_grammar = Ret (schema_table, Some 0) /\
  forall types : stok -> list N, types SEof = [TokenEnd] ->
    (forall w X, In X (types (STok w)) -> In X (schema_matches w)) ->
  forall (A : Type) (rule : N -> option (list (value stok A) -> out A)) resets fuel (inp : list (list N)) alloc,
    let need := 7 * N.of_nat (List.length inp) + 1 in
    let parses tr := well_formed types schema_grammar tr /\ root_sym (g_prods schema_grammar) tr = schema_start /\
                     map fst (yield tr) = map STok inp in
    alloc + need <= cSizeOfAllChildren -> need < N.of_nat fuel ->
    (forall tr tr', parses tr -> parses tr' -> tr = tr') /\
    match parse types SEof rule resets cSizeOfAllChildren schema_grammar schema_table fuel (Some 0) (map STok inp) alloc with
    | Ret (v, al) => exists tr, parses tr /\ eval rule tr = Ret v
    | Throw => True
    | UB => evaluates_to types rule schema_grammar (map STok inp) UB
    | OutOfFuel => evaluates_to types rule schema_grammar (map STok inp) OutOfFuel
    end.
Proof.
  split; [exact (proj1 schema_generated)|]. intros types Heof Hty A rule resets fuel inp alloc need parses Hal Hf. split.
  - intros tr tr' (A1 & A2 & A3) (B1 & B2 & B3). exact (schema_one_tree types Heof Hty inp tr tr' A1 B1 A2 B2 A3 B3).
  - pose proof (schema_parse_safe types Heof Hty rule resets cSizeOfAllChildren fuel inp alloc Hal Hf) as S0.
    destruct (parse types SEof rule resets cSizeOfAllChildren schema_grammar schema_table fuel (Some 0) (map STok inp) alloc)
      as [[v al]| | |] eqn:E; auto.
    destruct (schema_parse_sound types Heof Hty rule resets cSizeOfAllChildren fuel inp alloc v al E) as (tr & T1 & T2 & T3 & T4).
    exists tr. split; [now split|easy].
Qed.
Print Assumptions C48_schema_grammar.
(** Conversely every tree is found. *)
Theorem C48_schema_complete : forall types : stok -> list N, types SEof = [TokenEnd] ->
    (forall w X, In X (types (STok w)) -> In X (schema_matches w)) ->
  forall (A : Type) (rule : N -> option (list (value stok A) -> out A)) resets fuel (inp : list (list N)) alloc tr v,
    well_formed types schema_grammar tr -> root_sym (g_prods schema_grammar) tr = schema_start ->
    map fst (yield tr) = map STok inp -> eval rule tr = Ret v ->
    alloc + slots tr <= cSizeOfAllChildren -> (size tr < fuel)%nat ->
    exists al, parse types SEof rule resets cSizeOfAllChildren schema_grammar schema_table fuel (Some 0) (map STok inp) alloc = Ret (v, al) /\
      al <= alloc + slots tr.
Proof.
  intros types Heof Hty A rule resets fuel inp alloc tr v.
  exact (schema_parse_complete types Heof Hty rule resets cSizeOfAllChildren fuel inp alloc tr v).
Qed.
Print Assumptions C48_schema_complete.

(** The types that the lexical rules give to a text, in the order of the rules. *)
Definition stypes (tk : stok) : list N := match tk with SEof => [TokenEnd] | STok w => schema_matches w end.
(** Non-vacuity: "//x" and "n:a" are accepted by schema_table, "n:" is not. *)
Example C48_schema_examples :
  let run inp := parse (A := unit) stypes SEof (fun _ => None) (fun _ => false) cSizeOfAllChildren schema_grammar schema_table 200 (Some 0) (map STok inp) 0 in
  run [[47]; [47]; [120]] = Ret (VNt 0 None, 5) /\
  run [[110]; [58]; [97]] = Ret (VNt 2 None, 11) /\
  run [[110]; [58]] = Throw.
Proof. vm_compute. auto. Qed.

(** ** C49 (partial): the static array. *)
(** A schema of up to 1428 tokens never overflows m_all_children if the counter starts at 0 (a corollary of C48_schema_grammar with
    rules that do nothing). *)
Theorem C49_short_schemas_fit_partial : forall types : stok -> list N, types SEof = [TokenEnd] ->
    (forall w X, In X (types (STok w)) -> In X (schema_matches w)) ->
  forall resets (inp : list (list N)) alloc, alloc + 7 * N.of_nat (List.length inp) + 1 <= cSizeOfAllChildren ->
    exists fuel, forall fuel', (fuel <= fuel')%nat ->
    parse (A := unit) types SEof (fun _ => None) resets cSizeOfAllChildren schema_grammar schema_table fuel' (Some 0) (map STok inp) alloc <> UB /\
    parse (A := unit) types SEof (fun _ => None) resets cSizeOfAllChildren schema_grammar schema_table fuel' (Some 0) (map STok inp) alloc <> OutOfFuel.
Proof.
  intros types Heof Hty resets inp alloc Hal. exists (N.to_nat (7 * N.of_nat (List.length inp) + 2)). intros fuel' Hf.
  pose proof (schema_parse_safe types Heof Hty (A := unit) (fun _ => None) resets cSizeOfAllChildren fuel' inp alloc ltac:(lia) ltac:(lia)) as S0.
  assert (G : forall r, r = UB \/ r = OutOfFuel -> ~ evaluates_to types (A := unit) (fun _ => None) schema_grammar (map STok inp) r).
  { intros r Hr (tr & a & b & _ & _ & E). revert E.
    assert (K : forall tr0 : tree stok, exists v, eval (A := unit) (fun _ => None) tr0 = Ret v).
    { clear. induction tr0 as [tk X | p ts IH] using tree_ind'; [now exists (VTok tk)|]. rewrite eval_node.
      assert (L : exists vs, evals (A := unit) (fun _ => None) ts = Ret vs).
      { induction IH as [|x ts (v & E1) _ (vs & E2)]; [now exists []|]. exists (v :: vs). cbn [evals]. now rewrite E1, E2. }
      destruct L as (vs & L). rewrite L. now exists (VNt p None). }
    destruct (K tr) as (v & ->). destruct Hr as [-> | ->]; discriminate. }
  destruct (parse _ _ _ _ _ _ _ _ _ _ _); split; try discriminate; intros _; [apply (G UB)|apply (G OutOfFuel)]; auto.
Qed.
Print Assumptions C49_short_schemas_fit_partial.
(** C49 refuted: a comment of 5000 characters overflows it; so do two schemas with comments of 2600 characters, parsed one after
    the other (by any parsers: the counter is static and only existing_schema_rule ever resets it). *)
Definition comment (n : N) : list stok := map STok ([47] :: [47] :: repeat [120] (N.to_nat n)).
Definition is_ub {X} (o : out X) : bool := match o with UB => true | _ => false end.
Definition after {X} (o : out (X * N)) : N := match o with Ret (_, al) => al | _ => 0 end.
Definition run_comment (n alloc : N) : out (value stok unit * N) :=
  parse (A := unit) stypes SEof (fun _ => None) (fun _ => false) cSizeOfAllChildren schema_grammar schema_table (N.to_nat 30000) (Some 0) (comment n) alloc.
Theorem C49_refuted : is_ub (run_comment 5000 0) = true /\ is_ub (run_comment 4990 0) = false /\
  is_ub (run_comment 2600 0) = false /\ is_ub (run_comment 2600 (after (run_comment 2600 0))) = true.
Proof.
  assert (H : forallb (fun b => b) [is_ub (run_comment 5000 0); negb (is_ub (run_comment 4990 0)); negb (is_ub (run_comment 2600 0));
                                    is_ub (run_comment 2600 (after (run_comment 2600 0)))] = true) by (vm_cast_no_check (eq_refl true)).
  revert H. generalize (is_ub (run_comment 2600 (after (run_comment 2600 0)))) as a1, (is_ub (run_comment 2600 0)) as a2,
    (is_ub (run_comment 4990 0)) as a3, (is_ub (run_comment 5000 0)) as a4.
  intros [] [] [] []; cbn; try discriminate; auto.
Qed.
Print Assumptions C49_refuted.
