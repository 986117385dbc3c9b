(** PropertiesGrammar.v -- C75: the grammar that a sequence of calls of add_rule and add_production registers. *)
From Verif Require Import Base OrdSet GrammarSpec SchemaModel SchemaGrammar GrammarCalls FirstModel LrModel LrSets
  LrTable ParseSpec LrDriver LrSound LrLookahead LrComplete LrMain SchemaTable.
From Coq Require Import String.
Local Open Scope list_scope.
Local Open Scope N_scope.

(** ** What is registered. For every sequence of calls of add_rule (add_token, ...) and add_production that does not
    use "$START_PRIME" as a head:
    - the names in use are the reserved ones, those given to add_rule and those in productions, and "$START_PRIME" once
      there is a production; every name has one id and every id one name; the reserved names keep their ids 0 to 7;
    - the terminals are the ids of the reserved names and of those given to add_rule;
    - the productions are those of the calls, each once, in the order of the first calls, the root production
      "$START_PRIME -> first head" is the second; their heads and bodies are the ids of the names;
    - a production's semantic rule is the one of the last call with its head and body. *)
Theorem C75_registered : forall (R : Type) (null : R) (calls : list (gcall R)),
  (forall bd, ~ In (cStartPrime, bd) (call_prods calls)) ->
  let b := registered null calls in
  (forall x, used calls x <-> exists i, symbol b x = Some i) /\
  (forall x y i, symbol b x = Some i -> symbol b y = Some i -> x = y) /\
  (forall x i, symbol b x = Some i <-> symbol_name b i = Some x) /\
  (forall k x, nth_error reserved k = Some x -> symbol b x = Some (N.of_nat k)) /\
  (forall i, In i (b_terms b) <-> exists x, token_name calls x /\ symbol b x = Some i) /\
  map key (b_prods b) = with_root (firsts (call_prods calls)) /\
  (call_prods calls <> [] -> b_root b = 1) /\
  (forall h bd p r, In (h, bd, p, r) (b_prods b) ->
    symbol b h = Some (p_head p) /\ Forall2 (fun x i => symbol b x = Some i) bd (p_body p) /\
    (h = cStartPrime /\ r = null \/ h <> cStartPrime /\ last_rule calls h bd r)).
Proof.
  intros R null calls Hns b. destruct (inv_all null calls Hns) as (names & H). fold b in H.
  pose proof (iv_ok _ _ _ _ H) as Hok.
  assert (Hsym : forall x i, symbol b x = Some i <-> at_ names x i) by exact (ok_id _ _ Hok).
  repeat match goal with |- _ /\ _ => split end.
  - intros x. rewrite <- (iv_used _ _ _ _ H x). exact (ok_in _ _ x Hok).
  - intros x y i Hx Hy. apply Hsym in Hx. apply Hsym in Hy. exact (at_fun _ _ _ _ Hx Hy).
  - intros x i. rewrite Hsym. symmetry. exact (ok_name _ _ Hok x i).
  - intros k x Hk. apply Hsym. destruct (iv_pre _ _ _ _ H) as (l & ->). unfold at_. rewrite Nat2N.id.
    rewrite nth_error_app1; [easy|]. apply nth_error_Some. congruence.
  - intros i. rewrite (iv_terms _ _ _ _ H). split; intros (x & Hx & Hi); exists x; (split; [easy|]); now apply Hsym.
  - exact (iv_keys _ _ _ _ H).
  - exact (iv_root _ _ _ _ H).
  - intros h bd p r He. destruct (iv_entries _ _ _ _ H _ He) as (H1 & H2 & H3). split; [now apply Hsym|].
    split; [|exact H3]. eapply F2_impl; [|exact H2]. intros x i. apply Hsym.
Qed.
Print Assumptions C75_registered.

(** ** add_production returns the index of a new production, and for one that exists an index that no production has. *)
Theorem C75_returned_index : forall (R : Type) (null : R) (calls : list (gcall R)) h bd r,
  (forall bd, ~ In (cStartPrime, bd) (call_prods calls)) -> h <> cStartPrime ->
  let b := registered null calls in
  let b' := registered null (calls ++ [CProd h bd r]) in
  let returned := List.length (b_prods b) in
  (~ In (h, bd) (call_prods calls) -> exists p, nth_error (b_prods b') returned = Some (h, bd, p, r)) /\
  (In (h, bd) (call_prods calls) -> nth_error (b_prods b') returned = None).
Proof.
  intros R null calls h bd r Hns Hh b b' returned.
  assert (Hns' : forall d, ~ In (cStartPrime, d) (call_prods (calls ++ [CProd h bd r]))).
  { intros d K. rewrite prods_of_app in K. apply in_app_or in K. destruct K as [K | [[= K _] | []]]; [now apply (Hns d)|now apply Hh]. }
  destruct (C75_registered R null calls Hns) as (_ & _ & _ & _ & _ & Hk & _). fold b in Hk.
  destruct (C75_registered R null _ Hns') as (_ & _ & _ & _ & _ & Hk' & _ & He'). fold b' in Hk', He'.
  rewrite prods_of_app in Hk'. cbn [call_prods] in Hk'. rewrite firsts_snoc in Hk'.
  assert (Hlen : returned = List.length (with_root (firsts (call_prods calls)))) by (unfold returned; now rewrite <- Hk, map_length).
  destruct (in_dec key_dec (h, bd) (call_prods calls)) as [Hi|Hi].
  - split; [easy|]. intros _. apply nth_error_None. rewrite Hlen, <- Hk', map_length. apply le_n.
  - split; [intros _|easy]. assert (E : exists p r', nth_error (b_prods b') returned = Some (h, bd, p, r')).
    { assert (En : nth_error (map key (b_prods b')) returned = Some (h, bd)).
      { rewrite Hk', Hlen. destruct (firsts (call_prods calls)) as [|x l]; [reflexivity|].
        cbn [app with_root List.length nth_error]. rewrite nth_error_app2, Nat.sub_diag by apply le_n. reflexivity. }
      rewrite nth_error_map in En. destruct (nth_error (b_prods b') returned) as [[[[h' bd'] p] r']|]; [|easy].
      cbn [option_map key fst] in En. injection En as -> ->. now exists p, r'. }
    destruct E as (p & r' & E). exists p. rewrite E. f_equal. f_equal.
    destruct (He' _ _ _ _ (nth_error_In _ _ E)) as (_ & _ & [[K _] | [_ (u & v & Euv & Hv)]]); [now elim Hh|].
    destruct v as [|c v _] using rev_ind.
    + apply app_inj_tail in Euv. destruct Euv as [_ Euv]. injection Euv as ->. reflexivity.
    + exfalso. rewrite app_comm_cons, app_assoc in Euv. apply app_inj_tail in Euv. destruct Euv as [_ <-].
      apply Hv. rewrite prods_of_app. apply in_or_app. right. now left.
Qed.
Print Assumptions C75_returned_index.

(** ** Calls that make sense register a grammar in which generate and parse behave (C38, C48, C56): the hypothesis
    [wf_grammar] of those theorems. *)
Theorem C75_well_formed : forall (R : Type) (null : R) (calls : list (gcall R)), sensible calls ->
  let b := registered null calls in
  N.of_nat (List.length (sy_id (b_sym b))) <= 10000000 ->
  exists s, symbol b (start_name calls) = Some s /\ wf_grammar (b_grammar b) s.
Proof.
  intros R null calls Hse b Hsz.
  assert (Hns : no_start calls) by (intros bd K; exact (proj1 (se_heads _ Hse _ _ K) eq_refl)).
  destruct (inv_all null calls Hns) as (names & H). fold b in H. pose proof (iv_ok _ _ _ _ H) as Hok.
  destruct (start_in calls Hse) as (bd & Hin).
  destruct (used_pos null calls names H (start_name calls)) as (s & Hs); [right; left; exists (start_name calls), bd; auto|].
  exists s. split; [now apply (ok_id _ _ Hok)|]. apply (grammar_wf null calls names Hse H); [|exact Hs].
  now rewrite <- (ok_len _ _ Hok).
Qed.
Print Assumptions C75_well_formed.

(** ** By name: if parse accepts a sequence of tokens then one can choose a type for each token such that the names of
    these types are derived from the head of the first production by the productions of the calls. *)
Theorem C75_accepted_by_name : forall (R : Type) (null : R) (calls : list (gcall R)), sensible calls ->
  let b := registered null calls in
  N.of_nat (List.length (sy_id (b_sym b))) <= 10000000 ->
  forall (tok A : Type) (types : tok -> list N) (eof : tok) fuel cfuel (t : table) root
    (rule : N -> option (list (value tok A) -> out A)) resets limit steps inp alloc v al,
  generate fuel cfuel (b_grammar b) = Ret (t, root) ->
  (forall tk X, In X (types tk) -> exists x, token_name calls x /\ symbol b x = Some X) -> types eof = [TokenEnd] ->
  (forall tk, In tk inp -> ~ In TokenEnd (types tk)) ->
  parse types eof rule resets limit (b_grammar b) t steps root inp alloc = Ret (v, al) ->
  exists xs, name_derives (call_prods calls) [start_name calls] xs /\
    Forall2 (fun tk x => exists X, In X (types tk) /\ symbol b x = Some X) inp xs.
Proof.
  intros R null calls Hse b Hsz tok A types eof fuel cfuel t root rule resets limit steps inp alloc v al Hgen Hty Heof Hp H.
  destruct (C75_well_formed R null calls Hse Hsz) as (s & Hs & Hwf). fold b in Hs, Hwf.
  assert (Hns : no_start calls) by (intros bd K; exact (proj1 (se_heads _ Hse _ _ K) eq_refl)).
  destruct (inv_all null calls Hns) as (names & Hi). fold b in Hi. pose proof (iv_ok _ _ _ _ Hi) as Hok.
  assert (Hterms : forall tk X, In X (types tk) -> In X (g_terms (b_grammar b))).
  { intros tk X HX. destruct (Hty tk X HX) as (x & Hx & Hsx). apply (iv_terms _ _ _ _ Hi). exists x. split; [easy|].
    now apply (ok_id _ _ Hok). }
  destruct (sound_main types eof fuel cfuel (b_grammar b) s t root Hwf Hgen Hterms Heof rule resets limit steps inp alloc v al Hp H)
    as (tr & H1 & H2 & H3 & H4).
  pose proof (tree_derives types (b_grammar b) tr H1) as Hd. rewrite H2 in Hd.
  destruct (derives_names null calls names Hse Hi _ _ Hd [start_name calls]) as (xs & Hxs & Hder).
  - constructor; [now apply (ok_id _ _ Hok)|constructor].
  - intros [K | []]. destruct (start_in calls Hse) as (bd & Hin). destruct (se_heads _ Hse _ _ Hin) as [K2 _]. congruence.
  - exists xs. split; [exact Hder|]. rewrite <- H3.
    assert (Hl : Forall (fun p => In (snd p) (types (fst p))) (yield tr)) by (apply Forall_forall; intros [tk X] K; exact (proj2 (yield_terms types (b_grammar b) tr H1 tk X K))).
    clear - Hxs Hl Hok. revert xs Hxs. induction Hl as [|[tk X] l Hh Ht IH]; intros xs Hxs; cbn [map] in *.
    + inversion Hxs. constructor.
    + inversion Hxs as [|x X' xs' l' Hx Hr]; subst. constructor; [|now apply IH]. exists X. split; [easy|].
      now apply (ok_id _ _ Hok).
Qed.
Print Assumptions C75_accepted_by_name.

(** Every head of a production derives some sequence of tokens. *)
Definition productive_names {R} (calls : list (gcall R)) : Prop :=
  forall h bd, In (h, bd) (call_prods calls) -> exists xs, name_derives (call_prods calls) [h] xs /\
    forall x, In x xs -> token_name calls x.
Lemma productive_by_name {R} (null : R) calls names : sensible calls -> inv null calls (registered null calls) names ->
  productive_names calls -> productive (b_grammar (registered null calls)).
Proof.
  intros Hse Hi Hp X HX. pose proof (ok_nodup _ _ (iv_ok _ _ _ _ Hi)) as Hnd.
  apply (g_nts_iff null calls) in HX. destruct HX as (p & HpX & <-).
  destruct (g_prod null calls names Hi p HpX) as (h & bd & r & _ & Hh & Hbd & Hk).
  assert (Hgo : forall h0 X0, at_ names h0 X0 -> (exists bd0, In (h0, bd0) (call_prods calls)) ->
    exists w, derives (g_prods (b_grammar (registered null calls))) [X0] w /\
              forall t, In t w -> In t (g_terms (b_grammar (registered null calls)))).
  { intros h0 X0 H0 (bd0 & Hin). destruct (Hp _ _ Hin) as (xs & Hd & Hx).
    destruct (names_derive null calls names Hse Hi _ _ Hd [X0]) as (w & Hw & Hdw); [constructor; [easy|constructor]|].
    exists w. split; [easy|]. intros t Ht. destruct (F2_in_r _ _ _ _ Hw Ht) as (x & Hxx & Hat).
    apply (iv_terms _ _ _ _ Hi). exists x. auto. }
  destruct Hk as [(-> & ->) | Hk]; [|apply (Hgo h); [easy|now exists bd]].
  inversion Hbd as [|x i u v Hx Hu E1 E2]. inversion Hu; subst.
  destruct (Hgo _ _ Hx (start_in calls Hse)) as (w & Hw & Ht). exists w. split; [|easy].
  apply derives_prod; [easy|]. now rewrite <- E2.
Qed.

(** ** C48 by name, the other direction (partial, as C48: [end_conflict]; the types of a token agree). If the names of some
    types of the tokens are derived from the head of the first production, parse accepts the tokens, given enough room in
    m_all_children and enough steps, when the semantic rules do not fail. *)
Theorem C48_by_name_partial : forall (R : Type) (null : R) (calls : list (gcall R)), sensible calls ->
  productive_names calls ->
  let b := registered null calls in
  N.of_nat (List.length (sy_id (b_sym b))) <= 10000000 ->
  forall (tok A : Type) (types : tok -> list N) (eof : tok) fuel cfuel (t : table) root sets gt
    (rule : N -> option (list (value tok A) -> out A)) resets inp xs,
  generate fuel cfuel (b_grammar b) = Ret (t, root) ->
  item_sets fuel cfuel (b_grammar b) = Ret (sets, gt, root) -> end_conflict (b_grammar b) sets = false ->
  (forall tk X, In X (types tk) -> exists x, token_name calls x /\ symbol b x = Some X) -> types eof = [TokenEnd] ->
  (forall tk, In tk inp -> ~ In TokenEnd (types tk)) -> agree types (b_grammar b) t ->
  (forall i f vs, rule i = Some f -> exists a, f vs = Ret a) ->
  name_derives (call_prods calls) [start_name calls] xs ->
  Forall2 (fun tk x => exists X, In X (types tk) /\ symbol b x = Some X) inp xs ->
  exists room steps v, forall limit n, room <= limit -> (steps <= n)%nat ->
    exists al, parse types eof rule resets limit (b_grammar b) t n root inp 0 = Ret (v, al).
Proof.
  intros R null calls Hse Hpn b Hsz tok A types eof fuel cfuel t root sets gt rule resets inp xs Hgen Hsets Hc Hty Heof Hp Hag Hrule Hd Hf.
  destruct (C75_well_formed R null calls Hse Hsz) as (s & Hs & Hwf). fold b in Hs, Hwf.
  assert (Hns : no_start calls) by (intros bd K; exact (proj1 (se_heads _ Hse _ _ K) eq_refl)).
  destruct (inv_all null calls Hns) as (names & Hi). fold b in Hi. pose proof (iv_ok _ _ _ _ Hi) as Hok.
  assert (Hterms : forall tk X, In X (types tk) -> In X (g_terms (b_grammar b))).
  { intros tk X HX. destruct (Hty tk X HX) as (x & Hx & Hsx). apply (iv_terms _ _ _ _ Hi). exists x. split; [easy|].
    now apply (ok_id _ _ Hok). }
  assert (Hs' : at_ names (start_name calls) s) by (now apply (ok_id _ _ Hok)).
  destruct (names_derive null calls names Hse Hi _ _ Hd [s]) as (v & Hv & Hdv); [constructor; [easy|constructor]|].
  assert (Hw : exists w : list (tok * N), map snd w = v /\ map fst w = inp /\ forall tk X, In (tk, X) w -> In X (types tk)).
  { clear - Hf Hv Hok. revert v Hv. induction Hf as [|tk x inp xs (X & HX & Hsx) Hf IH]; intros v Hv.
    - inversion Hv. exists []. split; [easy|]. split; [easy|]. intros tk X [].
    - inversion Hv as [|x' i xs' v' Hx Hr]; subst. destruct (IH _ Hr) as (w & <- & <- & Hw).
      assert (E : X = i) by (apply (at_inj names x); [exact (ok_nodup _ _ Hok)|now apply (ok_id _ _ Hok)|easy]). subst i.
      exists ((tk, X) :: w). split; [easy|]. split; [easy|]. intros tk' Y [[= <- <-] | K]; [easy|]. now apply Hw. }
  destruct Hw as (w & Hsnd & Hfst & Htw). rewrite <- Hsnd in Hdv.
  destruct (derives_tree types (b_grammar b) s w Hdv) as (tr & Htr & Hy & Hwt).
  { intros tk X K. split; [now apply Htw|]. apply (Hterms tk). now apply Htw. }
  assert (Hev : exists u, eval rule tr = Ret u).
  { clear - Hrule. induction tr as [tk X | p ts IH] using tree_ind'; [now exists (VTok tk)|]. rewrite eval_node.
    assert (Hes : exists vs, evals rule ts = Ret vs).
    { induction IH as [|x l (u & Hx) Hl (vs & IHl)]; [now exists []|]. cbn [evals]. rewrite Hx. cbn [bind]. rewrite IHl.
      cbn [bind]. now exists (u :: vs). }
    destruct Hes as (vs & ->). cbn [bind]. unfold apply_rule. destruct (rule p) as [f|] eqn:E; [|now exists (VNt p None)].
    destruct (Hrule p f vs E) as (a & ->). now exists (VNt p (Some a)). }
  destruct Hev as (u & Hev). exists (slots tr), (S (size tr)), u. intros limit n Hlim Hn.
  rewrite <- Hfst, <- Hy in Hp |- *.
  destruct (complete_main types eof fuel cfuel (b_grammar b) s t root Hwf Hgen Hterms Heof
              (productive_by_name null calls names Hse Hi Hpn) sets gt Hsets Hc Hag rule resets limit n 0 tr u Hwt Htr Hp Hev)
    as (al & Hal & _); [lia|lia|]. now exists al.
Qed.
Print Assumptions C48_by_name_partial.

(** ** Checking that calls make sense. *)
Definition has (x : string) (l : list string) : bool := existsb (String.eqb x) l.
Definition token_names {R} (calls : list (gcall R)) : list string :=
  reserved ++ flat_map (fun c => match c with CRule n => [n] | CProd _ _ _ => [] end) calls.
Definition sensible_check {R} (calls : list (gcall R)) : bool :=
  match call_prods calls with [] => false | _ => true end
  && forallb (fun k => negb (String.eqb (fst k) cStartPrime) && negb (has (fst k) (token_names calls))) (call_prods calls)
  && forallb (fun k => forallb (fun x => negb (String.eqb x cTokenEnd) && negb (String.eqb x cStartPrime)
                         && (has x (token_names calls) || has x (map fst (call_prods calls)))) (snd k)) (call_prods calls)
  && negb (has cStartPrime (token_names calls)).
Lemma has_iff x l : has x l = true <-> In x l.
Proof.
  unfold has. rewrite existsb_exists. split.
  - intros (y & Hy & E). apply String.eqb_eq in E. now subst.
  - intros H. exists x. split; [easy|apply String.eqb_refl].
Qed.
Lemma has_token {R} (calls : list (gcall R)) x : has x (token_names calls) = true <-> token_name calls x.
Proof.
  rewrite has_iff. unfold token_names, token_name. rewrite in_app_iff, in_flat_map. split.
  - intros [H | ([n|h bd r] & Hc & K)]; [now left| |destruct K]. destruct K as [<- | []]. now right.
  - intros [H | H]; [now left|right]. exists (CRule x). split; [easy|now left].
Qed.
Lemma sensible_check_ok {R} (calls : list (gcall R)) : sensible_check calls = true -> sensible calls.
Proof.
  unfold sensible_check. rewrite !andb_true_iff, !forallb_forall. intros (((H1 & H2) & H3) & H4). constructor.
  - intros E. now rewrite E in H1.
  - intros h bd Hin. apply H2 in Hin. cbn [fst] in Hin. apply andb_true_iff in Hin. destruct Hin as [Ha Hb].
    rewrite negb_true_iff in Ha, Hb. split; [now apply String.eqb_neq in Ha|]. intros K. apply has_token in K. congruence.
  - intros h bd x Hin Hx. apply H3 in Hin. cbn [snd] in Hin. rewrite forallb_forall in Hin. apply Hin in Hx.
    rewrite !andb_true_iff, !negb_true_iff, orb_true_iff in Hx. destruct Hx as [[Ha Hb] Hc].
    split; [now apply String.eqb_neq in Ha|]. split; [now apply String.eqb_neq in Hb|].
    destruct Hc as [Hc | Hc]; [left; now apply has_token|right]. apply has_iff in Hc. apply in_map_iff in Hc.
    destruct Hc as ([h' bd'] & <- & Hk). now exists bd'.
  - intros K. apply has_token in K. now rewrite K in H4.
Qed.

(** ** SchemaParser's own calls (SchemaParser.cpp 419-639) make sense. *)
Definition schema_calls : list (gcall srule) :=
  map (fun e => CRule (fst e)) schema_tokens ++ map (fun e => let '(h, bd, r) := e in CProd h bd r) schema_productions.
Theorem C75_schema_calls : sensible schema_calls /\ registered nullptr schema_calls = schema_builder /\
  b_grammar (registered nullptr schema_calls) = schema_grammar.
Proof.
  assert (E : registered nullptr schema_calls = schema_builder).
  { unfold registered, schema_calls, schema_builder. rewrite fold_left_app.
    assert (E1 : forall l b, fold_left (call1 nullptr) (map (fun e : string * lexrule => CRule (fst e)) l) b =
                             fold_left (fun b e => add_terminal b (fst e)) l b)
      by (induction l as [|x l IH]; intros b; [reflexivity|cbn [map fold_left call1]; apply IH]).
    assert (E2 : forall l b, fold_left (call1 nullptr) (map (fun e => let '(h, bd, r) := e in CProd h bd r) l) b =
                             fold_left (fun b e => let '(h, bd, r) := e in add_production nullptr b h bd r) l b)
      by (induction l as [|[[h bd] r] l IH]; intros b; [reflexivity|cbn [map fold_left call1]; apply IH]).
    now rewrite E1, E2. }
  split; [apply sensible_check_ok; vm_compute; reflexivity|]. split; [exact E|]. rewrite E. exact schema_grammar_built.
Qed.
Print Assumptions C75_schema_calls.

(** Non-vacuity: lists of "a"s. The second registration of List -> a replaces its rule; its result 3 is not an index. *)
Definition list_calls : list (gcall N) :=
  [CProd "List" ["List"; "a"] 1; CRule "a"; CProd "List" ["a"] 2; CProd "List" ["a"] 3]%string.
Example C75_list : sensible list_calls /\ productive_names list_calls /\
  map snd (b_prods (registered 0 list_calls)) = [1; 0; 3] /\
  symbol (registered 0 list_calls) "a" = Some 9 /\
  name_derives (call_prods list_calls) ["List"]%string ["a"; "a"]%string /\
  exists t sets gt, generate 40 200 (b_grammar (registered 0 list_calls)) = Ret (t, Some 0) /\
    item_sets 40 200 (b_grammar (registered 0 list_calls)) = Ret (sets, gt, Some 0) /\
    end_conflict (b_grammar (registered 0 list_calls)) sets = false /\
    parse (A := unit) (fun x => [x]) 0 (fun _ => None) (fun _ => false) 100 (b_grammar (registered 0 list_calls)) t 50 (Some 0) [9; 9] 0
      = Ret (VNt 0 None, 3).
Proof.
  split; [apply sensible_check_ok; vm_compute; reflexivity|].
  assert (D : name_derives (call_prods list_calls) ["List"]%string ["a"]%string).
  { eapply nder_step; [|constructor]. apply (name_step_at _ [] "List"%string ["a"%string] []). cbn. auto. }
  split.
  - intros h bd H. exists ["a"%string]. split.
    + cbn in H. destruct H as [[= <- _] | [[= <- _] | [[= <- _] | []]]]; exact D.
    + intros x [<- | []]. right. cbn. auto.
  - split; [vm_compute; reflexivity|]. split; [vm_compute; reflexivity|]. split.
    + eapply nder_step; [apply (name_step_at _ [] "List"%string ["List"; "a"]%string []); cbn; auto|].
      eapply nder_step; [|constructor]. apply (name_step_at _ [] "List"%string ["a"%string] ["a"%string]). cbn. auto.
    + destruct (gen_all 40 200 (b_grammar (registered 0 list_calls))) as [[[c t] r]| | |] eqn:E.
      * pose proof E as E'. vm_compute in E'. injection E' as <- <- <-. destruct (gen_all_inv _ _ _ _ _ _ E) as (Hg & sets & gt & Hs & Hc).
        eexists. exists sets, gt. split; [exact Hg|]. split; [exact Hs|]. split; [exact Hc|]. vm_compute. reflexivity.
      * vm_compute in E. discriminate E.
      * vm_compute in E. discriminate E.
      * vm_compute in E. discriminate E.
Qed.
