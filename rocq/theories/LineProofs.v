(** LineProofs.v -- the line numbers that the schema's parser gives to the variables, and add_rules with its messages. *)
From Verif Require Import Base OrdSet LexerModel LexerSpec LogParserModel RingModel RegexModel RegexSpec GrammarSpec FirstModel LrModel LrSets LrTable ParseSpec LrDriver
  LrSound LrParse LrMain ReportModel SchemaModel SchemaSpec SchemaProofs SchemaPaths SchemaUsable SchemaActions SchemaGrammar SchemaTable SchemaSafe SchemaRules
  SchemaSyntax SchemaReads SchemaMeaning SchemaLexer SchemaSplit SchemaRoom SchemaReport SerializeModel PropertiesSchemaText LineModel LineSpec.
From Coq Require Import String Sorted.
Local Open Scope list_scope.
Local Open Scope N_scope.

(** ** The parser without the line numbers. *)
Section Forget.
  Context {tok tok' A A' : Type}.
  Variables (f : tok' -> tok) (h : A' -> A) (types : tok -> list N) (eof' : tok').
  Variable rule : N -> option (list (value tok A) -> out A).
  Variable rule' : N -> option (list (value tok' A') -> out A').
  Variables (resets : N -> bool) (limit : N) (g : grammar) (t : table).
  Definition vfor (v : value tok' A') : value tok A := match v with VTok x => VTok (f x) | VNt p a => VNt p (option_map h a) end.
  Hypothesis Hrule : forall p vs, match rule p, rule' p with
    | None, None => True | Some r, Some r' => r (map vfor vs) = omap h (r' vs) | _, _ => False end.
  Notation ds' := (dstate (tok := tok') (A := A')).
  Definition dfor (st : ds') : dstate (tok := tok) (A := A) := mkD (d_states st) (map vfor (d_matches st)) (option_map f (d_next st)) (d_alloc st).
  Definition rfor (r : option (bool * ds')) := match r with Some (b, st) => Some (b, dfor st) | None => None end.
  Lemma reduce_for p tk st : reduce rule resets limit g t p (f tk) (dfor st) = omap dfor (reduce rule' resets limit g t p tk st).
  Proof.
    unfold reduce. cbn [dfor d_alloc d_matches d_states]. rewrite map_length. destruct (_ && (limit <? _)); [reflexivity|].
    destruct (Nat.ltb _ _); [reflexivity|]. rewrite firstn_map, <- map_rev. pose proof (Hrule p (rev (firstn (List.length (body_at g p)) (d_matches st)))) as E.
    destruct (rule p) as [r|], (rule' p) as [r'|]; try contradiction.
    - rewrite E. clear E. destruct (r' _) as [a| | |]; try reflexivity. cbn [bind omap]. unfold omap. cbn [bind].
      destruct (skipn _ (d_states st)) as [|s ss]; [reflexivity|].
      destruct (action_at g t s _) as [[?|j|?]| | |]; try reflexivity. cbn [bind]. unfold dfor. cbn. now rewrite skipn_map.
    - cbn [bind]. unfold omap. destruct (skipn _ (d_states st)) as [|s ss]; [reflexivity|].
      destruct (action_at g t s _) as [[?|j|?]| | |]; try reflexivity. cbn [bind]. unfold dfor. cbn. now rewrite skipn_map.
  Qed.
  Lemma symbol_for X tk st : parse_symbol rule resets limit g t X (f tk) (dfor st) = omap rfor (parse_symbol rule' resets limit g t X tk st).
  Proof.
    unfold parse_symbol. cbn [dfor d_states]. destruct (d_states st) as [|s ss]; [reflexivity|].
    destruct (action_at g t s X) as [[[|]|j|p]| | |]; try reflexivity. cbn [bind]. fold (dfor st). rewrite reduce_for.
    destruct (reduce rule' resets limit g t p tk st); reflexivity.
  Qed.
  Lemma advance_for Xs tk st : parse_advance rule resets limit g t Xs (f tk) (dfor st) = omap rfor (parse_advance rule' resets limit g t Xs tk st).
  Proof.
    induction Xs as [|X Xs IH]; [reflexivity|]. cbn [parse_advance]. rewrite symbol_for.
    destruct (parse_symbol rule' resets limit g t X tk st) as [[[b st2]|]| | |]; try reflexivity. cbn [bind omap rfor]. exact IH.
  Qed.
  Lemma next_for inp st : get_next_symbol (f eof') (map f inp) (dfor st) = let '(tk, inp', st') := get_next_symbol eof' inp st in (f tk, map f inp', dfor st').
  Proof. unfold get_next_symbol. cbn [dfor d_next]. destruct (d_next st); [reflexivity|]. destruct inp; reflexivity. Qed.
  Lemma loop_for : forall fuel inp st, parse_loop types (f eof') rule resets limit g t fuel (map f inp) (dfor st) =
    omap (fun r => (vfor (fst r), snd r)) (parse_loop (fun x => types (f x)) eof' rule' resets limit g t fuel inp st).
  Proof.
    induction fuel as [|fuel IH]; intros inp st; [reflexivity|]. cbn [parse_loop]. rewrite next_for.
    destruct (get_next_symbol eof' inp st) as [[tk inp'] st']. rewrite advance_for.
    destruct (parse_advance rule' resets limit g t (types (f tk)) tk st') as [[[[|] st2]|]| | |]; try reflexivity; unfold omap; cbn [bind rfor].
    - cbn [dfor d_matches d_alloc]. destruct (d_matches st2) as [|[?|? ?] ?]; reflexivity.
    - rewrite IH. unfold omap. reflexivity.
  Qed.
  Theorem parse_for fuel root inp alloc : parse types (f eof') rule resets limit g t fuel root (map f inp) alloc =
    omap (fun r => (vfor (fst r), snd r)) (parse (fun x => types (f x)) eof' rule' resets limit g t fuel root inp alloc).
  Proof. unfold parse. destruct root as [r|]; [|reflexivity]. exact (loop_for fuel inp (mkD [r] [] None alloc)). Qed.

  (** Trees. *)
  Fixpoint tmap (tr : tree tok') : tree tok := match tr with Leaf x X => Leaf (f x) X | Node p ts => Node p (map tmap ts) end.
  Lemma root_tmap P tr : root_sym P (tmap tr) = root_sym P tr.
  Proof. destruct tr; reflexivity. Qed.
  Lemma yield_tmap tr : map fst (yield (tmap tr)) = map f (map fst (yield tr)).
  Proof.
    induction tr as [x X | p ts IH] using tree_ind'; [reflexivity|]. cbn [tmap yield]. induction IH as [|x ts Hx _ IHts]; [reflexivity|].
    cbn [map flat_map]. rewrite !map_app. now rewrite Hx, IHts.
  Qed.
  Lemma wf_tmap g0 tr : well_formed (fun x => types (f x)) g0 tr -> well_formed types g0 (tmap tr).
  Proof.
    induction tr as [x X | p ts IH] using tree_ind'; intros H; inversion H; subst; cbn [tmap]; [now constructor|].
    econstructor; [eassumption| |].
    - rewrite map_map. rewrite <- H3. apply map_ext. intros; apply root_tmap.
    - apply Forall_forall. intros y Hy. apply in_map_iff in Hy as (x & <- & Hx). rewrite Forall_forall in IH, H4. auto.
  Qed.
  Lemma apply_for p vs : apply_rule rule p (map vfor vs) = omap vfor (apply_rule rule' p vs).
  Proof.
    unfold apply_rule. pose proof (Hrule p vs) as E. destruct (rule p) as [r|], (rule' p) as [r'|]; try contradiction; [|reflexivity].
    rewrite E. destruct (r' vs); reflexivity.
  Qed.
  Lemma eval_for tr : eval rule (tmap tr) = omap vfor (eval rule' tr).
  Proof.
    induction tr as [x X | p ts IH] using tree_ind'; [reflexivity|]. cbn [tmap]. rewrite !eval_node.
    assert (E : evals rule (map tmap ts) = omap (map vfor) (evals rule' ts)).
    { induction IH as [|x ts Hx _ IHts]; [reflexivity|]. cbn [map evals]. rewrite Hx, IHts.
      destruct (eval rule' x); try reflexivity. unfold omap. cbn [bind]. destruct (evals rule' ts); reflexivity. }
    rewrite E. destruct (evals rule' ts) as [vs| | |]; try reflexivity. unfold omap at 1. cbn [bind]. apply apply_for.
  Qed.
End Forget.

(** ** The specification (LineSpec.v) and that of C50. *)
Lemma lined_forget w lvs ds : lined_text w lvs ds -> schema_text w (map fst lvs) ds.
Proof.
  induction 1; rewrite ?map_app; cbn [map fst].
  - now apply sch_comment.
  - now apply sch_variable.
  - now apply sch_delimiters.
  - now apply sch_empty_line.
  - now apply sch_more_comment.
  - now apply sch_more_variable.
  - now apply sch_more_delimiters.
Qed.
Lemma lined_exists w vs ds : schema_text w vs ds -> exists lvs, lined_text w lvs ds /\ map fst lvs = vs.
Proof.
  induction 1 as [w H|w n r H|w d H|w vs ds b _ (lvs & I1 & I2) Hb|w vs ds b c _ (lvs & I1 & I2) Hb Hc|w vs ds b v n r _ (lvs & I1 & I2) Hb Hv|w vs ds b d cs _ (lvs & I1 & I2) Hb Hd].
  - exists []. split; [now apply lt_comment|reflexivity].
  - exists [(n, r, 0)]. split; [now apply lt_variable|reflexivity].
  - exists []. split; [now apply lt_delimiters|reflexivity].
  - exists lvs. split; [now apply lt_empty_line|exact I2].
  - exists lvs. split; [now apply lt_more_comment|exact I2].
  - eexists. split; [now apply lt_more_variable; [exact I1|exact Hb|exact Hv]|]. rewrite map_app, I2. reflexivity.
  - exists lvs. split; [now apply lt_more_delimiters|exact I2].
Qed.

(** ** The line numbers. *)
Lemma unlined_vfor v : unlined v = vfor fst fst v.
Proof. destruct v as [x|p [a|]]; reflexivity. Qed.
Lemma lined_rule_ok p (vs : list lchild) : match schema_rule p, lined_rule p with
  | None, None => True | Some r, Some r' => r (map (vfor fst fst) vs) = omap fst (r' vs) | _, _ => False end.
Proof.
  unfold lined_rule. destruct (schema_rule p) as [r|]; [|exact Logic.I]. rewrite <- (map_ext _ _ unlined_vfor). destruct (r (map unlined vs)); reflexivity.
Qed.
Lemma newlines_app a b : newlines (a ++ b) = newlines a + newlines b.
Proof. unfold newlines. rewrite filter_app, app_length. lia. Qed.
Definition right_lines (ls : list (list N * N)) : Prop := forall p w k q, ls = p ++ (w, k) :: q -> k = newlines (List.concat (map fst p) ++ w).
Lemma right_pre a b : right_lines (a ++ b) -> right_lines a.
Proof. intros H p w k q ->. apply (H p w k (q ++ b)). now rewrite <- app_assoc. Qed.
Lemma map_app_inv {X Y} (f : X -> Y) l a b : map f l = a ++ b -> exists l1 l2, l = l1 ++ l2 /\ map f l1 = a /\ map f l2 = b.
Proof. intros H. apply map_eq_app in H as (x & y & -> & <- & <-). eauto. Qed.
Lemma tagged_app a b : tagged (a ++ b) = tagged a ++ tagged b.
Proof. apply map_app. Qed.
Lemma tagged_split ls a b : a ++ b = tagged ls -> exists la lb, ls = la ++ lb /\ a = tagged la /\ b = tagged lb.
Proof. intros H. symmetry in H. unfold tagged in H. apply map_eq_app in H as (x & y & -> & <- & <-). eauto. Qed.
Lemma with_lines_app vs ws L M : List.length L = List.length vs -> with_lines (vs ++ ws) (L ++ M) = with_lines vs L ++ with_lines ws M.
Proof. revert L. induction vs as [|v vs IH]; intros [|k L] H; try discriminate H; [reflexivity|]. cbn. f_equal. apply IH. now injection H. Qed.
Lemma with_lines_fst vs L : List.length L = List.length vs -> map fst (with_lines vs L) = vs.
Proof. revert L. induction vs as [|v vs IH]; intros [|k L] H; try discriminate H; [reflexivity|]. cbn. f_equal. apply IH. now injection H. Qed.
Lemma no_newlines l : (forall x, In x l -> x <> 10) -> newlines l = 0.
Proof.
  unfold newlines. induction l as [|x l IH]; intros H; [reflexivity|]. cbn [filter]. destruct (N.eqb_spec 10 x) as [E | _]; [exfalso; now apply (H x (or_introl eq_refl))|].
  apply IH. intros y Hy. apply H. now right.
Qed.

(** What the value of a tree for the tokens [ls] is. *)
Definition lsem (X : N) (ls : list (list N * N)) (v : lchild) : Prop :=
  cm X (map fst ls) (unlined v) /\
  ((X <? 57) = true -> exists u k, ls = [(u, k)] /\ v = VTok (STok u, k)) /\
  (X = 60 -> exists p n r a k w, v = VNt p (Some (VVar n r, [k])) /\ ls = a ++ ([58], k) :: w /\ newlines (List.concat (map fst a)) = 0) /\
  (X = 57 -> right_lines ls -> exists p vs ds L, v = VNt p (Some (VSchema vs ds, L)) /\ List.length L = List.length vs /\
     lined_text (map fst ls) (with_lines vs L) ds).
Inductive lkids : list N -> list (list N * N) -> list lchild -> Prop :=
| lkids_nil : lkids [] [] []
| lkids_cons : forall X b l1 l2 v vs, lsem X l1 v -> lkids b l2 vs -> lkids (X :: b) (l1 ++ l2) (v :: vs).
Lemma lkids_0 ls vs : lkids [] ls vs -> ls = [] /\ vs = [].
Proof. intros H. now inversion H. Qed.
Lemma lkids_inv X b ls vs : lkids (X :: b) ls vs -> exists l1 l2 v vs', ls = l1 ++ l2 /\ vs = v :: vs' /\ lsem X l1 v /\ lkids b l2 vs'.
Proof. intros H. inversion H; subst. eauto 10. Qed.
Lemma lkids_t X b ls vs : (X <? 57) = true -> lkids (X :: b) ls vs -> exists u k l2 vs', ls = (u, k) :: l2 /\ vs = VTok (STok u, k) :: vs' /\
  lexes X u /\ lkids b l2 vs'.
Proof.
  intros HX H. apply lkids_inv in H as (l1 & l2 & v & vs' & -> & -> & (M1 & M2 & _) & H). destruct (M2 HX) as (u & k & -> & ->).
  exists u, k, l2, vs'. split; [reflexivity|]. split; [reflexivity|]. split; [|exact H]. unfold cm in M1. rewrite HX in M1.
  destruct M1 as (u' & E & _ & M1). cbn in E. injection E as <-. exact M1.
Qed.
Lemma lkids_n X b ls vs : (X <? 57) = false -> lkids (X :: b) ls vs -> exists l1 l2 p a vs', ls = l1 ++ l2 /\ vs = VNt p a :: vs' /\
  sem X (map fst l1) (option_map fst a) /\ lsem X l1 (VNt p a) /\ lkids b l2 vs'.
Proof.
  intros HX H. apply lkids_inv in H as (l1 & l2 & v & vs' & -> & -> & HM & H). pose proof HM as (M1 & _). unfold cm in M1. rewrite HX in M1.
  destruct M1 as (p & a & E & M1). destruct v as [x|q b']; [discriminate E|]. exists l1, l2, q, b', vs'.
  split; [reflexivity|]. split; [reflexivity|]. split; [|split; [exact HM|exact H]]. rewrite unlined_vfor in E. cbn in E. injection E as -> ->. exact M1.
Qed.

Lemma numbered_rule p pr k : In (p, (pr, k)) numbered -> nth_error schema_rules (N.to_nat p) = Some k.
Proof.
  assert (H : Forall (fun e => nth_error schema_rules (N.to_nat (fst e)) = Some (snd (snd e))) numbered)
    by (unfold numbered; repeat (apply Forall_cons; [reflexivity|]); apply Forall_nil).
  intros Hin. rewrite Forall_forall in H. exact (H _ Hin).
Qed.
Lemma numbered_big p pr k : In (p, (pr, k)) numbered -> (p_head pr <? 57) = false.
Proof.
  assert (H : forallb (fun e : N * (prod * srule) => negb (p_head (fst (snd e)) <? 57)) numbered = true) by (vm_compute; reflexivity).
  rewrite forallb_forall in H. intros Hin. specialize (H _ Hin). cbn [fst snd] in H. now apply negb_true_iff.
Qed.
Definition heads_57_60 : list (N * (prod * srule)) :=
  Eval vm_compute in filter (fun e => (p_head (fst (snd e)) =? 57) || (p_head (fst (snd e)) =? 60)) numbered.
Lemma heads_in p pr k : In (p, (pr, k)) numbered -> p_head pr = 57 \/ p_head pr = 60 -> In (p, (pr, k)) heads_57_60.
Proof.
  intros H1 H2. assert (E : heads_57_60 = filter (fun e => (p_head (fst (snd e)) =? 57) || (p_head (fst (snd e)) =? 60)) numbered) by (vm_compute; reflexivity).
  rewrite E. apply filter_In. split; [exact H1|]. cbn [fst snd]. apply orb_true_iff. destruct H2 as [-> | ->]; [left|right]; reflexivity.
Qed.
Lemma apply_lined p k vs v : nth_error schema_rules (N.to_nat p) = Some k -> k <> nullptr -> apply_rule lined_rule p vs = Ret v ->
  exists a, act k (map unlined vs) = Ret a /\ v = VNt p (Some (a, rule_lines k vs)).
Proof.
  intros Hk Hne H. unfold apply_rule, lined_rule, schema_rule in H. rewrite Hk in H.
  assert (E : match k with nullptr => None | _ => Some (act k) end = Some (act k)) by (destruct k; congruence || reflexivity).
  rewrite E in H. destruct (act k (map unlined vs)) as [a| | |]; try discriminate H. cbn [bind] in H. injection H as <-. eauto.
Qed.
Lemma colon_40 u : lexes 40 u -> u = [58].
Proof. intros H. unfold lexes in H. assert (E : rules_of 40 = [LexChar 58]) by (vm_compute; reflexivity). rewrite E in H. now apply (lex_char 58). Qed.
Lemma keyword_55 u : lexes 55 u -> u = keyword.
Proof. intros H. unfold lexes in H. now apply (lex_chain keyword). Qed.
Lemma spaces_quiet k : newlines (List.concat (repeat [32] k)) = 0.
Proof. induction k as [|k IH]; [reflexivity|]. cbn [repeat List.concat]. rewrite newlines_app, IH. reflexivity. Qed.
Lemma name_quiet w n : name w n -> newlines (List.concat w) = 0.
Proof.
  intros (_ & H & ->). apply no_newlines. intros x Hx. apply in_concat in Hx as (y & Hy & Hx). unfold chars in Hy. apply in_map_iff in Hy as (b & <- & Hb).
  destruct Hx as [<- | []]. rewrite Forall_forall in H. specialize (H b Hb). unfold alnum, digit in H. lia.
Qed.
Ltac lk :=
  repeat match goal with
  | H : lkids (_ :: _) _ _ |- _ =>
      first
        [ apply lkids_t in H; [|reflexivity];
          let u := fresh "u" in let k := fresh "k" in let ws := fresh "ls" in let vs' := fresh "vs" in let Hl := fresh "L" in
          destruct H as (u & k & ws & vs' & -> & -> & Hl & H)
        | apply lkids_n in H; [|reflexivity];
          let w1 := fresh "l" in let ws := fresh "ls" in let q := fresh "q" in let a := fresh "a" in
          let vs' := fresh "vs" in let Hs := fresh "M" in let Hm := fresh "Q" in
          destruct H as (w1 & ws & q & a & vs' & -> & -> & Hs & Hm & H); cbn [sem] in Hs ]
  | H : lkids [] _ _ |- _ => apply lkids_0 in H; destruct H as [-> ->]
  end.
Lemma step_lined p pr k ls vs v : In (p, (pr, k)) numbered -> lkids (p_body pr) ls vs -> apply_rule lined_rule p vs = Ret v ->
  cm (p_head pr) (map fst ls) (unlined v) -> lsem (p_head pr) ls v.
Proof.
  intros Hn Hk Hv Hcm. pose proof (numbered_big _ _ _ Hn) as Hbig. split; [exact Hcm|]. split; [now rewrite Hbig|].
  pose proof (numbered_rule _ _ _ Hn) as Hr.
  split.
  - intros H60. pose proof (heads_in _ _ _ Hn (or_intror H60)) as Hi. clear Hn Hbig Hcm.
    repeat (destruct Hi as [Hi | Hi]; [injection Hi as <- <- <-; try discriminate H60|]); [|destruct Hi].
    cbn [p_body] in Hk. lk. apply colon_40 in L. subst u. destruct M as (M & j & Ml). destruct M0 as (n & Mn & M0). destruct M1 as (r & Mr & M1).
    destruct (apply_lined _ _ _ _ Hr ltac:(discriminate) Hv) as (a' & Ha & ->). clear Hv Hr.
    destruct a0 as [[a0 ?]|]; [|discriminate Mn]. destruct a1 as [[a1 ?]|]; [|discriminate Mr]. cbn in Mn, Mr. injection Mn as ->. injection Mr as ->.
    cbn [map unlined act ident_at tok_at regex_at ast_at nth_error bind fst] in Ha. injection Ha as <-.
    exists 17, n, r, (l ++ l0), k, l1. split; [reflexivity|]. split; [now rewrite app_nil_r, <- app_assoc|].
    rewrite map_app, concat_app, newlines_app, Ml, spaces_quiet, (name_quiet _ _ M0). reflexivity.
  - intros H57 HR. pose proof (heads_in _ _ _ Hn (or_introl H57)) as Hi. clear Hn Hbig Hcm.
    repeat (destruct Hi as [Hi | Hi]; [injection Hi as <- <- <-; try discriminate H57|]); [..|destruct Hi];
      (destruct (apply_lined _ _ _ _ Hr ltac:(discriminate) Hv) as (a' & Ha & ->)); clear Hv Hr H57; cbn [p_body] in Hk; lk.
    + destruct M as (_ & c & E & M). cbn in Ha. injection Ha as <-. exists 0, [], [], []. split; [reflexivity|]. split; [reflexivity|].
      rewrite app_nil_r, E. now apply lt_comment.
    + destruct Q as (_ & _ & Q & _). destruct (Q eq_refl) as (q' & n & r & b & k & w & E & El & Hb). injection E as <- ->.
      destruct M as (n' & r' & E & M). cbn in E. injection E as <- <-. cbn in Ha. injection Ha as <-. rewrite app_nil_r in *.
      exists 2, [(n, r)], [], [k]. split; [reflexivity|]. split; [reflexivity|]. cbn [with_lines].
      assert (Ek : k = 0) by (rewrite (HR _ _ _ _ El), newlines_app, Hb; reflexivity). rewrite Ek. now apply lt_variable.
    + apply keyword_55 in L. apply colon_40 in L0. subst u u0. destruct M as (d & E & M). destruct a as [[a ?]|]; [|discriminate E]. cbn in E. injection E as ->.
      cbn in Ha. injection Ha as <-. exists 3, [], [d], []. split; [reflexivity|]. split; [reflexivity|]. rewrite app_nil_r. cbn [map fst]. now apply lt_delimiters.
    + destruct Q as (_ & _ & _ & Q). rewrite app_nil_r in *. destruct (Q eq_refl (right_pre _ _ HR)) as (p & vs & ds & L & E & EL & T). injection E as <- ->.
      destruct M0 as (_ & M0). cbn in Ha. injection Ha as <-. exists 4, vs, ds, L. split; [reflexivity|]. split; [exact EL|]. rewrite map_app. now apply lt_empty_line.
    + destruct Q as (_ & _ & _ & Q). rewrite app_nil_r in *. destruct (Q eq_refl (right_pre _ _ HR)) as (p & vs & ds & L & E & EL & T). injection E as <- ->.
      destruct M0 as (_ & M0). destruct M1 as (_ & c & E1 & M1). cbn in Ha. injection Ha as <-. exists 5, vs, ds, L. split; [reflexivity|]. split; [exact EL|].
      rewrite !map_app, E1. now apply lt_more_comment.
    + destruct Q as (_ & _ & _ & Q). rewrite app_nil_r in *. destruct (Q eq_refl (right_pre _ _ HR)) as (p & vs & ds & L & E & EL & T). injection E as <- ->.
      destruct M0 as (_ & M0). destruct Q1 as (_ & _ & Q1 & _). destruct (Q1 eq_refl) as (q' & n & r & b & k & w & E & El & Hb). injection E as <- ->.
      destruct M1 as (n' & r' & E & M1). cbn in E. injection E as <- <-. cbn in Ha. injection Ha as <-.
      exists 6, (vs ++ [(n, r)]), ds, (L ++ [k]). split; [reflexivity|]. split; [rewrite !app_length, EL; reflexivity|].
      rewrite with_lines_app by exact EL. rewrite !map_app. cbn [with_lines].
      assert (Ek : k = newlines (List.concat (map fst l ++ map fst l0))).
      { subst l1. rewrite !app_assoc in HR. rewrite (HR _ _ _ _ eq_refl), !map_app, !concat_app, !newlines_app, Hb. change (newlines [58]) with 0. lia. }
      rewrite Ek. now apply lt_more_variable.
    + apply keyword_55 in L. apply colon_40 in L0. subst u u0. destruct Q as (_ & _ & _ & Q). rewrite app_nil_r in *.
      destruct (Q eq_refl (right_pre _ _ HR)) as (p & vs & ds & L & E & EL & T). injection E as <- ->.
      destruct M0 as (_ & M0). destruct M1 as (d & E & M1). destruct a1 as [[a1 ?]|]; [|discriminate E]. cbn in E. injection E as ->.
      cbn in Ha. injection Ha as <-. exists 7, vs, (ds ++ [d]), L. split; [reflexivity|]. split; [exact EL|]. rewrite !map_app. cbn [map fst]. now apply lt_more_delimiters.
Qed.
Section Lines.
  Variable types : stok -> list N.
  Hypothesis Htypes : forall w X, In X (types (STok w)) -> In X (schema_matches w).
  Notation ltypes := (fun x : ltok => types (fst x)).
  Notation lsym := (root_sym (tok := ltok) (g_prods schema_grammar)).
  Lemma lined_says tr ls v : well_formed ltypes schema_grammar tr -> map fst (yield tr) = tagged ls -> eval lined_rule tr = Ret v ->
    cm (lsym tr) (map fst ls) (unlined v).
  Proof.
    intros H Hy Hv. apply (wf_tmap (fst : ltok -> stok) types) in H. pose proof (tree_says types Htypes _ H (map fst ls)) as G.
    rewrite yield_tmap, Hy, tagged_texts in G. specialize (G eq_refl).
    assert (E : eval schema_rule (tmap (fst : ltok -> stok) tr) = Ret (vfor fst fst v))
      by exact (eq_trans (eval_for fst fst schema_rule lined_rule lined_rule_ok tr) (f_equal (omap (vfor fst fst)) Hv)).
    rewrite E in G. cbn [says] in G. rewrite root_tmap in G. rewrite unlined_vfor. exact G.
  Qed.
  Lemma lined_main tr : well_formed ltypes schema_grammar tr -> forall ls v, map fst (yield tr) = tagged ls -> eval lined_rule tr = Ret v ->
    lsem (lsym tr) ls v.
  Proof.
    induction tr as [tk X | p ts IH] using tree_ind'; intros H ls v Hy Hv; pose proof (lined_says _ ls v H Hy Hv) as Hcm.
    - inversion H as [t' X' Ht Hterm|]; subst. pose proof (term_small _ Hterm) as Hs. cbn [root_sym] in *. split; [exact Hcm|]. split; [|split].
      + intros _. cbn in Hy, Hv. injection Hv as <-. destruct ls as [|[u k] [|? ?]]; try discriminate Hy. injection Hy as ->. exists u, k. split; reflexivity.
      + intros ->. discriminate Hs.
      + intros ->. discriminate Hs.
    - inversion H as [|p' ts' pr Hp Hm Hts]; subst. pose proof (sym_node _ _ ts _ Hp) as Hh. rewrite Hh in *. rewrite eval_node in Hv. cbn [yield] in Hy.
      destruct (evals lined_rule ts) as [vs| | |] eqn:Hvs; try discriminate Hv. cbn [bind] in Hv.
      assert (Hk : lkids (p_body pr) ls vs).
      { rewrite <- Hm. clear - IH Hts Hy Hvs. revert ls vs Hy Hvs. induction IH as [|x ts Hx _ IHts]; intros ls vs Hy Hvs; cbn [evals flat_map map] in *.
        - injection Hvs as <-. destruct ls; [|discriminate Hy]. constructor.
        - inversion Hts; subst. rewrite map_app in Hy. apply tagged_split in Hy. destruct Hy as (l1 & l2 & -> & Hy1 & Hy2).
          destruct (eval lined_rule x) as [v| | |] eqn:Ev; try discriminate Hvs. cbn [bind] in Hvs.
          destruct (evals lined_rule ts) as [ws| | |] eqn:Ews; try discriminate Hvs. cbn [bind] in Hvs. injection Hvs as <-. constructor.
          + now apply Hx.
          + now apply IHts. }
      clear IH Hvs Hy Hm Hts H Hh. destruct (numbered_at p pr Hp) as (k & Hn & _).
      exact (step_lined p pr k ls vs v Hn Hk Hv Hcm).
  Qed.
End Lines.

(** ** The parser of SchemaParser with line numbers. *)
Theorem lined_parse (types : stok -> list N) (Heof : types SEof = [TokenEnd]) (Hty : forall w X, In X (types (STok w)) -> In X (schema_matches w))
  limit fuel ls eline alloc v al : right_lines ls ->
  parse (fun x : ltok => types (fst x)) (SEof, eline) lined_rule schema_resets limit schema_grammar schema_table fuel (Some 0) (tagged ls) alloc = Ret (v, al) ->
  exists p vs ds L, v = VNt p (Some (VSchema vs ds, L)) /\ List.length L = List.length vs /\ lined_text (map fst ls) (with_lines vs L) ds.
Proof.
  intros HR H.
  assert (Hpl : forall tk, In tk (tagged ls) -> ~ In TokenEnd ((fun x : ltok => types (fst x)) tk)).
  { intros tk Hin HX. unfold tagged in Hin. apply in_map_iff in Hin as ([w k] & <- & _). cbn [fst] in HX. apply Hty, schema_match_terms in HX. now destruct HX. }
  destruct (sound_main (fun x : ltok => types (fst x)) (SEof, eline) sfuel scfuel schema_grammar schema_start schema_table (Some 0) schema_wf
             (proj1 schema_generated) (fun tk X HX => types_terms types Heof Hty (fst tk) X HX) Heof lined_rule schema_resets limit fuel (tagged ls) alloc v al Hpl H)
    as (tr & T1 & T2 & T3 & T4).
  pose proof (lined_main types Hty tr T1 ls v T3 T4) as (_ & _ & _ & G). apply G; [|exact HR]. rewrite <- schema_start_57. exact T2.
Qed.

(** ** add_rules: the messages, and the run without them. *)
Lemma find_sorted (f : N -> bool) l d : StronglySorted N.lt l -> find f l = Some d -> In d l /\ f d = true /\ forall d', In d' l -> d' < d -> f d' = false.
Proof.
  induction 1 as [|x l _ IH Hx]; cbn [find]; [discriminate|]. destruct (f x) eqn:E.
  - intros [= ->]. split; [now left|]. split; [exact E|]. intros d' [-> | Hd] Hlt; [lia|]. rewrite Forall_forall in Hx. specialize (Hx d' Hd). lia.
  - intros H. destruct (IH H) as (I1 & I2 & I3). split; [now right|]. split; [exact I2|]. intros d' [<- | Hd] Hlt; [exact E|]. now apply I3.
Qed.
Section Messages.
Variables (path : list N) (file : option (list N)).
Local Notation add_lined_vars := (LineModel.add_lined_vars path file).
Local Notation lined_rules_from := (LineModel.lined_rules_from path file).
Local Notation add_lined_rules := (LineModel.add_lined_rules path file).
Local Notation delimiter_message := (LineModel.delimiter_message path file).
Lemma lined_vars_same ds lvs : forall s rules, match add_lined_vars ds lvs s rules with
  | inl x => add_vars ds (map (fun v => (string_of (fst v), snd v)) (map fst lvs)) s rules = Ret x
  | inr _ => add_vars ds (map (fun v => (string_of (fst v), snd v)) (map fst lvs)) s rules = Throw
  end.
Proof.
  induction lvs as [|[[n r] k] lvs IH]; intros s rules; [reflexivity|]. cbn [add_lined_vars map fst snd add_vars].
  destruct (String.eqb (string_of n) cTimestamp).
  - destruct (sym_add s cTokenFirstTimestamp) as [s1 i1]. destruct (sym_add s1 cTokenNewlineTimestamp) as [s2 i2]. apply IH.
  - destruct (find (possible (strip_wild ds r)) ds) as [d|] eqn:E.
    + apply find_some in E. assert (Ex : existsb (possible (strip_wild ds r)) ds = true) by (apply existsb_exists; eauto). now rewrite Ex.
    + assert (Ex : existsb (possible (strip_wild ds r)) ds = false).
      { destruct (existsb (possible (strip_wild ds r)) ds) eqn:Ex; [|reflexivity]. apply existsb_exists in Ex as (d & D1 & D2).
        rewrite (find_none _ _ E d D1) in D2. discriminate D2. }
      rewrite Ex. destruct (sym_add s (string_of n)) as [s1 i]. apply IH.
Qed.
Lemma lined_vars_message ds lvs m : StronglySorted N.lt ds -> forall s rules, add_lined_vars ds lvs s rules = inr m ->
  exists before n r k after d, lvs = before ++ (n, r, k) :: after /\ string_of n <> cTimestamp /\
    In d ds /\ possible (strip_wild ds r) d = true /\ (forall d', In d' ds -> d' < d -> possible (strip_wild ds r) d' = false) /\
    (forall n' r' k', In (n', r', k') before -> string_of n' <> cTimestamp -> forall d', In d' ds -> possible (strip_wild ds r') d' = false) /\
    m = delimiter_message k n d.
Proof.
  intros Hs. induction lvs as [|[[n r] k] lvs IH]; intros s rules H; [discriminate H|]. cbn [add_lined_vars] in H.
  destruct (String.eqb_spec (string_of n) cTimestamp) as [En | En].
  - destruct (sym_add s cTokenFirstTimestamp) as [s1 i1]. destruct (sym_add s1 cTokenNewlineTimestamp) as [s2 i2].
    destruct (IH _ _ H) as (before & n1 & r1 & k1 & after & d & -> & I1 & I2 & I3 & I4 & I5 & I6). exists ((n, r, k) :: before), n1, r1, k1, after, d.
    split; [reflexivity|]. do 4 (split; [assumption|]). split; [|exact I6]. intros n' r' k' [[= <- <- <-] | Hin] Hne; [contradiction|]. eapply I5; eassumption.
  - destruct (find (possible (strip_wild ds r)) ds) as [d|] eqn:E.
    + injection H as <-. destruct (find_sorted _ _ _ Hs E) as (F1 & F2 & F3). exists [], n, r, k, lvs, d. split; [reflexivity|]. do 4 (split; [assumption|]).
      split; [|reflexivity]. intros ? ? ? [].
    + destruct (sym_add s (string_of n)) as [s1 i]. destruct (IH _ _ H) as (before & n1 & r1 & k1 & after & d & -> & I1 & I2 & I3 & I4 & I5 & I6).
      exists ((n, r, k) :: before), n1, r1, k1, after, d. split; [reflexivity|]. do 4 (split; [assumption|]). split; [|exact I6].
      intros n' r' k' [[= <- <- <-] | Hin] Hne; [|eapply I5; eassumption]. intros d' Hd. exact (find_none _ _ E d' Hd).
Qed.
Lemma lined_rules_same sc : match add_lined_rules sc with
  | Ret (inl p) => prepare (unlined_schema sc) = Ret p
  | Ret (inr _) => prepare (unlined_schema sc) = Throw
  | UB => prepare (unlined_schema sc) = UB
  | Throw | OutOfFuel => False
  end.
Proof.
  unfold add_lined_rules, lined_rules_from, prepare, unlined_schema, schema_of. cbn [sc_delims sc_vars].
  assert (Hd : forall l tbl, match add_delimiter_lines l tbl with Ret _ | UB => True | _ => False end).
  { induction l as [|x l IH]; intros tbl; cbn [add_delimiter_lines]; [exact Logic.I|]. unfold add_delimiters.
    destruct (forallb _ x); cbn [bind]; [apply IH|exact Logic.I]. }
  specialize (Hd (ls_delims sc) (fun _ => false)).
  destruct (add_delimiter_lines (ls_delims sc) (fun _ => false)) as [tbl| | |]; try contradiction; [|reflexivity]. cbn [bind].
  destruct (delims_of tbl) as [|d ds]; [reflexivity|]. destruct (sym_add symtab_init cTokenNewline) as [s0 i0].
  pose proof (lined_vars_same (d :: ds) (ls_vars sc) s0 [(i0, RLit cNewline)]) as G.
  destruct (add_lined_vars (d :: ds) (ls_vars sc) s0 [(i0, RLit cNewline)]) as [[s rules]|m]; rewrite G; reflexivity.
Qed.
Lemma lined_rules_eq sc : add_lined_rules sc = do tbl <- add_delimiter_lines (ls_delims sc) (fun _ => false); lined_rules_from tbl (delims_of tbl) (ls_vars sc).
Proof. reflexivity. Qed.
Lemma lined_from_message tbl ds lvs m : StronglySorted N.lt ds -> lined_rules_from tbl ds lvs = Ret (inr m) ->
  (ds = [] /\ m = no_delimiters_message) \/
  exists before n r k after d, lvs = before ++ (n, r, k) :: after /\ string_of n <> cTimestamp /\
    In d ds /\ possible (strip_wild ds r) d = true /\
    (forall d', In d' ds -> d' < d -> possible (strip_wild ds r) d' = false) /\
    (forall n' r' k', In (n', r', k') before -> string_of n' <> cTimestamp -> forall d', In d' ds -> possible (strip_wild ds r') d' = false) /\
    m = delimiter_message k n d.
Proof.
  intros Hsort H. unfold lined_rules_from in H. destruct ds as [|d0 ds]; [injection H as <-; left; split; reflexivity|]. right.
  destruct (sym_add symtab_init cTokenNewline) as [s0 i0].
  destruct (add_lined_vars (d0 :: ds) lvs s0 [(i0, RLit cNewline)]) as [[s rules]|m'] eqn:Ev; [discriminate H|]. injection H as <-.
  exact (lined_vars_message _ _ _ Hsort _ _ Ev).
Qed.
Lemma lined_from_total tbl ds lvs : exists x, lined_rules_from tbl ds lvs = Ret x.
Proof.
  unfold lined_rules_from. destruct ds as [|d0 ds]; [eauto|]. destruct (sym_add symtab_init cTokenNewline) as [s0 i0].
  destruct (add_lined_vars (d0 :: ds) lvs s0 [(i0, RLit cNewline)]) as [[s rules]|m']; eauto.
Qed.
End Messages.
