(** SchemaMeaning.v -- SchemaParser's parser with its semantic rules computes what SchemaSyntax.v says, and nothing else. *)
From Verif Require Import Base OrdSet GrammarSpec ParseSpec LrModel LrDriver LrSafe RegexModel SchemaModel SchemaActions SchemaGrammar SchemaTable
  SchemaSafe SchemaRules SchemaSyntax SchemaReads.
From Coq Require Import String.
Local Open Scope list_scope.
Local Open Scope N_scope.
Notation ssym := (root_sym (tok := stok) (g_prods schema_grammar)).

Lemma sym_node {tok} (P : list prod) p (ts : list (tree tok)) pr : nth_error P (N.to_nat p) = Some pr ->
  root_sym P (Node p ts) = p_head pr.
Proof. intros H. cbn. now rewrite (nth_error_nth _ _ _ H). Qed.

(** ** The room that a tree needs. *)
Lemma size_slots (tr : tree stok) : N.of_nat (size tr) = slots tr + 1.
Proof.
  induction tr as [t X | p ts IH] using tree_ind'; [easy|]. cbn [size slots].
  assert (E : N.of_nat (fold_right (fun x n => size x + n)%nat 0%nat ts) =
              N.of_nat (List.length ts) + fold_right (fun x n => slots x + n) 0 ts).
  { induction IH as [|x ts Hx _ IHts]; [easy|]. cbn [fold_right List.length]. lia. }
  lia.
Qed.
Section Room.
  Variables (g : grammar) (t : table) (w : N -> N) (wt we : N).
  Hypothesis Hw : weights g t w wt we.
  Hypothesis Hwe : we = 1.
  Variable types : stok -> list N.
  Notation sym := (root_sym (g_prods g)).
  Hypothesis Hroot : forall p, In p (g_prods g) -> ~ In (p_head (prod_at g (g_root g))) (p_body p).
  Lemma slots_bound tr : well_formed types g tr -> sym tr <> p_head (prod_at g (g_root g)) ->
    slots tr + w (sym tr) <= wt * N.of_nat (List.length (yield tr)).
  Proof.
    induction tr as [tk X | p ts IH] using tree_ind'; intros H Hr.
    - inversion H; subst. cbn. pose proof (ws_term _ _ _ _ _ Hw X ltac:(easy)). lia.
    - inversion H as [|p' ts' pr Hp Hm Hts]; subst. pose proof (nth_error_In _ _ Hp) as Hin.
      assert (Hpr : prod_at g p = pr) by (unfold prod_at; now rewrite (nth_error_nth _ _ _ Hp)).
      assert (Hlt : p < N.of_nat (List.length (g_prods g))).
      { assert (N.to_nat p < List.length (g_prods g))%nat by (apply nth_error_Some; congruence). lia. }
      assert (Hne : p <> g_root g).
      { intros ->. apply Hr. reflexivity. }
      assert (Hs : fold_right (fun x n => slots x + n) 0 ts + weight w (map sym ts) <=
                   wt * N.of_nat (List.length (flat_map yield ts))).
      { assert (Hb : forall x, In x ts -> sym x <> p_head (prod_at g (g_root g))).
        { intros x Hx E. apply (Hroot pr Hin). rewrite <- E, <- Hm. now apply in_map. }
        clear - IH Hts Hb. induction IH as [|x ts Hx _ IHts]; cbn [fold_right flat_map map weight]; [cbn; lia|].
        inversion Hts; subst. rewrite app_length.
        specialize (Hx ltac:(easy) (Hb x (or_introl eq_refl))).
        specialize (IHts ltac:(easy) ltac:(intros y Hy; apply Hb; now right)). lia. }
      assert (Hl : List.length (p_body pr) = List.length ts) by (rewrite <- Hm; now rewrite map_length).
      assert (Hh : sym (Node p ts) = p_head pr) by (cbn; now rewrite (nth_error_nth _ _ _ Hp)).
      rewrite Hh. cbn [slots yield]. rewrite Hm in Hs.
      assert (Hba : body_at g p = p_body pr) by (unfold body_at; now rewrite Hpr).
      destruct (p_body pr) as [|Y b] eqn:Eb.
      + pose proof (proj1 (ws_eps _ _ _ _ _ Hw p Hlt Hne ltac:(congruence))) as He. rewrite Hpr in He.
        cbn in Hl. rewrite <- Hl in *. cbn in *. lia.
      + pose proof (ws_body _ _ _ _ _ Hw p Hlt Hne ltac:(rewrite Hba; congruence)) as He. rewrite Hpr, Hba in He.
        rewrite Hl in He. lia.
  Qed.
End Room.

Lemma schema_root_head : p_head (prod_at schema_grammar (g_root schema_grammar)) = 59.
Proof. vm_compute. reflexivity. Qed.
Lemma body_not_root p : In p (g_prods schema_grammar) -> ~ In 59 (p_body p).
Proof.
  assert (H : forallb (fun p => negb (existsb (N.eqb 59) (p_body p))) (g_prods schema_grammar) = true) by (vm_compute; reflexivity).
  rewrite forallb_forall in H. intros Hp Hin. specialize (H p Hp). apply negb_true_iff in H.
  assert (E : existsb (N.eqb 59) (p_body p) = true) by (apply existsb_exists; exists 59; now rewrite N.eqb_refl).
  congruence.
Qed.
Lemma term_small X : In X (g_terms schema_grammar) -> (X <? 57) = true.
Proof.
  assert (H : forallb (fun X => X <? 57) (g_terms schema_grammar) = true) by (vm_compute; reflexivity).
  rewrite forallb_forall in H. apply H.
Qed.
Lemma schema_start_57 : schema_start = 57.
Proof. vm_compute. reflexivity. Qed.
Definition infix {X} (m w : list X) : Prop := exists a b, w = a ++ m ++ b.
Lemma infix_l {X} (m w z : list X) : infix m w -> infix m (z ++ w).
Proof. intros (a & b & ->). exists (z ++ a), b. now rewrite <- app_assoc. Qed.
Lemma infix_r {X} (m w z : list X) : infix m w -> infix m (w ++ z).
Proof. intros (a & b & ->). exists a, (b ++ z). now rewrite <- !app_assoc. Qed.

Lemma map_STok_app (l1 l2 : list stok) w : l1 ++ l2 = map STok w ->
  exists w1 w2, w = w1 ++ w2 /\ l1 = map STok w1 /\ l2 = map STok w2.
Proof. intros H. symmetry in H. apply map_eq_app in H. destruct H as (a & b & -> & <- & <-). eauto. Qed.

(** ** The values of trees. *)
Section Values.
  Variable types : stok -> list N.
  Hypothesis Htypes : forall w X, In X (types (STok w)) -> In X (schema_matches w).

  Definition says (X : N) (w : toks) (o : out child) : Prop :=
    match o with
    | Ret v => cm X w v
    | Throw => True
    | UB => True
    | OutOfFuel => False
    end.
  Lemma tree_says tr : well_formed types schema_grammar tr ->
    forall w, map fst (yield tr) = map STok w -> says (ssym tr) w (eval schema_rule tr).
  Proof.
    induction tr as [tk X | p ts IH] using tree_ind'; intros H w Hy.
    - inversion H as [t' X' Ht Hterm|]; subst. cbn in Hy. destruct w as [|u [|? ?]]; try discriminate.
      injection Hy as ->. cbn [root_sym eval says]. unfold cm. rewrite (term_small _ Hterm). exists u. split; [easy|]. split; [easy|].
      apply (proj1 (lexes_iff X u)), Htypes, Ht.
    - inversion H as [|p' ts' pr Hp Hm Hts]; subst. pose proof (nth_error_In _ _ Hp) as Hin.
      pose proof (sym_node _ _ ts _ Hp) as Hh. rewrite Hh in *. rewrite eval_node. cbn [yield] in Hy.
      assert (Hk : match evals schema_rule ts with
                   | Ret vs => kids (p_body pr) w vs
                   | Throw => True
                   | UB => True
                   | OutOfFuel => False
                   end).
      { rewrite <- Hm. clear - IH Hts Hy. revert w Hy.
        induction IH as [|x ts Hx _ IHts]; intros w Hy; cbn [evals flat_map map] in *.
        - destruct w; [|discriminate]. constructor.
        - inversion Hts; subst. rewrite map_app in Hy. apply map_STok_app in Hy. destruct Hy as (w1 & w2 & -> & Hy1 & Hy2).
          specialize (Hx ltac:(easy) w1 Hy1).
          specialize (IHts ltac:(easy) w2 Hy2).
          unfold says in Hx. destruct (eval schema_rule x) as [v| | |]; cbn [bind]; try easy.
          destruct (evals schema_rule ts) as [vs| | |]; cbn [bind]; try easy. now constructor. }
      destruct (evals schema_rule ts) as [vs| | |]; cbn [bind says]; try easy.
      destruct (numbered_at p pr Hp) as (k & Hn & Hrun). rewrite Hrun.
      pose proof steps as HS. rewrite Forall_forall in HS. specialize (HS _ Hn). cbn [fst snd] in HS.
      specialize (HS w vs Hk).
      destruct (run p k vs); cbn [says]; easy.
  Qed.
  Lemma leaf_says tr X w : well_formed types schema_grammar tr -> ssym tr = X -> X <? 57 = true -> map fst (yield tr) = map STok w ->
    exists u, w = [u] /\ lexes X u.
  Proof.
    intros Hw Hs HX Hy. inversion Hw as [tk Y HY HT|p ts pr Hn Hb Hts]; subst.
    - destruct w as [|u [|? ?]]; try discriminate Hy. injection Hy as ->. exists u. split; [easy|].
      apply (proj1 (lexes_iff _ u)). now apply Htypes.
    - exfalso. cbn [root_sym] in HX. rewrite (nth_error_nth _ _ _ Hn) in HX.
      assert (C : forallb (fun pr => negb (p_head pr <? 57)) (g_prods schema_grammar) = true) by (vm_compute; reflexivity).
      rewrite forallb_forall in C. specialize (C _ (nth_error_In _ _ Hn)). now rewrite HX in C.
  Qed.
  (** Where the rules are undefined. *)
  Lemma node_says p us vs w : well_formed types schema_grammar (Node p us) -> map fst (yield (Node p us)) = map STok w ->
    evals schema_rule us = Ret vs -> eval schema_rule (Node p us) = UB -> bad_for (p_head (prod_at schema_grammar p)) w.
  Proof.
    intros H Hy Hvs Hub. inversion H as [|p' ts' pr Hp Hm Hts]; subst.
    assert (Hk : kids (p_body pr) w vs).
    { rewrite <- Hm. cbn [yield] in Hy. clear - Htypes Hts Hy Hvs. revert w vs Hy Hvs.
      induction us as [|x us IH]; intros w vs Hy Hvs; cbn [evals flat_map map] in *.
      - injection Hvs as <-. destruct w; [|discriminate]. constructor.
      - inversion Hts; subst. rewrite map_app in Hy. apply map_STok_app in Hy. destruct Hy as (w1 & w2 & -> & Hy1 & Hy2).
        pose proof (tree_says x ltac:(easy) w1 Hy1) as Hx.
        destruct (eval schema_rule x) as [v| | |]; cbn [bind] in Hvs; try discriminate Hvs.
        destruct (evals schema_rule us) as [vs'| | |]; cbn [bind] in Hvs; try discriminate Hvs. injection Hvs as <-.
        constructor; [exact Hx|]. now apply IH. }
    rewrite eval_node, Hvs in Hub. cbn [bind] in Hub.
    destruct (numbered_at p pr Hp) as (k & Hn & Hrun). rewrite Hrun in Hub.
    pose proof steps as HS. rewrite Forall_forall in HS. specialize (HS _ Hn). cbn [fst snd] in HS.
    specialize (HS w vs Hk). rewrite Hub in HS.
    replace (prod_at schema_grammar p) with pr; [exact HS|]. symmetry. unfold prod_at. exact (nth_error_nth _ _ _ Hp).
  Qed.
End Values.

(** ** Every phrase has a tree with its value. *)
Section Trees.
  Variable types : stok -> list N.
  Hypothesis Htypes : forall w X, In X (schema_matches w) -> In X (types (STok w)).

  Definition hasp (X : N) (w : toks) (p : N) (a : option sval) : Prop :=
    exists tr, well_formed types schema_grammar tr /\ ssym tr = X /\ map fst (yield tr) = map STok w /\
      eval schema_rule tr = Ret (VNt p a).
  Definition has X w a : Prop := exists p, hasp X w p a.
  Definition forest (b : list N) (w : toks) (vs : list child) : Prop :=
    exists ts, Forall (well_formed types schema_grammar) ts /\ map ssym ts = b /\
      map fst (flat_map yield ts) = map STok w /\ evals schema_rule ts = Ret vs.
  Lemma forest_nil : forest [] [] [].
  Proof. now exists []. Qed.
  Lemma forest_t X u b w vs : existsb (N.eqb X) (g_terms schema_grammar) = true -> lexes X u -> forest b w vs ->
    forest (X :: b) (u :: w) (VTok (STok u) :: vs).
  Proof.
    intros Hx Hl (ts & T1 & T2 & T3 & T4). apply existsb_exists in Hx. destruct Hx as (Y & Hin & E).
    apply N.eqb_eq in E. subst Y. exists (Leaf (STok u) X :: ts). split; [|split; [|split]].
    - constructor; [|easy]. constructor; [|easy]. apply Htypes. exact (proj2 (lexes_iff X u) Hl).
    - cbn [map root_sym]. now rewrite T2.
    - cbn [flat_map yield map app fst]. now rewrite T3.
    - cbn [evals eval bind]. now rewrite T4.
  Qed.
  Lemma forest_n X w1 p a b w vs : hasp X w1 p a -> forest b w vs -> forest (X :: b) (w1 ++ w) (VNt p a :: vs).
  Proof.
    intros (tr & T1 & T2 & T3 & T4) (ts & F1 & F2 & F3 & F4). exists (tr :: ts). split; [|split; [|split]].
    - now constructor.
    - cbn [map]. now rewrite T2, F2.
    - cbn [flat_map]. now rewrite !map_app, T3, F3.
    - cbn [evals]. rewrite T4. cbn [bind]. now rewrite F4.
  Qed.
  Lemma has_at p h b k w' w vs a : nth_error (g_prods schema_grammar) (N.to_nat p) = Some (mkProd h b) ->
    nth_error schema_rules (N.to_nat p) = Some k -> forest b w' vs -> run p k vs = Ret (VNt p a) -> w = w' -> has h w a.
  Proof.
    intros Hp Hk (ts & F1 & F2 & F3 & F4) Hr ->. exists p, (Node p ts). split; [|split; [|split]].
    - econstructor; [exact Hp|exact F2|exact F1].
    - now rewrite (sym_node _ _ ts _ Hp).
    - exact F3.
    - rewrite eval_node, F4. cbn [bind]. unfold apply_rule, schema_rule. rewrite Hk. rewrite <- Hr. destruct k; reflexivity.
  Qed.
End Trees.

Ltac lex_go :=
  match goal with
  | |- lexes ?X _ =>
      first [ eassumption |
      let l := eval vm_compute in (rules_of X) in
      let E := fresh in assert (E : rules_of X = l) by (vm_compute; reflexivity); unfold lexes; rewrite E; clear E;
      first [ apply (proj2 (lex_char _ _)); reflexivity | apply (proj2 (lex_chain _ _)); reflexivity ] ]
  end.
Ltac forest_go :=
  lazymatch goal with
  | |- forest _ [] _ _ => apply forest_nil
  | |- forest _ (?X :: _) _ _ =>
      let c := eval vm_compute in (X <? 57) in
      lazymatch c with
      | true => eapply forest_t; [eassumption | vm_compute; reflexivity | lex_go | forest_go]
      | false => eapply forest_n; [eassumption | forest_go]
      end
  end.
(* production p: its children are found among the hypotheses *)
Ltac prod_with p t :=
  let pr := eval vm_compute in (nth_error (g_prods schema_grammar) (N.to_nat p)) in
  let kr := eval vm_compute in (nth_error schema_rules (N.to_nat p)) in
  lazymatch pr with
  | Some (mkProd ?h ?b) =>
      lazymatch kr with
      | Some ?k => eapply (has_at _ p h b k); [vm_compute; reflexivity | vm_compute; reflexivity | t | reflexivity | now rewrite ?app_nil_r]
      end
  end.
Ltac prod p := prod_with p ltac:(idtac; forest_go).

Section Phrases.
  Variable types : stok -> list N.
  Hypothesis Htypes : forall w X, In X (schema_matches w) -> In X (types (STok w)).
  Notation has := (has types).
  Notation hasp := (hasp types).
  Lemma has_alnum b : alnum b -> lexes 44 [b].
  Proof.
    intros H. assert (E : rules_of 44 = [LexRange 97 122; LexRange 65 90; LexRange 48 57]) by (vm_compute; reflexivity).
    unfold lexes. rewrite E. apply (proj2 (lex_alnum _)). now exists b.
  Qed.
  Lemma has_digit b : digit b -> lexes 39 [b].
  Proof.
    intros H. assert (E : rules_of 39 = [LexRange 48 57]) by (vm_compute; reflexivity).
    unfold lexes. rewrite E. apply (proj2 (lex_range _ _ _)). now exists b.
  Qed.
  Lemma has_comment b : b < 256 -> b <> 10 -> b <> 13 -> lexes 56 [b].
  Proof.
    intros H H1 H2. assert (E : rules_of 56 = [LexNotIn [13; 10]]) by (vm_compute; reflexivity).
    unfold lexes. rewrite E. apply (proj2 (lex_comment _)). now exists b.
  Qed.

  Lemma has_name w n : name w n -> has 66 w (Some (VIdent n)).
  Proof.
    intros (H1 & H2 & ->). revert H1 H2. induction n as [|x n IH] using rev_ind; [easy|]. intros _ H.
    apply Forall_app in H. destruct H as [H Hx]. inversion Hx as [|y l Hx' _]; subst. apply has_alnum in Hx'.
    destruct n as [|y n].
    - prod 19.
    - destruct (IH ltac:(easy) H) as (p & Hn). rewrite chars_app. prod 18.
  Qed.
  Lemma has_integer ds : ds <> [] -> Forall digit ds -> has 75 (chars ds) (Some (VRegex (RInt (digits_of ds)))).
  Proof.
    induction ds as [|x n IH] using rev_ind; [easy|]. intros _ H.
    apply Forall_app in H. destruct H as [H Hx]. inversion Hx as [|y l Hx' _]; subst. apply has_digit in Hx'.
    destruct n as [|y n].
    - prod 92.
    - destruct (IH ltac:(easy) H) as (p & Hn). rewrite chars_app, digits_app. prod 91.
  Qed.
  Lemma has_text w : comment_text w -> has 64 w None.
  Proof.
    intros [H1 H2]. revert H1 H2. induction w as [|x n IH] using rev_ind; [easy|]. intros _ H.
    apply Forall_app in H. destruct H as [H Hx]. inversion Hx as [|y l Hx' _]; subst.
    destruct n as [|y n].
    - destruct Hx' as [-> | (b & -> & B0 & B1 & B2)]; [|pose proof (has_comment b B0 B1 B2)].
      + prod 16.
      + prod 14.
    - destruct (IH ltac:(easy) H) as (p & Hn).
      destruct Hx' as [-> | (b & -> & B0 & B1 & B2)]; [|pose proof (has_comment b B0 B1 B2)].
      + prod 15.
      + prod 13.
  Qed.
  Lemma has_spaces k : has 65 (repeat [32] k) None.
  Proof.
    induction k as [|k IH]; [prod 21|]. destruct IH as (p & Hn). cbn [repeat]. rewrite repeat_cons. prod 20.
  Qed.
  Lemma has_break w : line_break w -> has 62 w None.
  Proof. intros [-> | ->]; [prod 11|prod 10]. Qed.

  Definition hasr X w r := has X w (Some (VRegex r)).
  Definition has_el w (x : N * N) : Prop :=
    (hasr 63 w (RLit (fst x)) /\ fst x = snd x) \/ hasr 80 w (RGroup false false [x]) \/ hasr 77 w (RGroup false false [x]).
  Ltac open := unfold hasr in *; repeat match goal with H : SchemaMeaning.has _ _ _ _ |- _ => destruct H as [? H] end.

  Lemma phrases :
    (forall w r, literal w r -> hasr 63 w r) /\ (forall w r, pattern w r -> hasr 68 w r) /\
    (forall w r, alt w r -> hasr 69 w r) /\ (forall w r, repeated w r -> hasr 69 w r) /\
    (forall w r, prim w r -> hasr 74 w r) /\ (forall w neg rs, bracket w neg rs -> hasr 76 w (RGroup false neg rs)) /\
    (forall w x, element w x -> has_el w x).
  Proof.
    apply syntax_ind.
    - intros b [H | H]; unfold hasr.
      + apply has_alnum in H. prod 71.
      + cbn [In] in H. repeat destruct H as [<- | H]; [..|easy];
          first [prod 55|prod 56|prod 57|prod 58|prod 59|prod 60|prod 61|prod 62|prod 67|prod 70|prod 72|prod 73|prod 74|
                 prod 75|prod 80|prod 81|prod 88].
    - intros b H; unfold hasr. unfold special in H. cbn [In] in H. repeat destruct H as [<- | H]; [..|easy];
        first [prod 63|prod 64|prod 65|prod 66|prod 68|prod 69|prod 76|prod 77|prod 78|prod 79|prod 82|prod 83|prod 84|
               prod 85|prod 86|prod 87].
    - intros l b H; unfold hasr. unfold control in H. cbn [In] in H. repeat destruct H as [[= <- <-] | H]; [..|easy];
        first [prod 50|prod 51|prod 52|prod 53|prod 54].
    - intros w r _ Hp. open. assert (G : has 67 w (Some (VRegex r))) by prod 22. open. clear Hp. prod 90.
    - intros wn n w r Hn _ Hp. apply has_name in Hn. open. assert (G : has 67 w (Some (VRegex r))) by prod 22. open. clear Hp. prod 89.
    - intros w r _ H. open. prod 24.
    - intros w1 r1 w2 r2 _ H1 _ H2. open. prod 23.
    - intros w r _ H. exact H.
    - intros w1 r1 w2 r2 _ H1 _ H2. open. prod 25.
    - intros w r _ H. open. prod 30.
    - intros w r _ H. open. assert (G : has 70 (w ++ [[42]]) (Some (VRegex (ROr REmpty (RMult r 1 0))))) by prod 31.
      open. prod 26.
    - intros w r _ H. open. assert (G : has 71 (w ++ [[43]]) (Some (VRegex (RMult r 1 0)))) by prod 32.
      open. prod 27.
    - intros w r wk k _ H (ds & D1 & D2 & -> & D3). pose proof (has_integer ds D1 D2) as Hi. open.
      assert (G : has 72 (w ++ [123] :: chars ds ++ [[125]]) (Some (VRegex (RMult r k k)))).
      { eapply (has_at _ 33); [vm_compute; reflexivity | vm_compute; reflexivity | forest_go | | reflexivity].
        cbn. unfold act_exactly. now rewrite D3. }
      open. prod 28.
    - intros w r wk k wm m _ H (ds & D1 & D2 & -> & D3) (es & E1 & E2 & -> & E3).
      pose proof (has_integer ds D1 D2) as Hi. pose proof (has_integer es E1 E2) as Hj. open.
      assert (G : has 73 (w ++ [123] :: chars ds ++ [44] :: chars es ++ [[125]])
                    (Some (VRegex (if k =? 0 then ROr REmpty (RMult r 1 m) else RMult r k m)))).
      { eapply (has_at _ 34); [vm_compute; reflexivity | vm_compute; reflexivity | | | reflexivity].
        - eapply forest_n; [exact H|]. eapply forest_t; [eassumption|vm_compute; reflexivity|lex_go|].
          eapply forest_n; [exact Hi|]. eapply forest_t; [eassumption|vm_compute; reflexivity|lex_go|].
          eapply forest_n; [exact Hj|]. forest_go.
        - cbn. unfold act_range. rewrite D3. cbn [bind]. rewrite E3. cbn [bind]. now destruct (k =? 0). }
      open. prod 29.
    - intros w r _ H. open. prod 36.
    - unfold hasr. assert (G : has 77 [[92]; [100]] (Some (VRegex (RGroup false false [(48, 57)])))) by prod 93. open. prod 37.
    - unfold hasr. assert (G : has 78 [[46]] (Some (VRegex (RGroup true false [(0, cUnicodeMax)])))) by prod 94. open. prod 38.
    - unfold hasr. assert (G : has 79 [[92]; [115]] (Some (VRegex (group_of [32; 9; 13; 10; 11; 12])))) by prod 95. open. prod 39.
    - intros w neg rs _ H. open. prod 35.
    - unfold hasr. prod 48.
    - intros w [a b] _ [[H E] | [H | H]]; cbn [fst snd] in *; open.
      + subst b. prod 46.
      + prod 44.
      + prod 45.
    - intros w1 neg rs w2 [a b] _ H0 _ [[H E] | [H | H]]; cbn [fst snd] in *; open.
      + subst b. prod 42.
      + prod 40.
      + prod 41.
    - intros w c _ H. now left.
    - intros w1 a w2 b _ H1 _ H2. right. left. open.
      prod_with 49 ltac:(eapply forest_n; [exact H1|]; eapply forest_t; [eassumption|vm_compute; reflexivity|lex_go|];
                         eapply forest_n; [exact H2|]; forest_go).
    - right. right. unfold hasr. prod 93.
  Qed.
  Lemma has_regex w r : pattern w r -> has 67 w (Some (VRegex r)).
  Proof. intros H. apply phrases in H. open. prod 22. Qed.
  Lemma has_literal w r : literal w r -> has 63 w (Some (VRegex r)).
  Proof. apply phrases. Qed.
  Lemma has_delimiters w ds : delimiters w ds -> has 61 w (Some (VDelims ds)).
  Proof.
    induction 1 as [w c H | w1 ds w2 c _ IH H]; apply has_literal in H; open; [prod 9|prod 8].
  Qed.
  Lemma has_variable w n r : variable w n r -> has 60 w (Some (VVar n r)).
  Proof.
    intros [k wn m w' r' Hn Hp]. apply has_name in Hn. apply has_regex in Hp. pose proof (has_spaces k) as Hs. open. prod 17.
  Qed.
  Lemma has_schema w vs ds : schema_text w vs ds -> has 57 w (Some (VSchema vs ds)).
  Proof.
    induction 1 as [w H | w n r H | w d H | w vs ds b _ IH H | w vs ds b c _ IH H H2 | w vs ds b v n r _ IH H H2 | w vs ds b d cs _ IH H H2].
    - apply has_text in H. open. assert (G : has 58 ([47] :: [47] :: w) None) by prod 12. open. prod 0.
    - apply has_variable in H. open. prod 2.
    - apply has_delimiters in H. open. unfold keyword. prod 3.
    - apply has_break in H. open. prod 4.
    - apply has_break in H. apply has_text in H2. open. assert (G : has 58 ([47] :: [47] :: c) None) by prod 12. open. prod 5.
    - apply has_break in H. apply has_variable in H2. open. prod 6.
    - apply has_break in H. apply has_delimiters in H2. open. unfold keyword. prod 7.
  Qed.
End Phrases.

(** ** The parser. *)
Section Parser.
  Variable types : stok -> list N.
  Hypothesis Heof : types SEof = [TokenEnd].
  Hypothesis Htypes : forall w X, In X (types (STok w)) <-> In X (schema_matches w).
  Let Hty1 w X : In X (types (STok w)) -> In X (schema_matches w) := proj1 (Htypes w X).
  Let Hty2 w X : In X (schema_matches w) -> In X (types (STok w)) := proj2 (Htypes w X).
  Variables (resets : N -> bool) (limit : N).
  Notation parser fuel inp alloc :=
    (parse types SEof schema_rule resets limit schema_grammar schema_table fuel (Some 0) (map STok inp) alloc).

  Lemma has_fits w a : has types schema_start w a -> exists tr p,
    well_formed types schema_grammar tr /\ ssym tr = schema_start /\ map fst (yield tr) = map STok w /\
    eval schema_rule tr = Ret (VNt p a) /\ slots tr <= 5 * N.of_nat (List.length w).
  Proof.
    intros (p & tr & T1 & T2 & T3 & T4). exists tr, p. split; [easy|]. split; [easy|]. split; [easy|]. split; [easy|].
    assert (L : List.length (yield tr) = List.length w).
    { rewrite <- (map_length fst (yield tr)), T3. apply map_length. }
    rewrite <- L.
    assert (R : forall p0, In p0 (g_prods schema_grammar) -> ~ In (p_head (prod_at schema_grammar (g_root schema_grammar))) (p_body p0)).
    { rewrite schema_root_head. apply body_not_root. }
    assert (E : ssym tr <> p_head (prod_at schema_grammar (g_root schema_grammar))).
    { rewrite schema_root_head, T2, schema_start_57. easy. }
    pose proof (slots_bound schema_grammar schema_table schema_weight 5 1 schema_weights eq_refl types R tr T1 E). lia.
  Qed.

  Theorem schema_meaning fuel inp alloc :
    alloc + (7 * N.of_nat (List.length inp) + 1) <= limit -> 7 * N.of_nat (List.length inp) + 1 < N.of_nat fuel ->
    (forall vars delims, (exists p al, parser fuel inp alloc = Ret (VNt p (Some (VSchema vars delims)), al)) <-> schema_text inp vars delims) /\
    match parser fuel inp alloc with
    | Ret (v, al) => exists p vars delims, v = VNt p (Some (VSchema vars delims))
    | UB => exists m, infix m inp /\ bad m
    | Throw => True
    | OutOfFuel => False
    end.
  Proof.
    intros Hal Hf.
    assert (S1 : forall v al, parser fuel inp alloc = Ret (v, al) -> exists p vars delims,
              v = VNt p (Some (VSchema vars delims)) /\ schema_text inp vars delims).
    { intros v al H. destruct (schema_parse_sound types Heof Hty1 _ _ _ _ _ _ _ _ H) as (tr & T1 & T2 & T3 & T4).
      pose proof (tree_says types Hty1 tr T1 inp T3) as G. rewrite T4, T2, schema_start_57 in G.
      cbn [says] in G. unfold cm in G. change (57 <? 57) with false in G. cbn [sem] in G.
      destruct G as (p & a & -> & vars & delims & -> & G). exists p, vars, delims. auto. }
    split.
    - intros vars delims. split.
      + intros (p & al & H). destruct (S1 _ _ H) as (p' & v' & d' & E & G). injection E as _ <- <-. exact G.
      + intros H. apply (has_schema types Hty2) in H. rewrite <- schema_start_57 in H. apply has_fits in H.
        destruct H as (tr & p & T1 & T2 & T3 & T4 & T5). exists p. pose proof (size_slots tr) as Z.
        destruct (schema_parse_complete types Heof Hty1 schema_rule resets limit fuel inp alloc tr _
                    T1 T2 T3 T4 ltac:(lia) ltac:(lia)) as (al & E & _).
        now exists al.
    - pose proof (schema_parse_safe_at types Heof Hty1 schema_rule resets limit fuel inp alloc Hal Hf) as S0.
      destruct (parser fuel inp alloc) as [[v al]| | |] eqn:E; auto.
      + destruct (S1 _ _ eq_refl) as (p & vars & delims & -> & _). now exists p, vars, delims.
      + destruct S0 as (p & us & vs & ts0 & b & W & W0 & E2 & E3 & E4 & E5). symmetry in E2.
        apply map_STok_app in E2. destruct E2 as (w1 & w2 & -> & E1 & E2).
        apply map_STok_app in E2. destruct E2 as (w3 & w4 & -> & E2 & _).
        pose proof (node_says types Hty1 p us vs w3 W E2 E3 E4) as G. unfold bad_for in G.
        destruct (N.eqb_spec (p_head (prod_at schema_grammar p)) 61) as [H61 | _].
        * destruct (E5 H61) as (t1 & t2 & ts1 & -> & S55 & S40). exists (keyword :: [58] :: w3). split.
          -- inversion W0 as [|? ? W2 W0']; subst. inversion W0' as [|? ? W1' _]; subst.
             unfold LrParse.consumed in E1. cbn [rev] in E1. rewrite <- app_assoc, !flat_map_app, !map_app in E1. cbn [app flat_map] in E1.
             rewrite !app_nil_r in E1. apply map_STok_app in E1. destruct E1 as (v1 & v2 & -> & _ & E1).
             apply map_STok_app in E1. destruct E1 as (v3 & v4 & -> & Y1 & Y2).
             destruct (leaf_says types Hty1 t1 55 v3 W1' S55 eq_refl Y1) as (u1 & -> & L1).
             destruct (leaf_says types Hty1 t2 40 v4 W2 S40 eq_refl Y2) as (u2 & -> & L2).
             apply (lex_chain keyword) in L1. apply (lex_char 58) in L2. subst u1 u2. exists v1, w4.
             rewrite <- !app_assoc. reflexivity.
          -- left. eauto.
        * exists w3. split; [|now right]. exists w1, w4. easy.
      + destruct S0 as (p & us & vs & ts0 & b & W & W0 & E2 & E3 & E4 & E5). symmetry in E2.
        apply map_STok_app in E2. destruct E2 as (w1 & w2 & -> & E1 & E2).
        apply map_STok_app in E2. destruct E2 as (w3 & w4 & -> & E2 & _).
        pose proof (tree_says types Hty1 _ W w3 E2) as G. rewrite E4 in G. exact G.
  Qed.

  (** The language is unambiguous. *)
  Theorem schema_text_unique inp v d v' d' : schema_text inp v d -> schema_text inp v' d' -> v = v' /\ d = d'.
  Proof.
    intros H H'. apply (has_schema types Hty2) in H, H'. rewrite <- schema_start_57 in H, H'.
    destruct H as (p & tr & T1 & T2 & T3 & T4). destruct H' as (p' & tr' & T1' & T2' & T3' & T4').
    assert (E : tr = tr') by exact (schema_one_tree types Heof Hty1 inp tr tr' T1 T1' T2 T2' T3 T3').
    subst tr'. rewrite T4 in T4'. injection T4' as _ <- <-. auto.
  Qed.
End Parser.
