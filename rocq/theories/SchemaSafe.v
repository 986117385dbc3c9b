(** SchemaSafe.v -- SchemaParser's parser ends on every input, and its table never makes it undefined. *)
From Verif Require Import Base OrdSet GrammarSpec FirstModel FirstProofs LrModel LrSets LrTable ParseSpec LrDriver LrSound
  LrParse LrLookahead LrComplete LrMain LrSafe SchemaModel SchemaGrammar SchemaTable.
From Coq Require Import String.
Local Open Scope list_scope.
Local Open Scope N_scope.

(** ** Checking weights. *)
Definition weights_check (g : grammar) (t : table) (w : N -> N) (wt we : N) : bool :=
  forallb (fun X => w X <=? wt) (g_terms g) &&
  forallb (fun p => (p =? g_root g) ||
             match body_at g p with
             | [] => (w (p_head (prod_at g p)) <? we) &&
                     forallb (fun ia => match act_at (snd ia) (p_head (prod_at g p)) with
                                        | AShift j => quiet t j
                                        | _ => true
                                        end) t
             | b => w (p_head (prod_at g p)) + N.of_nat (List.length b) <=? weight w b
             end) (map N.of_nat (seq 0 (List.length (g_prods g)))).
Lemma weights_check_ok g t w wt we : weights_check g t w wt we = true -> weights g t w wt we.
Proof.
  unfold weights_check. rewrite andb_true_iff, !forallb_forall. intros [H1 H2].
  assert (H3 : forall p, p < N.of_nat (List.length (g_prods g)) -> p <> g_root g ->
     match body_at g p with
     | [] => (w (p_head (prod_at g p)) <? we) &&
             forallb (fun ia => match act_at (snd ia) (p_head (prod_at g p)) with
                                | AShift j => quiet t j
                                | _ => true
                                end) t
     | b => w (p_head (prod_at g p)) + N.of_nat (List.length b) <=? weight w b
     end = true).
  { intros p Hp Hr. specialize (H2 p). apply N.eqb_neq in Hr. rewrite Hr in H2. apply H2.
    apply in_map_iff. exists (N.to_nat p). split; [lia|]. apply in_seq. lia. }
  constructor.
  - intros X HX. apply N.leb_le. now apply H1.
  - intros p Hp Hr Hb. specialize (H3 p Hp Hr). destruct (body_at g p) as [|X r]; [easy|]. now apply N.leb_le.
  - intros p Hp Hr Hb. specialize (H3 p Hp Hr). rewrite Hb in H3. apply andb_true_iff in H3. destruct H3 as [A B].
    split; [now apply N.ltb_lt|]. intros s j. unfold action_at. destruct (row_of t s) as [row|] eqn:Er; [|easy].
    destruct (g_nsym g <=? _); [easy|]. intros [= E]. apply row_of_in in Er.
    rewrite forallb_forall in B. specialize (B _ Er). cbn [snd] in B. rewrite E in B. exact B.
Qed.

Definition weight_names : list (string * N) :=
  [("Or", 2); ("IncompleteGroup", 7); ("MatchExact", 13); ("LiteralRange", 10); ("Comment", 11); ("Regex", 0);
   ("SchemaVar", 5); ("CompleteGroup", 3); ("Integer", 4); ("Identifier", 4); ("MatchRange", 20); ("Digit", 8);
   ("MatchStar", 6); ("Wildcard", 4); ("DelimiterString", 3); ("Schema", 4); ("Concat", 1); ("PortableNewLine", 4);
   ("Literal", 4); ("MatchPlus", 6); ("WhiteSpace", 8); ("Text", 4); ("WhitespaceStar", 0)]%string.
Definition weight_ids : list (N * N) := Eval vm_compute in map (fun e => (sid (fst e), snd e)) weight_names.
Fixpoint nassoc (l : list (N * N)) (d x : N) : N :=
  match l with [] => d | (y, v) :: r => if x =? y then v else nassoc r d x end.
Definition schema_weight (X : N) : N := nassoc weight_ids 5 X.
Lemma schema_weights : weights schema_grammar schema_table schema_weight 5 1.
Proof. apply weights_check_ok. vm_cast_no_check (eq_refl true). Qed.

(** ** Every state has its row. *)
Lemma generate_rows fuel cfuel g start t root : wf_grammar g start -> productive g ->
  generate fuel cfuel g = Ret (t, root) ->
  exists sets, automaton cfuel g sets /\ table_ok cfuel g sets t /\ root = Some 0 /\
    forall K i, In (K, i) sets -> exists row, row_of t i = Some row.
Proof.
  intros Hwf Hprod Hgen.
  apply generate_parts in Hgen. destruct Hgen as (sets1 & gt & Hs & Hall).
  apply item_sets_parts in Hs. destruct Hs as (a & nul & fs & sp & m & P).
  destruct (parts_table fuel cfuel g start Hwf t root sets1 gt a nul fs sp m P Hall) as (T1 & T2 & T3).
  exists (k_sets a). split; [easy|]. split; [easy|]. split; [easy|]. intros K i HK.
  destruct (row_exists fuel cfuel g start Hwf sets1 gt root a nul fs sp m P Hprod t Hall K i HK) as (row & _ & Hrow & _).
  eauto.
Qed.

(** ** SchemaParser's parser. [types]: the types that the lexer reports for a text. *)
Section Schema.
  Variable types : stok -> list N.
  Hypothesis Heof : types SEof = [TokenEnd].
  Hypothesis Htypes : forall w X, In X (types (STok w)) -> In X (schema_matches w).
  Context {A : Type}.
  Variable rule : N -> option (list (value stok A) -> out A).
  Variables (resets : N -> bool) (limit : N).
  Notation sym := (root_sym (g_prods schema_grammar)).
  Notation parser := (parse types SEof rule resets limit schema_grammar schema_table).

  Lemma types_terms tk X : In X (types tk) -> In X (g_terms schema_grammar).
  Proof.
    destruct tk as [|w]; intros H.
    - rewrite Heof in H. destruct H as [<- | []]. exact (wg_end _ _ schema_wf).
    - apply Htypes in H. now apply schema_match_terms in H.
  Qed.
  Lemma texts_plain (inp : list (list N)) tk : In tk (map STok inp) -> ~ In TokenEnd (types tk).
  Proof.
    intros H HX. apply in_map_iff in H. destruct H as (w & <- & _). apply Htypes, schema_match_terms in HX. easy.
  Qed.

  Theorem schema_parse_sound fuel inp alloc v al : parser fuel (Some 0) (map STok inp) alloc = Ret (v, al) ->
    exists tr, well_formed types schema_grammar tr /\ sym tr = schema_start /\
      map fst (yield tr) = map STok inp /\ eval rule tr = Ret v.
  Proof.
    apply (sound_main types SEof sfuel scfuel schema_grammar schema_start schema_table (Some 0) schema_wf
             (proj1 schema_generated) types_terms Heof rule resets limit).
    apply texts_plain.
  Qed.
  Theorem schema_parse_complete fuel inp alloc tr v : well_formed types schema_grammar tr -> sym tr = schema_start ->
    map fst (yield tr) = map STok inp -> eval rule tr = Ret v -> alloc + slots tr <= limit -> (size tr < fuel)%nat ->
    exists al, parser fuel (Some 0) (map STok inp) alloc = Ret (v, al) /\ al <= alloc + slots tr.
  Proof.
    intros H1 H2 H3 H4 H5 H6. destruct schema_generated as [Hg (sets & gt & Hs & Hc)]. rewrite <- H3.
    apply (complete_main types SEof sfuel scfuel schema_grammar schema_start schema_table (Some 0) schema_wf
             Hg types_terms Heof schema_productive sets gt Hs Hc (schema_agree types Heof Htypes)); auto.
    rewrite H3. apply texts_plain.
  Qed.
  Theorem schema_one_tree inp tr tr' : well_formed types schema_grammar tr -> well_formed types schema_grammar tr' ->
    sym tr = schema_start -> sym tr' = schema_start ->
    map fst (yield tr) = map STok inp -> map fst (yield tr') = map STok inp -> tr = tr'.
  Proof.
    intros H1 H2 H3 H4 H5 H6. destruct schema_generated as [Hg (sets & gt & Hs & Hc)].
    apply (one_tree types SEof sfuel scfuel schema_grammar schema_start schema_table (Some 0) schema_wf
             Hg types_terms Heof schema_productive sets gt Hs Hc (schema_agree types Heof Htypes)); auto; [|congruence].
    rewrite H5. apply texts_plain.
  Qed.
  (** Delimiters are only read behind the keyword and the colon. *)
  Lemma delimiters_context q d : q < N.of_nat (List.length (g_prods schema_grammar)) -> (0 < d)%nat ->
    nth_error (body_at schema_grammar q) d = Some 61 -> exists pre, firstn d (body_at schema_grammar q) = pre ++ [55; 40].
  Proof.
    intros Hq Hd Hn.
    assert (C : forallb (fun pr => forallb (fun e => negb (snd e =? 61) || (fst e =? 0)%nat ||
                        match rev (firstn (fst e) (p_body pr)) with y :: x :: _ => (x =? 55) && (y =? 40) | _ => false end)
                      (combine (seq 0 (List.length (p_body pr))) (p_body pr))) (g_prods schema_grammar) = true)
      by (vm_cast_no_check (eq_refl true)).
    rewrite forallb_forall in C. specialize (C _ (nth_In (n := N.to_nat q) (g_prods schema_grammar) (mkProd 0 []) ltac:(lia))).
    change (nth (N.to_nat q) (g_prods schema_grammar) (mkProd 0 [])) with (prod_at schema_grammar q) in C.
    change (p_body (prod_at schema_grammar q)) with (body_at schema_grammar q) in C. revert C Hn.
    generalize (body_at schema_grammar q). clear Hq q. intros l C Hn. rewrite forallb_forall in C.
    assert (G : In (d, 61) (combine (seq 0 (List.length l)) l)).
    { clear C. assert (G : forall k, In ((d + k)%nat, 61) (combine (seq k (List.length l)) l)).
      { clear Hd. revert d Hn. induction l as [|y l IH]; intros [|d] Hn k; cbn in Hn; cbn [List.length seq combine Nat.add]; try discriminate.
        - injection Hn as ->. now left.
        - right. cbn [List.length seq combine]. replace (S (d + k)) with (d + S k)%nat by lia. now apply IH. }
      specialize (G 0%nat). now rewrite Nat.add_0_r in G. }
    specialize (C _ G). cbn [fst snd] in C. rewrite N.eqb_refl in C. cbn [negb orb] in C.
    destruct (Nat.eqb_spec d 0); [lia|]. cbn [orb] in C. destruct (rev (firstn d l)) as [|y [|x r]] eqn:E; try easy.
    apply andb_true_iff in C as [C1 C2]. apply N.eqb_eq in C1, C2. subst. exists (rev r).
    rewrite <- (rev_involutive (firstn d l)), E. cbn [rev]. now rewrite <- app_assoc.
  Qed.
  Definition undefined_at (inp : list (list N)) (r : out (value stok A)) : Prop :=
    exists p us vs ts0 b, well_formed types schema_grammar (Node p us) /\ Forall (well_formed types schema_grammar) ts0 /\
      map STok inp = consumed ts0 ++ map fst (yield (Node p us)) ++ b /\ evals rule us = Ret vs /\ eval rule (Node p us) = r /\
      (p_head (prod_at schema_grammar p) = 61 -> exists t1 t2 ts1, ts0 = t2 :: t1 :: ts1 /\ sym t1 = 55 /\ sym t2 = 40).
  Theorem schema_parse_safe_at fuel inp alloc : alloc + (7 * N.of_nat (List.length inp) + 1) <= limit ->
    7 * N.of_nat (List.length inp) + 1 < N.of_nat fuel ->
    match parser fuel (Some 0) (map STok inp) alloc with
    | Ret _ => True
    | Throw => True
    | UB => undefined_at inp UB
    | OutOfFuel => undefined_at inp OutOfFuel
    end.
  Proof.
    intros H1 H2.
    destruct (generate_rows sfuel scfuel schema_grammar schema_start schema_table (Some 0) schema_wf schema_productive
                (proj1 schema_generated)) as (sets & T1 & T2 & _ & T3).
    pose proof (parse_safe_at types SEof rule resets limit scfuel schema_grammar schema_start schema_table sets schema_wf T1 T2
             T3 types_terms Heof schema_weight 5 1 schema_weights fuel (map STok inp) alloc) as G.
    cbv zeta in G. rewrite map_length in G. specialize (G ltac:(apply Forall_forall; apply texts_plain) ltac:(lia) ltac:(lia)).
    assert (W : forall r, evaluates_at types rule scfuel schema_grammar sets (map STok inp) r -> undefined_at inp r).
    { intros r (p & us & vs & ts0 & s & ss & K & C & b & E1 & E2 & E3 & E4 & E5 & E6 & E7). exists p, us, vs, ts0, b.
      split; [easy|]. split.
      { clear -E5. remember (s :: ss) as l. clear Heql. induction E5; constructor; auto. }
      split; [easy|]. split; [easy|]. split; [easy|]. intros Hp.
      destruct (context types SEof rule resets scfuel schema_grammar schema_start schema_table sets schema_wf T1 T3 types_terms 61 p s ss ts0 K C E5 E6 E7 Hp)
        as (q & d & Q1 & Q2 & Q3 & Q4 & Q5).
      - assert (C0 : (p_head (prod_at schema_grammar (g_root schema_grammar)) =? 61) = false) by (vm_compute; reflexivity).
        apply N.eqb_neq in C0. exact C0.
      - intros q b0 Hq Hb.
        assert (C0 : forallb (fun pr => match p_body pr with x :: _ => negb (x =? 61) || (p_head pr =? 61) | [] => true end)
                       (g_prods schema_grammar) = true) by (vm_cast_no_check (eq_refl true)).
        rewrite forallb_forall in C0. specialize (C0 _ (nth_In (n := N.to_nat q) (g_prods schema_grammar) (mkProd 0 []) ltac:(lia))).
        change (nth (N.to_nat q) (g_prods schema_grammar) (mkProd 0 [])) with (prod_at schema_grammar q) in C0.
        change (p_body (prod_at schema_grammar q)) with (body_at schema_grammar q) in C0. rewrite Hb in C0.
        cbn [N.eqb Pos.eqb negb orb] in C0. now apply N.eqb_eq in C0.
      - destruct (delimiters_context q d Q1 Q2 Q3) as (pre & E). rewrite E in Q5. rewrite map_rev in Q5.
        apply (f_equal (@rev N)) in Q5. rewrite rev_involutive, rev_app_distr in Q5. cbn [rev app] in Q5.
        destruct ts0 as [|t2 [|t1 ts1]]; [now rewrite firstn_nil in Q5| |].
        + destruct d as [|d]; [lia|]. cbn [firstn map] in Q5. rewrite firstn_nil in Q5. discriminate Q5.
        + destruct d as [|[|d]]; [lia|discriminate Q5|]. cbn [firstn map] in Q5. injection Q5 as A1 A2 _.
          exists t1, t2, ts1. auto. }
    destruct (parser fuel (Some 0) (map STok inp) alloc); auto.
  Qed.
  Theorem schema_parse_safe fuel inp alloc : alloc + (7 * N.of_nat (List.length inp) + 1) <= limit ->
    7 * N.of_nat (List.length inp) + 1 < N.of_nat fuel ->
    match parser fuel (Some 0) (map STok inp) alloc with
    | Ret _ => True
    | Throw => True
    | UB => evaluates_to types rule schema_grammar (map STok inp) UB
    | OutOfFuel => evaluates_to types rule schema_grammar (map STok inp) OutOfFuel
    end.
  Proof.
    intros H1 H2.
    destruct (generate_rows sfuel scfuel schema_grammar schema_start schema_table (Some 0) schema_wf schema_productive
                (proj1 schema_generated)) as (sets & T1 & T2 & _ & T3).
    apply (parse_safe types SEof rule resets limit scfuel schema_grammar schema_start schema_table sets schema_wf T1 T2
             T3 types_terms Heof schema_weight 5 1 schema_weights fuel (map STok inp) alloc).
    - apply Forall_forall. apply texts_plain.
    - rewrite map_length. lia.
    - rewrite map_length. lia.
  Qed.
End Schema.
