(** SchemaHistory.v -- what is left of a schema text in the static index after it has been parsed. *)
From Verif Require Import Base LexerModel RegexModel OrdSet GrammarSpec FirstModel FirstProofs LrModel LrSets LrTable ParseSpec LrDriver LrSound
  LrParse LrMain LrSafe LrCount SchemaModel SchemaActions SchemaGrammar SchemaTable SchemaSafe SchemaRules SchemaSyntax SchemaReads SchemaMeaning
  SchemaRoom.
From Coq Require Import String.
Local Open Scope list_scope.
Local Open Scope N_scope.

Lemma slots_yield {tok} (tr : tree tok) : N.of_nat (List.length (yield tr)) <= slots tr + match tr with Leaf _ _ => 1 | Node _ _ => 0 end.
Proof.
  induction tr as [tk X|p ts IH] using tree_ind'; [cbn; lia|]. rewrite N.add_0_r. cbn [slots yield].
  induction IH as [|x ts Hx _ IHt]; [cbn; lia|]. cbn [fold_right flat_map List.length]. rewrite app_length.
  destruct x; lia.
Qed.
Lemma well_formed_types {tok} (types types' : tok -> list N) g : (forall tk X, In X (types tk) -> In X (types' tk)) ->
  forall tr, well_formed types g tr -> well_formed types' g tr.
Proof.
  intros H. induction tr as [tk X|p ts IH] using tree_ind'; intros Hw.
  - inversion Hw; subst. constructor; auto.
  - inversion Hw as [|? ? pr Hn Hb Hts]; subst. econstructor; eauto. rewrite Forall_forall in *. auto.
Qed.

Section One.
  Variable types : stok -> list N.
  Hypothesis Heof : types SEof = [TokenEnd].
  Hypothesis Htypes : forall w X, In X (types (STok w)) -> In X (schema_matches w).
  Notation wfd := (well_formed types schema_grammar).
  Notation sym := (root_sym (g_prods schema_grammar)).
  Lemma reset_has_nl p us : wfd (Node p us) -> schema_resets p = true -> forall w, map fst (yield (Node p us)) = map STok w -> In nl w.
  Proof.
    intros Hw Hr w Hy. apply resets_6 in Hr. subst p. inversion Hw as [|? ? pr Hn Hb Hts]; subst.
    assert (E : p_body pr = [57; 62; 60]).
    { assert (G : nth_error (g_prods schema_grammar) (N.to_nat 6) = Some (mkProd 57 [57; 62; 60])) by (vm_compute; reflexivity).
      rewrite G in Hn. now injection Hn as <-. }
    rewrite E in Hb. destruct us as [|t1 [|t2 [|t3 [|? ?]]]]; try discriminate Hb. injection Hb as _ B2 _.
    inversion Hts as [|? ? _ Hts']; subst. inversion Hts' as [|? ? W2 _]; subst.
    cbn [yield flat_map] in Hy. rewrite !map_app in Hy. apply map_STok_app in Hy. destruct Hy as (w1 & w2 & -> & _ & Hy).
    apply map_STok_app in Hy. destruct Hy as (w3 & w4 & -> & Y & _).
    apply in_or_app. right. apply in_or_app. left.
    destruct (break_text types Htypes t2 w3 W2 B2 Y) as [-> | ->]; cbn; auto.
  Qed.
  Lemma schema_parse_count {A} (rule : N -> option (list (value stok A) -> out A)) limit fuel inp alloc v al : ~ In nl inp ->
    parse types SEof rule schema_resets limit schema_grammar schema_table fuel (Some 0) (map STok inp) alloc = Ret (v, al) ->
    exists tr, wfd tr /\ sym tr = schema_start /\ map fst (yield tr) = map STok inp /\ eval rule tr = Ret v /\
      al = alloc + slots tr /\ al <= N.max alloc limit.
  Proof.
    intros Hnl.
    destruct (generate_rows sfuel scfuel schema_grammar schema_start schema_table (Some 0) schema_wf schema_productive
                (proj1 schema_generated)) as (sets & T1 & T2 & _ & T3).
    apply (parse_count types SEof rule schema_resets limit scfuel schema_grammar schema_start schema_table sets
             schema_wf T1 T2 (types_terms types Heof Htypes) Heof (map STok inp)).
    - intros p us a b Hw E. destruct (schema_resets p) eqn:Er; [|easy]. exfalso. apply Hnl.
      symmetry in E. apply map_STok_app in E. destruct E as (w1 & w2 & -> & _ & E).
      apply map_STok_app in E. destruct E as (w3 & w4 & -> & E & _).
      apply in_or_app. right. apply in_or_app. left. exact (reset_has_nl p us Hw Er w3 E).
    - apply Forall_forall. exact (texts_plain types Htypes inp).
  Qed.
End One.

(** A schema text without line break moves the index by a number that only depends on the text -- at least the number of its tokens --, and is
    undefined if the array has not that much room left. *)
Theorem one_line_meaning ws vars delims : ~ In nl ws -> schema_text ws vars delims ->
  exists p c, N.of_nat (List.length ws) <= c <= 5 * N.of_nat (List.length ws) /\
  forall types : stok -> list N, types SEof = [TokenEnd] -> (forall w X, In X (types (STok w)) <-> In X (schema_matches w)) ->
  forall fuel alloc, 7 * N.of_nat (List.length ws) + 1 < N.of_nat fuel -> alloc <= cSizeOfAllChildren ->
    parse types SEof schema_rule schema_resets cSizeOfAllChildren schema_grammar schema_table fuel (Some 0) (map STok ws) alloc =
    if alloc + c <=? cSizeOfAllChildren then Ret (VNt p (Some (VSchema vars delims)), alloc + c) else UB.
Proof.
  intros Hnl Hs. set (st := fun tk : stok => match tk with SEof => [TokenEnd] | STok w => schema_matches w end).
  pose proof (has_schema st (fun w X H => H) ws vars delims Hs) as H. rewrite <- schema_start_57 in H.
  apply (has_fits st (fun w X => iff_refl _) (fun _ => false) 0) in H.
  destruct H as (tr & p & T1 & T2 & T3 & T4 & T5). exists p, (slots tr). split.
  { split; [|exact T5]. pose proof (slots_yield tr) as Hy.
    assert (L : List.length (yield tr) = List.length ws) by (rewrite <- (map_length fst (yield tr)), T3; apply map_length).
    rewrite L in Hy. destruct tr as [tk X|]; [|lia]. cbn in T4. discriminate T4. }
  intros types Heof Hty fuel alloc Hf Hal.
  assert (Hty1 : forall w X, In X (types (STok w)) -> In X (schema_matches w)) by (intros w X; apply Hty).
  assert (T1' : well_formed types schema_grammar tr).
  { apply (well_formed_types st types); [|exact T1]. intros [|w] X HX; [now rewrite Heof|]. now apply Hty. }
  pose proof (size_slots tr) as Z.
  destruct (schema_parse_complete types Heof Hty1 schema_rule (fun _ => false) (slots tr) fuel ws 0 tr _
              T1' T2 T3 T4 ltac:(lia) ltac:(lia)) as (al0 & E0 & _).
  destruct (N.leb_spec (alloc + slots tr) cSizeOfAllChildren) as [Hc | Hc].
  - destruct (schema_parse_complete types Heof Hty1 schema_rule schema_resets cSizeOfAllChildren fuel ws alloc tr _
                T1' T2 T3 T4 ltac:(lia) ltac:(lia)) as (al & E & _).
    rewrite E. destruct (schema_parse_count types Heof Hty1 schema_rule _ _ _ _ _ _ Hnl E) as (tr' & S1 & S2 & S3 & S4 & S5 & _).
    rewrite (schema_one_tree types Heof Hty1 ws tr' tr S1 T1' S2 T2 S3 T3) in S5. now subst al.
  - destruct (parse_twins types SEof schema_rule schema_grammar schema_table schema_resets (fun _ => false) cSizeOfAllChildren (slots tr)
                fuel (Some 0) (map STok ws) alloc 0 _ _ E0) as [E | (al & E)]; [exact E|].
    destruct (schema_parse_count types Heof Hty1 schema_rule _ _ _ _ _ _ Hnl E) as (tr' & S1 & S2 & S3 & S4 & S5 & S6).
    rewrite (schema_one_tree types Heof Hty1 ws tr' tr S1 T1' S2 T2 S3 T3) in S5. subst al. lia.
Qed.
(** Any text: the index moves by at most five times the number of tokens. *)
Theorem any_text_meaning ws vars delims : schema_text ws vars delims ->
  exists p, forall types : stok -> list N, types SEof = [TokenEnd] -> (forall w X, In X (types (STok w)) <-> In X (schema_matches w)) ->
  forall fuel alloc, 7 * N.of_nat (List.length ws) + 1 < N.of_nat fuel -> alloc + 5 * N.of_nat (List.length ws) <= cSizeOfAllChildren ->
  exists al, al <= alloc + 5 * N.of_nat (List.length ws) /\
    parse types SEof schema_rule schema_resets cSizeOfAllChildren schema_grammar schema_table fuel (Some 0) (map STok ws) alloc =
    Ret (VNt p (Some (VSchema vars delims)), al).
Proof.
  intros Hs. set (st := fun tk : stok => match tk with SEof => [TokenEnd] | STok w => schema_matches w end).
  pose proof (has_schema st (fun w X H => H) ws vars delims Hs) as H. rewrite <- schema_start_57 in H.
  apply (has_fits st (fun w X => iff_refl _) (fun _ => false) 0) in H.
  destruct H as (tr & p & T1 & T2 & T3 & T4 & T5). exists p.
  intros types Heof Hty fuel alloc Hf Hal.
  assert (Hty1 : forall w X, In X (types (STok w)) -> In X (schema_matches w)) by (intros w X; apply Hty).
  assert (T1' : well_formed types schema_grammar tr).
  { apply (well_formed_types st types); [|exact T1]. intros [|w] X HX; [now rewrite Heof|]. now apply Hty. }
  pose proof (size_slots tr) as Z.
  destruct (schema_parse_complete types Heof Hty1 schema_rule schema_resets cSizeOfAllChildren fuel ws alloc tr _
              T1' T2 T3 T4 ltac:(lia) ltac:(lia)) as (al & E & Hle).
  exists al. split; [lia|exact E].
Qed.
