(** LrCount.v -- how far a parse moves the index into the static array of children, if no production sets it back. *)
From Verif Require Import Base OrdSet GrammarSpec FirstModel FirstProofs LrModel LrSets LrTable ParseSpec
  LrDriver LrSound LrParse.

Section Count.
  Context {tok A : Type}.
  Variables (types : tok -> list N) (eof : tok).
  Variable rule : N -> option (list (value tok A) -> out A).
  Variables (resets : N -> bool) (limit : N).
  Variables (cfuel : nat) (g : grammar) (start : N) (t : table) (sets : list (list item * N)).
  Hypothesis Hwf : wf_grammar g start.
  Hypothesis Ha : automaton cfuel g sets.
  Hypothesis Ht : table_ok cfuel g sets t.
  Hypothesis Htypes : forall tk X, In X (types tk) -> In X (g_terms g).
  Hypothesis Heof : types eof = [TokenEnd].
  Notation sym := (root_sym (g_prods g)).
  Notation plain := (plain types).
  Notation pending := (pending types).
  Notation good := (good types rule cfuel g sets).

  Definition slots_all (ts : list (tree tok)) : N := fold_right (fun x n => slots x + n) 0 ts.
  Lemma slots_app a b : slots_all (a ++ b) = slots_all a + slots_all b.
  Proof. induction a as [|x a IH]; cbn; [easy|]. fold (slots_all a) (slots_all (a ++ b)). rewrite IH. lia. Qed.
  Lemma slots_rev a : slots_all (rev a) = slots_all a.
  Proof. induction a as [|x a IH]; cbn; [easy|]. rewrite slots_app, IH. cbn. fold (slots_all a). lia. Qed.

  Lemma reduce_index p tk st st2 : reduce rule resets limit g t p tk st = Ret st2 -> resets p = false ->
    d_alloc st2 = d_alloc st + N.of_nat (length (body_at g p)) /\
    (length (body_at g p) = 0%nat \/ d_alloc st2 <= limit).
  Proof.
    intros H Hr. unfold reduce in H. rewrite Hr in H. cbn [andb] in H.
    destruct ((0 <? N.of_nat (length (body_at g p))) && (limit <? d_alloc st + N.of_nat (length (body_at g p)))) eqn:E; [easy|].
    destruct (Nat.ltb _ _); [easy|]. apply bind_inv in H. destruct H as (ast & _ & H).
    destruct (skipn _ (d_states st)); [easy|]. apply bind_inv in H. destruct H as (a & _ & H). destruct a; try easy.
    injection H as <-. cbn [d_alloc]. split; [easy|].
    apply andb_false_iff in E as [E | E]; [apply N.ltb_ge in E; left; lia|apply N.ltb_ge in E; right; lia].
  Qed.

  Variable whole : list tok.
  Hypothesis Hno : forall p us a b, well_formed types g (Node p us) -> whole = a ++ map fst (yield (Node p us)) ++ b -> resets p = false.

  Theorem loop_count alloc : forall fuel inp st ts l v al, good st ts -> pending st inp l -> Forall plain l ->
    whole = consumed ts ++ l -> d_alloc st = alloc + slots_all ts -> d_alloc st <= N.max alloc limit ->
    parse_loop types eof rule resets limit g t fuel inp st = Ret (v, al) ->
    exists tr, well_formed types g tr /\ sym tr = start /\ map fst (yield tr) = whole /\ eval rule tr = Ret v /\
      al = alloc + slots tr /\ al <= N.max alloc limit.
  Proof.
    induction fuel as [|fuel IH]; intros inp st ts l v al Hg Hp Hl Hwh Hal Hlim H; [easy|]. cbn [parse_loop] in H.
    destruct (get_next_symbol eof inp st) as [[tk inp'] st'] eqn:En.
    destruct (next_spec types eof Heof _ _ _ _ _ _ Hp Hl En) as [-> Hcase].
    set (st0 := mkD (d_states st) (d_matches st) None (d_alloc st)) in *.
    assert (Hg' : good st0 ts) by exact Hg.
    apply bind_inv in H. destruct H as (res & Hadv & H). destruct res as [[b st2]|]; [|easy].
    apply advance_spec in Hadv. destruct Hadv as (X & HX & Hsym).
    destruct (symbol_spec types rule resets limit cfuel g start t sets Hwf Ha Ht Htypes X tk st0 ts b st2 Hg' eq_refl HX Hsym)
      as [(-> & -> & -> & tr & -> & E2 & E3) | [(-> & Hne & Hn & Hal2 & Hg2 & E) |
          (-> & Hn & p & s0 & ss0 & s' & ss' & j & Hg2 & E & Hpl & Hpr & Hbody & _ & Es0 & Hact & Es2 & Hgo)]].
    - destruct Hcase as [[Hpl _] | (_ & -> & _)]; [contradiction|].
      cbn [d_matches st0] in H. destruct Hg as [_ Hh]. destruct (d_matches st) as [|vv vs]; [easy|].
      assert (Ev : eval rule tr = Ret vv) by (clear -Hh; inversion Hh; assumption). exists tr. split; [easy|]. split; [easy|].
      unfold consumed in Hwh |- *. cbn in Hwh |- *. rewrite !app_nil_r in *. split; [symmetry; exact Hwh|].
      destruct vv; [easy|]. injection H as <- <-. cbn in Hal. split; [exact Ev|]. split; [lia|easy].
    - destruct Hcase as [[Hpl ->] | (E0 & _)]; [|rewrite E0 in HX; destruct HX as [<- | []]; easy].
      assert (Hl' : Forall plain inp') by (clear -Hl; inversion Hl; assumption).
      apply (IH inp' st2 (Leaf tk X :: ts) inp' v al); auto; [now left| | |].
      + rewrite E, <- app_assoc. exact Hwh.
      + rewrite Hal2. cbn [d_alloc st0 slots_all fold_right slots]. fold (slots_all ts). lia.
      + now rewrite Hal2.
    - set (n := length (body_at g p)) in *.
      set (ts' := Node p (rev (firstn n ts)) :: skipn n ts) in *.
      assert (Hres : resets p = false).
      { apply (Hno p (rev (firstn n ts)) (consumed (skipn n ts)) l).
        - destruct Hg2 as [Hs2 _]. unfold ts' in Hs2. clear -Hs2. inversion Hs2; assumption.
        - rewrite Hwh, <- E. unfold ts', consumed. cbn [rev]. rewrite flat_map_app, map_app. cbn [flat_map]. rewrite app_nil_r.
          now rewrite <- app_assoc. }
      unfold parse_symbol in Hsym. cbn [d_states st0] in Hsym, Es0. rewrite Es0 in Hsym. apply bind_inv in Hsym. destruct Hsym as (act & Hact2 & Hsym).
      rewrite Hact in Hact2. injection Hact2 as <-. apply bind_inv in Hsym. destruct Hsym as (st3 & Hred & [= ->]).
      destruct (reduce_index p tk _ st2 Hred Hres) as [I1 I2]. fold n in I1, I2. fold st0 in I1. cbn [d_alloc st0] in I1.
      apply (IH inp' st2 ts' l v al); auto.
      + destruct Hcase as [[Hpl' ->] | (E0 & -> & ->)].
        * right. left. now exists tk.
        * right. right. now exists tk.
      + now rewrite E.
      + rewrite I1, Hal. unfold ts'. cbn [slots_all fold_right slots]. fold (slots_all (skipn n ts)) (slots_all (rev (firstn n ts))).
        rewrite slots_rev. assert (Es : slots_all ts = slots_all (firstn n ts) + slots_all (skipn n ts)) by (rewrite <- slots_app, firstn_skipn; easy).
        assert (El : length (rev (firstn n ts)) = n) by (rewrite <- (map_length sym), Hbody; reflexivity).
        rewrite El. lia.
      + destruct I2 as [I2 | I2]; lia.
  Qed.
  Theorem parse_count fuel alloc v al : Forall plain whole ->
    parse types eof rule resets limit g t fuel (Some 0) whole alloc = Ret (v, al) ->
    exists tr, well_formed types g tr /\ sym tr = start /\ map fst (yield tr) = whole /\ eval rule tr = Ret v /\
      al = alloc + slots tr /\ al <= N.max alloc limit.
  Proof.
    intros Hl H. unfold parse in H. apply (loop_count alloc fuel whole _ [] whole v al) in H; auto.
    - split; cbn; constructor.
    - now left.
    - cbn. lia.
    - cbn. lia.
  Qed.
End Count.

(** ** The size of the array and the index only decide whether the parse is undefined. *)
Section Limits.
  Context {tok A : Type}.
  Variables (types : tok -> list N) (eof : tok).
  Variable rule : N -> option (list (value tok A) -> out A).
  Variables (g : grammar) (t : table).
  Variables (resets resets2 : N -> bool) (limit limit2 : N).
  Definition twins (a b : dstate (tok := tok) (A := A)) : Prop :=
    d_states a = d_states b /\ d_matches a = d_matches b /\ d_next a = d_next b.
  Lemma symbol_twins X tk a b : twins a b ->
    parse_symbol rule resets limit g t X tk a = UB \/ parse_symbol rule resets2 limit2 g t X tk b = UB \/
    match parse_symbol rule resets limit g t X tk a, parse_symbol rule resets2 limit2 g t X tk b with
    | Ret None, Ret None => True
    | Ret (Some (x, sa)), Ret (Some (y, sb)) => x = y /\ twins sa sb
    | Throw, Throw => True | OutOfFuel, OutOfFuel => True
    | _, _ => False
    end.
  Proof.
    intros (E1 & E2 & E3). unfold parse_symbol. rewrite E1. destruct (d_states b) as [|s ss] eqn:Es; [now left|].
    destruct (action_at g t s X) as [[[|]|j|p]| | |]; cbn [bind]; auto.
    - right. right. split; [easy|]. split; [congruence|]. auto.
    - right. right. split; [easy|]. unfold twins. cbn. rewrite E2, E3. auto.
    - unfold reduce. destruct (_ && (limit <? _)); [now left|]. destruct (_ && (limit2 <? _)); [right; now left|]. rewrite E2.
      destruct (Nat.ltb _ _); [now left|].
      destruct (match rule p with None => _ | Some f => _ end) as [ast| | |]; cbn [bind]; auto.
      rewrite E1, Es. destruct (skipn _ (s :: ss)) as [|s' ss']; [now left|].
      destruct (action_at g t s' _) as [[?|j|?]| | |]; cbn [bind]; auto.
      right. right. split; [easy|]. unfold twins. cbn. auto.
  Qed.
  Lemma advance_twins Xs tk a b : twins a b ->
    parse_advance rule resets limit g t Xs tk a = UB \/ parse_advance rule resets2 limit2 g t Xs tk b = UB \/
    match parse_advance rule resets limit g t Xs tk a, parse_advance rule resets2 limit2 g t Xs tk b with
    | Ret None, Ret None => True
    | Ret (Some (x, sa)), Ret (Some (y, sb)) => x = y /\ twins sa sb
    | Throw, Throw => True | OutOfFuel, OutOfFuel => True
    | _, _ => False
    end.
  Proof.
    intros H. induction Xs as [|X Xs IH]; cbn [parse_advance]; [right; now right|].
    destruct (symbol_twins X tk a b H) as [-> | [-> | G]]; [now left|right; now left|].
    destruct (parse_symbol rule resets limit g t X tk a) as [[[x sa]|]| | |],
             (parse_symbol rule resets2 limit2 g t X tk b) as [[[y sb]|]| | |]; cbn [bind]; try contradiction; auto.
  Qed.
  Theorem loop_twins : forall fuel inp a b v al, twins a b ->
    parse_loop types eof rule resets2 limit2 g t fuel inp b = Ret (v, al) ->
    parse_loop types eof rule resets limit g t fuel inp a = UB \/
    exists al', parse_loop types eof rule resets limit g t fuel inp a = Ret (v, al').
  Proof.
    induction fuel as [|fuel IH]; intros inp a b v al H Hb; [easy|]. cbn [parse_loop] in *.
    destruct (get_next_symbol eof inp a) as [[tk inp'] a'] eqn:Ea. destruct (get_next_symbol eof inp b) as [[tk2 inp2] b'] eqn:Eb.
    assert (G : tk = tk2 /\ inp' = inp2 /\ twins a' b').
    { destruct H as (E1 & E2 & E3). unfold get_next_symbol in *. rewrite E3 in Ea. destruct (d_next b) as [x|] eqn:En.
      - injection Ea as <- <- <-. injection Eb as <- <- <-. unfold twins. cbn. auto.
      - destruct inp as [|x r]; injection Ea as <- <- <-; injection Eb as <- <- <-; unfold twins; rewrite ?E3, ?En; auto. }
    destruct G as (<- & <- & G). clear H Ea Eb.
    destruct (advance_twins (types tk) tk a' b' G) as [-> | [Z | Z]]; [now left|rewrite Z in Hb; easy|].
    destruct (parse_advance rule resets limit g t (types tk) tk a') as [[[x sa]|]| | |],
             (parse_advance rule resets2 limit2 g t (types tk) tk b') as [[[y sb]|]| | |]; cbn [bind] in *; try contradiction; try easy.
    destruct Z as [<- Z]. destruct x; [|now apply (IH inp' sa sb v al)].
    destruct Z as (_ & -> & _). destruct (d_matches sb) as [|[?|? ?] ?]; try easy. injection Hb as <- _. right. eauto.
  Qed.
  Theorem parse_twins fuel root inp alloc alloc2 v al :
    parse types eof rule resets2 limit2 g t fuel root inp alloc2 = Ret (v, al) ->
    parse types eof rule resets limit g t fuel root inp alloc = UB \/
    exists al', parse types eof rule resets limit g t fuel root inp alloc = Ret (v, al').
  Proof. unfold parse. destruct root; [|easy]. apply loop_twins. now unfold twins. Qed.
End Limits.
