(** ReportProofs.v -- the error report quotes the line of the first token that cannot continue, whatever the static array held. *)
From Verif Require Import Base OrdSet GrammarSpec FirstModel FirstProofs LrModel LrSets LrTable ParseSpec
  LrDriver LrSound LrParse LrLookahead LrComplete LrMain LrReport ReportModel.

(** The texts behind the last newline token. *)
Definition last_line (ws : list (list N)) : list N := fold_left (fun acc w => if is_newline w then [] else acc ++ w) ws [].
Lemma last_line_snoc ws w : last_line (ws ++ [w]) = if is_newline w then [] else last_line ws ++ w.
Proof. unfold last_line. now rewrite fold_left_app. Qed.

Section Reads.
  Context {tok A : Type}.
  Variables (types : tok -> list N) (eof : tok) (text : tok -> list N).
  Variable rule : N -> option (list (value tok A) -> out A).
  Variables (resets : N -> bool) (limit : N).
  Variables (cfuel : nat) (g : grammar) (start : N) (t : table) (sets : list (list item * N)).
  Notation cell := (cell (tok := tok) (A := A)).
  Notation rstate := (rstate (tok := tok) (A := A)).
  (** What get_input_after_last_newline reads from a stack, without looking at the array from [hi] on. *)
  Inductive reads (arr : N -> option cell) (hi : N) : list cell -> list N -> Prop :=
  | rd_nil : reads arr hi [] []
  | rd_newline : forall tk r, is_newline (text tk) = true -> reads arr hi (CTok tk :: r) []
  | rd_tok : forall tk r w, is_newline (text tk) = false -> reads arr hi r w -> reads arr hi (CTok tk :: r) (w ++ text tk)
  | rd_nt : forall p from a r cs w, length cs = length (body_at g p) -> from + N.of_nat (length cs) <= hi ->
      (forall i c, nth_error cs i = Some c -> arr (from + N.of_nat i) = Some c) ->
      reads arr hi (rev cs ++ r) w -> reads arr hi (CNt p from a :: r) w.
  Lemma reads_frame arr hi s w arr' hi' : reads arr hi s w -> hi <= hi' -> (forall i, i < hi -> arr' i = arr i) -> reads arr' hi' s w.
  Proof.
    intros H Hh Ha. induction H as [|tk r Hn|tk r w Hn _ IH|p from a r cs w Hl Hf Hc _ IH]; [constructor|now constructor|now constructor|].
    apply (rd_nt _ _ p from a r cs w Hl); [lia| |exact IH]. intros i c Hi. rewrite Ha; [now apply Hc|].
    assert (i < length cs)%nat by (apply nth_error_Some; congruence). lia.
  Qed.
  Lemma fetch_list arr : forall cs from, from + N.of_nat (length cs) <= limit ->
    (forall i c, nth_error cs i = Some c -> arr (from + N.of_nat i) = Some c) -> fetch (tok := tok) (A := A) limit arr from (length cs) = Ret cs.
  Proof.
    induction cs as [|c cs IH]; intros from Hl Hc; [reflexivity|]. cbn [length fetch] in *. destruct (N.leb_spec limit from); [lia|].
    pose proof (Hc 0%nat c eq_refl) as H0. rewrite N.add_0_r in H0. rewrite H0, IH; [reflexivity|lia|].
    intros i c' Hi. rewrite <- (Hc (S i) c' Hi). f_equal. lia.
  Qed.
  Lemma reads_walk arr hi s w : reads arr hi s w -> hi <= limit ->
    exists F, forall fuel, (F <= fuel)%nat -> forall acc, walk text limit g fuel arr s acc = Ret (w ++ rev acc).
  Proof.
    intros H Hh. induction H as [|tk r Hn|tk r w Hn _ (F & IH)|p from a r cs w Hl Hf Hc _ (F & IH)].
    - exists 1%nat. intros [|fuel] Hfu acc; [lia|]. reflexivity.
    - exists 1%nat. intros [|fuel] Hfu acc; [lia|]. cbn [walk]. now rewrite Hn.
    - exists (S F). intros [|fuel] Hfu acc; [lia|]. cbn [walk]. rewrite Hn, IH by lia. rewrite rev_app_distr, rev_involutive, <- app_assoc. reflexivity.
    - exists (S F). intros [|fuel] Hfu acc; [lia|]. cbn [walk]. rewrite <- Hl, fetch_list by (auto; lia). cbn [bind]. apply IH. lia.
  Qed.

  Lemma put_same arr from (cs : list cell) i c : nth_error cs i = Some c -> put arr from cs (from + N.of_nat i) = Some c.
  Proof.
    intros H. assert (i < length cs)%nat by (apply nth_error_Some; congruence). unfold put.
    destruct (N.leb_spec from (from + N.of_nat i)); [|lia]. destruct (N.ltb_spec (from + N.of_nat i) (from + N.of_nat (length cs))); [|lia].
    cbn [andb]. replace (N.to_nat (from + N.of_nat i - from)) with i by lia. exact H.
  Qed.
  Lemma put_below arr from (cs : list cell) i : i < from -> put arr from cs i = arr i.
  Proof. intros H. unfold put. destruct (N.leb_spec from i); [lia|]. reflexivity. Qed.

  (** One reduction. *)
  Lemma reduce_reads p tk st st2 w : r_reduce rule resets limit g t p tk st = Ret st2 -> r_alloc st <= limit ->
    reads (r_array st) (r_alloc st) (r_matches st) w ->
    r_alloc st2 <= limit /\ r_next st2 = Some tk /\
    (reads (r_array st2) (r_alloc st2) (r_matches st2) w \/
     (resets p = true /\ exists j s ss, r_states st2 = j :: s :: ss /\ action_at g t s (p_head (prod_at g p)) = Ret (AShift j))).
  Proof.
    unfold r_reduce. intros H Hal Hr. set (n := length (body_at g p)) in *.
    destruct ((0 <? N.of_nat n) && (limit <? r_alloc st + N.of_nat n)) eqn:E1; [easy|].
    destruct (Nat.ltb_spec (length (r_matches st)) n) as [E2|E2]; [easy|].
    apply bind_inv in H. destruct H as (ast & _ & H). destruct (skipn n (r_states st)) as [|s ss]; [easy|].
    apply bind_inv in H. destruct H as (act & Hact & H). destruct act as [|j|]; try easy.
    assert (Hle : r_alloc st + N.of_nat n <= limit).
    { apply andb_false_iff in E1 as [E1 | E1]; [apply N.ltb_ge in E1; lia|apply N.ltb_ge in E1; lia]. }
    assert (Hlen : length (rev (firstn n (r_matches st))) = n) by (rewrite rev_length, firstn_length; lia).
    injection H as <-. cbn [r_alloc r_next r_array r_matches r_states].
    split; [destruct (resets p && _); lia|]. split; [easy|].
    destruct (resets p && (limit / 2 <? r_alloc st + N.of_nat n)) eqn:E3.
    - right. apply andb_true_iff in E3 as [E3 _]. split; [exact E3|]. exists j, s, ss. auto.
    - left. apply (rd_nt _ _ p (r_alloc st) ast (skipn n (r_matches st)) (rev (firstn n (r_matches st)))).
      + exact Hlen.
      + rewrite Hlen. lia.
      + intros i c Hi. now apply put_same.
      + rewrite rev_involutive, firstn_skipn. apply (reads_frame (r_array st) (r_alloc st)); [exact Hr|lia|].
        intros i Hi. now apply put_below.
  Qed.

  Hypothesis Hwf : wf_grammar g start.
  Hypothesis Ha : automaton cfuel g sets.
  Hypothesis Ht : table_ok cfuel g sets t.
  Hypothesis Htypes : forall tk X, In X (types tk) -> In X (g_terms g).
  Hypothesis Heof : types eof = [TokenEnd].
  (** A production that sets the index back is only reduced before a newline token, which is then shifted, or at the end of an accepted input. *)
  Definition settled (j : N) (tk : tok) : Prop :=
    (is_newline (text tk) = true /\ forall Y, In Y (types tk) -> exists k, action_at g t j Y = Ret (AShift k)) \/
    (types tk = [TokenEnd] /\ action_at g t j TokenEnd = Ret (ABool true)).
  Hypothesis Hreset : forall p tk X s s' j, resets p = true -> In X (types tk) -> action_at g t s X = Ret (AReduce p) ->
    action_at g t s' (p_head (prod_at g p)) = Ret (AShift j) -> settled j tk.
  Notation plain := (plain types).
  Notation pending := (pending types).
  Notation good := (good types rule cfuel g sets).
  Notation run := (parse_run types eof rule resets limit g t).
  Definition quoted (ts : list (tree tok)) : list N := last_line (map text (consumed ts)).
  Definition inv (st : rstate) (ts : list (tree tok)) : Prop :=
    r_alloc st <= limit /\
    (reads (r_array st) (r_alloc st) (r_matches st) (quoted ts) \/
     exists tk j ss, r_next st = Some tk /\ r_states st = j :: ss /\ settled j tk).

  Theorem run_reads line : forall fuel inp st ts l st' tk rest, good (forget st) ts -> pending (forget st) inp l -> Forall plain l -> inv st ts ->
    (forall x, In x l -> types x <> []) ->
    run fuel inp (forget st) = Ret (Rejected st' tk rest) ->
    exists st2 ts' l', st' = forget st2 /\ (forall wfuel, r_loop types eof text line rule resets limit g t fuel wfuel inp st =
      do r <- report_error types text line limit g t wfuel st2 tk rest; Ret (Failed r)) /\
      good st' ts' /\ r_next st2 = None /\ consumed ts ++ l = consumed ts' ++ l' /\
      r_alloc st2 <= limit /\ reads (r_array st2) (r_alloc st2) (r_matches st2) (quoted ts') /\
      ((plain tk /\ l' = tk :: rest) \/ (types tk = [TokenEnd] /\ l' = [] /\ rest = [])).
  Proof.
    induction fuel as [|fuel IH]; intros inp st ts l st' tk rest Hg Hp Hl Hi Hty H; [easy|]. cbn [parse_run] in H.
    rewrite token_forget in H. destruct (r_token eof inp st) as [[x inp'] st1] eqn:Er.
    assert (En : get_next_symbol eof inp (forget st) = (x, inp', forget st1)) by (rewrite token_forget, Er; reflexivity).
    destruct (next_spec types eof Heof _ _ _ _ _ _ Hp Hl En) as [E1 Hcase].
    assert (F1 : r_next st1 = None /\ r_states st1 = r_states st /\ r_matches st1 = r_matches st /\ r_alloc st1 = r_alloc st /\ r_array st1 = r_array st /\
                 (r_next st = Some x \/ r_next st = None)).
    { unfold r_token in Er. destruct (r_next st) as [y|] eqn:Ey.
      - injection Er as <- <- <-. cbn. auto 10.
      - destruct inp; injection Er as <- <- <-; auto 10. }
    destruct F1 as (F1 & F2 & F3 & F4 & F5 & F6).
    assert (Hg' : good (forget st1) ts) by (rewrite E1; exact Hg).
    rewrite advance_forget in H. apply bind_inv in H. destruct H as (res0 & Hadv0 & H). unfold omap in Hadv0. apply bind_inv in Hadv0.
    destruct Hadv0 as (res & Hadv & Eres). injection Eres as Eres.
    assert (Step : forall wfuel, r_loop types eof text line rule resets limit g t (S fuel) wfuel inp st =
      match res with
      | None => do r <- report_error types text line limit g t wfuel st1 x inp'; Ret (Failed r)
      | Some (true, st2) => match r_matches st2 with [] => UB | CTok _ :: _ => Throw | c :: _ => Ret (Parsed (view c) (r_alloc st2)) end
      | Some (false, st2) => r_loop types eof text line rule resets limit g t fuel wfuel inp' st2
      end) by (intros wfuel; cbn [r_loop]; rewrite Er, Hadv; reflexivity).
    destruct Hi as [Hal Hi].
    (* in a settled state nothing is rejected *)
    destruct res as [[b st2]|].
    2:{ cbn in Eres. subst res0. injection H as <- <- <-. exists st1, ts, l. split; [reflexivity|]. split; [intros wfuel; rewrite Step; reflexivity|]. split; [exact Hg'|].
        split; [exact F1|]. split; [reflexivity|]. split; [lia|]. split; [|exact Hcase].
        destruct Hi as [Hi | (tk & j & ss & N1 & N2 & N3)]; [now rewrite F3, F4, F5|]. exfalso.
        assert (tk = x) as -> by (destruct F6 as [F6 | F6]; congruence).
        assert (Hfirst : exists X r, types x = X :: r /\ exists a, action_at g t j X = Ret a /\ a <> ABool false).
        { destruct N3 as [[N3 N4] | [N3 N4]].
          - destruct (types x) as [|X r] eqn:Ex.
            + exfalso. destruct Hcase as [[Hpl Hl2] | (Hx & _)]; [|easy]. apply (Hty x); [rewrite Hl2; now left|exact Ex].
            + exists X, r. split; [easy|]. destruct (N4 X (or_introl eq_refl)) as (k & Ek). exists (AShift k). easy.
          - exists TokenEnd, []. split; [easy|]. exists (ABool true). easy. }
        destruct Hfirst as (X & r & Ex & a & Eact & Ea). rewrite Ex in Hadv. cbn [r_advance] in Hadv. apply bind_inv in Hadv. destruct Hadv as (q & Hq & Hadv).
        unfold r_symbol in Hq. rewrite F2, N2, Eact in Hq. cbn [bind] in Hq. destruct a as [[|]|k|p]; try (injection Hq as <-; discriminate Hadv).
        - now elim Ea.
        - apply bind_inv in Hq. destruct Hq as (st3 & _ & Hq). injection Hq as <-. discriminate Hadv. }
    cbn in Eres. subst res0.
    assert (Hadv2 : parse_advance rule resets limit g t (types x) x (forget st1) = Ret (Some (b, forget st2))) by (rewrite advance_forget, Hadv; reflexivity).
    assert (Hsx : exists X, In X (types x) /\ r_symbol rule resets limit g t X x st1 = Ret (Some (b, st2))).
    { clear -Hadv. revert Hadv. generalize (types x). induction l as [|X Xs IHX]; cbn [r_advance]; [easy|].
      intros H. apply bind_inv in H. destruct H as ([y|] & Hx & H).
      - injection H as ->. exists X. split; [now left|easy].
      - destruct (IHX H) as (Y & HY & E). exists Y. split; [now right|easy]. }
    destruct Hsx as (X & HX & Hsx).
    assert (Hsym : parse_symbol rule resets limit g t X x (forget st1) = Ret (Some (b, forget st2))) by (rewrite symbol_forget, Hsx; reflexivity).
    destruct (symbol_spec types rule resets limit cfuel g start t sets Hwf Ha Ht Htypes X x (forget st1) ts b (forget st2) Hg' F1 HX Hsym)
      as [(-> & _ & _) | [(-> & Hne & Hn & Hal2 & Hg2 & E) |
          (-> & Hn & p & s0 & ss0 & s' & ss' & j & Hg2 & E & Hpl & Hpr & Hbody & _ & Es0 & Hact & Es2 & Hgo)]].
    - exfalso. cbn [forget d_matches] in H. destruct (r_matches st2) as [|[?|? ? ?] ?]; discriminate H.
    - (* shift *)
      destruct Hcase as [[Hplx ->] | (E0 & _)]; [|rewrite E0 in HX; destruct HX as [<- | []]; easy].
      assert (Hl' : Forall plain inp') by (clear -Hl; inversion Hl; assumption).
      assert (S2 : exists jj, st2 = mkRS (jj :: r_states st1) (CTok x :: r_matches st1) (r_next st1) (r_alloc st1) (r_array st1)).
      { cbn [forget d_next] in Hn. unfold r_symbol in Hsx. destruct (r_states st1) as [|s ss] eqn:Es; [discriminate Hsx|].
        apply bind_inv in Hsx. destruct Hsx as (act & _ & Hsx). destruct act as [[|]|jj|p]; try discriminate Hsx.
        - exists jj. injection Hsx as <-. reflexivity.
        - exfalso. apply bind_inv in Hsx. destruct Hsx as (st3 & Hr & Hsx). injection Hsx as ->. unfold r_reduce in Hr.
          destruct (_ && (limit <? _)); [easy|]. destruct (Nat.ltb _ _); [easy|]. apply bind_inv in Hr. destruct Hr as (ast & _ & Hr).
          destruct (skipn _ _); [easy|]. apply bind_inv in Hr. destruct Hr as (aa & _ & Hr). destruct aa; try easy. injection Hr as <-. discriminate Hn. }
      destruct S2 as (jj & S2).
      assert (Hq : quoted (Leaf x X :: ts) = if is_newline (text x) then [] else quoted ts ++ text x).
      { unfold quoted. rewrite E, map_app. apply last_line_snoc. }
      destruct (IH inp' st2 (Leaf x X :: ts) inp' st' tk rest Hg2) as (st3 & ts' & l' & R1 & R2 & R3 & R4 & R5 & R6); auto.
      + now left.
      + split; [rewrite S2; cbn; lia|]. left. rewrite S2. cbn [r_array r_alloc r_matches]. rewrite Hq. destruct (is_newline (text x)) eqn:Enl; [now constructor|].
        constructor; [exact Enl|]. rewrite F3, F4, F5. destruct Hi as [Hi | (tk0 & j0 & ss0 & N1 & N2 & N3)]; [exact Hi|].
        exfalso. assert (tk0 = x) as -> by (destruct F6 as [F6 | F6]; congruence).
        destruct N3 as [[N3 _] | [N3 _]]; [congruence|]. apply Hplx. rewrite N3. now left.
      + intros y Hy. apply Hty. now right.
      + exists st3, ts', l'. split; [exact R1|]. split; [intros wfuel; rewrite Step; apply R2|]. split; [exact R3|]. split; [exact R4|]. split; [|exact R6].
        rewrite <- R5, E, <- app_assoc. reflexivity.
    - (* reduce *)
      cbn [forget d_states] in Es0.
      assert (Hi1 : reads (r_array st1) (r_alloc st1) (r_matches st1) (quoted ts)).
      { rewrite F3, F4, F5. destruct Hi as [Hi | (tk0 & j0 & ss1 & N1 & N2 & N3)]; [exact Hi|]. exfalso.
        assert (tk0 = x) as -> by (destruct F6 as [F6 | F6]; congruence).
        rewrite F2, N2 in Es0. injection Es0 as <- <-. destruct N3 as [[_ N3] | [N3 N4]].
        - destruct (N3 X HX) as (k & Ek). congruence.
        - rewrite N3 in HX. destruct HX as [<- | []]. congruence. }
      unfold r_symbol in Hsx. rewrite Es0, Hact in Hsx. cbn [bind] in Hsx. apply bind_inv in Hsx. destruct Hsx as (st3 & Hred & Hsx). injection Hsx as ->.
      destruct (reduce_reads p x st1 st2 (quoted ts) Hred ltac:(lia) Hi1) as (D1 & D2 & D3).
      destruct (IH inp' st2 _ l st' tk rest Hg2) as (st4 & ts' & l' & R1 & R2 & R3 & R4 & R5 & R6); auto.
      + destruct Hcase as [[Hpl' ->] | (E0 & -> & ->)]; [right; left; now exists x|right; right; now exists x].
      + split; [exact D1|]. destruct D3 as [D3 | (D3 & jj & s1 & ss1 & D4 & D5)].
        * left. unfold quoted in *. rewrite E. exact D3.
        * right. exists x, jj, (s1 :: ss1). split; [exact D2|]. split; [exact D4|]. apply (Hreset p x X s0 s1 jj D3 HX Hact D5).
      + exists st4, ts', l'. split; [exact R1|]. split; [intros wfuel; rewrite Step; apply R2|]. split; [exact R3|]. split; [exact R4|]. split; [|exact R6].
        rewrite <- R5, E. reflexivity.
  Qed.
End Reads.
