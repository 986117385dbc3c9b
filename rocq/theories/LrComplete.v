(** LrComplete.v -- completeness of parse: it follows every parse tree of its input. *)
From Verif Require Import Base OrdSet GrammarSpec FirstModel FirstProofs LrModel LrSets LrTable ParseSpec
  LrDriver LrSound LrParse.

(** The type ids of a token never ask for different things. *)
Definition agree {tok} (types : tok -> list N) (g : grammar) (t : table) : Prop :=
  forall s tk X Y a b, In X (types tk) -> In Y (types tk) ->
    action_at g t s X = Ret a -> action_at g t s Y = Ret b -> a <> ABool false -> b <> ABool false -> a = b.

Section ParseComplete.
  Context {tok A : Type}.
  Variables (types : tok -> list N) (eof : tok).
  Variable rule : N -> option (list (value tok A) -> out A).
  Variable resets : N -> bool.
  Variable limit : N.
  Variables (g : grammar) (start : N) (t : table).
  Hypothesis Hwf : wf_grammar g start.
  Hypothesis Htypes : forall tk X, In X (types tk) -> In X (g_terms g).
  Hypothesis Heof : types eof = [TokenEnd].
  Hypothesis Hagree : agree types g t.
  Notation sym := (root_sym (g_prods g)).
  Notation plain := (plain types).
  Notation pending := (pending types).
  Notation ploop := (parse_loop types eof rule resets limit g t).

  (** The first token of [l], or the end, has the type [la]. *)
  Definition hd_la (l : list tok) (la : N) : Prop :=
    match l with [] => la = TokenEnd | tk :: _ => In la (types tk) end.

  Lemma action_false s X a Y : action_at g t s X = Ret a -> In Y (g_terms g) ->
    exists b, action_at g t s Y = Ret b.
  Proof.
    unfold action_at. destruct (row_of t s) as [row|]; [|easy]. intros _ HY.
    pose proof (wg_ids _ _ Hwf Y (or_introl HY)). destruct (N.leb_spec (g_nsym g) Y); [lia|]. eauto.
  Qed.
  Lemma advance_act s ss X a tk st : action_at g t s X = Ret a -> a <> ABool false -> In X (types tk) ->
    d_states st = s :: ss ->
    parse_advance rule resets limit g t (types tk) tk st = parse_symbol rule resets limit g t X tk st.
  Proof.
    intros Ha Hne HX Hs.
    assert (Hsome : forall Z, action_at g t s Z = Ret a -> parse_symbol rule resets limit g t Z tk st =
              parse_symbol rule resets limit g t X tk st).
    { intros Z HZ. unfold parse_symbol. rewrite Hs, HZ, Ha. easy. }
    assert (Hnn : (do res <- parse_symbol rule resets limit g t X tk st;
                   match res with Some x => Ret (Some x) | None => Ret None end)
                  = parse_symbol rule resets limit g t X tk st).
    { destruct (parse_symbol rule resets limit g t X tk st) as [[x|]| | |]; easy. }
    assert (Hnn' : forall r, (do res <- parse_symbol rule resets limit g t X tk st;
                   match res with Some x => Ret (Some x) | None => r end)
                  = parse_symbol rule resets limit g t X tk st).
    { intros r. unfold parse_symbol. rewrite Hs, Ha. cbn [bind].
      destruct a as [[|]|j|p]; try easy. destruct (reduce _ _ _ _ _ _ _ _); easy. }
    assert (G : forall Xs, (forall Z, In Z Xs -> In Z (types tk)) -> In X Xs ->
      parse_advance rule resets limit g t Xs tk st = parse_symbol rule resets limit g t X tk st).
    { induction Xs as [|Z Xs IH]; intros Hsub Hin; [easy|]. cbn [parse_advance].
      destruct (action_false s X a Z Ha) as (b & Hb); [eapply Htypes, Hsub; now left|].
      destruct b as [[|]| |].
      2: { destruct Hin as [-> | Hin]; [congruence|].
           assert (parse_symbol rule resets limit g t Z tk st = Ret None) as ->.
           { unfold parse_symbol. rewrite Hs, Hb. easy. }
           cbn [bind]. apply IH; auto. intros W HW. apply Hsub. now right. }
      all: match type of Hb with _ = Ret ?bb =>
             assert (a = bb) as E by (apply (Hagree s tk X Z a bb); auto; [apply Hsub; now left|easy]) end;
           rewrite (Hsome Z) by congruence; apply Hnn'. }
    apply G; auto.
  Qed.

  (** One iteration of the loop. *)
  Lemma loop_step st inp l tk inp' s ss X a : pending st inp l -> Forall plain l ->
    get_next_symbol eof inp st = (tk, inp', mkD (d_states st) (d_matches st) None (d_alloc st)) ->
    d_states st = s :: ss -> action_at g t s X = Ret a -> a <> ABool false -> In X (types tk) ->
    forall f, ploop (S f) inp st =
      do res <- parse_symbol rule resets limit g t X tk (mkD (d_states st) (d_matches st) None (d_alloc st));
      match res with
      | None => Throw
      | Some (true, st2) => match d_matches st2 with
                            | [] => UB | VTok _ :: _ => Throw | v :: _ => Ret (v, d_alloc st2) end
      | Some (false, st2) => ploop f inp' st2
      end.
  Proof.
    intros Hp Hl Hn Hs Ha Hne HX f. cbn [parse_loop]. rewrite Hn.
    rewrite (advance_act s ss X a tk); auto.
  Qed.
  Lemma next_tok (st : dstate (tok := tok) (A := A)) inp l : pending st inp l -> Forall plain l -> exists tk inp',
    get_next_symbol eof inp st = (tk, inp', mkD (d_states st) (d_matches st) None (d_alloc st)) /\
    ((plain tk /\ l = tk :: inp') \/ (types tk = [TokenEnd] /\ l = [] /\ inp' = [])) /\
    (forall la, hd_la l la -> In la (types tk)).
  Proof.
    intros Hp Hl. destruct (get_next_symbol eof inp st) as [[tk inp'] st'] eqn:E.
    destruct (next_spec types eof Heof _ _ _ _ _ _ Hp Hl E) as [-> Hc].
    exists tk, inp'. split; [easy|]. split; [easy|]. intros la.
    destruct Hc as [[_ ->] | (E0 & -> & _)]; cbn; [easy|]. intros ->. rewrite E0. now left.
  Qed.

  (** ** Following a tree. [has] is an abstraction of the LR(1) items of a state. *)
  Variable has : N -> item -> Prop.
  Hypothesis has_shift : forall i x, has i x -> at_end g x = false ->
    exists j, action_at g t i (next_symbol g x) = Ret (AShift j) /\ has j (advance x).
  Hypothesis has_reduce : forall i x, has i x -> at_end g x = true -> i_prod x <> g_root g ->
    action_at g t i (i_la x) = Ret (AReduce (i_prod x)).
  Hypothesis has_accept : forall i x, has i x -> at_end g x = true -> i_prod x = g_root g ->
    action_at g t i TokenEnd = Ret (ABool true).
  Hypothesis has_closure : forall i x q ts, has i x -> at_end g x = false ->
    In q (prods_of g (next_symbol g x)) ->
    map sym ts = skipn (S (N.to_nat (i_dot x))) (body_at g (i_prod x)) -> Forall (well_formed types g) ts ->
    q <> g_root g /\
    has i (mkItem q 0 (match flat_map yield ts with [] => i_la x | (_, X) :: _ => X end)).

  (** After [n] iterations, of at most [k], the tokens [rest] remain, and the trees with the values [vs]
      (the last one first) lie on the stack. *)
  Definition follows (k : nat) (st : dstate) (inp : list tok) (rest : list tok) (news : list N)
    (vs : list (value tok A)) (slots : N) : Prop :=
    exists n inp' st', (n <= k)%nat /\ (forall f, ploop (n + f) inp st = ploop f inp' st') /\
      d_states st' = news ++ d_states st /\ d_matches st' = vs ++ d_matches st /\
      pending st' inp' rest /\ d_alloc st' <= d_alloc st + slots.

  Definition sim (tr : tree tok) : Prop :=
    forall st inp rest s ss x v, d_states st = s :: ss -> has s x -> at_end g x = false ->
      next_symbol g x = sym tr -> well_formed types g tr ->
      (forall q, In q (prods_of g (sym tr)) -> q <> g_root g /\ exists la, hd_la rest la /\ has s (mkItem q 0 la)) ->
      pending st inp (map fst (yield tr) ++ rest) -> Forall plain (map fst (yield tr) ++ rest) ->
      eval rule tr = Ret v -> d_alloc st + slots tr <= limit ->
      exists j, has j (advance x) /\ follows (size tr) st inp rest [j] [v] (slots tr).

  Lemma skipn_cons {B} d (l : list B) x r : skipn d l = x :: r ->
    skipn (S d) l = r /\ (forall y, nth d l y = x) /\ (d < length l)%nat.
  Proof.
    revert l. induction d as [|d IH]; intros [|y l]; cbn [skipn]; try discriminate.
    - intros [= -> ->]. cbn. split; [easy|]. split; [easy|lia].
    - intros H. destruct (IH l H) as (A1 & A2 & A3). cbn [nth length].
      split; [destruct l; easy|]. split; [easy|lia].
  Qed.
  Notation sum_slots ts := (fold_right (fun x n => slots x + n) 0 ts).
  Notation sum_size ts := (fold_right (fun x n => size x + n)%nat 0%nat ts).

  Lemma sim_forest q la ts : Forall sim ts -> forall st inp rest s ss d vs,
    d_states st = s :: ss -> has s (mkItem q (N.of_nat d) la) ->
    skipn d (body_at g q) = map sym ts -> (d <= length (body_at g q))%nat -> Forall (well_formed types g) ts ->
    hd_la rest la -> pending st inp (map fst (flat_map yield ts) ++ rest) ->
    Forall plain (map fst (flat_map yield ts) ++ rest) -> evals rule ts = Ret vs ->
    d_alloc st + sum_slots ts <= limit ->
    exists top news, has top (mkItem q (N.of_nat (length (body_at g q))) la) /\
      top :: skipn (length ts) (news ++ s :: ss) = top :: s :: ss /\
      (exists r, news ++ s :: ss = top :: r) /\ 
      follows (sum_size ts) st inp rest news (rev vs) (sum_slots ts).
  Proof.
    induction ts as [|x ts IH]; intros Hsim st inp rest s ss d vs Hs Hhas Hb Hd Hwfs Hla Hp Hpl Hev Hal.
    - cbn in *. injection Hev as <-. exists s, []. split; [|split; [easy|split; [now exists ss|]]].
      + replace (length (body_at g q)) with d; [easy|].
        assert (length (skipn d (body_at g q)) = 0%nat) by now rewrite Hb. rewrite skipn_length in H. lia.
      + exists 0%nat, inp, st. cbn. split; [lia|]. split; [easy|]. split; [easy|]. split; [easy|].
        split; [easy|lia].
    - inversion Hsim as [|? ? Hsx Hsts]; subst. inversion Hwfs as [|? ? Hwx Hwts]; subst.
      cbn [map] in Hb. destruct (skipn_cons d _ _ _ Hb) as (Hb' & Hnth & Hlt).
      cbn [flat_map] in Hp, Hpl. rewrite map_app, <- app_assoc in Hp, Hpl.
      cbn [evals] in Hev. apply bind_inv in Hev. destruct Hev as (v & Hv & Hev).
      apply bind_inv in Hev. destruct Hev as (ws & Hws & Hev). injection Hev as <-.
      cbn [fold_right] in Hal |- *.
      assert (Hend : at_end g (mkItem q (N.of_nat d) la) = false).
      { unfold at_end. cbn. apply N.eqb_neq. lia. }
      assert (Hnext : next_symbol g (mkItem q (N.of_nat d) la) = sym x).
      { unfold next_symbol. cbn. rewrite Nnat.Nat2N.id. apply Hnth. }
      destruct (Hsx st inp (map fst (flat_map yield ts) ++ rest) s ss _ v Hs Hhas Hend Hnext Hwx)
        as (j & Hj & n & inp1 & st1 & Hn & Hloop & Hst1 & Hm1 & Hp1 & Ha1); auto; [|lia|].
      { intros p Hin. rewrite <- Hnext in Hin.
        destruct (has_closure s _ p ts Hhas Hend Hin) as [Q1 Q2]; auto.
        - cbn. rewrite Nnat.Nat2N.id. now rewrite <- Hb'.
        - split; [easy|]. cbn [i_la] in Q2. eexists. split; [|exact Q2].
          assert (Hty : forall tk X, In (tk, X) (flat_map yield ts) -> In X (types tk)).
          { intros tk X Hin'. apply in_flat_map in Hin'. destruct Hin' as (y & Hy & Hin').
            rewrite Forall_forall in Hwts. specialize (Hwts y Hy). clear -Hwts Hin'.
            revert Hin'. induction y as [t0 X0 | p0 ts0 IHy] using tree_ind'; inversion Hwts; subst; cbn.
            - intros [[= <- <-] | []]. easy.
            - intros Hin'. apply in_flat_map in Hin'. destruct Hin' as (z & Hz & Hin').
              rewrite Forall_forall in *. eauto. }
          destruct (flat_map yield ts) as [|[tk X] w]; [exact Hla|]. cbn. apply (Hty tk X). now left. }
      assert (Hj' : has j (mkItem q (N.of_nat (S d)) la)).
      { replace (N.of_nat (S d)) with (N.of_nat d + 1) by lia. exact Hj. }
      rewrite Hs in Hst1. cbn [app] in Hst1.
      destruct (IH Hsts st1 inp1 rest j (s :: ss) (S d) ws Hst1 Hj' Hb' ltac:(lia) Hwts Hla Hp1)
        as (top & news & T1 & T2 & T3 & n2 & inp2 & st2 & N2 & L2 & S2 & M2 & P2 & A2); auto.
      { apply Forall_app in Hpl. apply Hpl. } { lia. }
      exists top, (news ++ [j]). split; [exact T1|].
      assert (Eapp : (news ++ [j]) ++ s :: ss = news ++ j :: s :: ss) by now rewrite <- app_assoc.
      rewrite Eapp. split; [|split; [exact T3|]].
      + cbn [length]. f_equal. injection T2 as T2.
        destruct (skipn_cons _ _ _ _ T2) as (T2' & _). exact T2'.
      + exists (n + n2)%nat, inp2, st2. split; [lia|]. split.
        * intros f. rewrite <- Nat.add_assoc, Hloop. apply L2.
        * split; [rewrite S2, Hst1, Hs; now rewrite Eapp|]. split; [|split; [easy|lia]].
          rewrite M2, Hm1. cbn [rev]. now rewrite <- app_assoc.
  Qed.

  Lemma evals_length ts : forall vs, evals rule ts = Ret vs -> length vs = length ts.
  Proof.
    induction ts as [|x ts IH]; intros vs; cbn; [now intros [= <-]|].
    intros H. apply bind_inv in H. destruct H as (v & Hv & H). apply bind_inv in H. destruct H as (ws & Hw & H).
    injection H as <-. cbn. f_equal. auto.
  Qed.

  Lemma sim_all tr : sim tr.
  Proof.
    induction tr as [tk X | q ts IH] using tree_ind'; intros st inp rest s ss x v Hs Hhas Hend Hnext Hw Hq Hp Hpl Hev Hal.
    - cbn [eval] in Hev. injection Hev as <-. cbn [root_sym] in Hnext. cbn [yield map app] in Hp, Hpl.
      destruct (has_shift s x Hhas Hend) as (j & Hact & Hj). exists j. split; [easy|].
      destruct (next_tok st inp _ Hp Hpl) as (tk' & inp' & Hn & Hc & _).
      destruct Hc as [[_ [= <- <-]] | (_ & [=] & _)].
      rewrite Hnext in Hact. assert (HX : In X (types tk)) by (inversion Hw; easy).
      exists 1%nat, rest, (mkD (j :: s :: ss) (VTok tk :: d_matches st) None (d_alloc st)).
      split; [cbn; lia|]. split; [|cbn; rewrite Hs; split; [easy|]; split; [easy|]; split; [now left|lia]].
      intros f. change (1 + f)%nat with (S f).
      rewrite (loop_step st inp _ tk rest s ss X (AShift j) Hp Hpl Hn Hs Hact); [|easy|easy].
      unfold parse_symbol. cbn [d_states d_matches d_next d_alloc]. rewrite Hs, Hact. easy.
    - inversion Hw as [|? ? pr Hpr Hbody Hwts]; subst.
      assert (Hpa : prod_at g q = pr) by (unfold prod_at; now rewrite (nth_error_nth _ _ _ Hpr)).
      assert (Hin : In q (prods_of g (sym (Node q ts)))).
      { apply prods_of_spec. cbn. split; [|easy].
        assert (N.to_nat q < length (g_prods g))%nat by (apply nth_error_Some; congruence). lia. }
      destruct (Hq q Hin) as (Hroot & la & Hla & Hhq). cbn [yield] in Hp, Hpl.
      rewrite eval_node in Hev. apply bind_inv in Hev. destruct Hev as (vs & Hvs & Hrule).
      cbn [slots] in Hal.
      assert (Hb : body_at g q = map sym ts) by (unfold body_at; rewrite Hpa; easy).
      assert (Hlen : length (body_at g q) = length ts) by (rewrite Hb; apply map_length).
      destruct (sim_forest q la ts IH st inp rest s ss 0%nat vs Hs Hhq)
        as (top & news & T1 & T2 & (r & T3) & n & inp1 & st1 & Hn & L1 & S1 & M1 & P1 & A1); auto; [lia|lia|].
      destruct (has_shift s x Hhas Hend) as (j & Hact & Hj). exists j. split; [easy|].
      rewrite Hs in S1. rewrite T3 in S1.
      assert (Hplr : Forall plain rest) by (apply Forall_app in Hpl; apply Hpl).
      destruct (next_tok st1 inp1 rest P1 Hplr) as (tk & inp2 & Hnx & Hc & Hty).
      assert (Hred : action_at g t top la = Ret (AReduce q)).
      { apply (has_reduce top (mkItem q (N.of_nat (length (body_at g q))) la)); auto.
        unfold at_end. cbn. apply N.eqb_refl. }
      (* the reduction *)
      set (st0 := mkD (d_states st1) (d_matches st1) None (d_alloc st1)).
      set (next := d_alloc st1 + N.of_nat (length ts)).
      set (next' := if resets q && (limit / 2 <? next) then 0 else next).
      assert (Hr : reduce rule resets limit g t q tk st0 =
                   Ret (mkD (j :: s :: ss) (v :: d_matches st) (Some tk) next')).
      { unfold reduce. cbn [d_states d_matches d_alloc st0]. rewrite Hlen. fold next.
        assert (E1 : (0 <? N.of_nat (length ts)) && (limit <? next) = false).
        { apply andb_false_intro2. apply N.ltb_ge. unfold next. lia. }
        rewrite E1. rewrite M1. pose proof (evals_length _ _ Hvs) as Lv.
        assert (E2 : Nat.ltb (length (rev vs ++ d_matches st)) (length ts) = false).
        { apply Nat.ltb_ge. rewrite app_length, rev_length. lia. }
        rewrite E2. rewrite <- Lv, <- (rev_length vs), firstn_app, Nat.sub_diag, firstn_all, firstn_O, app_nil_r,
          skipn_app, Nat.sub_diag, skipn_all, skipn_O, rev_involutive, rev_length. cbn [app].
        rewrite Lv. injection T2 as T2. rewrite S1, <- T3, T2. cbn [bind].
        rewrite Hnext in Hact. cbn [root_sym] in Hact.
        unfold apply_rule in Hrule. destruct (rule q) as [f|].
        - apply bind_inv in Hrule. destruct Hrule as (a & Ea & Hrule). injection Hrule as <-.
          rewrite Ea. cbn [bind]. unfold prod_at. rewrite Hact. cbn [bind]. easy.
        - injection Hrule as <-. cbn [bind]. unfold prod_at. rewrite Hact. cbn [bind]. easy. }
      exists (n + 1)%nat, inp2, (mkD (j :: s :: ss) (v :: d_matches st) (Some tk) next').
      split; [cbn [size]; lia|]. split; [|split; [cbn; now rewrite Hs|split; [easy|split]]].
      + intros f. rewrite <- Nat.add_assoc, L1. change (1 + f)%nat with (S f).
        rewrite (loop_step st1 inp1 rest tk inp2 top r la (AReduce q) P1 Hplr Hnx S1 Hred); [|easy|now apply Hty].
        unfold parse_symbol. cbn [d_states]. rewrite S1, Hred. cbn [bind]. rewrite <- S1. fold st0.
        rewrite Hr. easy.
      + destruct Hc as [[Hpt ->] | (Et & -> & ->)].
        * right. left. now exists tk.
        * right. right. now exists tk.
      + cbn [d_alloc slots]. unfold next', next. destruct (_ && _); lia.
  Qed.

  Theorem parse_complete tr v alloc fuel : has 0 (mkItem (g_root g) 0 TokenEnd) ->
    well_formed types g tr -> sym tr = start ->
    Forall plain (map fst (yield tr)) -> eval rule tr = Ret v ->
    alloc + slots tr <= limit -> (size tr < fuel)%nat ->
    exists al, parse types eof rule resets limit g t fuel (Some 0) (map fst (yield tr)) alloc = Ret (v, al) /\
      al <= alloc + slots tr.
  Proof.
    intros Hr Hw Hstart Hpl Hev Hal Hfuel. unfold parse.
    set (st := mkD [0] [] None alloc). set (inp := map fst (yield tr)) in *.
    assert (Hroot : exists h, prod_at g (g_root g) = mkProd h [start]).
    { destruct (wg_root _ _ Hwf) as (h & H & _). exists h. unfold prod_at. now rewrite (nth_error_nth _ _ _ H). }
    destruct Hroot as (h & Eh).
    assert (Hend : at_end g (mkItem (g_root g) 0 TokenEnd) = false).
    { unfold at_end, body_at. cbn [i_prod i_dot]. rewrite Eh. easy. }
    assert (Hnext : next_symbol g (mkItem (g_root g) 0 TokenEnd) = sym tr).
    { unfold next_symbol, body_at. cbn [i_prod i_dot]. rewrite Eh. now rewrite Hstart. }
    destruct (sim_all tr st inp [] 0 [] _ v eq_refl Hr Hend Hnext Hw) as (j & Hj & n & inp1 & st1 & Hn & L1 & S1 & M1 & P1 & A1); auto.
    - intros q Hq. rewrite <- Hnext in Hq.
      destruct (has_closure 0 _ q [] Hr Hend Hq) as [Q1 Q2]; [|constructor|].
      + unfold body_at. cbn [i_prod i_dot]. rewrite Eh. easy.
      + split; [easy|]. exists TokenEnd. split; [easy|exact Q2].
    - rewrite app_nil_r. now left.
    - now rewrite app_nil_r.
    - exists (d_alloc st1). split; [|exact A1].
      replace fuel with (n + S (fuel - n - 1))%nat by lia. rewrite L1.
      destruct (next_tok st1 inp1 [] P1 ltac:(constructor)) as (tk & inp2 & Hnx & Hc & Hty).
      assert (Hacc : action_at g t j TokenEnd = Ret (ABool true)).
      { apply (has_accept j _ Hj); [|easy]. unfold at_end, body_at, advance. cbn [i_prod i_dot]. now rewrite Eh. }
      cbn [d_states st app] in S1.
      rewrite (loop_step st1 inp1 [] tk inp2 j [0] TokenEnd (ABool true) P1 ltac:(constructor) Hnx S1 Hacc);
        [|easy|now apply Hty].
      unfold parse_symbol. cbn [d_states]. rewrite S1, Hacc. cbn [bind d_matches d_alloc]. rewrite M1.
      cbn [st d_matches app].
      assert (Hv : exists p b, v = VNt p b).
      { destruct tr as [tk0 X | p ts].
        - exfalso. cbn in Hstart. subst X. inversion Hw; subst.
          eapply (wg_sep _ _ Hwf start); [apply (wg_start _ _ Hwf)|easy].
        - rewrite eval_node in Hev. apply bind_inv in Hev. destruct Hev as (vs & _ & Hev).
          unfold apply_rule in Hev. destruct (rule p).
          + apply bind_inv in Hev. destruct Hev as (b & _ & Hev). injection Hev as <-. eauto.
          + injection Hev as <-. eauto. }
      destruct Hv as (p & b & ->). easy.
  Qed.
End ParseComplete.
