(** FileParse.v -- the parser reading a file of any length through the ring buffer does what it does on the tokens of the text. *)
From Verif Require Import Base LexerModel LexerSpec LogParserModel LexerProofs RingModel RingSpec RingProofs ViewModel ViewSim ReaderProofs
  OrdSet GrammarSpec FirstModel LrModel LrSets LrTable ParseSpec LrDriver LrSound LrParse LrRoom SchemaModel SchemaGrammar SchemaTable
  SchemaSyntax SchemaLexer SchemaSplit FileModel FileLex.

(** ** Tokens whose text can be read, whatever it is by now. *)
Definition tok_safe (tk : token) : Prop :=
  t_sid tk = Static /\ t_bufsz tk = cStaticByteBuffSize /\ t_start tk <= cStaticByteBuffSize /\ t_end tk <= cStaticByteBuffSize.
Lemma read_some m k : forall p, (forall i, p <= i -> i < p + N.of_nat k -> exists x : N, m i = Some x) -> exists w, read_range m p k = Ret w.
Proof.
  induction k as [|k IH]; intros p H; cbn [read_range]; [eauto|]. destruct (H p ltac:(lia) ltac:(lia)) as (x & ->).
  destruct (IH (p + 1)) as (w & ->); [|cbn [bind]; eauto]. intros i H1 H2. apply H; lia.
Qed.
Lemma safe_text b tk : readable b -> tok_safe tk -> exists w, tok_text (ib_heap b) tk = Ret w.
Proof.
  intros [R1 R2 R3] (T1 & T2 & T3 & T4). unfold tok_text. rewrite T1, T2. change cStaticByteBuffSize with 48000 in *.
  destruct (N.leb_spec (t_start tk) (t_end tk)) as [H|H].
  - apply read_some. intros i H1 H2. apply R3. lia.
  - destruct (read_some (ib_heap b Static) (N.to_nat (48000 - t_start tk)) (t_start tk)) as (w & ->); [intros i H1 H2; apply R3; lia|].
    destruct (read_some (ib_heap b Static) (N.to_nat (t_end tk)) 0) as (w' & ->); [intros i H1 H2; apply R3; lia|]. cbn [bind]. eauto.
Qed.

Lemma Forall2_len {X Y} (R : X -> Y -> Prop) us vs : Forall2 R us vs -> length us = length vs.
Proof. induction 1; cbn; congruence. Qed.
Section Simulation.
  Context {A : Type}.
  Variable rule : N -> option (list (value stok A) -> out A).
  Variables (resets : N -> bool) (limit : N).
  Variables (cfuel : nat) (g : grammar) (start : N) (t : table) (sets : list (list item * N)).
  Hypothesis Hwf : wf_grammar g start.
  Hypothesis Ha : automaton cfuel g sets.
  Hypothesis Ht : table_ok cfuel g sets t.
  Variables (c : lexcfg) (log : list N).
  Hypothesis Hok : lexer_ok c.
  Hypothesis Hsh : shallow c.
  Hypothesis Hbytes : Forall (fun b => b < 256) log.
  Hypothesis Hmod : len log mod cStaticByteBuffSize <> 0.
  Notation types := (lexer_types c).
  Hypothesis Htypes : forall tk X, In X (types tk) -> In X (g_terms g).
  Notation phi := (rphi 0 cStaticByteBuffSize).
  Notation n := (len log).

  (** A semantic rule looks at the text of no child but the last. *)
  Definition weak (u v : value stok A) : Prop :=
    match u, v with
    | VTok (STok _), VTok (STok _) => True
    | VNt p a, VNt q b => p = q /\ a = b
    | _, _ => False
    end.
  Hypothesis Hlast : forall p f us vs u, rule p = Some f -> S (length us) = length (body_at g p) -> Forall2 weak us vs ->
    f (us ++ [u]) = f (vs ++ [u]).
  Definition ruled (p : N) : bool := match rule p with Some _ => true | None => false end.
  Variable whole : list stok.
  Hypothesis Hfresh : forall ss (ts : list (tree stok)) l, linked types g t ss ts -> whole = consumed ts ++ l -> 10 * fresh_all ruled ts <= 20000.
  Variable chunk : nat -> N.
  Hypothesis Hfills : fills chunk log.
  Notation good := (good types rule cfuel g sets).
  Notation fstate := (LrDriver.dstate (tok := token) (A := A)).
  Notation sstate := (LrDriver.dstate (tok := stok) (A := A)).

  (** *** One step keeps the links. *)
  Lemma linked_length ss ts : linked types g t ss ts -> length ss = S (length ts).
  Proof. induction 1; cbn in *; lia. Qed.
  Lemma linked_drop k : forall ss ts, linked types g t ss ts -> (k <= length ts)%nat -> linked types g t (skipn k ss) (skipn k ts).
  Proof.
    induction k as [|k IH]; intros ss ts H Hn; [exact H|]. destruct H as [|s ss ts tr j H]; [cbn in Hn; lia|].
    cbn [skipn]. apply IH; [exact H|cbn in Hn; lia].
  Qed.
  Lemma symbol_linked X tk (st st2 : sstate) ts : good st ts -> linked types g t (d_states st) ts -> d_next st = None -> In X (types tk) ->
    parse_symbol rule resets limit g t X tk st = Ret (Some (false, st2)) ->
    exists ts', good st2 ts' /\ linked types g t (d_states st2) ts' /\
      ((ts' = Leaf tk X :: ts /\ X <> TokenEnd /\ d_next st2 = None /\ consumed ts' = consumed ts ++ [tk]) \/
       (consumed ts' = consumed ts /\ d_next st2 = Some tk /\ exists s ss p, d_states st = s :: ss /\
          action_at g t s X = Ret (AReduce p) /\
          ts' = Node p (rev (firstn (length (body_at g p)) ts)) :: skipn (length (body_at g p)) ts)).
  Proof.
    intros Hg Hl Hn HX Hsym.
    pose proof (symbol_spec types rule resets limit cfuel g start t sets Hwf Ha Ht Htypes X tk st ts false st2 Hg Hn HX Hsym) as Sp.
    destruct Sp as [(Q & _) | [(_ & Hne & Hn2 & Hal & Hg2 & E) | (_ & Hn2 & p & s & ss & s' & ss' & j & Hg2 & E & Hpl & Hpr & Hbody & Hal & Es & Hact & Es2 & Hgo)]]; [easy| |].
    - exists (Leaf tk X :: ts). split; [exact Hg2|]. split; [|left; auto].
      unfold parse_symbol in Hsym. destruct (d_states st) as [|s ss] eqn:Es; [easy|].
      apply bind_inv in Hsym. destruct Hsym as (act & Hact & Hsym). destruct act as [[|]|j|p]; try discriminate Hsym.
      + injection Hsym as <-. cbn [d_states]. constructor; [exact Hl|exact Hact|]. constructor; [exact HX|]. eapply Htypes, HX.
      + apply bind_inv in Hsym. destruct Hsym as (st' & Hred & [= ->]). exfalso. unfold reduce in Hred. destruct (_ && _); [easy|].
        destruct (Nat.ltb _ _); [easy|]. apply bind_inv in Hred. destruct Hred as (ast & _ & Hred). destruct (skipn _ (d_states st)); [easy|].
        apply bind_inv in Hred. destruct Hred as (a2 & _ & Hred). destruct a2; try easy. injection Hred as <-. now cbn in Hn2.
    - exists (Node p (rev (firstn (length (body_at g p)) ts)) :: skipn (length (body_at g p)) ts). split; [exact Hg2|].
      assert (Hlen : (length (body_at g p) <= length ts)%nat).
      { rewrite <- Hbody, map_length, rev_length, firstn_length. lia. }
      split; [|right; split; [exact E|]; split; [exact Hn2|]; exists s, ss, p; auto].
      pose proof (linked_drop (length (body_at g p)) _ _ Hl Hlen) as Hl2.
      assert (Hwn : well_formed types g (Node p (rev (firstn (length (body_at g p)) ts)))).
      { destruct Hg2 as [Hs2 _]. clear -Hs2. inversion Hs2; assumption. }
      unfold parse_symbol in Hsym. rewrite Es in Hsym. apply bind_inv in Hsym. destruct Hsym as (act & Hact2 & Hsym).
      rewrite Hact in Hact2. injection Hact2 as <-. apply bind_inv in Hsym. destruct Hsym as (st' & Hred & [= ->]).
      unfold reduce in Hred. destruct (_ && _); [easy|]. destruct (Nat.ltb _ _); [easy|].
      apply bind_inv in Hred. destruct Hred as (ast & _ & Hred).
      destruct (skipn (length (body_at g p)) (d_states st)) as [|s1 ss1] eqn:Esk; [easy|].
      apply bind_inv in Hred. destruct Hred as (a2 & Ha2 & Hred). destruct a2 as [?|j2|?]; try easy. injection Hred as <-.
      cbn [d_states] in *. injection Es2 as -> -> ->. constructor; [exact Hl2|exact Hgo|exact Hwn].
  Qed.
  Lemma fresh_cat (a b : list (tree stok)) : fresh_all ruled (a ++ b) = fresh_all ruled a + fresh_all ruled b.
  Proof. induction a as [|x a IH]; cbn; [reflexivity|]. fold (fresh_all ruled a) (fresh_all ruled (a ++ b)). rewrite IH. lia. Qed.
  Lemma fresh_turn (a : list (tree stok)) : fresh_all ruled (rev a) = fresh_all ruled a.
  Proof. induction a as [|x a IH]; [reflexivity|]. cbn [rev]. rewrite fresh_cat, IH. unfold fresh_all. cbn [fold_right]. lia. Qed.
  Lemma fresh_node p k (ts : list (tree stok)) :
    fresh_all ruled (Node p (rev (firstn k ts)) :: skipn k ts) = if ruled p then fresh_all ruled (skipn k ts) else fresh_all ruled ts.
  Proof.
    unfold fresh_all. cbn [fold_right fresh]. destruct (ruled p); [lia|]. fold (fresh_all ruled (rev (firstn k ts))) (fresh_all ruled (skipn k ts)).
    rewrite <- (firstn_skipn k ts) at 3. fold (fresh_all ruled (firstn k ts ++ skipn k ts)).
    rewrite fresh_cat, fresh_turn. reflexivity.
  Qed.

  (** *** Corresponding values. *)
  Definition vrel (u : value token A) (v : value stok A) : Prop :=
    match u, v with
    | VTok tk, VTok (STok _) => tok_safe tk
    | VNt p a, VNt q b => p = q /\ a = b
    | _, _ => False
    end.
  Definition exact_top (h : heap) (us : list (value token A)) (vs : list (value stok A)) : Prop :=
    match us, vs with u :: _, v :: _ => see h u = v | _, _ => True end.
  Lemma see_weak b u v : readable b -> vrel u v -> weak (see (ib_heap b) u) v.
  Proof.
    intros Hr H. destruct u as [tk|p a], v as [[|w]|q a']; cbn in *; try contradiction; auto.
    destruct (safe_text b tk Hr H) as (x & ->). exact Logic.I.
  Qed.
  Lemma rule_same b p us vs f : readable b -> rule p = Some f -> length us = length (body_at g p) -> Forall2 vrel us vs ->
    exact_top (ib_heap b) us vs -> f (map (see (ib_heap b)) (rev us)) = f (rev vs).
  Proof.
    intros Hr Hf Hlen H Ht'. destruct H as [|u v us vs Huv H]; [reflexivity|]. cbn [rev]. rewrite map_app. cbn [map]. cbn in Ht'. rewrite Ht'.
    apply (Hlast p); [exact Hf|rewrite map_length, rev_length; exact Hlen|].
    assert (G : Forall2 weak (map (see (ib_heap b)) us) vs).
    { clear -H Hr. induction H as [|x y xs ys Hxy H IH]; constructor; [now apply see_weak|exact IH]. }
    rewrite map_rev. clear -G. induction G as [|x y xs ys Hxy G IH]; cbn [rev]; [constructor|]. apply Forall2_app; [exact IH|]. repeat constructor. exact Hxy.
  Qed.
  Lemma Forall2_cut {X Y} (R : X -> Y -> Prop) k : forall us vs, Forall2 R us vs -> Forall2 R (firstn k us) (firstn k vs) /\ Forall2 R (skipn k us) (skipn k vs).
  Proof. induction k as [|k IH]; intros us vs H; [split; [constructor|exact H]|]. destruct H as [|x y us vs H1 H2]; [split; constructor|]. destruct (IH _ _ H2). split; [now constructor|assumption]. Qed.

  (** Corresponding results of a reduction. *)
  Definition red_rel (tk : token) (tk' : stok) (ms : list (value token A)) (ms' : list (value stok A)) (k : nat) (x : out fstate) (y : out sstate) : Prop :=
    match x, y with
    | Ret st, Ret st' => d_states st = d_states st' /\ d_alloc st = d_alloc st' /\ d_next st = Some tk /\ d_next st' = Some tk' /\
        exists p a, d_matches st = VNt p a :: skipn k ms /\ d_matches st' = VNt p a :: skipn k ms'
    | UB, UB => True | Throw, Throw => True | OutOfFuel, OutOfFuel => True
    | _, _ => False
    end.
  Lemma reduce_sim b p tk tk' (st : fstate) (st' : sstate) : readable b -> d_states st = d_states st' -> d_alloc st = d_alloc st' ->
    Forall2 vrel (d_matches st) (d_matches st') -> (ruled p = true -> exact_top (ib_heap b) (d_matches st) (d_matches st')) ->
    red_rel tk tk' (d_matches st) (d_matches st') (length (body_at g p))
      (reduce (file_rule rule (ib_heap b)) resets limit g t p tk st) (reduce rule resets limit g t p tk' st').
  Proof.
    intros Hr E1 E2 Hv Htop. unfold reduce. rewrite E1, E2, (Forall2_len _ _ _ Hv).
    destruct (_ && _); [exact Logic.I|]. destruct (Nat.ltb_spec (length (d_matches st')) (length (body_at g p))) as [Hlt|Hlt]; [exact Logic.I|].
    destruct (Forall2_cut _ (length (body_at g p)) _ _ Hv) as [Hv1 _].
    assert (G : match file_rule rule (ib_heap b) p with None => Ret None | Some f => do a <- f (rev (firstn (length (body_at g p)) (d_matches st))); Ret (Some a) end
              = match rule p with None => Ret None | Some f => do a <- f (rev (firstn (length (body_at g p)) (d_matches st'))); Ret (Some a) end).
    { unfold file_rule. destruct (rule p) as [f|] eqn:Ef; [|reflexivity]. rewrite (rule_same b p _ (firstn (length (body_at g p)) (d_matches st')) f Hr Ef); auto.
      - rewrite firstn_length, (Forall2_len _ _ _ Hv). lia.
      - assert (Hru : ruled p = true) by (unfold ruled; now rewrite Ef). specialize (Htop Hru). destruct Hv; [rewrite !firstn_nil; exact Logic.I|].
        destruct (length (body_at g p)); [exact Logic.I|exact Htop]. }
    rewrite G. destruct (match rule p with None => _ | Some f => _ end) as [ast| | |]; cbn [bind red_rel]; try exact Logic.I.
    destruct (skipn (length (body_at g p)) (d_states st')) as [|s ss]; [exact Logic.I|].
    destruct (action_at g t s _) as [[?|j|?]| | |]; cbn [bind red_rel]; try exact Logic.I. cbn. repeat (split; [reflexivity|]). exists p, ast. auto.
  Qed.

  (** *** The buffer. *)
  Record held (b : ibuf) (r : reader) (at_ used : N) : Prop := {
    he_ring : exists F R, rinv log (mkRing b r at_ used false) (cStaticByteBuffSize / 2) F R 0 /\ (ib_fin b = true -> R = n);
    he_read : readable b;
    he_near : near phi cStaticByteBuffSize (ib_cons b) used;
    he_cons : ib_cons b <> phi used }.
  Lemma held_used b r at_ used : held b r at_ used -> used <= at_ <= n.
  Proof. intros [(F & R & I & _) _ _ _]. pose proof (ri_ua _ _ _ _ _ _ I). pose proof (ri_ar _ _ _ _ _ _ I). pose proof (ri_len _ _ _ _ _ _ I). cbn in *. unfold len. lia. Qed.
  Lemma held_view b r at_ used : held b r at_ used -> exists hi e1, view log b phi used hi e1 /\ at_ <= hi.
  Proof.
    intros [(F & R & I & _) [R1 R2 R3] _ _]. exists R, (ib_fin b && (phi R =? ib_last b)). pose proof (ri_ar _ _ _ _ _ _ I) as Ar. cbn in Ar.
    split; [|exact Ar]. pose proof (ring_view _ _ _ _ _ _ I) as V. cbn [h_buf h_used] in V. rewrite R1, R2 in V. now apply V.
  Qed.
  Lemma held_pos b r at_ used : held b r at_ used -> ib_pos b = phi at_.
  Proof. intros [(F & R & I & _) [R1 R2 R3] _ _]. pose proof (ri_pos _ _ _ _ _ _ I) as P. cbn in P. rewrite R1 in P. exact P. Qed.
  Lemma cur_cons b p f : ib_set_cons (cur b p f) (ib_cons b) = cur b p f.
  Proof. destruct b. reflexivity. Qed.
  Lemma cur_readable b p f : readable b -> readable (cur b p f).
  Proof. intros [R1 R2 R3]. constructor; assumption. Qed.
  (** The parser tells the buffer that everything before the lookahead can be dropped. *)
  Lemma held_consume b r at_ used S tk : held b r at_ used -> used <= S -> S <= at_ -> t_start tk = phi S -> held (consume tk b) r at_ S.
  Proof.
    intros He H1 H2 H3. pose proof (held_pos _ _ _ _ He) as Hp. destruct He as [(F & R & I & Hf) Hr Hn Hc]. pose proof Hr as [R1 R2 R3].
    unfold consume. rewrite H3, R1.
    assert (Hl : phi S < cStaticByteBuffSize) by (apply N.mod_lt; discriminate).
    set (k := if phi S =? 0 then cStaticByteBuffSize - 1 else phi S - 1).
    assert (Hk : near phi cStaticByteBuffSize k S /\ k <> phi S).
    { unfold near, k. destruct (N.eqb_spec (phi S) 0) as [E|E]; [rewrite E; split; [auto|discriminate]|lia]. }
    constructor.
    - exists F, R. split; [|exact Hf].
      pose proof (rinv_set _ _ _ _ _ _ I at_ S (ib_full b) k) as Q. cbn [h_buf h_used h_rd] in Q. rewrite R1 in Q.
      rewrite <- Hp, cur_self in Q. apply Q; [exact H1|exact H2|exact (ri_ar _ _ _ _ _ _ I)|apply Hk|].
      intros E. destruct (ri_full _ _ _ _ _ _ I E) as (Q1 & Q2 & Q3). cbn [h_buf h_at] in Q1, Q2, Q3. subst R. rewrite <- Hp. auto.
    - constructor; assumption.
    - apply Hk.
    - apply Hk.
  Qed.
  (** The parser reads if it can, and asks the lexer for a token. *)
  Lemma held_next fuel b r S used l ws : held b r S used -> ib_full b = false -> ready log phi S l -> S <= used + 20000 ->
    splits (skipn (N.to_nat S) log) ws -> n + 1 <= N.of_nat fuel ->
    let (b1, r1) := read_if_safe chunk b r in
    (exists e tk l' w ws', ws = w :: ws' /\ scan fuel c l b1 = Ret (Some tk, l', cur b1 (phi e) false) /\
       held (cur b1 (phi e) false) r1 e used /\ S < e <= S + 10 /\ w = sub log S e /\ tok_at Static cStaticByteBuffSize phi S e tk /\
       t_ids tk = Some (types (STok w)) /\ ready log phi e l' /\ splits (skipn (N.to_nat e) log) ws') \/
    (ws = [] /\ S = n /\ exists tk l' f, scan fuel c l b1 = Ret (Some tk, l', cur b1 (phi S) f) /\
       held (cur b1 (phi S) f) r1 S used /\ t_ids tk = Some [TokenEnd] /\ tok_at Static cStaticByteBuffSize phi S S tk).
  Proof.
    intros He Hfull Hl HS Hs Hfu. pose proof (held_pos _ _ _ _ He) as Hp. destruct He as [(F & R & I & Hf) Hr Hn Hc].
    destruct (read_ok chunk log Hfills _ F R I Hr Hf) as (F' & R' & K). cbn [h_buf h_rd h_at h_used] in K.
    pose proof (read_wide chunk log _ F R I Hr Hn ltac:(intros Q; elim (Hc Q)) Hmod F' R') as W. cbn [h_buf h_rd h_at h_used] in W.
    destruct (read_if_safe chunk b r) as (b1 & r1). cbn [fst] in W.
    destruct K as (I' & Hr' & Hf' & K1 & K2 & _ & K4 & K5 & _ & K7). specialize (W r1 I' Hf' Hf K7).
    pose proof Hr' as [R1 R2 R3]. pose proof (ring_view _ _ _ _ _ _ I') as V. cbn [h_buf h_used] in V. rewrite R1, R2 in V. specialize (V R3).
    change (ib_fin b1 && (phi R' =? ib_last b1)) with (eof b1 R') in V.
    pose proof (ri_ua _ _ _ _ _ _ I') as Ua. pose proof (ri_ar _ _ _ _ _ _ I') as Ar. pose proof (ri_len _ _ _ _ _ _ I') as Len.
    change (N.of_nat (length log)) with n in Len. cbn [h_used h_at] in Ua, Ar.
    assert (Heof : eof b1 R' = true -> R' = n) by (intros Q; unfold eof in Q; apply andb_true_iff in Q as [Q _]; exact (Hf' Q)).
    assert (Eb : b1 = cur b1 (phi S) false) by (rewrite <- Hp, <- K2, <- Hfull, <- K1; symmetry; apply cur_self).
    assert (Move : forall a f, used <= a -> a <= R' -> (f = true -> a = R' /\ eof b1 R' = true) -> held (cur b1 (phi a) f) r1 a used).
    { intros a f G1 G2 G3. constructor; [|now apply cur_readable|change (ib_cons (cur b1 (phi a) f)) with (ib_cons b1); rewrite K5; exact Hn|
        change (ib_cons (cur b1 (phi a) f)) with (ib_cons b1); rewrite K5; exact Hc].
      exists F', R'. split; [|exact Hf']. pose proof (rinv_set _ _ _ _ _ _ I' a used f (ib_cons b1)) as Q. cbn [h_buf h_used h_rd] in Q.
      rewrite R1, cur_cons in Q. apply Q; [lia|exact G1|exact G2|rewrite K5; exact Hn|]. intros E. destruct (G3 E) as [-> Q1]. unfold eof in Q1.
      apply andb_true_iff in Q1 as [Q1 Q2]. apply N.eqb_eq in Q2. auto. }
    destruct (window_scan c log Hok Hsh Hbytes b1 phi used R' (eof b1 R') V ltac:(lia) Len Heof fuel S l Ua Ar
                ltac:(destruct W as [W|W]; [left; exact W|right; lia]) Hl Hfu) as [(H1 & e & tk & l' & E & B1 & B2 & B3 & B4 & B5 & B6) | (H1 & tk & l' & f & E & B1 & B2 & B3)].
    - left. destruct (next_token c log Hok S e ws ltac:(lia) B2 B3 Hs) as (ws' & -> & Hs' & Hle & Hty).
      exists e, tk, l', (sub log S e), ws'. split; [reflexivity|]. split; [rewrite Eb at 1; exact E|]. split; [apply Move; [lia|lia|discriminate]|].
      split; [lia|]. split; [reflexivity|]. rewrite R1, R2 in B4. split; [exact B4|]. split; [rewrite <- Hty; exact B5|]. auto.
    - right. split.
      + rewrite H1, skipn_all2 in Hs by (unfold len; lia). inversion Hs; reflexivity.
      + split; [exact H1|]. exists tk, l', f. split; [rewrite Eb at 1; exact E|]. split; [apply Move; auto|]. rewrite R1, R2 in B3. auto.
  Qed.

  (** *** Corresponding states. *)
  (** The text of the token on top of the stack is still in the buffer; it ends where the lookahead starts. *)
  Definition sees (used S : N) (us : list (value token A)) (vs : list (value stok A)) : Prop :=
    match us, vs with
    | VTok tk :: _, VTok (STok w) :: _ => exists p, used <= p /\ tok_at Static cStaticByteBuffSize phi p S tk /\ w = sub log p S
    | _, _ => True
    end.
  Lemma sees_exact b r at_ used S us vs : held b r at_ used -> S <= at_ -> Forall2 vrel us vs -> sees used S us vs -> exact_top (ib_heap b) us vs.
  Proof.
    intros He HS Hv Hs. destruct (held_view _ _ _ _ He) as (hi & e1 & V & Hhi). destruct (he_read _ _ _ _ He) as [R1 R2 R3].
    destruct Hv as [|u v us vs Huv Hv]; [exact Logic.I|]. cbn [exact_top]. destruct u as [tk|q a], v as [[|w]|q' a']; cbn in Huv; try contradiction.
    - cbn [sees] in Hs. destruct Hs as (p & P1 & P2 & ->). cbn [see].
      assert (P3 : tok_at (ib_active b) (ib_size b) phi p S tk) by (rewrite R1, R2; exact P2).
      rewrite (tok_at_text _ _ _ _ _ _ _ _ _ V P1 (N.le_trans _ _ _ HS Hhi) P3). reflexivity.
    - destruct Huv as [-> ->]. reflexivity.
  Qed.
  Lemma at_safe s e tk : tok_at Static cStaticByteBuffSize phi s e tk -> tok_safe tk.
  Proof.
    intros [T1 T2 T3 T4 T5]. assert (Hl : forall a, phi a < cStaticByteBuffSize) by (intros a; apply N.mod_lt; discriminate).
    pose proof (Hl s). pose proof (Hl e). repeat split; auto; [lia|]. destruct T3 as [-> | [-> _]]; lia.
  Qed.
  Inductive look (tk : token) (tk' : stok) (S e : N) (l : lex) (b : ibuf) (inp : list stok) : Prop :=
  | look_tok : forall w ws, tk' = STok w -> S < e <= S + 10 -> w = sub log S e -> t_ids tk = Some (types tk') -> ready log phi e l ->
      ib_full b = false -> inp = map STok ws -> splits (skipn (N.to_nat e) log) ws -> look tk tk' S e l b inp
  | look_end : tk' = SEof -> S = n -> e = n -> t_ids tk = Some [TokenEnd] -> inp = [] -> look tk tk' S e l b inp.
  Definition txt (tk : stok) : list stok := match tk with SEof => [] | _ => [tk] end.
  Record common (st : fstate) (b : ibuf) (r : reader) (st' : sstate) (ts : list (tree stok)) (used S e : N) : Prop := {
    cm_states : d_states st = d_states st';
    cm_alloc : d_alloc st = d_alloc st';
    cm_vals : Forall2 vrel (d_matches st) (d_matches st');
    cm_good : good st' ts;
    cm_links : linked types g t (d_states st') ts;
    cm_held : held b r e used;
    cm_le : used <= S <= e;
    cm_near : S <= used + 10 * fresh_all ruled ts;
    cm_top : sees used S (d_matches st) (d_matches st') }.
  (** Between two iterations of the loop. *)
  Definition inv (st : fstate) (l : lex) (b : ibuf) (r : reader) (inp : list stok) (st' : sstate) : Prop :=
    exists ts used S e, common st b r st' ts used S e /\
      ((d_next st = None /\ d_next st' = None /\ e = S /\ ready log phi S l /\ ib_full b = false /\ whole = consumed ts ++ inp /\
          exists ws, inp = map STok ws /\ splits (skipn (N.to_nat S) log) ws) \/
       (exists tk tk', d_next st = Some tk /\ d_next st' = Some tk' /\ tok_at Static cStaticByteBuffSize phi S e tk /\
          look tk tk' S e l b inp /\ whole = consumed ts ++ txt tk' ++ inp)).
  Definition adv_rel (l : lex) (r : reader) (inp : list stok) (st : fstate) (st' : sstate)
    (x : out (option (bool * fstate * ibuf))) (y : out (option (bool * sstate))) : Prop :=
    match x, y with
    | Ret None, Ret None => True
    | Ret (Some (true, s2, _)), Ret (Some (true, s2')) => s2 = st /\ s2' = st'
    | Ret (Some (false, s2, b2)), Ret (Some (false, s2')) => inv s2 l b2 r inp s2'
    | UB, UB => True | Throw, Throw => True | OutOfFuel, OutOfFuel => True
    | _, _ => False
    end.
  Lemma consume_full tk b : ib_full (consume tk b) = ib_full b.
  Proof. reflexivity. Qed.
  Lemma symbol_sim X tk tk' (st : fstate) (st' : sstate) l b r inp ts used S e : common st b r st' ts used S e -> d_next st = None -> d_next st' = None ->
    tok_at Static cStaticByteBuffSize phi S e tk -> look tk tk' S e l b inp -> whole = consumed ts ++ txt tk' ++ inp -> In X (types tk') ->
    adv_rel l r inp st st' (file_symbol rule resets limit g t X tk st b) (parse_symbol rule resets limit g t X tk' st').
  Proof.
    intros Cm N1 N2 Hta Hlook Hwh HX. destruct Cm as [C1 C2 C3 C4 C5 C6 C7 C8 C9].
    pose proof (fun st2 => symbol_linked X tk' st' st2 ts C4 C5 N2 HX) as Sl.
    unfold parse_symbol in Sl |- *. unfold file_symbol. rewrite C1. destruct (d_states st') as [|s ss] eqn:Es; [exact Logic.I|].
    destruct (action_at g t s X) as [[[|]|j|p]| | |] eqn:Eact; cbn [bind adv_rel] in *; try exact Logic.I.
    - split; reflexivity.
    - destruct (Sl _ eq_refl) as (ts' & G1 & G2 & [(E1 & E2 & E3 & E4) | (_ & E3 & _)]); [|cbn in E3; congruence].
      destruct Hlook as [w ws -> L2 L3 L4 L5 L6 L7 L8 | -> _ _ _ _]; [|exfalso; apply E2; destruct HX as [HX | []]; symmetry; exact HX].
      cbn [txt app] in Hwh. exists ts', used, e, e. split.
      + constructor; cbn [d_states d_alloc d_matches]; try reflexivity; try assumption.
        * constructor; [exact (at_safe _ _ _ Hta)|exact C3].
        * lia.
        * rewrite E1. unfold fresh_all. cbn [fold_right fresh]. fold (fresh_all ruled ts). lia.
        * exists S. split; [lia|]. split; [exact Hta|exact L3].
      + left. cbn [d_next]. split; [exact N1|]. split; [exact N2|]. split; [reflexivity|]. split; [exact L5|]. split; [exact L6|].
        split; [rewrite E4, <- app_assoc; exact Hwh|]. exists ws. auto.
    - unfold file_reduce.
      set (b' := match rule p with None => b | Some _ => consume tk b end).
      assert (Hb' : readable b' /\ ib_heap b' = ib_heap b /\ ib_full b' = ib_full b).
      { pose proof (he_read _ _ _ _ C6) as [R1 R2 R3]. unfold b'. destruct (rule p); repeat split; auto. }
      destruct Hb' as (Hrb & Hheap & Hfull).
      assert (Htop : exact_top (ib_heap b') (d_matches st) (d_matches st')).
      { rewrite Hheap. eapply sees_exact; [exact C6| |exact C3|exact C9]. lia. }
      pose proof (reduce_sim b' p tk tk' st st' Hrb ltac:(congruence) C2 C3 (fun _ => Htop)) as Rs.
      destruct (reduce (file_rule rule (ib_heap b')) resets limit g t p tk st) as [st2| | |],
               (reduce rule resets limit g t p tk' st') as [st2'| | |]; cbn [red_rel bind adv_rel] in *; try contradiction; try exact Logic.I.
      destruct Rs as (D1 & D2 & D3 & D4 & q & ast & D5 & D6).
      destruct (Sl st2' eq_refl) as (ts' & G1 & G2 & [(_ & _ & E3 & _) | (E1 & _ & s0 & ss0 & p0 & F1 & F2 & F3)]); [congruence|].
      injection F1 as <- <-. rewrite Eact in F2. injection F2 as <-.
      assert (Hvals : Forall2 vrel (d_matches st2) (d_matches st2')).
      { rewrite D5, D6. constructor; [split; reflexivity|]. apply Forall2_cut. exact C3. }
      assert (Htops : forall u, sees u S (d_matches st2) (d_matches st2')) by (intros u; rewrite D5, D6; exact Logic.I).
      pose proof (fresh_node p (length (body_at g p)) ts) as Hfr. rewrite <- F3 in Hfr.
      assert (Hlook' : look tk tk' S e l b' inp).
      { destruct Hlook as [w ws L1 L2 L3 L4 L5 L6 L7 L8 | L1 L2 L3 L4 L5]; [|now apply look_end]. apply (look_tok _ _ _ _ _ _ _ w ws); auto. congruence. }
      assert (Hnext : exists k k', d_next st2 = Some k /\ d_next st2' = Some k' /\ tok_at Static cStaticByteBuffSize phi S e k /\
                look k k' S e l b' inp /\ whole = consumed ts' ++ txt k' ++ inp).
      { exists tk, tk'. rewrite E1. auto 6. }
      assert (Eru : ruled p = match rule p with Some _ => true | None => false end) by reflexivity.
      unfold b' in Hnext |- *. destruct (rule p) as [f|] eqn:Ef; rewrite Eru in Hfr.
      + exists ts', S, S, e. split; [|right; exact Hnext]. constructor; auto; try lia.
        apply held_consume with (used := used); [exact C6|lia|lia|exact (ta_start _ _ _ _ _ _ Hta)].
      + exists ts', used, S, e. split; [|right; exact Hnext]. constructor; auto. rewrite Hfr. exact C8.
  Qed.
  Lemma advance_sim Xs tk tk' (st : fstate) (st' : sstate) l b r inp ts used S e : common st b r st' ts used S e -> d_next st = None -> d_next st' = None ->
    tok_at Static cStaticByteBuffSize phi S e tk -> look tk tk' S e l b inp -> whole = consumed ts ++ txt tk' ++ inp -> incl Xs (types tk') ->
    adv_rel l r inp st st' (file_advance rule resets limit g t Xs tk st b) (parse_advance rule resets limit g t Xs tk' st').
  Proof.
    intros Cm N1 N2 Hta Hlook Hwh. induction Xs as [|X Xs IH]; intros Hi; cbn [file_advance parse_advance]; [exact Logic.I|].
    pose proof (symbol_sim X tk tk' st st' l b r inp ts used S e Cm N1 N2 Hta Hlook Hwh (Hi X (or_introl eq_refl))) as Sy.
    destruct (file_symbol rule resets limit g t X tk st b) as [[[[[|] s2] b2]|]| | |], (parse_symbol rule resets limit g t X tk' st') as [[[[|] s2']|]| | |];
      cbn [bind adv_rel] in *; try contradiction; auto. apply IH. intros y Hy. apply Hi. now right.
  Qed.

  (** What the parser of the tokens returns. *)
  Definition relabel (x : out (value stok A * N)) : out (value token A * N) :=
    match x with
    | Ret (VNt p a, al) => Ret (VNt p a, al)
    | Ret (VTok _, _) => Throw
    | UB => UB | Throw => Throw | OutOfFuel => OutOfFuel
    end.
  Theorem loop_sim sf : n + 1 <= N.of_nat sf -> forall fuel st l b r inp st', inv st l b r inp st' ->
    file_loop rule resets limit g t c (read_if_safe chunk) fuel sf st l b r = relabel (parse_loop types SEof rule resets limit g t fuel inp st').
  Proof.
    intros Hsf. induction fuel as [|fuel IH]; intros st l b r inp st' (ts & used & S & e & Cm & Hnx); [reflexivity|]. cbn [file_loop parse_loop].
    (* after the lookahead is known *)
    assert (Go : forall tk tk' (s1 : fstate) (s1' : sstate) l1 b1 r1 inp1 S1 e1, common s1 b1 r1 s1' ts used S1 e1 -> d_next s1 = None -> d_next s1' = None ->
      tok_at Static cStaticByteBuffSize phi S1 e1 tk -> look tk tk' S1 e1 l1 b1 inp1 -> whole = consumed ts ++ txt tk' ++ inp1 ->
      (do res <- match t_ids tk with None => UB | Some Xs => file_advance rule resets limit g t Xs tk s1 b1 end;
       match res with
       | None => Throw
       | Some (true, st2, _) => match d_matches st2 with [] => UB | VTok _ :: _ => Throw | v :: _ => Ret (v, d_alloc st2) end
       | Some (false, st2, b3) => file_loop rule resets limit g t c (read_if_safe chunk) fuel sf st2 l1 b3 r1
       end) =
      relabel (do res <- parse_advance rule resets limit g t (types tk') tk' s1';
       match res with
       | None => Throw
       | Some (true, st2) => match d_matches st2 with [] => UB | VTok _ :: _ => Throw | v :: _ => Ret (v, d_alloc st2) end
       | Some (false, st2) => parse_loop types SEof rule resets limit g t fuel inp1 st2
       end)).
    { intros tk tk' s1 s1' l1 b1 r1 inp1 S1 e1 C N1 N2 Hta Hlook Hwh.
      assert (Ei : t_ids tk = Some (types tk')) by (destruct Hlook as [w ws L1 L2 L3 L4 L5 L6 L7 L8 | -> _ _ L4 _]; exact L4). rewrite Ei.
      pose proof (advance_sim (types tk') tk tk' s1 s1' l1 b1 r1 inp1 ts used S1 e1 C N1 N2 Hta Hlook Hwh (incl_refl _)) as Av.
      destruct (file_advance rule resets limit g t (types tk') tk s1 b1) as [[[[[|] s2] b2]|]| | |],
               (parse_advance rule resets limit g t (types tk') tk' s1') as [[[[|] s2']|]| | |]; cbn [bind adv_rel] in *; try contradiction; try reflexivity.
      - destruct Av as [-> ->]. pose proof (cm_vals _ _ _ _ _ _ _ _ C) as Hv. destruct Hv as [|u v us vs Huv _]; [reflexivity|].
        destruct u as [k|p a], v as [[|w]|q a']; cbn in Huv; try contradiction; try reflexivity. destruct Huv as [-> ->].
        cbn [relabel]. rewrite (cm_alloc _ _ _ _ _ _ _ _ C). reflexivity.
      - now apply IH. }
    destruct Cm as [C1 C2 C3 C4 C5 C6 C7 C8 C9].
    destruct Hnx as [(N1 & N2 & -> & Hl & Hfull & Hwh & ws & -> & Hs) | (tk & tk' & N1 & N2 & Hta & Hlook & Hwh)].
    - assert (HS : S <= used + 20000) by (pose proof (Hfresh _ _ _ C5 Hwh); lia).
      pose proof (held_next sf b r S used l ws C6 Hfull Hl HS Hs Hsf) as Nx. destruct (read_if_safe chunk b r) as (b1 & r1).
      unfold file_next, get_next_symbol. rewrite N1, N2.
      destruct Nx as [(e & tk & l' & w & ws' & -> & E & He & B1 & B2 & B3 & B4 & B5 & B6) | (-> & B0 & tk & l' & f & E & He & B1 & B2)]; rewrite E; cbn [bind map].
      + apply (Go tk (STok w) st st' l' _ r1 (map STok ws') S e); auto.
        * constructor; auto; lia.
        * apply (look_tok _ _ _ _ _ _ _ w ws'); auto.
      + apply (Go tk SEof st st' l' _ r1 [] S S); auto.
        * constructor; auto.
        * now apply look_end.
    - assert (Rd : forall F R, rinv log (mkRing b r e used false) (cStaticByteBuffSize / 2) F R 0 -> (ib_fin b = true -> R = n) -> True) by auto.
      destruct C6 as [(F & R & I & Hf) Hr Hn Hc].
      destruct (read_ok chunk log Hfills _ F R I Hr Hf) as (F' & R' & K). cbn [h_buf h_rd h_at h_used] in K.
      destruct (read_if_safe chunk b r) as (b1 & r1). destruct K as (I' & Hr' & Hf' & K1 & K2 & _ & K4 & K5 & _ & K7).
      unfold file_next, get_next_symbol. rewrite N1, N2. cbn [bind].
      apply (Go tk tk' (mkD (d_states st) (d_matches st) None (d_alloc st)) (mkD (d_states st') (d_matches st') None (d_alloc st')) l b1 r1 inp S e); auto.
      + constructor; cbn [d_states d_alloc d_matches]; auto.
        constructor; [exists F', R'; auto|exact Hr'|rewrite K5; exact Hn|rewrite K5; exact Hc].
      + destruct Hlook as [w ws L1 L2 L3 L4 L5 L6 L7 L8 | L1 L2 L3 L4 L5]; [|now apply look_end]. apply (look_tok _ _ _ _ _ _ _ w ws); auto. congruence.
  Qed.
  (** The whole parse. *)
  Theorem file_parse_sim sf fuel b alloc ws : n + 1 <= N.of_nat sf -> (forall i, i < cStaticByteBuffSize -> exists x, ib_heap b Static i = Some x) ->
    splits log ws -> whole = map STok ws ->
    file_parse rule resets limit g t c (read_if_safe chunk) fuel sf (Some 0) b (mkReader log 0) alloc =
    relabel (parse types SEof rule resets limit g t fuel (Some 0) (map STok ws) alloc).
  Proof.
    intros Hsf Hmem Hs Hwh. unfold file_parse, parse. apply (loop_sim sf Hsf).
    assert (I0 : rinv log (ring_start (ib_reset b) log) (cStaticByteBuffSize / 2) 0 0 0).
    { apply rinv_start; [|reflexivity|reflexivity]. unfold empty_buffer. cbn. auto 10. }
    exists [], 0, 0, 0. split.
    - constructor; cbn [d_states d_alloc d_matches]; auto.
      + split; constructor.
      + constructor.
      + constructor.
        * exists 0, 0. split; [exact I0|]. cbn. discriminate.
        * constructor; [reflexivity|reflexivity|exact Hmem].
        * unfold near. cbn. auto.
        * discriminate.
      + lia.
      + cbn. lia.
      + exact Logic.I.
    - left. cbn [d_next]. repeat (split; [reflexivity|]). split; [|split; [reflexivity|split; [exact Hwh|exists ws; split; [reflexivity|exact Hs]]]].
      unfold ready. cbn. auto.
  Qed.
End Simulation.
