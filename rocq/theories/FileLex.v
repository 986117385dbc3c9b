(** FileLex.v -- the lexer of SchemaParser on the ring buffer: how far it looks ahead, and the tokens it finds. *)
From Verif Require Import Base LexerModel LexerSpec LogParserModel LexerProofs RingModel RingSpec RingProofs RegexModel RegexSpec RegexProofs DfaModel
  RegexLang DfaProofs DfaExact ViewModel ViewSim ReaderProofs SchemaModel SchemaGrammar SchemaTable SchemaSyntax SchemaLexer SchemaSplit.

(** ** No token is longer than ten bytes, and the lexer knows it. *)
Definition shallow (c : lexcfg) : Prop := forall w q, run (c_dfa c) d_root w = Some q -> (length w <= 10)%nat.
Definition rank_at (rk : list nat) (p : nat) : nat := nth p rk 0%nat.
Definition edge_climbs (rk : list nat) (e : edge) : bool :=
  match e with (p, l, q) => Nat.leb (rank_at rk p + match l with LByte _ _ => 1 | _ => 0 end) (rank_at rk q) end.
Lemma label_bytes l w : label_reads l w -> (length (bytes_of w) <= match l with LByte _ _ => 1 | _ => 0 end)%nat.
Proof. destruct l; cbn; intros H; [destruct H as (b & -> & _)| | | |]; subst; cbn; lia. Qed.
Lemma climbs_path rk es p w q : forallb (edge_climbs rk) es = true -> path (g_edges es) p w q ->
  (rank_at rk p + length (bytes_of w) <= rank_at rk q)%nat.
Proof.
  intros H. induction 1 as [p|p u r v q (l & Hin & Hl) _ IH]; [cbn; lia|].
  rewrite bytes_app, app_length. rewrite forallb_forall in H. specialize (H _ Hin). cbn [edge_climbs] in H. apply Nat.leb_le in H.
  pose proof (label_bytes _ _ Hl). lia.
Qed.

Fixpoint relax (es : list edge) (rk : list nat) : list nat :=
  match es with
  | [] => rk
  | (p, l, q) :: r =>
    let k := (rank_at rk p + match l with LByte _ _ => 1 | _ => 0 end)%nat in
    relax r (firstn q rk ++ Nat.max k (rank_at rk q) :: skipn (S q) rk)
  end.
Definition ranks (A : nfa) : list nat := Nat.iter 12 (relax (n_edges A)) (repeat 0%nat (n_size A)).
Definition shallow_check (A : nfa) : bool :=
  let rk := ranks A in forallb (edge_climbs rk) (n_edges A) && forallb (fun k => Nat.leb k 10) rk.
Lemma schema_nfa_shallow : match nfa_of_rules schema_lex_rules with Ret A => shallow_check A | _ => true end = true.
Proof. vm_compute. reflexivity. Qed.
Lemma rank_bound rk k p : forallb (fun x => Nat.leb x k) rk = true -> (rank_at rk p <= k)%nat.
Proof.
  intros H. unfold rank_at. destruct (nth_in_or_default p rk 0%nat) as [G | ->]; [|lia].
  rewrite forallb_forall in H. now apply Nat.leb_le, H.
Qed.
Theorem schema_lexer_shallow addr : exists F, forall dfuel, (F <= dfuel)%nat ->
  exists c, schema_lexer dfuel addr = Ret c /\ lexer_ok c /\ shallow c.
Proof.
  destruct (schema_lexer_exists addr) as (F1 & H1). pose proof schema_nfa_shallow as Hs.
  destruct (H1 F1 (le_n _)) as (c0 & E0 & _). unfold schema_lexer in E0.
  destruct (nfa_of_rules schema_lex_rules) as [A| | |] eqn:EA; try discriminate E0. clear E0 c0.
  destruct (nfa_to_dfa_run addr A (nfa_of_rules_bytes _ _ EA)) as (F2 & H2).
  exists (Nat.max F1 F2). intros dfuel Hd. destruct (H1 dfuel ltac:(lia)) as (c & Ec & Hc). exists c. split; [exact Ec|]. split; [exact Hc|].
  destruct (H2 dfuel ltac:(lia)) as (f & Ef & _ & Hr). unfold schema_lexer in Ec. rewrite EA in Ec. cbn [bind] in Ec. rewrite Ef in Ec.
  cbn [bind] in Ec. injection Ec as <-. intros w q Hq. cbn [c_dfa] in Hq. specialize (Hr w). rewrite Hq in Hr.
  destruct Hr as (s & _ & Hne & Hin & _). destruct s as [|x s]; [easy|]. destruct (proj1 (Hin x) (or_introl eq_refl)) as (v & <- & Hp).
  unfold shallow_check in Hs. apply andb_true_iff in Hs as [Hs1 Hs2]. pose proof (climbs_path _ _ _ _ _ Hs1 Hp) as Hl.
  pose proof (rank_bound _ _ x Hs2). lia.
Qed.

(** ** The lexer never looks more than eleven bytes ahead. *)
Section Ahead.
  Variables (c : lexcfg) (t : list N).
  Hypothesis Hok : lexer_ok c.
  Hypothesis Hsh : shallow c.
  Hypothesis Hbytes : Forall (fun b => b < 256) t.
  Notation d := (c_dfa c).
  Notation n := (len t).
  Variables (b : ibuf) (phi : N -> N) (lo hi : N).
  Hypothesis V : view t b phi lo hi false.
  Hypothesis Hlen : hi <= n.

  Lemma one_accepts a x : byte_at t a = Some x -> exists q, d_next d d_root x = Some q /\ is_accepting d q = true.
  Proof.
    intros Hx. assert (Ha : a < n) by (eapply byte_at_lt, Hx).
    pose proof (matches_byte x) as M. assert (Hx256 : x < 256).
    { rewrite Forall_forall in Hbytes. apply Hbytes. eapply nth_error_In, Hx. }
    specialize (M Hx256). assert (R : reported d d_root [x] <> []).
    { intros E. apply M. apply (proj1 (rep_empty c Hok [x])). exact E. }
    unfold reported in R. cbn [run] in R. destruct (d_next d d_root x) as [q|]; [|easy]. exists q. split; [easy|].
    unfold is_accepting. now destruct (d_ids d q).
  Qed.
  Lemma stops_alive : forall fuel a p q l l' b', lo <= a -> a <= p -> p <= hi -> run d d_root (sub t a p) = Some q ->
    (a + 1 < p -> l_match l = true) ->
    scan_loop fuel c q l (cur b (phi p) false) = Ret (None, l', b') -> exists q', run d d_root (sub t a hi) = Some q'.
  Proof.
    induction fuel as [|fuel IH]; intros a p q l l' b' Ha Hap Hph Hr Hm; [discriminate|]. cbn [scan_loop].
    rewrite (lo_delims c Hok). cbn [negb andb]. destruct (N.eq_dec p hi) as [-> |Hne]; [eauto|].
    destruct (v_get _ _ _ _ _ _ V p ltac:(lia) ltac:(lia)) as (x & Hx & ->). rewrite cur_full.
    rewrite !orb_true_r. cbn [andb].
    set (l1 := if is_accepting d q then _ else _).
    assert (Hm1 : a < p -> l_match l1 = true).
    { intros H. destruct (N.eq_dec p (a + 1)) as [E|E].
      - rewrite E in Hr. destruct (byte_at_some t a ltac:(lia)) as (y & Hy). rewrite (sub_one t a y Hy) in Hr. cbn [run] in Hr.
        destruct (one_accepts a y Hy) as (q1 & E1 & E2). rewrite E1 in Hr. injection Hr as ->. unfold l1. now rewrite E2.
      - unfold l1. destruct (is_accepting d q); [reflexivity|]. apply Hm. lia. }
    assert (G : forall l2, l_match l2 = l_match l1 ->
      match d_next d q x with
      | Some m => scan_loop fuel c m l2 (cur b (phi (p + 1)) false)
      | None => if l_match l2 then
          let b2 := ib_set_pos (ib_set_full (cur b (phi (p + 1)) false) false) (l_match_pos l2) in
          let l4 := lex_restore_line l2 in
          if negb (l_last_match_pos l4 =? l_start_pos l4) then
            Ret (Some (mk_tok b2 (l_last_match_pos l4) (l_start_pos l4) (l_last_match_line l4) cTokenUncaughtStringTypes), l4, b2)
          else Ret (Some (mk_tok b2 (l_start_pos l4) (l_match_pos l4) (l_match_line l4) (l_ids l4)), lex_take l4, b2)
          else UB
      end = Ret (None, l', b') -> exists q', run d d_root (sub t a hi) = Some q').
    { intros l2 El. destruct (d_next d q x) as [m|] eqn:En.
      - apply (IH a (p + 1) m l2 l' b'); try lia.
        + rewrite (sub_snoc t a p x) by (auto; lia). rewrite run_app, Hr. cbn [run]. now rewrite En.
        + intros H. rewrite El. apply Hm1. lia.
      - destruct (l_match l2); [|discriminate]. cbn zeta. destruct (negb _); discriminate. }
    assert (G' : forall l2, l_match l2 = l_match l1 -> d_next d q x = None -> l_match l2 = true).
    { intros l2 El En. rewrite El. apply Hm1. destruct (N.eq_dec p a) as [-> |]; [|lia]. rewrite sub_nil in Hr. cbn [run] in Hr.
      injection Hr as <-. destruct (one_accepts a x Hx) as (q1 & E1 & _). congruence. }
    destruct (x =? cNewline); cbn [bind].
    - pose proof (G (lex_inc_line l1) eq_refl) as K. pose proof (G' (lex_inc_line l1) eq_refl) as K'.
      destruct (d_next d q x) as [m|]; [exact K|]. rewrite (K' eq_refl) in *. exact K.
    - pose proof (G l1 eq_refl) as K. pose proof (G' l1 eq_refl) as K'.
      destruct (d_next d q x) as [m|]; [exact K|]. rewrite (K' eq_refl) in *. exact K.
  Qed.
  Lemma scan_enough fuel a l l' b' : lo <= a -> a + 11 <= hi -> l_asked l = false -> l_match l = false ->
    scan fuel c l (cur b (phi a) false) <> Ret (None, l', b').
  Proof.
    intros Ha Hh H1 H2 E. unfold scan in E. rewrite H1, H2 in E.
    apply (stops_alive fuel a a) in E; try lia; [|now rewrite sub_nil].
    destruct E as (q & E). apply Hsh in E. pose proof (sub_length t a hi ltac:(lia) ltac:(lia)) as E'. unfold len in E'. lia.
  Qed.
End Ahead.

(** ** The tokens found in a window of the file are those of the file. *)
Definition flat (t : list N) : ibuf :=
  mkIbuf (fun _ p => Some (nth (N.to_nat p) t 0)) Static 0 (2 * (len t + 1)) 0 (len t) true true false 0.
Section Window.
  Variables (c : lexcfg) (t : list N).
  Hypothesis Hok : lexer_ok c.
  Hypothesis Hsh : shallow c.
  Hypothesis Hbytes : Forall (fun b => b < 256) t.
  Notation d := (c_dfa c).
  Notation n := (len t).
  Notation rep a e := (reported d d_root (sub t a e)).

  Lemma flat_mem p : p < n -> ib_heap (flat t) Static p = byte_at t p.
  Proof.
    intros H. cbn. unfold byte_at. destruct (nth_error t (N.to_nat p)) as [x|] eqn:E.
    - f_equal. now apply nth_error_nth.
    - apply nth_error_None in E. unfold len in H. lia.
  Qed.
  Lemma flat_half : 2 * (n + 1) / 2 = n + 1.
  Proof. rewrite N.mul_comm, N.div_mul; lia. Qed.
  Lemma flat_ok p f : sbuf t (cur (flat t) p f).
  Proof. constructor; cbn [cur ib_set_full ib_set_pos flat ib_fin ib_last ib_size ib_heap ib_active ib_lrfh]; auto; [rewrite flat_half; lia|]. intros q H. now rewrite <- (flat_mem q H). Qed.
  Lemma flat_shows lo : view t (flat t) (fun a => a) lo n true.
  Proof.
    constructor; auto.
    - intros a H1 H2. destruct (byte_at_some t a H2) as (x & Hx). exists x. split; [exact Hx|].
      unfold get_next_character. cbn [cur ib_set_full ib_set_pos flat ib_fin ib_last ib_size ib_active ib_lrfh ib_pos negb andb].
      destruct (N.eqb_spec a n) as [?|_]; [lia|]. rewrite flat_half. destruct (N.eqb_spec a (n + 1)) as [?|_]; [lia|]. cbn [orb].
      pose proof (flat_mem a H2) as M. rewrite Hx in M. change (ib_heap (cur (flat t) a false)) with (ib_heap (flat t)). rewrite M.
      destruct (N.eqb_spec (a + 1) (2 * (n + 1))) as [?|_]; [lia|]. reflexivity.
    - intros f. unfold get_next_character. cbn [cur ib_set_full ib_set_pos flat ib_fin ib_last ib_pos]. rewrite N.eqb_refl. reflexivity.
    - intros a _ H. now apply flat_mem.
    - eexists. reflexivity.
    - intros a _ H. left. cbn. lia.
    - intros a _ H. cbn. destruct (N.eqb_spec (a + 1) (2 * (n + 1))) as [?|_]; [lia|reflexivity].
  Qed.

  (** The longest match is the next token of the text. *)
  Lemma next_token a e ws : a < e <= n -> rep a e <> [] -> (forall e', e < e' <= n -> rep a e' = []) -> splits (skipn (N.to_nat a) t) ws ->
    exists ws', ws = sub t a e :: ws' /\ splits (skipn (N.to_nat e) t) ws' /\ e <= a + 10 /\ rep a e = lexer_types c (STok (sub t a e)).
  Proof.
    intros H1 H2 H3 Hs. destruct (splits_exists (skipn (N.to_nat e) t)) as (ws' & Hs'). exists ws'.
    assert (Hm : schema_matches (sub t a e) <> []) by (intros E; apply H2; apply (proj2 (rep_empty c Hok _)); exact E).
    assert (Hle : e <= a + 10).
    { pose proof (sub_length t a e ltac:(lia) ltac:(lia)) as L. destruct (matches_some _ Hm) as [E | (x & E)]; rewrite E in L; cbn in L; lia. }
    split; [|split; [exact Hs'|split; [exact Hle|reflexivity]]]. apply (splits_unique _ _ _ Hs). rewrite (skipn_sub t a e) by lia.
    destruct (matches_some _ Hm) as [-> | (x & Ex)]; [now constructor|]. rewrite Ex. cbn [app]. constructor; [|exact Hs']. intros z Ez.
    assert (El : e - a = 1) by (rewrite <- (sub_length t a e) by lia; now rewrite Ex).
    assert (Es : skipn (N.to_nat a) t = keyword ++ z) by (rewrite (skipn_sub t a e) by lia; rewrite Ex; exact Ez).
    assert (Hl : a + 10 <= n).
    { assert (L : length (skipn (N.to_nat a) t) = (10 + length z)%nat) by (rewrite Es; reflexivity).
      rewrite skipn_length in L. unfold len. lia. }
    assert (Ek : sub t a (a + 10) = keyword).
    { unfold sub. rewrite Es. replace (N.to_nat (a + 10 - a)) with 10%nat by lia. reflexivity. }
    specialize (H3 (a + 10) ltac:(lia)). rewrite Ek in H3. apply (proj1 (rep_empty c Hok _)) in H3. now apply matches_keyword in H3.
  Qed.

  Variables (b : ibuf) (phi : N -> N) (lo hi : N) (e1 : bool).
  Hypothesis V : view t b phi lo hi e1.
  Hypothesis Hlo : lo <= hi.
  Hypothesis Hlen : hi <= n.
  Hypothesis Heof : e1 = true -> hi = n.
  (** The lexer is between two tokens. *)
  Definition ready (a : N) (l : lex) : Prop :=
    l_asked l = false /\ l_match l = false /\ l_last_match_pos l = phi a /\ l_line l = nlc t a.
  Definition place (l : lex) (a : N) : lex :=
    mkLex (l_match_pos l) (l_start_pos l) (l_match_line l) a (l_last_match_line l) (l_match l) (l_ids l) (l_line l) (l_asked l) (l_prev l).
  Lemma window_scan fuel a l : lo <= a -> a <= hi -> (e1 = true \/ a + 11 <= hi) -> ready a l -> n + 1 <= N.of_nat fuel ->
    (a < n /\ exists e tok l', scan fuel c l (cur b (phi a) false) = Ret (Some tok, l', cur b (phi e) false) /\ a < e <= hi /\
       rep a e <> [] /\ (forall e', e < e' <= n -> rep a e' = []) /\ tok_at (ib_active b) (ib_size b) phi a e tok /\
       t_ids tok = Some (rep a e) /\ ready e l') \/
    (a = n /\ exists tok l' f, scan fuel c l (cur b (phi a) false) = Ret (Some tok, l', cur b (phi a) f) /\ (f = true -> a = hi /\ e1 = true) /\
       t_ids tok = Some [TokenEnd] /\ tok_at (ib_active b) (ib_size b) phi a a tok).
  Proof.
    intros H1 H2 He (R1 & R2 & R3 & R4) Hf.
    pose proof (split_root c Hok) as Hroot.
    assert (Hb : between t a (place l a) (cur (flat t) a false)).
    { unfold between. cbn [place l_asked l_match l_last_match_pos l_line cur ib_set_full ib_set_pos ib_pos ib_full flat].
      repeat (split; [assumption || reflexivity|]). split; [apply flat_ok|exact R4]. }
    assert (L : lrel c phi (fun x => x) a a l (place l a)).
    { constructor; cbn; auto; try (intros; congruence). constructor; reflexivity. lia. }
    pose proof (scan_sim c t b (flat t) phi (fun x => x) lo hi n e1 true Hroot V (flat_shows lo) Hlo Hlen
                  ltac:(intros Q; split; [exact (Heof Q)|reflexivity]) fuel a a false false l (place l a)
                  ltac:(split; [lia|]; split; [lia|]; discriminate) ltac:(left; split; reflexivity) L H1 ltac:(congruence)) as Sim. cbv beta in Sim.
    assert (NoStop : forall x, scan fuel c l (cur b (phi a) false) = Ret x -> fst (fst x) = None /\ e1 = false -> False).
    { intros ((o & l') & b') E (Q1 & Q2). cbn in Q1. subst o. destruct He as [He|He]; [congruence|].
      assert (V' : view t b phi lo hi false) by (rewrite <- Q2; exact V).
      now apply (scan_enough c t Hok Hsh Hbytes b phi lo hi V' Hlen fuel a l l' b' H1 He R1 R2). }
    destruct (N.eq_dec a n) as [Ea|Ea].
    - right. split; [exact Ea|]. destruct fuel as [|fuel]; [lia|]. rewrite Ea in Hb.
      destruct (scan_end c t Hroot fuel _ _ Hb) as (tok2 & l2 & E2 & T1 & T2 & T3 & _). rewrite <- Ea in E2.
      rewrite E2 in Sim. unfold sim_res in Sim.
      destruct (scan (S fuel) c l (cur b (phi a) false)) as [x1| | |] eqn:E1; try discriminate Sim.
      destruct Sim as [Sim|(x2 & [= <-] & t1 & t2 & y & a' & l1' & l2' & fa & fb & X1 & X2 & [Tr1 Tr2 Tr3 Tr4] & X3 & X4 & X5 & X6 & X7 & X8 & X9 & X10)].
      { elim (NoStop x1 eq_refl Sim). }
      subst x1. injection X2 as <- _ _. rewrite T2 in X4. rewrite <- X4, <- Ea in Tr1.
      destruct X8 as (P1 & P2 & P3). pose proof (lr_Ea _ _ _ _ _ _ _ X6). assert (a' = a) as -> by lia.
      exists t1, l1', fa. split; [reflexivity|]. split; [exact P3|]. split; [congruence|exact Tr1].
    - left. split; [lia|].
      destruct (scan_munch c t (lo_delims c Hok) Hroot (split_some c t Hok Hbytes) (split_end c Hok) fuel a _ _ ltac:(lia) Hb Hf)
        as (e & tok2 & l2 & b2 & E2 & M1 & M2 & M3 & M4 & M5 & M6 & M7 & M8 & M9 & M10 & M11 & M12 & M13 & M14 & M15 & M16 & M17 & M18).
      rewrite E2 in Sim. unfold sim_res in Sim.
      destruct (scan fuel c l (cur b (phi a) false)) as [x1| | |] eqn:E1; try discriminate Sim.
      destruct Sim as [Sim|(x2 & [= <-] & t1 & t2 & y & a' & l1' & l2' & fa & fb & X1 & X2 & [Tr1 Tr2 Tr3 Tr4] & X3 & X4 & X5 & X6 & X7 & X8 & X9 & X10)].
      { elim (NoStop x1 eq_refl Sim). }
      subst x1. injection X2 as <- <- ->. rewrite M5 in X4. subst y.
      pose proof (lx_match _ _ (lr_same _ _ _ _ _ _ _ X6)) as Hm. rewrite M10 in Hm.
      destruct (lr_none _ _ _ _ _ _ _ X6 Hm) as (N1 & N2 & <-).
      assert (fa = false) as ->.
      { destruct X9 as [X9|[(Q & _)|(Q & _)]]; [|exact Q|congruence]. exfalso. rewrite Tr4, M6 in X9. injection X9 as X9.
        exact (split_end c Hok _ X9). }
      exists e, t1, l1'. split; [reflexivity|]. destruct X8 as (P1 & P2 & _). split; [lia|]. split; [exact M2|]. split; [exact M3|].
      split; [exact Tr1|]. split; [congruence|]. unfold ready. split; [exact X7|]. split; [exact Hm|]. split; [exact N1|].
      rewrite (lx_line _ _ (lr_same _ _ _ _ _ _ _ X6)). exact M18.
  Qed.
End Window.
