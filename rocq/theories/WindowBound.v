(** WindowBound.v -- a window that runs out did so because the event and the two lines after it do not fit. *)
From Verif Require Import Base LexerModel LexerSpec LogParserModel ViewModel ReaderSpec ViewSim LineBound.

(** Where the next event of a BufferParser starts. *)
Definition next_start (p : lparser) : N :=
  if lp_has_start p then t_start (lp_start_tok p)
  else if l_match (lp_lex p) then l_start_pos (lp_lex p) else l_last_match_pos (lp_lex p).

Section Stop.
Variable c : lexcfg.
Variable txt : list N.
Variables (b1 b2 : ibuf) (f1 f2 : N -> N) (lo hi1 hi2 : N) (e1 : bool).
Hypothesis Hwf : wf_cfg c.
Hypothesis Hline : one_line c.
Hypothesis Hdl : c_delim c cNewline = true.
Hypothesis V1 : view txt b1 f1 lo hi1 e1.
Hypothesis V2 : view txt b2 f2 lo hi2 true.
Hypothesis Hlo : lo <= hi1.
Hypothesis Hhi : hi1 <= hi2.
Hypothesis Hend : e1 = true -> hi1 = hi2 /\ true = true.
Hypothesis Hid : forall x, f2 x = x.
Variable occ0 : list (list N).
Let Hroot : d_ids (c_dfa c) d_root = [] := wf_root _ Hwf.
Local Notation prel1 := (prel c b1 b2 f1 f2 lo hi1 e1 occ0).
Local Notation prel2 := (prel c b2 b2 f2 f2 lo hi2 true occ0).

Lemma lrel_self : forall E a l1 l2, lrel c f1 f2 E a l1 l2 -> lrel c f2 f2 E a l2 l2.
Proof.
  intros E a l1 l2 [[A1 A2 A3 A4 A5 A6 A7] L2 L3 L4 L5]. rewrite A3, A6 in *. constructor; auto.
  - constructor; reflexivity.
  - intro Q. destruct (L3 Q) as (X1 & X2 & X3). auto.
  - intro Q. destruct (L4 Q) as (X1 & X2 & X3 & X4). rewrite A7 in X4. auto.
  - intro Q. destruct (L5 Q) as (X1 & X2 & X3 & X4 & X5 & X6). rewrite A4 in X6. auto 10.
Qed.
Lemma trel_self : forall s e t1 t2, trel b1 b2 f1 f2 s e t1 t2 -> trel b2 b2 f2 f2 s e t2 t2.
Proof. intros s e t1 t2 [T1 T2 T3 T4]. constructor; auto. Qed.
Lemma orel_self : forall o1 o2, orel b1 b2 f1 f2 lo hi1 o1 o2 -> orel b2 b2 f2 f2 lo hi2 o2 o2.
Proof.
  intros o1 o2 [O1 O2 O3 O4 O5 O6 O7]. rewrite O1, O2, O3 in *. constructor; auto. unfold ob_first in *. rewrite O3 in O7.
  intros i H1 H2. destruct (O7 i H1 H2) as (s & e & T & S1 & S2 & S3). exists s, e. split; [exact (trel_self _ _ _ _ T)|].
  split; [exact S1|]. split; [lia|]. unfold ob_first in *. rewrite O3 in S3. exact S3.
Qed.
Lemma prel_self : forall E a fa p1 p2, prel1 E a fa false p1 p2 -> prel2 E a false false p2 p2.
Proof.
  intros E a fa p1 p2 [P1 P2 P3 (Pa & Pb & Pc) P5 P6 P7 P8 P9 P10 (P11 & P12)]. constructor; auto.
  - exact (lrel_self _ _ _ _ P1).
  - split; [exact Pa|]. split; [lia|discriminate].
  - rewrite <- P7. intro Q. destruct (P8 Q) as (s & e & T & S1 & S2). exists s, e. split; [exact (trel_self _ _ _ _ T)|]. split; [exact S1|lia].
  - exact (orel_self _ _ P9).
Qed.
Lemma flags_false : forall l, flags l false false. Proof. intro l. left. auto. Qed.

Lemma next_start_U : forall oc E0 p p', done_rel c b2 b2 f2 f2 lo hi2 true oc E0 ActCompress p p' -> E0 <= next_start p'.
Proof.
  intros oc E0 p p' D. destruct (dr_next _ _ _ _ _ _ _ _ _ _ _ _ _ D eq_refl) as (U & E & a & fa & fb & n & n2 & L & I1 & I2 & Po & Fl & H1 & H2 & Nr & H3 & Ah & Ask & T1 & T2).
  unfold next_start. rewrite <- (dr_hs _ _ _ _ _ _ _ _ _ _ _ _ _ D). pose proof (lr_same _ _ _ _ _ _ _ L) as S. rewrite <- (lx_match _ _ S).
  destruct (lp_has_start p).
  - specialize (T1 eq_refl). rewrite (ta_start _ _ _ _ _ _ (tr_2 _ _ _ _ _ _ _ _ T1)), Hid. exact H3.
  - specialize (T2 eq_refl). subst U. destruct (l_match (lp_lex p)) eqn:Em.
    + destruct (lr_pend _ _ _ _ _ _ _ L Em) as (_ & _ & Q & _). rewrite Q, Hid. exact H3.
    + destruct (lr_none _ _ _ _ _ _ _ L Em) as (_ & Q & R). rewrite Q, Hid. lia.
Qed.

Lemma parse_loop_lower : forall fuel sfuel E a fa p1 p2 p2' act2, prel1 E a fa false p1 p2 -> lp_has_start p2 = false ->
  parse_loop fuel sfuel c p2 = Ret (Some act2, p2') -> act2 <> ActCompressAndFinish -> E <= next_start p2'.
Proof.
  intros fuel sfuel E a fa p1 p2 p2' act2 P Hs H Ha2.
  pose proof (parse_loop_sim c txt b2 b2 f2 f2 lo hi2 hi2 true true Hroot V2 V2 ltac:(lia) ltac:(lia) (fun _ => conj eq_refl eq_refl) occ0 fuel sfuel E a false false p2 p2
    (prel_self _ _ _ _ _ P) (flags_false _) Hs) as S. rewrite H in S. destruct S as [(Q & _)|(x2 & Ex & act & q1 & q2 & E1 & E2 & D & Na)]; [discriminate|].
  injection Ex as <-. injection E1 as <- <-. injection E2 as <-. destruct act2; [contradiction| |contradiction]. apply (next_start_U _ _ _ _ D).
Qed.
Lemma parse_lower : forall fuel sfuel E a fa p1 p2 p2' act2, prel1 E a fa false p1 p2 ->
  ob_pos (lp_out p2) = 0 -> 2 < ob_size (lp_out p2) -> ob_has_ts (lp_out p2) = false ->
  parse fuel sfuel c p2 = Ret (Some act2, p2') -> act2 <> ActCompressAndFinish -> E <= next_start p2'.
Proof.
  intros fuel sfuel E a fa p1 p2 p2' act2 P Hp Hsz Hts H Ha2.
  pose proof (parse_sim c txt b2 b2 f2 f2 lo hi2 hi2 true true Hroot V2 V2 ltac:(lia) ltac:(lia) (fun _ => conj eq_refl eq_refl) occ0 fuel sfuel E a false false p2 p2
    (prel_self _ _ _ _ _ P) (flags_false _) Hp Hsz Hts) as S. rewrite H in S. destruct S as [(Q & _)|(x2 & Ex & act & q1 & q2 & E1 & E2 & D & Na)]; [discriminate|].
  injection Ex as <-. injection E1 as <- <-. injection E2 as <-. destruct act2; [contradiction| |contradiction]. apply (next_start_U _ _ _ _ D).
Qed.

(** What is known when the window runs out: [E'] is where the token starts that does not fit. *)
Definition late (r2 : out (option paction * lparser)) : Prop :=
  exists E', E' <= hi1 /\ few_nl txt E' hi1 /\ forall act p2', r2 = Ret (Some act, p2') -> act <> ActCompressAndFinish -> E' <= next_start p2'.
Definition lively (l : lex) : Prop := l_asked l = true -> exists q w, l_prev l = Some q /\ w <> [] /\ run (c_dfa c) d_root w = Some q.

Lemma next_symbol_stop : forall sfuel E a fa fb p1 p2 p1', prel1 E a fa fb p1 p2 -> flags (lp_lex p1) fa fb -> lively (lp_lex p1) ->
  get_next_symbol sfuel c p1 = Ret (None, p1') -> fa = false /\ fb = false /\ E <= hi1 /\ few_nl txt E hi1.
Proof.
  intros sfuel E a fa fb p1 p2 p1' P Hf Hl H. unfold get_next_symbol in H. rewrite (pr_in1 _ _ _ _ _ _ _ _ _ _ _ _ _ _ _ P) in H.
  destruct (scan sfuel c (lp_lex p1) (cur b1 (f1 a) fa)) as [((ot, l), b)| | |] eqn:Es; try discriminate. cbn [bind] in H. injection H as -> <-.
  destruct (pr_pos _ _ _ _ _ _ _ _ _ _ _ _ _ _ _ P) as (A1 & A2 & A3).
  assert (l_match (lp_lex p1) = false) as Em.
  { destruct (l_match (lp_lex p1)) eqn:Em; [|reflexivity]. destruct (lr_pend _ _ _ _ _ _ _ (pr_lex _ _ _ _ _ _ _ _ _ _ _ _ _ _ _ P) Em) as (Q & _).
    unfold scan in Es. rewrite Q, Em in Es. discriminate. }
  destruct Hf as [(-> & ->)|(Q & _)]; [|congruence]. destruct (lr_none _ _ _ _ _ _ _ (pr_lex _ _ _ _ _ _ _ _ _ _ _ _ _ _ _ P) Em) as (_ & _ & ->).
  repeat (split; [auto; lia|]). destruct (scan_lines c txt b1 f1 lo hi1 e1 Hwf Hline Hdl V1 sfuel (lp_lex p1) a false l b) as [K|(K1 & K2)]; auto; try discriminate.
  - intros Q q Eq. destruct (Hl Q) as (q' & w & X1 & X2 & X3). exists w. split; [exact X2|]. congruence.
  - destruct (Hl K1) as (q' & w & X1 & _). congruence.
Qed.

Lemma bind_ret_inv {A B} (x : out A) (f : A -> out B) y : bind x f = Ret y -> exists a, x = Ret a /\ f a = Ret y.
Proof. destruct x; cbn; intro H; try discriminate. eauto. Qed.

Lemma parse_loop_stop : forall fuel sfuel E a fa fb p1 p2 p1', prel1 E a fa fb p1 p2 -> flags (lp_lex p1) fa fb -> lively (lp_lex p1) ->
  lp_has_start p1 = false -> parse_loop fuel sfuel c p1 = Ret (None, p1') -> late (parse_loop fuel sfuel c p2).
Proof.
  induction fuel as [|fuel IH]; intros sfuel E a fa fb p1 p2 p1' P Hf Hl Hst H; [discriminate|].
  pose proof (next_symbol_sim c txt b1 b2 f1 f2 lo hi1 hi2 e1 true Hroot V1 V2 Hlo Hhi Hend occ0 sfuel E a fa fb p1 p2 P Hf) as Sy.
  cbn [parse_loop] in H. apply bind_ret_inv in H as ((ot, q1) & G & H). rewrite G in Sy.
  destruct ot as [t1|].
  2:{ injection H as <-. destruct (next_symbol_stop _ _ _ _ _ _ _ _ P Hf Hl G) as (-> & -> & HE & K). exists E. split; [exact HE|]. split; [exact K|].
      intros act2 p2' R Ra. apply (parse_loop_lower (S fuel) sfuel E a false p1 p2 p2' act2 P); [|exact R|exact Ra]. rewrite <- (pr_hs _ _ _ _ _ _ _ _ _ _ _ _ _ _ _ P). exact Hst. }
  destruct Sy as [(Q & _)|(r2 & G2 & t1' & t2 & y & a2 & fa2 & fb2 & q1' & q2 & X1 & -> & T & E1 & E2 & Ne & Hy & P' & Fl & Hs & Ho1 & Ho2 & Ah & Ask)]; [discriminate|].
  injection X1 as <- <-. pose proof (pr_E _ _ _ _ _ _ _ _ _ _ _ _ _ _ _ P) as HloE.
  cbn [parse_loop]. rewrite G2. cbn [bind]. destruct P' as [P1 P2 P3 P4 P6 Pah P7 P8 P9 P10 P11].
  cbn [lp_out lp_set_out lp_in ob_has_ts ob_set_curr ob_set_token] in H |- *. rewrite (type_eq _ _ _ _ _ _ _ _ T).
  rewrite Ho1, Ho2 in *. pose proof (or_ts _ _ _ _ _ _ _ _ P9) as Ots. rewrite <- Ots.
  destruct (tok_type t1) as [ty| | |] eqn:Et; cbn [bind] in H |- *; try discriminate.
  destruct (N.eqb_spec ty TokenEnd) as [-> |Hne].
  { apply bind_ret_inv in H as (found & _ & H). discriminate. }
  assert (t_ids t1 <> cTokenEndTypes) as Hni by (intro Q; rewrite (type_end _ Q) in Et; congruence).
  destruct Ne as [Ne|Ne]; [contradiction|]. destruct Fl as [Fl|Fl]; [contradiction|].
  destruct (tok_at_char _ _ _ _ _ _ E y t1 V1 HloE ltac:(lia) (tr_1 _ _ _ _ _ _ _ _ T)) as (x1 & X1 & _ & B1).
  destruct (tok_at_char _ _ _ _ _ _ E y t2 V2 HloE ltac:(lia) (tr_2 _ _ _ _ _ _ _ _ T)) as (x2 & X2 & _ & B2).
  specialize (B1 ltac:(lia)). specialize (B2 ltac:(lia)). assert (x2 = x1) as -> by congruence.
  rewrite P2 in H. rewrite P3. change (ib_heap (cur b1 (f1 a2) fa2)) with (ib_heap b1) in H. change (ib_heap (cur b2 (f2 a2) fb2)) with (ib_heap b2).
  rewrite X1 in H. rewrite X2. cbn [bind] in H |- *.
  match type of H with bind ?g _ = _ => destruct g as [found| | |] end; try discriminate. cbn [bind] in H |- *.
  destruct (negb (ob_has_ts (lp_out p1)) && (ty =? TokenNewline)) eqn:Enl; [discriminate|]. destruct found; [discriminate|].
  eapply (IH sfuel y a2 fa2 fb2); [| | | |exact H].
  + constructor; cbn; auto. rewrite ?Ho1, ?Ho2. eapply orel_push with (s := E) (e := y); eauto.
  + exact Fl.
  + intro Q. cbn in Q. congruence.
  + cbn. congruence.
Qed.

Lemma parse_first_stop : forall fuel sfuel E a fa fb p1 p2 s y t1 t2 p1', prel1 E a fa fb p1 p2 ->
  (t_ids t1 = cTokenEndTypes \/ flags (lp_lex p1) fa fb) -> 2 < ob_size (lp_out p1) -> ob_has_ts (lp_out p1) = false ->
  trel b1 b2 f1 f2 s y t1 t2 -> lo <= s -> y <= hi1 -> lively (lp_lex p1) ->
  parse_first fuel sfuel c p1 t1 = Ret (None, p1') -> late (parse_first fuel sfuel c p2 t2).
Proof.
  intros fuel sfuel E a fa fb p1 p2 s y t1 t2 p1' P Fl Hsz Hts T Hs Hy Hl H. unfold parse_first in *. rewrite (type_eq _ _ _ _ _ _ _ _ T).
  destruct (tok_type t1) as [ty| | |] eqn:Et; cbn [bind] in *; try discriminate.
  destruct (N.eqb_spec ty TokenEnd) as [-> |Hne]; [discriminate|].
  destruct P as [P1 P2 P3 P4 P6 Pah P7 P8 P9 P10 P11]. pose proof P9 as [O1 O2 O3 O4 O5 O7 O6].
  assert (t_ids t1 <> cTokenEndTypes) as Hni by (intro Q; rewrite (type_end _ Q) in Et; congruence).
  destruct Fl as [Fl|Fl]; [contradiction|].
  eapply (parse_loop_stop fuel sfuel E a fa fb); [ | | | |exact H]; [|exact Fl|exact Hl|reflexivity].
  constructor; cbn; auto; try congruence; try discriminate.
  destruct ((ty =? TokenFirstTimestamp) || (ty =? TokenNewlineTimestamp)).
  + constructor; cbn; auto; try lia. intros i Hi Hj. replace i with 0 by lia.
    exists s, y. cbn. unfold ob_upd. cbn. rewrite !N.eqb_refl. split; [exact T|]. auto.
  + constructor; cbn; auto; try lia; try discriminate. intros i Hi Hj. unfold ob_first in Hi. cbn in Hi. replace i with 1 by lia.
    exists s, y. cbn. unfold ob_upd. cbn. rewrite !N.eqb_refl. split; [exact T|]. auto.
Qed.

Lemma parse_stop : forall fuel sfuel E a fa fb p1 p2 p1', prel1 E a fa fb p1 p2 -> flags (lp_lex p1) fa fb -> lively (lp_lex p1) ->
  ob_pos (lp_out p1) = 0 -> 2 < ob_size (lp_out p1) -> ob_has_ts (lp_out p1) = false ->
  parse fuel sfuel c p1 = Ret (None, p1') -> late (parse fuel sfuel c p2).
Proof.
  intros fuel sfuel E a fa fb p1 p2 p1' P Fl Hl Hp Hsz Hts H.
  pose proof (pr_out _ _ _ _ _ _ _ _ _ _ _ _ _ _ _ P) as [O1 O2 O3 O4 O5 O7 O6].
  assert (fb = false -> forall act2 p2', parse fuel sfuel c p2 = Ret (Some act2, p2') -> act2 <> ActCompressAndFinish -> E <= next_start p2') as Low.
  { intros -> act2 p2' R Ra. apply (parse_lower fuel sfuel E a fa p1 p2 p2' act2 P); congruence. }
  unfold parse in H, Low |- *. rewrite <- O1 in Low |- *. rewrite Hp in H, Low |- *. change (0 =? 0) with true in H, Low |- *. cbn iota in H, Low |- *.
  cbn [lp_has_start lp_set_out lp_start_tok] in H, Low |- *. rewrite <- (pr_hs _ _ _ _ _ _ _ _ _ _ _ _ _ _ _ P) in Low |- *.
  set (q1 := lp_set_out p1 (ob_set_delims (lp_out p1) (c_has_delims c))) in *. set (q2 := lp_set_out p2 (ob_set_delims (lp_out p2) (c_has_delims c))) in *.
  assert (prel1 E a fa fb q1 q2) as Q.
  { destruct P as [P1 P2 P3 P4 P6 Pah P7 P8 P9 P10 P11]. constructor; cbn; auto. constructor; cbn; auto. }
  assert (ob_has_ts (lp_out q1) = false) as Qts by exact Hts. assert (2 < ob_size (lp_out q1)) as Qsz by exact Hsz.
  assert (flags (lp_lex q1) fa fb) as Qf by exact Fl. assert (ob_pos (lp_out q1) = 0) as Qp by exact Hp. assert (lively (lp_lex q1)) as Ql by exact Hl.
  destruct (lp_has_start p1) eqn:Hst.
  - destruct (pr_st _ _ _ _ _ _ _ _ _ _ _ _ _ _ _ P Hst) as (s & e & T & T1 & T2). eapply (parse_first_stop fuel sfuel E a fa fb); eauto.
  - assert (lp_has_start q1 = false) as Qst by exact Hst. clearbody q1 q2. clear P Fl Hl Hp Hsz Hts Hst O1 O2 O3 O4 O5 O6 O7 p1 p2.
    pose proof (next_symbol_sim c txt b1 b2 f1 f2 lo hi1 hi2 e1 true Hroot V1 V2 Hlo Hhi Hend occ0 sfuel E a fa fb q1 q2 Q Qf) as Sy.
    apply bind_ret_inv in H as ((ot, p1) & G & H). rewrite G in Sy. destruct ot as [t1|].
    2:{ injection H as <-. destruct (next_symbol_stop _ _ _ _ _ _ _ _ Q Qf Ql G) as (-> & -> & HE & K). exists E. split; [exact HE|]. split; [exact K|].
        exact (Low eq_refl). }
    clear Low. destruct Sy as [(X & _)|(r2 & G2 & t1' & t2 & y & a2 & fa2 & fb2 & p1'' & p2 & X1 & -> & T & E1 & E2 & Ne & Hy & P & Fl & Hs & Ho1 & Ho2 & Ah & Ask)]; [discriminate|].
    injection X1 as <- <-. pose proof (pr_E _ _ _ _ _ _ _ _ _ _ _ _ _ _ _ Q) as HloE. rewrite G2. cbn [bind].
    pose proof (or_ts _ _ _ _ _ _ _ _ (pr_out _ _ _ _ _ _ _ _ _ _ _ _ _ _ _ P)) as Ots. rewrite <- Ots. rewrite <- Ho1 in *. rewrite Qts in *.
    rewrite (type_eq _ _ _ _ _ _ _ _ T). destruct (tok_type t1) as [ty| | |] eqn:Et; cbn [bind] in *; try discriminate.
    destruct (N.eqb_spec ty TokenNewlineTimestamp) as [-> |Hne]; [discriminate|].
    eapply (parse_first_stop fuel sfuel y a2 fa2 fb2 p1 p2 E y); eauto. intro X. congruence.
Qed.

Lemma meta_next_start : forall p p', generate_metadata p = Ret p' -> next_start p' = next_start p.
Proof.
  intros p p' H. unfold generate_metadata in H. apply bind_ret_inv in H as ((n, occ) & _ & H). injection H as <-. reflexivity.
Qed.
Lemma parse_meta_stop : forall fuel sfuel E a fa fb p1 p2 p1', prel1 E a fa fb p1 p2 -> flags (lp_lex p1) fa fb -> lively (lp_lex p1) ->
  ob_pos (lp_out p1) = 0 -> 2 < ob_size (lp_out p1) -> ob_has_ts (lp_out p1) = false ->
  parse_and_generate_metadata fuel sfuel c p1 = Ret (None, p1') -> late (parse_and_generate_metadata fuel sfuel c p2).
Proof.
  intros fuel sfuel E a fa fb p1 p2 p1' P Fl Hl Hp Hsz Hts H. unfold parse_and_generate_metadata in *.
  apply bind_ret_inv in H as ((oa, q1) & G & H). destruct oa as [act|]; [apply bind_ret_inv in H as (? & _ & H); discriminate|].
  destruct (parse_stop fuel sfuel E a fa fb p1 p2 q1 P Fl Hl Hp Hsz Hts G) as (E' & H1 & H2 & H3). exists E'. split; [exact H1|]. split; [exact H2|].
  intros act p2' R Ra. apply bind_ret_inv in R as ((oa, q2) & G2 & R). destruct oa as [act2|]; [|discriminate].
  apply bind_ret_inv in R as (q3 & G3 & R). injection R as -> <-. rewrite (meta_next_start _ _ G3). apply (H3 _ _ G2 Ra).
Qed.
End Stop.
