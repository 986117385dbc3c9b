(** ViewSim.v -- the lexer and the log parser depend on the text in the buffer only, not on where it is stored: a run on
    a window that ends earlier either runs out of the window or does the same as the run on the longer one. *)
From Verif Require Import Base LexerModel LexerSpec LogParserModel ViewModel ReaderSpec.

(** Result [r1] is a [stop], or the two are related. *)
Definition sim_res {A1 A2} (R : A1 -> A2 -> Prop) (stop : A1 -> Prop) (r1 : out A1) (r2 : out A2) : Prop :=
  match r1 with
  | Ret x1 => stop x1 \/ exists x2, r2 = Ret x2 /\ R x1 x2
  | UB => r2 = UB
  | Throw => r2 = Throw
  | OutOfFuel => r2 = OutOfFuel
  end.

Lemma sim_bind {A1 A2 B1 B2} (R : A1 -> A2 -> Prop) (stop : A1 -> Prop) (R' : B1 -> B2 -> Prop) (stop' : B1 -> Prop)
  (r1 : out A1) (r2 : out A2) (k1 : A1 -> out B1) (k2 : A2 -> out B2) :
  sim_res R stop r1 r2 ->
  (forall x1, stop x1 -> exists y1, k1 x1 = Ret y1 /\ stop' y1) ->
  (forall x1 x2, R x1 x2 -> sim_res R' stop' (k1 x1) (k2 x2)) ->
  sim_res R' stop' (bind r1 k1) (bind r2 k2).
Proof.
  intros H Hs Hk. destruct r1 as [x1| | |]; cbn in H |- *; subst; try reflexivity.
  destruct H as [H|(x2 & -> & H)].
  - destruct (Hs _ H) as (y1 & -> & Hy). cbn. left. exact Hy.
  - cbn. apply Hk. exact H.
Qed.

Record lex_same (l1 l2 : lex) : Prop := {
  lx_ml : l_match_line l1 = l_match_line l2;
  lx_ll : l_last_match_line l1 = l_last_match_line l2;
  lx_match : l_match l1 = l_match l2;
  lx_ids : l_ids l1 = l_ids l2;
  lx_line : l_line l1 = l_line l2;
  lx_asked : l_asked l1 = l_asked l2;
  lx_prev : l_prev l1 = l_prev l2
}.

Section Sim.
Variable c : lexcfg.
Variable txt : list N.
Variables (b1 b2 : ibuf) (f1 f2 : N -> N) (lo hi1 hi2 : N) (e1 e2 : bool).
Hypothesis Hroot : d_ids (c_dfa c) d_root = [].
Hypothesis V1 : view txt b1 f1 lo hi1 e1.
Hypothesis V2 : view txt b2 f2 lo hi2 e2.
Hypothesis Hlo : lo <= hi1.
Hypothesis Hhi : hi1 <= hi2.
Hypothesis Hend : e1 = true -> hi1 = hi2 /\ e2 = true.

(** Cursor at text position [a] in both buffers. *)
Definition pos_ok (a : N) (f : bool) : Prop := lo <= a /\ a <= hi1 /\ (f = true -> a = hi1 /\ e1 = true).

Lemma get_sim : forall a f, pos_ok a f ->
  match get_next_character (cur b1 (f1 a) f) with
  | Ret None => e1 = false
  | Ret (Some (ch, b')) =>
    exists a' f', b' = cur b1 (f1 a') f' /\ get_next_character (cur b2 (f2 a) f) = Ret (Some (ch, cur b2 (f2 a') f')) /\
      pos_ok a' f' /\ a <= a' /\ (f' = true -> a = hi1 /\ a' = hi1 /\ ch = cCharEOF) /\ (f' = false -> a' = a + 1)
  | _ => False
  end.
Proof.
  intros a f (H1 & H2 & H3). destruct (N.eq_dec a hi1) as [->|Hn].
  - rewrite (v_end _ _ _ _ _ _ V1). destruct e1 eqn:E; [|reflexivity]. destruct (Hend eq_refl) as (-> & ->).
    exists hi2, true. rewrite (v_end _ _ _ _ _ _ V2). unfold pos_ok. repeat split; auto; try lia; discriminate.
  - destruct f; [destruct (H3 eq_refl); lia|].
    destruct (v_get _ _ _ _ _ _ V1 a) as (x & B & G); [lia|lia|]. rewrite G.
    destruct (v_get _ _ _ _ _ _ V2 a) as (x2 & B2 & G2); [lia|lia|].
    exists (a + 1), false. replace x2 with x in G2 by congruence.
    unfold pos_ok. repeat split; auto; try lia; try discriminate.
Qed.

Lemma skip_sim : forall fuel ch prev a f, pos_ok a f -> lo <= prev -> prev <= a -> (f = true -> prev = hi1) ->
  sim_res (fun r1 r2 => exists prev' a' f', r1 = (Some (f1 prev'), cur b1 (f1 a') f') /\ r2 = (Some (f2 prev'), cur b2 (f2 a') f')
             /\ pos_ok a' f' /\ prev <= prev' /\ prev' <= a' /\ (f' = true -> prev' = hi1))
          (fun r1 => fst r1 = None /\ e1 = false)
          (skip_loop fuel c ch (f1 prev) (cur b1 (f1 a) f)) (skip_loop fuel c ch (f2 prev) (cur b2 (f2 a) f)).
Proof.
  induction fuel as [|fuel IH]; intros ch prev a f Ha Hp1 Hp2 Hf; [reflexivity|]. cbn [skip_loop]. rewrite !cur_full, !cur_pos.
  destruct (negb f && (negb (c_first c ch) || negb (c_delim c ch))).
  - pose proof (get_sim a f Ha) as G. destruct (get_next_character (cur b1 (f1 a) f)) as [[(ch', b')|]| | |]; try contradiction.
    + destruct G as (a' & f' & -> & G2 & Ha' & Hle & Hf'1 & Hf'2). rewrite G2.
      destruct Ha as (A1 & A2 & A3).
      pose proof (IH ch' a a' f' Ha' A1 Hle ltac:(intro Q; apply Hf'1; exact Q)) as K. unfold sim_res in *.
      destruct (skip_loop fuel c ch' (f1 a) (cur b1 (f1 a') f')) as [r1| | |]; auto.
      destruct K as [K|(r2 & E & p' & a2 & f2' & K1 & K2 & K3 & K4 & K5 & K6)]; [left; exact K|].
      right. exists r2. split; [exact E|]. exists p', a2, f2'. do 3 (split; [assumption|]). split; [lia|]. auto.
    + left. auto.
  - right. eexists. split; [reflexivity|]. exists prev, a, f. do 3 (split; [auto|]). split; [lia|]. auto.
Qed.

(** Related lexers, in the loop of scan: [E] is where the next token starts, [a] the cursor. *)
Record lloop (q : nat) (E a : N) (l1 l2 : lex) : Prop := {
  ll_same : lex_same l1 l2;
  ll_nask : l_asked l1 = false;
  ll_E : lo <= E;
  ll_l1 : l_last_match_pos l1 = f1 E;
  ll_l2 : l_last_match_pos l2 = f2 E;
  ll_s : exists s, l_start_pos l1 = f1 s /\ l_start_pos l2 = f2 s /\ E <= s /\ s <= a /\
         (s = a -> is_accepting (c_dfa c) q = false) /\
         (l_match l1 = true -> exists m, l_match_pos l1 = f1 m /\ l_match_pos l2 = f2 m /\ s < m /\ m <= a)
}.
(** ... and between two calls of scan. *)
Record lrel (E a : N) (l1 l2 : lex) : Prop := {
  lr_same : lex_same l1 l2;
  lr_Ea : E <= a;
  lr_none : l_match l1 = false -> l_last_match_pos l1 = f1 a /\ l_last_match_pos l2 = f2 a /\ E = a;
  lr_asked : l_asked l1 = true -> l_match l1 = false /\ l_start_pos l1 = f1 a /\ l_start_pos l2 = f2 a /\
             (forall q, l_prev l1 = Some q -> is_accepting (c_dfa c) q = false);
  lr_pend : l_match l1 = true -> l_asked l1 = false /\ l_start_pos l1 = f1 E /\ l_start_pos l2 = f2 E /\
            l_match_pos l1 = f1 a /\ l_match_pos l2 = f2 a /\ (l_ids l1 = cTokenEndTypes \/ E < a)
}.
Definition tok1 := tok_at (ib_active b1) (ib_size b1) f1.
Definition tok2 := tok_at (ib_active b2) (ib_size b2) f2.
Record trel (s e : N) (t1 t2 : token) : Prop := {
  tr_1 : tok1 s e t1;
  tr_2 : tok2 s e t2;
  tr_line : t_line t1 = t_line t2;
  tr_ids : t_ids t1 = t_ids t2
}.
(** The fully-consumed flags matter only if the lexer is going to read. *)
Definition flags (l : lex) (fa fb : bool) : Prop :=
  (fa = false /\ fb = false) \/ (l_match l = true /\ l_ids l = cTokenEndTypes).
Definition scan_rel (E : N) (r1 r2 : option token * lex * ibuf) : Prop :=
  exists t1 t2 y a l1 l2 fa fb, r1 = (Some t1, l1, cur b1 (f1 a) fa) /\ r2 = (Some t2, l2, cur b2 (f2 a) fb) /\
    trel E y t1 t2 /\ t_end t1 = f1 y /\ t_end t2 = f2 y /\ (t_ids t1 = cTokenEndTypes \/ E < y) /\ lrel y a l1 l2 /\ l_asked l1 = false /\ pos_ok a fa /\
    (t_ids t1 = cTokenEndTypes \/ flags l1 fa fb) /\ (a < hi1 \/ e1 = true).
Definition stopped {A B} (r : option A * B) : Prop := fst r = None /\ e1 = false.

Lemma same_set_match : forall l1 l2 ids p1 p2, lex_same l1 l2 ->
  lex_same (lex_set_match l1 ids p1 (l_line l1)) (lex_set_match l2 ids p2 (l_line l2)).
Proof. intros l1 l2 ids p1 p2 [A1 A2 A3 A4 A5 A6 A7]. constructor; cbn; auto. Qed.

Lemma root_na : is_accepting (c_dfa c) d_root = false.
Proof. unfold is_accepting. now rewrite Hroot. Qed.

Lemma scan_loop_sim : forall fuel q E a f l1 l2, pos_ok a f -> lloop q E a l1 l2 ->
  sim_res (scan_rel E) (fun r => fst (fst r) = None /\ e1 = false)
          (scan_loop fuel c q l1 (cur b1 (f1 a) f)) (scan_loop fuel c q l2 (cur b2 (f2 a) f)).
Proof.
  induction fuel as [|fuel IH]; intros q E a f l1 l2 Ha L; [reflexivity|]. cbn [scan_loop]. rewrite !cur_pos.
  pose proof (get_sim a f Ha) as G. destruct (get_next_character (cur b1 (f1 a) f)) as [[(ch, b')|]| | |]; try contradiction.
  2:{ left. split; [reflexivity|exact G]. }
  destruct G as (a' & f' & -> & G2 & Ha' & Hle & Hf'1 & Hf'2). rewrite G2. rewrite !cur_full, !cur_pos.
  assert (0 <= a) as _ by lia.
  set (m1 := if (c_delim c ch || f' || negb (c_has_delims c)) && is_accepting (c_dfa c) q
             then lex_set_match l1 (d_ids (c_dfa c) q) (f1 a) (l_line l1) else l1).
  set (m2 := if (c_delim c ch || f' || negb (c_has_delims c)) && is_accepting (c_dfa c) q
             then lex_set_match l2 (d_ids (c_dfa c) q) (f2 a) (l_line l2) else l2).
  (* state after the first statement *)
  assert (exists s, lex_same m1 m2 /\ l_asked m1 = false /\ l_last_match_pos m1 = f1 E /\ l_last_match_pos m2 = f2 E /\
          l_start_pos m1 = f1 s /\ l_start_pos m2 = f2 s /\ lo <= E /\ E <= s /\ s <= a /\
          (l_match m1 = true -> exists m, l_match_pos m1 = f1 m /\ l_match_pos m2 = f2 m /\ s < m /\ m <= a)) as K1.
  { destruct L as [LS LA LE L1 L2 (s & S1 & S2 & S3 & S4 & S5 & S6)]. exists s. unfold m1, m2.
    destruct ((c_delim c ch || f' || negb (c_has_delims c)) && is_accepting (c_dfa c) q) eqn:C.
    - apply andb_true_iff in C as (_ & C). assert (s <> a) by (intro Q; rewrite (S5 Q) in C; discriminate).
      split; [apply same_set_match; exact LS|]. cbn. repeat split; auto. intros _. exists a. repeat split; auto; lia.
    - repeat split; auto; try apply LS. }
  clearbody m1 m2. clear L.
  (* state after the newline statement *)
  set (r1 := if ch =? cNewline then _ else _). set (r2 := if ch =? cNewline then _ else _).
  assert (sim_res (fun x1 x2 => fst x1 = fst x2 /\ exists s, lex_same (snd x1) (snd x2) /\ l_asked (snd x1) = false /\
          l_last_match_pos (snd x1) = f1 E /\ l_last_match_pos (snd x2) = f2 E /\
          l_start_pos (snd x1) = f1 s /\ l_start_pos (snd x2) = f2 s /\ lo <= E /\ E <= s /\ s <= a /\
          (l_match (snd x1) = true -> exists m, l_match_pos (snd x1) = f1 m /\ l_match_pos (snd x2) = f2 m /\ s < m /\ m <= a' /\ (fst x1 = None -> m <= a)))
          (fun _ => False) r1 r2) as K2.
  { destruct K1 as (s & MS & MA & ML1 & ML2 & MS1 & MS2 & ME & MEs & Msa & MM). unfold r1, r2.
    destruct (N.eqb_spec ch cNewline) as [Hc|Hc].
    - cbn [l_match lex_inc_line]. rewrite <- (lx_match _ _ MS).
      destruct (c_has_delims c && negb (l_match m1)) eqn:D.
      + destruct (d_next (c_dfa c) d_root ch) as [n|]; [|reflexivity].
        assert (f' = false). { destruct f'; [|reflexivity]. destruct (Hf'1 eq_refl) as (_ & _ & Q). rewrite Hc in Q. discriminate. }
        right. eexists. split; [reflexivity|]. cbn. split; [reflexivity|]. exists a.
        destruct MS. repeat split; cbn; auto; try lia; try congruence. intros _. exists a'. repeat split; auto; try lia; try discriminate.
      + right. eexists. split; [reflexivity|]. cbn. split; [reflexivity|]. exists s. destruct MS. repeat split; cbn; auto; try congruence.
        intro Q. destruct (MM Q) as (m & M1 & M2 & M3 & M4). exists m. repeat split; auto; lia.
    - right. eexists. split; [reflexivity|]. cbn. split; [reflexivity|]. exists s. repeat split; auto; try apply MS.
      intro Q. destruct (MM Q) as (m & M1 & M2 & M3 & M4). exists m. repeat split; auto; lia. }
  clearbody r1 r2. clear K1.
  eapply sim_bind; [exact K2|intros ? []|]. clear K2 r1 r2. intros (n1, k1) (n2, k2) (Hn & s & KS & KA & KL1 & KL2 & KS1 & KS2 & KE & KEs & Ksa & KM).
  cbn [fst snd] in *. subst n2.
  destruct f'; [|destruct n1 as [n|]].
  2:{ apply IH; [exact Ha'|]. specialize (Hf'2 eq_refl). constructor; auto. exists s. do 4 (split; [auto; lia|]). split; [lia|].
      intro Q. destruct (KM Q) as (m & M1 & M2 & M3 & M4 & _). exists m. auto. }
  all: rewrite <- (lx_match _ _ KS).
  all: destruct (l_match k1) eqn:Em.
  1,3: destruct (KM eq_refl) as (m & M1 & M2 & M3 & M4 & M5); cbn [lex_restore_line l_last_match_pos l_start_pos l_last_match_line l_match_pos l_match_line l_ids];
    rewrite KL1, KL2, KS1, KS2, M1, M2; destruct Ha as (Ha0 & Ha1 & Ha2); destruct Ha' as (Hb0 & Hb1 & Hb2);
    rewrite (v_eqb _ _ _ _ _ _ E s V1), (v_eqb _ _ _ _ _ _ E s V2) by lia; rewrite !cur_set_full;
    destruct (N.eqb_spec E s) as [He|He]; cbn [negb]; (right; eexists; split; [reflexivity|]).
  1,3: subst s; do 8 eexists; split; [reflexivity|]; split; [reflexivity|]; destruct KS as [KS_1 KS_2 KS_3 KS_4 KS_5 KS_6 KS_7];
    (split; [constructor; cbn; auto; constructor; cbn; auto; lia|]); cbn;
    (split; [auto|]); (split; [auto|]); (split; [right; lia|]); (split; [constructor; cbn; auto; [constructor; cbn; auto; congruence|lia| |discriminate]; congruence|]);
    (split; [auto|]); (split; [unfold pos_ok; repeat split; try lia; discriminate|]); (split; [right; left; auto|]);
    (first [right; apply Hb2; reflexivity | left; specialize (M5 eq_refl); specialize (Hf'2 eq_refl); lia]).
  1,2: do 8 eexists; split; [reflexivity|]; split; [reflexivity|]; destruct KS as [KS_1 KS_2 KS_3 KS_4 KS_5 KS_6 KS_7];
    (split; [constructor; cbn; auto; constructor; cbn; auto; lia|]); cbn;
    (split; [auto|]); (split; [auto|]); (split; [right; lia|]); (split; [constructor; cbn; auto; [constructor; cbn; auto; congruence|lia|congruence|congruence|]; intros _; repeat split; auto; lia|]);
    (split; [auto|]); (split; [unfold pos_ok; repeat split; try lia; discriminate|]); (split; [right; left; auto|]);
    (first [right; apply Hb2; reflexivity | left; specialize (M5 eq_refl); specialize (Hf'2 eq_refl); lia]).
  - (* end of file, no match *)
    rewrite KS1, KS2, KL1, KL2. destruct Ha as (Ha0 & Ha1 & Ha2); destruct Ha' as (Hb0 & Hb1 & Hb2).
    rewrite (v_eqb _ _ _ _ _ _ s a' V1), (v_eqb _ _ _ _ _ _ s a' V2) by lia. cbn [andb].
    destruct (Hf'1 eq_refl) as (Q1 & Q2 & Q3). destruct (N.eqb_spec s a') as [Hs|Hs].
    + rewrite (v_eqb _ _ _ _ _ _ E s V1), (v_eqb _ _ _ _ _ _ E s V2) by lia.
      destruct KS as [KS_1 KS_2 KS_3 KS_4 KS_5 KS_6 KS_7].
      destruct (N.eqb_spec E s) as [He|He]; cbn [negb]; (right; eexists; split; [reflexivity|]); (eexists; eexists; exists s, a'; eexists; eexists; exists true, true); (split; [reflexivity|]); (split; [reflexivity|]).
      * split; [constructor; cbn; auto; constructor; cbn; rewrite ?He, ?Hs; auto; lia|]. cbn. rewrite He, Hs.
        split; [auto|]. split; [auto|]. split; [auto|]. split; [constructor; auto; [constructor; auto|lia| |congruence|congruence]; intros _; rewrite KL1, KL2, He, Hs; auto|].
        split; [auto|]. split; [|split; [left; auto|right; apply Hb2; reflexivity]]. unfold pos_ok. rewrite Q2. repeat split; auto; try lia. apply Hb2; reflexivity.
      * split; [constructor; cbn; auto; constructor; cbn; auto|]. cbn. split; [auto|]. split; [auto|]. split; [right; lia|].
        split; [constructor; cbn; auto; [constructor; cbn; auto|lia|congruence|congruence|]; intros _; rewrite <- Hs; repeat split; auto|].
        split; [auto|]. split; [|split; [right; right; auto|right; apply Hb2; reflexivity]]. rewrite <- Hs. unfold pos_ok. repeat split; auto; try lia. apply Hb2; reflexivity.
    + assert (lo <= a) by lia. assert (pos_ok a' true) as Ha' by (split; auto).
      pose proof (skip_sim fuel ch a a' true Ha' ltac:(lia) ltac:(lia) ltac:(intro; apply Hf'1; auto)) as K.
      destruct (skip_loop fuel c ch (f1 a) (cur b1 (f1 a') true)) as [(op, bb)| | |]; cbn in K.
      2-4: rewrite K; reflexivity.
      destruct K as [K|(x2 & -> & prev' & a2 & f2' & K1 & K2 & K3 & K4 & K5 & K6)].
      * destruct K as (K & Ke). cbn in K. subst op. left. split; [reflexivity|exact Ke].
      * injection K1 as -> ->. subst x2. rewrite !cur_set_pos. destruct K3 as (K31 & K32 & K33). apply IH.
        -- split; [lia|]. split; [lia|]. intro Q. split; [auto|apply K33; auto].
        -- destruct KS as [KS_1 KS_2 KS_3 KS_4 KS_5 KS_6 KS_7]. constructor; cbn; auto; [constructor; cbn; auto; congruence|]. exists prev'. repeat split; auto; try lia; try (intros; apply root_na); congruence.
  - destruct Ha as (Ha0 & Ha1 & Ha2); destruct Ha' as (Hb0 & Hb1 & Hb2). cbn [andb].
    assert (pos_ok a' false) as Ha' by (split; auto).
    pose proof (skip_sim fuel ch a a' false Ha' ltac:(lia) ltac:(lia) ltac:(congruence)) as K.
      destruct (skip_loop fuel c ch (f1 a) (cur b1 (f1 a') false)) as [(op, bb)| | |]; cbn in K.
      2-4: rewrite K; reflexivity.
      destruct K as [K|(x2 & -> & prev' & a2 & f2' & K1 & K2 & K3 & K4 & K5 & K6)].
      * destruct K as (K & Ke). cbn in K. subst op. left. split; [reflexivity|exact Ke].
      * injection K1 as -> ->. subst x2. rewrite !cur_set_pos. destruct K3 as (K31 & K32 & K33). apply IH.
        -- split; [lia|]. split; [lia|]. intro Q. split; [auto|apply K33; auto].
        -- destruct KS as [KS_1 KS_2 KS_3 KS_4 KS_5 KS_6 KS_7]. constructor; cbn; auto; [constructor; cbn; auto; congruence|]. exists prev'. repeat split; auto; try lia; try (intros; apply root_na); congruence.
Qed.

Lemma scan_sim : forall fuel E a fa fb l1 l2, pos_ok a fa -> flags l1 fa fb -> lrel E a l1 l2 -> lo <= E ->
  (l_match l1 = true -> a < hi1 \/ e1 = true) ->
  sim_res (scan_rel E) (fun r => fst (fst r) = None /\ e1 = false) (scan fuel c l1 (cur b1 (f1 a) fa)) (scan fuel c l2 (cur b2 (f2 a) fb)).
Proof.
  intros fuel E a fa fb l1 l2 Ha Hf L HE Hah. unfold scan. pose proof (lr_same _ _ _ _ L) as LS.
  rewrite <- (lx_asked _ _ LS), <- (lx_prev _ _ LS), <- (lx_match _ _ LS). destruct LS as [S1 S2 S3 S4 S5 S6 S7].
  destruct (l_asked l1) eqn:Ea.
  - destruct (lr_asked _ _ _ _ L Ea) as (M & A1 & A2 & A3). destruct (lr_none _ _ _ _ L M) as (N1 & N2 & ->).
    destruct Hf as [(-> & ->)|(Q & _)]; [|congruence].
    destruct (l_prev l1) as [q|] eqn:Eq.
    + apply scan_loop_sim; [exact Ha|]. constructor; cbn; auto; [constructor; cbn; auto; congruence|].
      exists a. repeat split; auto; try lia. congruence.
    + pose proof (get_sim a false Ha) as G. destruct (get_next_character (cur b1 (f1 a) false)) as [[(ch, b')|]| | |]; try contradiction.
      * destruct G as (a' & f' & _ & -> & _). reflexivity.
      * left. split; [reflexivity|exact G].
  - destruct (l_match l1) eqn:Em.
    + destruct (lr_pend _ _ _ _ L Em) as (_ & A1 & A2 & A3 & A4 & A5). right. eexists. split; [reflexivity|].
      exists (mk_tok b1 (l_start_pos l1) (l_match_pos l1) (l_match_line l1) (l_ids l1)),
             (mk_tok b2 (l_start_pos l2) (l_match_pos l2) (l_match_line l2) (l_ids l2)), a, a, (lex_take l1), (lex_take l2), fa, fb.
      split; [reflexivity|]. split; [reflexivity|]. pose proof (lr_Ea _ _ _ _ L).
      split; [constructor; cbn; auto; constructor; cbn; auto|]. cbn. split; [auto|]. split; [auto|]. split; [exact A5|].
      split; [constructor; cbn; auto; [constructor; cbn; auto; congruence|lia|congruence|congruence]|]. split; [exact Ea|]. split; [exact Ha|]. split; [|apply Hah; reflexivity].
      destruct Hf as [Hf|(_ & Hf)]; [right; left; exact Hf|left; exact Hf].
    + destruct Hf as [(-> & ->)|(Q & _)]; [|congruence]. destruct (lr_none _ _ _ _ L Em) as (N1 & N2 & ->).
      apply scan_loop_sim; [exact Ha|]. constructor; cbn; auto; [constructor; cbn; auto; congruence|].
      exists a. rewrite Em. repeat split; auto; try lia; try (intros; apply root_na); try discriminate.
Qed.

(** * The log parser *)
(** The occurrence table when parse is called. *)
Variable occ0 : list (list N).
(** Related slots: the first one may be an empty token. *)
Definition srel (o1 o2 : obuf) (i : N) : Prop :=
  exists s e, trel s e (ob_act o1 i) (ob_act o2 i) /\ lo <= s /\ e <= hi1 /\ (s < e \/ i = ob_first o1).
Record orel (o1 o2 : obuf) : Prop := {
  or_pos : ob_pos o1 = ob_pos o2;
  or_size : ob_size o1 = ob_size o2;
  or_ts : ob_has_ts o1 = ob_has_ts o2;
  or_dl : ob_has_delims o1 = ob_has_delims o2;
  or_lt : ob_pos o1 < ob_size o1;
  or_tsp : ob_has_ts o1 = true -> 0 < ob_pos o1;
  or_tok : forall i, ob_first o1 <= i -> i < ob_pos o1 -> srel o1 o2 i
}.
Record prel (E a : N) (fa fb : bool) (p1 p2 : lparser) : Prop := {
  pr_lex : lrel E a (lp_lex p1) (lp_lex p2);
  pr_in1 : lp_in p1 = cur b1 (f1 a) fa;
  pr_in2 : lp_in p2 = cur b2 (f2 a) fb;
  pr_pos : pos_ok a fa;
  pr_E : lo <= E;
  pr_ahead : l_match (lp_lex p1) = true -> a < hi1 \/ e1 = true;
  pr_hs : lp_has_start p1 = lp_has_start p2;
  pr_st : lp_has_start p1 = true -> exists s e, trel s e (lp_start_tok p1) (lp_start_tok p2) /\ lo <= s /\ e <= hi1;
  pr_out : orel (lp_out p1) (lp_out p2);
  pr_multi : lp_multi p1 = lp_multi p2;
  pr_occ : lp_occ p1 = occ0 /\ lp_occ p2 = occ0
}.
(** The consumed position [n] says that everything before [U] is not needed. *)
Definition near (phi : N -> N) (size n U : N) : Prop := n = phi U \/ n + 1 = phi U \/ (n = size - 1 /\ phi U = 0).
(** The outcome of parse: [Compress] means the parser is ready for the next event, which starts at [U]. *)
Record done_rel (oc : list (list N)) (E0 : N) (act : paction) (p1 p2 : lparser) : Prop := {
  dr_in1 : exists a fa n, lp_in p1 = ib_set_cons (cur b1 (f1 a) fa) n;
  dr_in2 : exists a fa n, lp_in p2 = ib_set_cons (cur b2 (f2 a) fa) n;
  dr_hs : lp_has_start p1 = lp_has_start p2;
  dr_out : orel (lp_out p1) (lp_out p2);
  dr_multi : lp_multi p1 = lp_multi p2;
  dr_occ : lp_occ p1 = oc /\ lp_occ p2 = oc;
  dr_next : act = ActCompress -> exists U E a fa fb n n2,
    lrel E a (lp_lex p1) (lp_lex p2) /\ lp_in p1 = ib_set_cons (cur b1 (f1 a) fa) n /\ lp_in p2 = ib_set_cons (cur b2 (f2 a) fb) n2 /\
    pos_ok a fa /\ flags (lp_lex p1) fa fb /\ lo <= U /\ U <= E /\ near f1 (ib_size b1) n U /\ E0 <= U /\ (a < hi1 \/ e1 = true) /\ l_asked (lp_lex p1) = false /\
    (lp_has_start p1 = true -> trel U E (lp_start_tok p1) (lp_start_tok p2)) /\ (lp_has_start p1 = false -> U = E)
}.
Definition parse_rel (E0 : N) (r1 r2 : option paction * lparser) : Prop :=
  exists act p1 p2, r1 = (Some act, p1) /\ r2 = (Some act, p2) /\ done_rel occ0 E0 act p1 p2 /\ act <> ActNone.

Lemma type_eq : forall s e t1 t2, trel s e t1 t2 -> tok_type t2 = tok_type t1.
Proof. intros s e t1 t2 T. unfold tok_type. now rewrite (tr_ids _ _ _ _ T). Qed.

Lemma set_slot : forall o1 o2 i t1 t2 s e j,
  trel s e t1 t2 -> lo <= s -> e <= hi1 -> (s < e \/ i = ob_first o1) ->
  (j <> i -> srel o1 o2 j) -> srel (ob_set_token o1 i t1) (ob_set_token o2 i t2) j.
Proof.
  intros o1 o2 i t1 t2 s e j T H1 H2 H3 H4. unfold srel, ob_set_token, ob_upd, ob_first in *. cbn.
  destruct (N.eqb_spec j i) as [->|Hn]; [exists s, e; auto|]. apply H4. exact Hn.
Qed.

Lemma orel_push : forall o1 o2 t1 t2 s e, orel o1 o2 -> trel s e t1 t2 -> lo <= s -> e <= hi1 -> s < e ->
  orel (ob_advance (ob_set_curr o1 t1)) (ob_advance (ob_set_curr o2 t2)).
Proof.
  intros o1 o2 t1 t2 s e [O1 O2 O3 O4 O5 O7 O6] T H1 H2 H3.
  unfold ob_advance, ob_set_curr. cbn [ob_pos ob_size ob_set_token ob_has_ts ob_has_delims ob_act ob_base].
  rewrite <- O1, <- O2, <- O3, <- O4. rewrite O1.
  assert (forall i, ob_first o1 <= i -> i < ob_pos o1 + 1 -> srel (ob_set_token o1 (ob_pos o1) t1) (ob_set_token o2 (ob_pos o2) t2) i) as K.
  { intros i Hi Hj. rewrite <- O1. eapply set_slot; eauto. intro Q. apply O6; lia. }
  destruct (N.eqb_spec (ob_pos o1 + 1) (ob_size o1)) as [Q|Q]; rewrite <- ?O1.
  - destruct (N.eqb_spec (ob_pos o1 + 1) (ob_size o1)) as [_|Q']; [|lia]. constructor; cbn; auto; try lia.
    intros i Hi Hj. destruct (K i Hi Hj) as (s' & e' & K1 & K2 & K3 & K4). exists s', e'. cbn.
    destruct (N.ltb_spec i (ob_size o1)); [|lia]. rewrite <- O1 in K1. cbn in K1. auto.
  - destruct (N.eqb_spec (ob_pos o1 + 1) (ob_size o1)) as [Q'|_]; [lia|]. constructor; cbn; auto; try lia; try congruence.
    intros i Hi Hj. destruct (K i Hi Hj) as (s' & e' & K1 & K2 & K3 & K4). exists s', e'. rewrite <- O1 in K1. auto.
Qed.
Lemma orel_curr : forall o1 o2 t1 t2, orel o1 o2 -> orel (ob_set_curr o1 t1) (ob_set_curr o2 t2).
Proof.
  intros o1 o2 t1 t2 [O1 O2 O3 O4 O5 O7 O6]. constructor; cbn; auto. intros i Hi Hj. unfold srel, ob_set_curr, ob_set_token, ob_upd, ob_first in *. cbn in *.
  rewrite <- O1. destruct (N.eqb_spec i (ob_pos o1)); [lia|]. apply O6; assumption.
Qed.

Lemma only_newline_rel : forall s e t1 t2, trel s e t1 t2 -> trel s (s + 1) (only_newline t1) (only_newline t2).
Proof.
  intros s e t1 t2 [[A1 A2 A3 A4 A5] [B1 B2 B3 B4 B5] T3 T4]. constructor; cbn; auto; constructor; cbn; auto; try lia; right; split; auto; congruence.
Qed.
Lemma skip_newline_rel : forall s e t1 t2, trel s e t1 t2 -> t_end t1 = f1 e -> t_end t2 = f2 e -> lo <= s -> s < e -> e <= hi1 ->
  trel (s + 1) e (skip_newline t1) (skip_newline t2).
Proof.
  intros s e t1 t2 [[A1 A2 A3 A4 A5] [B1 B2 B3 B4 B5] T3 T4] E1 E2 H1 H2 H3.
  pose proof (v_step _ _ _ _ _ _ V1 s H1 ltac:(lia)) as S1. pose proof (v_step _ _ _ _ _ _ V2 s H1 ltac:(lia)) as S2.
  pose proof (v_lt _ _ _ _ _ _ V1 s H1 ltac:(lia)) as L1. pose proof (v_lt _ _ _ _ _ _ V2 s H1 ltac:(lia)) as L2.
  constructor; cbn; auto; constructor; cbn; auto; try lia; rewrite ?A2, ?A5, ?B2, ?B5.
  - rewrite S1. destruct (N.eqb_spec (f1 s) (ib_size b1 - 1)), (N.eqb_spec (f1 s + 1) (ib_size b1)); lia.
  - rewrite S2. destruct (N.eqb_spec (f2 s) (ib_size b2 - 1)), (N.eqb_spec (f2 s + 1) (ib_size b2)); lia.
Qed.

Definition sym_rel (E : N) (q1 q2 : lparser) (r1 r2 : option token * lparser) : Prop :=
  exists t1 t2 y a fa fb p1 p2, r1 = (Some t1, p1) /\ r2 = (Some t2, p2) /\
    trel E y t1 t2 /\ t_end t1 = f1 y /\ t_end t2 = f2 y /\ (t_ids t1 = cTokenEndTypes \/ E < y) /\ y <= hi1 /\
    prel y a fa fb p1 p2 /\ (t_ids t1 = cTokenEndTypes \/ flags (lp_lex p1) fa fb) /\
    lp_has_start p1 = lp_has_start q1 /\ lp_out p1 = lp_out q1 /\ lp_out p2 = lp_out q2 /\ (a < hi1 \/ e1 = true) /\ l_asked (lp_lex p1) = false.
Lemma next_symbol_sim : forall sfuel E a fa fb p1 p2, prel E a fa fb p1 p2 -> flags (lp_lex p1) fa fb ->
  sim_res (sym_rel E p1 p2) stopped (get_next_symbol sfuel c p1) (get_next_symbol sfuel c p2).
Proof.
  intros sfuel E a fa fb p1 p2 P Hf. destruct P as [P1 P2 P3 P4 P6 Pah P7 P8 P9 P10 P11]. unfold get_next_symbol. rewrite P2, P3.
  eapply sim_bind; [apply (scan_sim sfuel E a fa fb (lp_lex p1) (lp_lex p2)); assumption| |].
  - intros ((ot, l), b) (Q & Qe). cbn in Q. subst ot. eexists. split; [reflexivity|split; [reflexivity|exact Qe]].
  - intros r1 r2 (t1 & t2 & y & a' & l1 & l2 & fa' & fb' & -> & -> & T & E1 & E2 & Ne & L & A & Po & Fl & Ah).
    right. eexists. split; [reflexivity|]. pose proof (lr_Ea _ _ _ _ L) as La.
    exists t1, t2, y, a', fa', fb'. eexists _, _. split; [reflexivity|]. split; [reflexivity|].
    split; [exact T|]. split; [exact E1|]. split; [exact E2|]. split; [exact Ne|]. destruct Po as (Po1 & Po2 & Po3). split; [lia|].
    pose proof (ta_se _ _ _ _ _ _ (tr_1 _ _ _ _ T)).
    split; [constructor; cbn; auto; [split; auto|lia]|]. cbn. auto 10.
Qed.

Lemma type_end : forall t, t_ids t = cTokenEndTypes -> tok_type t = Ret TokenEnd.
Proof. intros t E. unfold tok_type. rewrite E. reflexivity. Qed.

Lemma parse_rel_weak : forall E y (r1 r2 : out (option paction * lparser)), E <= y -> sim_res (parse_rel y) stopped r1 r2 -> sim_res (parse_rel E) stopped r1 r2.
Proof.
  intros E y r1 r2 H K. unfold sim_res in *. destruct r1 as [x1| | |]; auto. destruct K as [K|(x2 & E2 & act & q1 & q2 & K1 & K2 & D & Na)]; [auto|].
  right. exists x2. split; [exact E2|]. exists act, q1, q2. split; [exact K1|]. split; [exact K2|]. split; [|exact Na].
  destruct D as [D1 D2 D3 D4 D5 D6 D7]. constructor; auto. intro Q.
  destruct (D7 Q) as (U & E' & a & fa & fb & n & n2 & L & I1 & I2 & Po & Fl & HU & HUE & Nr & HE & R).
  exists U, E', a, fa, fb, n, n2. do 8 (split; [assumption|]). split; [lia|exact R].
Qed.
Lemma parse_loop_sim : forall fuel sfuel E a fa fb p1 p2, prel E a fa fb p1 p2 -> flags (lp_lex p1) fa fb -> lp_has_start p1 = false ->
  sim_res (parse_rel E) stopped (parse_loop fuel sfuel c p1) (parse_loop fuel sfuel c p2).
Proof.
  induction fuel as [|fuel IH]; intros sfuel E a fa fb p1 p2 P Hf Hst; [reflexivity|]. cbn [parse_loop].
  eapply sim_bind; [apply (next_symbol_sim sfuel E a fa fb); assumption| |].
  { intros (ot, q) (Q & Qe). cbn in Q. subst ot. eexists. split; [reflexivity|split; [reflexivity|exact Qe]]. }
  pose proof (pr_E _ _ _ _ _ _ P) as HloE. clear P Hf a fa fb.
  intros r1 r2 (t1 & t2 & y & a & fa & fb & q1 & q2 & -> & -> & T & E1 & E2 & Ne & Hy & P & Fl & Hs & Ho1 & Ho2 & Ah & Ask).
  destruct P as [P1 P2 P3 P4 P6 Pah P7 P8 P9 P10 P11].
  cbn [lp_out lp_set_out lp_in ob_has_ts ob_set_curr ob_set_token]. rewrite (type_eq _ _ _ _ T).
  rewrite Ho1, Ho2 in *. pose proof (or_ts _ _ P9) as Ots. rewrite <- Ots.
  destruct (tok_type t1) as [ty| | |] eqn:Et; cbn [bind]; try reflexivity.
  (* the first character *)
  assert (exists x, tok_char (ib_heap b1) t1 0 = Ret x /\ (E < hi1 -> byte_at txt E = Some x)) as (x1 & X1 & B1).
  { pose proof (ta_se _ _ _ _ _ _ (tr_1 _ _ _ _ T)). destruct (tok_at_char _ _ _ _ _ _ E y t1 V1 HloE ltac:(lia) (tr_1 _ _ _ _ T)) as (x & X & _ & B). eauto. }
  assert (exists x, tok_char (ib_heap b2) t2 0 = Ret x /\ (E < hi2 -> byte_at txt E = Some x)) as (x2 & X2 & B2).
  { pose proof (ta_se _ _ _ _ _ _ (tr_1 _ _ _ _ T)). destruct (tok_at_char _ _ _ _ _ _ E y t2 V2 HloE ltac:(lia) (tr_2 _ _ _ _ T)) as (x & X & _ & B). eauto. }
  rewrite P2, P3. change (ib_heap (cur b1 (f1 a) fa)) with (ib_heap b1). change (ib_heap (cur b2 (f2 a) fb)) with (ib_heap b2).
  rewrite X1, X2. cbn [bind].
  destruct (N.eqb_spec ty TokenEnd) as [->|Hne].
  { (* end of the log *)
    match goal with |- sim_res _ _ (bind ?g1 _) (bind ?g2 _) =>
      assert (exists z1, g1 = Ret z1) as (z1 & ->) by (destruct (ob_has_ts (lp_out p1)), (TokenEnd =? TokenNewlineTimestamp); cbn; eauto);
      assert (exists z2, g2 = Ret z2) as (z2 & ->) by (destruct (ob_has_ts (lp_out p1)), (TokenEnd =? TokenNewlineTimestamp); cbn; eauto) end.
    cbn [bind]. right. eexists. split; [reflexivity|]. exists ActCompressAndFinish. eexists _, _. split; [reflexivity|]. split; [reflexivity|].
    split; [|discriminate]. constructor; cbn; auto; try discriminate.
    - exists a, fa, (ib_cons b1). rewrite P2. reflexivity.
    - exists a, fb, (ib_cons b2). rewrite P3. reflexivity.
    - apply orel_curr. exact P9. }
  assert (t_ids t1 <> cTokenEndTypes) as Hni by (intro Q; rewrite (type_end _ Q) in Et; congruence).
  destruct Ne as [Ne|Ne]; [contradiction|]. destruct Fl as [Fl|Fl]; [contradiction|].
  assert (x2 = x1) as -> by (rewrite (B1 ltac:(lia)) in B2; specialize (B2 ltac:(lia)); congruence).
  match goal with |- sim_res _ _ (bind ?g _) (bind ?g _) => destruct g as [found| | |]; try reflexivity end. cbn [bind].
  destruct (N.eqb_spec ty TokenEnd) as [Q|_]; [contradiction|].
  destruct (negb (ob_has_ts (lp_out p1)) && (ty =? TokenNewline)) eqn:Enl; [|destruct found].
  - (* a newline ends the event *)
    right. eexists. split; [reflexivity|]. exists ActCompress. eexists _, _. split; [reflexivity|]. split; [reflexivity|]. split; [|discriminate].
    constructor; cbn; auto.
    + exists a, fa, (t_end t1). rewrite P2. reflexivity.
    + exists a, fb, (t_end t2). rewrite P3. reflexivity.
    + rewrite ?Ho1, ?Ho2. apply (orel_push _ _ _ _ E y); auto.
    + intros _. exists y, y, a, fa, fb, (t_end t1), (t_end t2). rewrite P2, P3.
      split; [exact P1|]. split; [reflexivity|]. split; [reflexivity|]. split; [exact P4|]. split; [exact Fl|].
      split; [lia|]. split; [lia|]. split; [left; exact E1|]. split; [lia|]. split; [exact Ah|]. split; [exact Ask|]. split; [congruence|auto].
  - (* the start of the next event was found *)
    right. eexists. split; [reflexivity|]. exists ActCompress. eexists _, _. split; [reflexivity|]. split; [reflexivity|]. split; [|discriminate].
    assert (trel (E + 1) y (skip_newline t1) (skip_newline t2)) as Sk by (apply (skip_newline_rel E y); auto).
    pose proof (only_newline_rel _ _ _ _ T) as On.
    pose proof (v_lt _ _ _ _ _ _ V1 (E + 1) ltac:(lia) ltac:(lia)) as Lt.
    pose proof (ta_start _ _ _ _ _ _ (tr_1 _ _ _ _ Sk)) as St1.
    constructor; cbn -[skip_newline only_newline]; auto.
    + exists a, fa. eexists. rewrite P2. reflexivity.
    + exists a, fb. eexists. rewrite P3. reflexivity.
    + rewrite ?Ho1, ?Ho2. apply (orel_push _ _ _ _ E (E + 1)); auto; try lia. apply orel_curr. exact P9.
    + intros _. exists (E + 1), y, a, fa, fb. eexists _, _. rewrite P2, P3.
      split; [exact P1|]. split; [reflexivity|]. split; [reflexivity|]. split; [exact P4|]. split; [exact Fl|].
      split; [lia|]. split; [lia|]. split; [|split; [lia|split; [exact Ah|split; [exact Ask|split; [auto|discriminate]]]]].
      rewrite St1. unfold near. change (ib_size (cur b1 (f1 a) fa)) with (ib_size b1).
      destruct (N.eqb_spec (f1 (E + 1)) 0); [right; right; auto|right; left; lia].
  - (* one more token *)
    apply (parse_rel_weak E y); [lia|]. apply (IH sfuel y a fa fb); auto.
    + constructor; cbn; auto. rewrite ?Ho1, ?Ho2. apply (orel_push _ _ _ _ E y); auto.
    + cbn. congruence.
Qed.

Lemma parse_first_sim : forall fuel sfuel E a fa fb p1 p2 s y t1 t2, prel E a fa fb p1 p2 ->
  (t_ids t1 = cTokenEndTypes \/ flags (lp_lex p1) fa fb) -> 2 < ob_size (lp_out p1) -> ob_has_ts (lp_out p1) = false ->
  trel s y t1 t2 -> lo <= s -> y <= hi1 ->
  sim_res (parse_rel E) stopped (parse_first fuel sfuel c p1 t1) (parse_first fuel sfuel c p2 t2).
Proof.
  intros fuel sfuel E a fa fb p1 p2 s y t1 t2 P Fl Hsz Hts T Hs Hy. unfold parse_first. rewrite (type_eq _ _ _ _ T).
  destruct (tok_type t1) as [ty| | |] eqn:Et; cbn [bind]; try reflexivity.
  destruct P as [P1 P2 P3 P4 P6 Pah P7 P8 P9 P10 P11]. pose proof P9 as [O1 O2 O3 O4 O5 O7 O6].
  destruct (N.eqb_spec ty TokenEnd) as [->|Hne].
  - right. eexists. split; [reflexivity|]. exists ActCompressAndFinish. eexists _, _. split; [reflexivity|]. split; [reflexivity|].
    split; [|discriminate]. constructor; cbn; auto; try discriminate.
    + exists a, fa, (ib_cons b1). rewrite P2. reflexivity.
    + exists a, fb, (ib_cons b2). rewrite P3. reflexivity.
    + constructor; cbn; auto; try lia. intros i Hi Hj. unfold ob_first in Hi. cbn in Hi. rewrite Hts in Hi. lia.
  - assert (t_ids t1 <> cTokenEndTypes) as Hni by (intro Q; rewrite (type_end _ Q) in Et; congruence).
    destruct Fl as [Fl|Fl]; [contradiction|].
    apply (parse_loop_sim fuel sfuel E a fa fb); [|exact Fl|reflexivity].
    constructor; cbn; auto; try congruence; try discriminate.
    destruct ((ty =? TokenFirstTimestamp) || (ty =? TokenNewlineTimestamp)).
    + constructor; cbn; auto; try lia. intros i Hi Hj. replace i with 0 by lia.
      exists s, y. cbn. unfold ob_upd. cbn. rewrite !N.eqb_refl. split; [exact T|]. auto.
    + constructor; cbn; auto; try lia; try discriminate. intros i Hi Hj. unfold ob_first in Hi. cbn in Hi. replace i with 1 by lia.
      exists s, y. cbn. unfold ob_upd. cbn. rewrite !N.eqb_refl. split; [exact T|]. auto.
Qed.

Lemma parse_sim : forall fuel sfuel E a fa fb p1 p2, prel E a fa fb p1 p2 -> flags (lp_lex p1) fa fb ->
  ob_pos (lp_out p1) = 0 -> 2 < ob_size (lp_out p1) -> ob_has_ts (lp_out p1) = false ->
  sim_res (parse_rel E) stopped (parse fuel sfuel c p1) (parse fuel sfuel c p2).
Proof.
  intros fuel sfuel E a fa fb p1 p2 P Fl Hp Hsz Hts. unfold parse.
  pose proof (pr_out _ _ _ _ _ _ P) as [O1 O2 O3 O4 O5 O7 O6]. rewrite <- O1, Hp. cbn [N.eqb].
  change (0 =? 0) with true. cbn iota.
  cbn [lp_has_start lp_set_out lp_start_tok]. rewrite <- (pr_hs _ _ _ _ _ _ P).
  set (q1 := lp_set_out p1 (ob_set_delims (lp_out p1) (c_has_delims c))). set (q2 := lp_set_out p2 (ob_set_delims (lp_out p2) (c_has_delims c))).
  assert (prel E a fa fb q1 q2) as Q.
  { destruct P as [P1 P2 P3 P4 P6 Pah P7 P8 P9 P10 P11]. constructor; cbn; auto. constructor; cbn; auto. }
  assert (ob_has_ts (lp_out q1) = false) as Qts by exact Hts. assert (2 < ob_size (lp_out q1)) as Qsz by exact Hsz.
  assert (flags (lp_lex q1) fa fb) as Qf by exact Fl. assert (ob_pos (lp_out q1) = 0) as Qp by exact Hp.
  destruct (lp_has_start p1) eqn:Hst.
  - destruct (pr_st _ _ _ _ _ _ P Hst) as (s & e & T & T1 & T2). eapply parse_first_sim; eauto.
  - assert (lp_has_start q1 = false) as Qst by exact Hst. clearbody q1 q2. clear P Fl Hp Hsz Hts Hst O1 O2 O3 O4 O5 O6 O7 p1 p2.
    eapply sim_bind; [apply (next_symbol_sim sfuel E a fa fb); assumption| |].
    { intros (ot, q) (X & Xe). cbn in X. subst ot. eexists. split; [reflexivity|split; [reflexivity|exact Xe]]. }
    pose proof (pr_E _ _ _ _ _ _ Q) as HloE. clear Q Qf a fa fb.
    intros r1 r2 (t1 & t2 & y & a & fa & fb & p1 & p2 & -> & -> & T & E1 & E2 & Ne & Hy & P & Fl & Hs & Ho1 & Ho2 & Ah & Ask).
    pose proof (or_ts _ _ (pr_out _ _ _ _ _ _ P)) as Ots. rewrite <- Ots. rewrite <- Ho1 in *. rewrite Qts.
    rewrite (type_eq _ _ _ _ T). destruct (tok_type t1) as [ty| | |] eqn:Et; cbn [bind]; try reflexivity.
    destruct (N.eqb_spec ty TokenNewlineTimestamp) as [->|Hne].
    + assert (t_ids t1 <> cTokenEndTypes) as Hni by (intro X; rewrite (type_end _ X) in Et; discriminate).
      destruct Ne as [Ne|Ne]; [contradiction|]. destruct Fl as [Fl|Fl]; [contradiction|].
      right. eexists. split; [reflexivity|]. exists ActCompress. eexists _, _. split; [reflexivity|]. split; [reflexivity|]. split; [|discriminate].
      assert (trel (E + 1) y (skip_newline t1) (skip_newline t2)) as Sk by (apply (skip_newline_rel E y); auto).
      pose proof (only_newline_rel _ _ _ _ T) as On. destruct P as [P1 P2 P3 P4 P6 Pah P7 P8 P9 P10 P11]. pose proof P9 as [O1 O2 O3 O4 O5 O7 O6].
      constructor; cbn -[skip_newline only_newline]; auto.
      * exists a, fa. eexists. rewrite P2. reflexivity.
      * exists a, fb. eexists. rewrite P3. reflexivity.
      * constructor; cbn -[only_newline]; auto; try lia. intros i Hi Hj. unfold ob_first in Hi. cbn in Hi. rewrite Qts in Hi. replace i with 1 by lia.
        exists E, (E + 1). cbn -[only_newline]. unfold ob_upd. rewrite !N.eqb_refl. split; [exact On|]. repeat split; try lia.
      * intros _. exists (E + 1), y, a, fa, fb. eexists _, _. rewrite P2, P3.
        split; [exact P1|]. split; [reflexivity|]. split; [reflexivity|]. split; [exact P4|]. split; [exact Fl|].
        split; [lia|]. split; [lia|]. split; [|split; [lia|split; [exact Ah|split; [exact Ask|split; [auto|discriminate]]]]]. cbn. rewrite (ta_start _ _ _ _ _ _ (tr_1 _ _ _ _ T)).
        unfold near. rewrite (v_step _ _ _ _ _ _ V1 E) by lia. pose proof (v_lt _ _ _ _ _ _ V1 E ltac:(lia) ltac:(lia)).
        destruct (N.eqb_spec (f1 E + 1) (ib_size b1)); [right; right; lia|right; left; lia].
    + apply (parse_rel_weak E y); [apply (ta_se _ _ _ _ _ _ (tr_1 _ _ _ _ T))|]. eapply (parse_first_sim fuel sfuel y a fa fb p1 p2 E y); eauto.
Qed.

(** Metadata. *)
Lemma meta_loop_sim : forall is o1 o2 n1 n2 occ, (forall i, In i is -> ob_first o1 <= i /\ srel o1 o2 i) ->
  (ob_has_ts o1 = true -> n1 = n2) ->
  match meta_loop (ib_heap b1) o1 is n1 occ with
  | Ret (m1, occ1) => exists m2, meta_loop (ib_heap b2) o2 is n2 occ = Ret (m2, occ1) /\ (ob_has_ts o1 = true -> m1 = m2)
  | UB => meta_loop (ib_heap b2) o2 is n2 occ = UB
  | Throw => meta_loop (ib_heap b2) o2 is n2 occ = Throw
  | OutOfFuel => meta_loop (ib_heap b2) o2 is n2 occ = OutOfFuel
  end.
Proof.
  induction is as [|i is IH]; intros o1 o2 n1 n2 occ H Hn; cbn [meta_loop]; [exists n2; auto|].
  destruct (H i (or_introl eq_refl)) as (Hi & s & e & T & S1 & S2 & S3). rewrite (type_eq _ _ _ _ T).
  destruct (tok_type (ob_act o1 i)) as [ty| | |]; cbn [bind]; try reflexivity.
  destruct (occ_add occ ty i) as [occ'| | |]; cbn [bind]; try reflexivity.
  pose proof (ta_se _ _ _ _ _ _ (tr_1 _ _ _ _ T)).
  destruct (tok_at_char _ _ _ _ _ _ s e _ V1 S1 ltac:(lia) (tr_1 _ _ _ _ T)) as (x1 & _ & -> & B1).
  destruct (tok_at_char _ _ _ _ _ _ s e _ V2 S1 ltac:(lia) (tr_2 _ _ _ _ T)) as (x2 & _ & -> & B2).
  cbn [bind]. apply IH; [intros j Hj; apply H; right; exact Hj|].
  intros Hts. rewrite <- (Hn Hts). destruct S3 as [S3|S3].
  - rewrite (B1 ltac:(lia)) in B2. specialize (B2 ltac:(lia)). injection B2 as ->. reflexivity.
  - unfold ob_first in S3. rewrite Hts in S3. subst i. destruct (N.eqb_spec n1 0) as [->|]; rewrite ?andb_false_r, ?andb_true_r; [|reflexivity].
    destruct (x1 =? cNewline), (x2 =? cNewline); reflexivity.
Qed.

(** Once the metadata is there: the occurrence table refers to slots of the event. *)
Definition occ_in (o : obuf) (oc : list (list N)) : Prop :=
  forall l i, In l oc -> In i l -> ob_first o <= i /\ i < ob_pos o.
Definition meta_rel (E0 : N) (act : paction) (p1 p2 : lparser) : Prop := exists oc, done_rel oc E0 act p1 p2 /\ occ_in (lp_out p1) oc.
Lemma occ_add_in : forall occ ty i occ' (P : N -> Prop), occ_add occ ty i = Ret occ' -> P i ->
  (forall l j, In l occ -> In j l -> P j) -> forall l j, In l occ' -> In j l -> P j.
Proof.
  intros occ ty i occ' P H Hi HP l j Hl Hj. unfold occ_add in H. destruct (nth_error occ (N.to_nat ty)) as [l0|] eqn:E; [|discriminate].
  injection H as <-. apply in_app_iff in Hl as [Hl|[<-|Hl]].
  - apply (HP l); auto. rewrite <- (firstn_skipn (N.to_nat ty) occ). apply in_app_iff. auto.
  - apply in_app_iff in Hj as [Hj|[<-|[]]]; auto. apply (HP l0); auto. apply (nth_error_In _ _ E).
  - apply (HP l); auto. rewrite <- (firstn_skipn (S (N.to_nat ty)) occ). apply in_app_iff. auto.
Qed.
Lemma meta_occ : forall (P : N -> Prop) h o is n occ m occ', meta_loop h o is n occ = Ret (m, occ') ->
  (forall i, In i is -> P i) -> (forall l j, In l occ -> In j l -> P j) -> forall l j, In l occ' -> In j l -> P j.
Proof.
  intros P h o is. induction is as [|i is IH]; intros n occ m occ' H Hi HP; cbn [meta_loop] in H; [injection H as <- <-; exact HP|].
  destruct (tok_type (ob_act o i)) as [ty| | |]; try discriminate. cbn [bind] in H.
  destruct (occ_add occ ty i) as [oc1| | |] eqn:Eo; try discriminate. cbn [bind] in H.
  destruct (tok_delimiter h (ob_act o i)) as [x| | |]; try discriminate. cbn [bind] in H.
  apply (IH _ _ _ _ H); [intros j Hj; apply Hi; right; exact Hj|]. apply (occ_add_in _ _ _ _ P Eo); auto. apply Hi. left. reflexivity.
Qed.

Lemma meta_sim : forall E0 act p1 p2, done_rel occ0 E0 act p1 p2 -> (forall l, In l occ0 -> l = []) ->
  sim_res (meta_rel E0 act) (fun _ => False) (generate_metadata p1) (generate_metadata p2).
Proof.
  intros E0 act p1 p2 D H0. destruct D as [D1 D2 D3 D4 D5 (D6 & D6') D7]. pose proof D4 as [O1 O2 O3 O4 O5 O7 O6]. unfold generate_metadata.
  destruct D1 as (a1 & fa1 & n1 & Ein1). destruct D2 as (a2 & fa2 & n2 & Ein2).
  assert (ib_heap (lp_in p1) = ib_heap b1) as -> by (rewrite Ein1; reflexivity).
  assert (ib_heap (lp_in p2) = ib_heap b2) as -> by (rewrite Ein2; reflexivity).
  assert (ob_first (lp_out p1) = ob_first (lp_out p2)) as Ef by (unfold ob_first; rewrite O3; reflexivity).
  rewrite <- Ef, <- O1, D6, D6', <- O3.
  assert (forall i, In i (indices (ob_first (lp_out p1)) (ob_pos (lp_out p1))) -> ob_first (lp_out p1) <= i /\ i < ob_pos (lp_out p1)) as Hin.
  { intros i Hi. apply in_map_iff in Hi as (k & <- & Hk). apply in_seq in Hk. lia. }
  pose proof (meta_loop_sim (indices (ob_first (lp_out p1)) (ob_pos (lp_out p1))) (lp_out p1) (lp_out p2) 0 0 occ0) as M.
  assert (forall i, In i (indices (ob_first (lp_out p1)) (ob_pos (lp_out p1))) -> ob_first (lp_out p1) <= i /\ srel (lp_out p1) (lp_out p2) i) as Hs.
  { intros i Hi. apply Hin in Hi. split; [apply Hi|]. apply O6; apply Hi. }
  specialize (M Hs (fun _ => eq_refl)).
  destruct (meta_loop (ib_heap b1) (lp_out p1) (indices (ob_first (lp_out p1)) (ob_pos (lp_out p1))) 0 occ0) as [(m1, occ1)| | |] eqn:Em.
  - destruct M as (m2 & -> & Hm).
    cbn [bind]. right. eexists. split; [reflexivity|]. exists occ1. split.
    + constructor; cbn; auto.
      * exists a1, fa1, n1. exact Ein1.
      * exists a2, fa2, n2. exact Ein2.
      * destruct (ob_has_ts (lp_out p1)); [|exact D5]. rewrite <- (Hm eq_refl), D5. reflexivity.
    + cbn. intros l i Hl Hi. apply (meta_occ (fun i => ob_first (lp_out p1) <= i /\ i < ob_pos (lp_out p1)) _ _ _ _ _ _ _ Em Hin) with (l := l); auto.
      intros l' j Hl' Hj. rewrite (H0 _ Hl') in Hj. contradiction.
  - rewrite M. reflexivity.
  - rewrite M. reflexivity.
  - rewrite M. reflexivity.
Qed.

Definition event_rel (E0 : N) (r1 r2 : option paction * lparser) : Prop :=
  exists act p1 p2, r1 = (Some act, p1) /\ r2 = (Some act, p2) /\ meta_rel E0 act p1 p2 /\ act <> ActNone.
Lemma parse_meta_sim : forall fuel sfuel E a fa fb p1 p2, prel E a fa fb p1 p2 -> flags (lp_lex p1) fa fb ->
  ob_pos (lp_out p1) = 0 -> 2 < ob_size (lp_out p1) -> ob_has_ts (lp_out p1) = false -> (forall l, In l occ0 -> l = []) ->
  sim_res (event_rel E) stopped (parse_and_generate_metadata fuel sfuel c p1) (parse_and_generate_metadata fuel sfuel c p2).
Proof.
  intros fuel sfuel E a fa fb p1 p2 P Fl Hp Hsz Hts H0. unfold parse_and_generate_metadata.
  eapply sim_bind; [apply (parse_sim fuel sfuel E a fa fb); assumption| |].
  { intros (ot, q) (X & Xe). cbn in X. subst ot. eexists. split; [reflexivity|split; [reflexivity|exact Xe]]. }
  intros r1 r2 (act & q1 & q2 & -> & -> & D & Hn).
  eapply sim_bind; [apply (meta_sim E act); [exact D|exact H0]|intros ? []|].
  intros x1 x2 D'. right. eexists. split; [reflexivity|]. exists act, x1, x2. auto.
Qed.

(** * Related parsers show the same event. *)
Section Report.
Variables (E0 : N) (act : paction) (p1 p2 : lparser).
Hypothesis D : meta_rel E0 act p1 p2.
Let o1 := lp_out p1.
Let o2 := lp_out p2.
Lemma heap1 : ib_heap (lp_in p1) = ib_heap b1.
Proof. destruct D as (oc & [(a & fa & n & ->) _ _ _ _ _ _] & _). reflexivity. Qed.
Lemma heap2 : ib_heap (lp_in p2) = ib_heap b2.
Proof. destruct D as (oc & [_ (a & fa & n & ->) _ _ _ _ _] & _). reflexivity. Qed.
Lemma oo : orel o1 o2.
Proof. destruct D as (oc & [_ _ _ O _ _ _] & _). exact O. Qed.

Lemma slot_text : forall i, ob_first o1 <= i -> i < ob_pos o1 ->
  exists s e, tok_text (ib_heap b1) (ob_act o1 i) = Ret (sub txt s e) /\ tok_text (ib_heap b2) (ob_act o2 i) = Ret (sub txt s e) /\
    trel s e (ob_act o1 i) (ob_act o2 i) /\ lo <= s /\ e <= hi1.
Proof.
  intros i Hi Hj. destruct (or_tok _ _ oo i Hi Hj) as (s & e & T & S1 & S2 & _). exists s, e.
  rewrite (tok_at_text _ _ _ _ _ _ s e _ V1 S1 S2 (tr_1 _ _ _ _ T)).
  rewrite (tok_at_text _ _ _ _ _ _ s e _ V2 S1 ltac:(lia) (tr_2 _ _ _ _ T)). auto.
Qed.
Lemma slot_shown : forall i, ob_first o1 <= i -> i < ob_pos o1 -> shown p1 (ob_act o1 i) = shown p2 (ob_act o2 i).
Proof.
  intros i Hi Hj. destruct (slot_text i Hi Hj) as (s & e & X1 & X2 & T & _). unfold shown. rewrite heap1, heap2, X1, X2.
  rewrite (tr_ids _ _ _ _ T), (tr_line _ _ _ _ T). reflexivity.
Qed.
Lemma in_indices : forall a b i, In i (indices a b) -> a <= i /\ i < b.
Proof. intros a b i Hi. apply in_map_iff in Hi as (k & <- & Hk). apply in_seq in Hk. lia. Qed.
Lemma first_eq : ob_first o1 = ob_first o2.
Proof. unfold ob_first. rewrite (or_ts _ _ oo). reflexivity. Qed.
Lemma ne_eq : forall i, ob_first o1 <= i -> i < ob_pos o1 -> not_empty p1 (ob_act o1 i) = not_empty p2 (ob_act o2 i).
Proof. intros i Hi Hj. destruct (slot_text i Hi Hj) as (s & e & X1 & X2 & T & _). unfold not_empty. rewrite heap1, heap2, X1, X2. reflexivity. Qed.

Lemma logtype_eq : forall name is, (forall i, In i is -> ob_first o1 <= i /\ i < ob_pos o1 /\ not_empty p1 (ob_act o1 i) = true) ->
  logtype_loop (ib_heap b1) name (map (ob_act o1) is) = logtype_loop (ib_heap b2) name (map (ob_act o2) is).
Proof.
  intros name is. induction is as [|i is IH]; intros H; [reflexivity|]. cbn [map logtype_loop].
  destruct (H i (or_introl eq_refl)) as (Hi & Hj & Hn). destruct (slot_text i Hi Hj) as (s & e & X1 & X2 & T & S1 & S2).
  unfold not_empty in Hn. rewrite heap1, X1 in Hn.
  assert (s < e) as Hse.
  { destruct (N.lt_ge_cases s e) as [|G]; [assumption|]. unfold sub in Hn. replace (e - s) with 0 in Hn by lia. discriminate. }
  rewrite X1, X2, (type_eq _ _ _ _ T).
  destruct (tok_at_char _ _ _ _ _ _ s e _ V1 S1 ltac:(lia) (tr_1 _ _ _ _ T)) as (x1 & _ & -> & B1).
  destruct (tok_at_char _ _ _ _ _ _ s e _ V2 S1 ltac:(lia) (tr_2 _ _ _ _ T)) as (x2 & _ & -> & B2).
  rewrite (B1 ltac:(lia)) in B2. specialize (B2 ltac:(lia)). injection B2 as <-.
  rewrite IH; [reflexivity|]. intros j Q. apply H. right. exact Q.
Qed.

Lemma report_eq : forall name nsym, report_of name nsym p1 = report_of name nsym p2.
Proof.
  intros name nsym. pose proof oo as [O1 O2 O3 O4 O5 O7 O6]. unfold report_of.
  assert (map (shown p1) (ob_tokens (lp_out p1)) = map (shown p2) (ob_tokens (lp_out p2))) as Htok.
  { unfold ob_tokens. fold o1 o2. rewrite <- first_eq, <- O1. rewrite !map_map. apply map_ext_in. intros i Hi. apply in_indices in Hi.
    apply slot_shown; apply Hi. }
  assert (ev_to_string p1 = ev_to_string p2) as Hstr.
  { assert (forall p, ev_to_string p = concat_out (map (fun x => fst (fst x)) (map (shown p) (ob_tokens (lp_out p))))) as A
      by (intro p; unfold ev_to_string; rewrite map_map; reflexivity).
    rewrite !A, Htok. reflexivity. }
  rewrite Hstr, Htok. f_equal.
  - unfold ev_timestamp. fold o1 o2. rewrite <- O3. destruct (ob_has_ts o1) eqn:Ets; [|reflexivity]. cbn.
    rewrite slot_shown; [reflexivity|unfold ob_first; rewrite Ets; lia|auto].
  - destruct D as (oc & [_ _ _ _ M _ _] & _). unfold ev_multiline. exact M.
  - apply map_ext. intro id. destruct D as (oc & [_ _ _ _ _ (C1 & C2) _] & Hin). unfold ev_variables. rewrite C1, C2.
    destruct (nth_error oc (N.to_nat (N.of_nat id))) as [l|] eqn:En; [|reflexivity]. cbn [bind]. f_equal. rewrite !map_map.
    apply map_ext_in. intros i Hi. destruct (Hin l i (nth_error_In _ _ En) Hi). apply slot_shown; assumption.
  - assert (forallb (not_empty p1) (ob_tokens (lp_out p1)) = forallb (not_empty p2) (ob_tokens (lp_out p2))) as Hne.
    { unfold ob_tokens. fold o1 o2. rewrite <- first_eq, <- O1.
      assert (forall is, (forall i, In i is -> ob_first o1 <= i /\ i < ob_pos o1) ->
        forallb (not_empty p1) (map (ob_act o1) is) = forallb (not_empty p2) (map (ob_act o2) is)) as G.
      { induction is as [|i is IH]; intro Q; [reflexivity|]. cbn. rewrite IH by (intros j J; apply Q; right; exact J).
        destruct (Q i (or_introl eq_refl)). rewrite ne_eq by assumption. reflexivity. }
      apply G. intros i Hi. apply in_indices in Hi. exact Hi. }
    rewrite <- Hne. destruct (forallb (not_empty p1) (ob_tokens (lp_out p1))) eqn:Ef; [|reflexivity]. f_equal. unfold ev_logtype.
    fold o1 o2. rewrite heap1, heap2, <- O1. apply logtype_eq. intros i Hi. apply in_indices in Hi.
    assert (ob_first o1 <= i) by (unfold ob_first; destruct (ob_has_ts o1); lia).
    split; [assumption|]. split; [apply Hi|].
    rewrite forallb_forall in Ef. apply Ef. unfold ob_tokens. fold o1. apply in_map. unfold indices. apply in_map_iff.
    exists (N.to_nat (i - ob_first o1)). split; [lia|]. apply in_seq. lia.
Qed.
End Report.
End Sim.
