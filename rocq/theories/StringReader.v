(** StringReader.v -- C33: what SchemaParser::try_schema_string shows of a schema string. *)
From Verif Require Import Base LexerModel RingModel RingSpec RingProofs PropertiesRing.

(** The client is now the schema parser: it reads from a string (SchemaParser.cpp 87-102), never grows the buffer
    (LALR1Parser.tpp 630-684: BufferOutOfBounds is an error) and otherwise behaves as any client. *)
Definition str_step (s : list N) (op : rop) (h : ring) : out (ring * list robs) :=
  match op with
  | RRead =>
    let b := h_buf h in
    Ret (mkRing (if read_is_safe b then ib_fill b (str_read s (ib_size b / 2)) else b) (h_rd h) (h_at h) (h_used h) false, [])
  | RGrow => Ret (h, [])
  | _ => ring_step (fun _ => 0) op h
  end.
Fixpoint str_run (s : list N) (ops : list rop) (h : ring) : out (ring * list robs) :=
  match ops with
  | [] => Ret (h, [])
  | op :: ops' => do (h1, t1) <- str_step s op h; do (h2, t2) <- str_run s ops' h1; Ret (h2, t1 ++ t2)
  end.

(** The two rings hold the same buffer. *)
Definition same (h1 h2 : ring) : Prop := h_buf h1 = h_buf h2 /\ h_at h1 = h_at h2 /\ h_used h1 = h_used h2 /\ h_oob h1 = h_oob h2.
Definition not_grow (op : rop) : bool := match op with RGrow => false | _ => true end.

Lemma step_same : forall chunk s op h1 h2, same h1 h2 -> op <> RRead -> op <> RGrow ->
  match str_step s op h1, ring_step chunk op h2 with
  | Ret (h1', t1), Ret (h2', t2) => same h1' h2' /\ t1 = t2 /\ h_rd h2' = h_rd h2 /\ ib_fin (h_buf h2') = ib_fin (h_buf h2)
                                    /\ ib_size (h_buf h2') = ib_size (h_buf h2)
  | UB, UB => True
  | Throw, Throw => True
  | OutOfFuel, OutOfFuel => True
  | _, _ => False
  end.
Proof.
  intros chunk s op [b1 r1 a1 u1 o1] [b2 r2 a2 u2 o2] (S1 & S2 & S3 & S4) N1 N2. cbn in S1, S2, S3, S4. subst b1 a1 u1 o1.
  unfold same. destruct op as [| | |d incl|d]; try congruence; cbn [str_step ring_step h_buf h_rd h_at h_used h_oob].
  - assert (forall c b', get_next_character b2 = Ret (Some (c, b')) -> ib_fin b' = ib_fin b2 /\ ib_size b' = ib_size b2) as G.
    { intros c b' G. unfold get_next_character in G.
      destruct (ib_fin b2 && (ib_pos b2 =? ib_last b2)); [injection G as <- <-; auto|].
      destruct ((ib_lrfh b2 && (ib_pos b2 =? ib_size b2 / 2)) || (negb (ib_lrfh b2) && (ib_pos b2 =? 0))); [discriminate|].
      destruct (ib_heap b2 (ib_active b2) (ib_pos b2)); [|discriminate]. injection G as <- <-. auto. }
    destruct (get_next_character b2) as [[(c, b')|]| | |]; cbn [bind]; auto.
    destruct (G c b' eq_refl). destruct (ib_full b'); cbn; auto 10.
  - destruct (u2 + d <=? a2); cbn; auto 10.
  - destruct (u2 + d <=? a2); cbn; auto 10.
Qed.

(** Simulation: as long as an ordinary reader would answer the same, the string reader shows the same. [P n h]: it will
    for [n] more operations. *)
Section Sim.
Variables (chunk : nat -> N) (s : list N) (P : nat -> ring -> Prop).
Hypothesis P_read : forall n h, P (S n) h ->
  P n (let (b', r') := read_if_safe chunk (h_buf h) (h_rd h) in mkRing b' r' (h_at h) (h_used h) false) /\
  (read_is_safe (h_buf h) = true -> fst (ib_read chunk (h_buf h) (h_rd h)) = ib_fill (h_buf h) (str_read s (ib_size (h_buf h) / 2))).
Hypothesis P_other : forall n h h', P (S n) h -> h_rd h' = h_rd h -> ib_fin (h_buf h') = ib_fin (h_buf h) ->
  ib_size (h_buf h') = ib_size (h_buf h) -> P n h'.
Lemma sim_run : forall ops h1 h2 h2' t, same h1 h2 -> P (length ops) h2 ->
  ring_run chunk (filter not_grow ops) h2 = Ret (h2', t) ->
  exists h1', str_run s ops h1 = Ret (h1', t) /\ same h1' h2' /\ P 0 h2'.
Proof.
  intros ops; induction ops as [|op ops IH]; intros h1 h2 h2' t Sm HP R.
  - injection R as <- <-. exists h1. auto.
  - cbn [length] in HP.
    assert (op = RRead \/ op = RGrow \/ (op <> RRead /\ op <> RGrow)) as [-> | [-> | (N1 & N2)]]
      by (destruct op; auto; right; right; split; discriminate).
    + cbn [filter not_grow ring_run ring_step] in R. cbn [str_run str_step bind].
      destruct (P_read _ _ HP) as (HP' & Eq). destruct Sm as (S1 & S2 & S3 & S4). rewrite S1, S2, S3.
      unfold read_if_safe in *. destruct (read_is_safe (h_buf h2)).
      * specialize (Eq eq_refl). destruct (ib_read chunk (h_buf h2) (h_rd h2)) as (b', r'). cbn [fst] in Eq. rewrite <- Eq. cbn [bind] in R.
        destruct (ring_run chunk (filter not_grow ops) _) as [(h3, t3)| | |] eqn:R3; try discriminate.
        cbn [bind] in R. injection R as <- <-.
        destruct (IH (mkRing b' (h_rd h1) (h_at h2) (h_used h2) false) (mkRing b' r' (h_at h2) (h_used h2) false) h3 t3 (conj eq_refl (conj eq_refl (conj eq_refl eq_refl))) HP' R3) as (h1' & E & K).
        rewrite E. cbn [bind]. eauto.
      * cbn [bind] in R.
        destruct (ring_run chunk (filter not_grow ops) _) as [(h3, t3)| | |] eqn:R3; try discriminate.
        cbn [bind] in R. injection R as <- <-.
        destruct (IH (mkRing (h_buf h2) (h_rd h1) (h_at h2) (h_used h2) false) (mkRing (h_buf h2) (h_rd h2) (h_at h2) (h_used h2) false) h3 t3 (conj eq_refl (conj eq_refl (conj eq_refl eq_refl))) HP' R3) as (h1' & E & K).
        rewrite E. cbn [bind]. eauto.
    + cbn [filter not_grow] in R. cbn [str_run str_step bind].
      destruct (IH h1 h2 h2' t Sm ltac:(eapply P_other; eauto) R) as (h1' & E & K). rewrite E. cbn [bind]. eauto.
    + assert (filter not_grow (op :: ops) = op :: filter not_grow ops) as Fl by (destruct op; congruence || reflexivity).
      rewrite Fl in R. cbn [ring_run] in R. cbn [str_run].
      pose proof (step_same chunk s op h1 h2 Sm N1 N2) as K.
      destruct (ring_step chunk op h2) as [(h2a, t2)| | |]; try discriminate.
      destruct (str_step s op h1) as [(h1a, t1)| | |]; try contradiction.
      destruct K as (Sm' & -> & K1 & K2 & K3). cbn [bind] in R |- *.
      destruct (ring_run chunk (filter not_grow ops) h2a) as [(h3, t3)| | |] eqn:R3; try discriminate.
      cbn [bind] in R. injection R as <- <-.
      destruct (IH h1a h2a h3 t3 Sm' ltac:(eapply P_other; eauto) R3) as (h1' & E & K). rewrite E. cbn [bind]. eauto.
Qed.
End Sim.

Lemma amount_eq : forall chunk r count, rd_rest r <> [] -> 0 < count -> N.of_nat (length (rd_rest r)) <= chunk (rd_calls r) ->
  rd_amount chunk r count = N.min count (N.of_nat (length (rd_rest r))).
Proof.
  intros chunk r count Hr Hc Hf. unfold rd_amount. destruct (rd_rest r); [congruence|]. cbn [length] in *. lia.
Qed.

(** A string shorter than half the buffer is seen in order, once, and end-of-file only at its end. *)
Theorem C33_short_strings_partial : forall s size b ops,
  empty_buffer size b -> size mod 2 = 0 -> N.of_nat (length s) < size / 2 ->
  exists h t, str_run s ops (ring_start b s) = Ret (h, t) /\ replay s (fun a => a = N.of_nat (length s)) 0 t.
Proof.
  intros s size b ops E Hm Hl.
  assert (0 < size) as Hs by (destruct size; [cbn in Hl; lia|lia]).
  set (chunk := fun _ : nat => N.of_nat (length s)).
  destruct (C23_log_in_order chunk s size b (filter not_grow ops) E Hs Hm) as (h & t & R & S); [intro n; unfold chunk; lia|].
  destruct (sim_run chunk s (fun _ h => ib_size (h_buf h) / 2 = size / 2 /\ (ib_fin (h_buf h) = true \/ rd_rest (h_rd h) = s)))
    with (ops := ops) (h1 := ring_start b s) (h2 := ring_start b s) (h2' := h) (t := t) as (h' & R' & _); auto.
  - intros _ h0 (Sz & St). unfold read_if_safe. destruct (read_is_safe (h_buf h0)) eqn:Sf; [|split; [cbn; auto|discriminate]].
    destruct St as [St|St]; [unfold read_is_safe in Sf; rewrite St in Sf; discriminate|].
    unfold ib_read, rd_read, str_read. rewrite Sz, St, (proj2 (N.ltb_lt _ _) Hl). destruct s as [|x s'] eqn:Es.
    + cbn. auto.
    + rewrite <- Es in *. assert (0 < N.of_nat (length s)) as L0 by (rewrite Es; cbn; lia).
      rewrite (proj2 (N.eqb_neq _ 0)) by lia. rewrite amount_eq by (rewrite ?St, ?Es; try discriminate; unfold chunk; cbn [length] in *; lia).
      rewrite St, N.min_r by lia. cbn [fst]. split; [|intros _; reflexivity].
      cbn. split; [exact Sz|]. left. rewrite Sz, Nat2N.id, firstn_all, (proj2 (N.ltb_lt _ _) Hl). reflexivity.
  - intros _ h0 h1 (Sz & St) E1 E2 E3. rewrite E1, E2, E3. auto.
  - repeat split.
  - cbn. destruct E as (-> & _). auto.
  - eauto.
Qed.

(** Refuted for longer strings: the parser sees the beginning of the string, as long as half a buffer, over and over
    again, and never end-of-file. *)
Definition cycle (w : list N) (n : nat) : list N := concat (repeat w n).
Theorem C33_long_strings_refuted : forall s size b ops,
  empty_buffer size b -> 0 < size -> size mod 2 = 0 -> size / 2 <= N.of_nat (length s) ->
  exists h t, str_run s ops (ring_start b s) = Ret (h, t) /\
    replay (cycle (firstn (N.to_nat (size / 2)) s) (length ops)) (fun _ => False) 0 t.
Proof.
  intros s size b ops E Hs Hm Hl. set (hf := size / 2) in *. set (w := firstn (N.to_nat hf) s).
  assert (0 < hf) as Hh. { pose proof (N.div_mod size 2 ltac:(lia)) as D. rewrite Hm in D. fold hf in D. lia. }
  assert (N.of_nat (length w) = hf) as Lw by (unfold w; rewrite firstn_length; lia).
  set (L := cycle w (length ops)). set (chunk := fun _ : nat => N.of_nat (length L)).
  destruct (ring_run_ok chunk L (filter not_grow ops) (ring_start b L) (ring_start_ok chunk L b size E Hs Hm)) as (h & t & R & _ & Rp & _ & K).
  destruct (sim_run chunk s (fun n h => ib_size (h_buf h) / 2 = hf /\ ib_fin (h_buf h) = false /\ exists m, (n <= m <= length ops)%nat /\ rd_rest (h_rd h) = cycle w m))
    with (ops := ops) (h1 := ring_start b s) (h2 := ring_start b L) (h2' := h) (t := t) as (h' & R' & _ & _ & Nf & _); auto.
  - intros n h0 (Sz & Nf & m & Hm' & Rest). destruct m as [|m]; [lia|]. unfold read_if_safe.
    destruct (read_is_safe (h_buf h0)); [|split; [split; [exact Sz|]; split; [exact Nf|]; exists (S m); split; [lia|exact Rest]|discriminate]].
    cbn [cycle repeat concat] in Rest. fold (cycle w m) in Rest.
    assert (rd_rest (h_rd h0) <> []) as Ne.
    { rewrite Rest. intro Q. apply app_eq_nil in Q. destruct Q as (Q & _). rewrite Q in Lw. cbn in Lw. lia. }
    assert (rd_amount chunk (h_rd h0) hf = hf) as Am.
    { rewrite amount_eq; auto.
      - rewrite Rest, app_length. lia.
      - unfold chunk, L. rewrite Rest. change (w ++ cycle w m) with (cycle w (S m)).
        assert (forall i j, (i <= j)%nat -> (length (cycle w i) <= length (cycle w j))%nat) as Mono.
        { intros i j Hij. unfold cycle. replace j with (i + (j - i))%nat by lia. rewrite repeat_app, concat_app, app_length. lia. }
        specialize (Mono (S m) (length ops) ltac:(lia)). lia. }
    assert (rd_read chunk (h_rd h0) hf = (Some w, mkReader (cycle w m) (S (rd_calls (h_rd h0))))) as Rd.
    { unfold rd_read. destruct (rd_rest (h_rd h0)) eqn:Q; [congruence|]. rewrite <- Q in *. rewrite Am, Rest.
      assert (length w = N.to_nat hf) as Lw' by lia. rewrite <- Lw'.
      rewrite firstn_app, Nat.sub_diag, firstn_all, skipn_app, Nat.sub_diag, skipn_all. cbn [firstn skipn app]. rewrite app_nil_r. reflexivity. }
    unfold ib_read, str_read. rewrite Sz, Rd, (proj2 (N.ltb_ge _ _) Hl), (proj2 (N.eqb_neq hf 0)) by lia. fold w. cbn [fst].
    split; [|reflexivity]. cbn. repeat split; auto.
    + rewrite Sz, Lw, N.ltb_irrefl. exact Nf.
    + exists m. split; [lia|reflexivity].
  - intros n h0 h1 (Sz & Nf & m & Hm' & Rest) E1 E2 E3. rewrite E1, E2, E3. repeat split; auto. exists m. split; [lia|assumption].
  - repeat split.
  - cbn. destruct E as (-> & _ & _ & _ & -> & _). repeat split; auto. exists (length ops). split; [lia|reflexivity].
  - exists h', t. split; [exact R'|]. cbn [ring_start h_at] in Rp.
    assert (~ In OEof t) as NE by (intro Q; apply K in Q; congruence).
    clear - Rp NE. fold L. revert Rp NE. generalize 0. induction t as [|x t IH]; intros a Rp NE; [exact I|].
    assert (~ In OEof t) as NE' by (intro Q; apply NE; right; exact Q).
    destruct x; cbn in *; try (destruct Rp as (S1 & S2); split; [exact S1|]; apply IH; assumption); try (apply IH; assumption).
    exfalso. apply NE. left. reflexivity.
Qed.

(** The hypotheses are met, and the repetition shows: on a buffer of four bytes, "abc" is "ababab...". *)
Example C33_long_example :
  exists h, str_run [97; 98; 99] [RRead; RNext; RNext; RConsume 0 true; RRead; RNext; RNext] (ring_start small_buffer [97; 98; 99])
            = Ret (h, [OChar 97; OChar 98; OChar 97; OChar 98]).
Proof. eexists. vm_compute. reflexivity. Qed.
Example C33_short_example :
  exists h, str_run [97] [RRead; RNext; RRead; RNext] (ring_start small_buffer [97]) = Ret (h, [OChar 97; OEof]).
Proof. eexists. vm_compute. reflexivity. Qed.

Print Assumptions C33_short_strings_partial.
Print Assumptions C33_long_strings_refuted.
