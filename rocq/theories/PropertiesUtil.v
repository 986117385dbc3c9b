(** PropertiesUtil.v -- C31 (registers), C34 (token accessors), C35 (repetition counts). *)
From Verif Require Import Base RegexModel RegexSpec RegexProofs RegexLang PropertiesRegex RegisterModel RegisterSpec RegisterProofs
  TokenModel SchemaActions.

(** * C31 *)
(** Whatever operations were performed, the registers are lists of cells: appending adds a cell to one register,
    copying shares cells, setting overwrites the newest cell; reading a register gives its cells' values, newest
    first; exactly the operations that name something non-existent throw, and they change nothing. *)
Theorem C31_registers_exact : forall ops, exists h,
  reg_run handler_init ops = Ret (h, snd (cell_run cells_init ops)) /\
  forall r, reg_positions h r = match cell_positions (fst (cell_run cells_init ops)) r with Some l => Ret l | None => Throw end.
Proof.
  intros ops. destruct (reg_run_ok ops _ _ reg_inv_init) as (h & E & I). exists h. split; [exact E|]. intros r. apply reg_inv_positions. exact I.
Qed.
Print Assumptions C31_registers_exact.
(** Without set_register, a register is exactly the reverse of what was appended to it (or to the register it
    was copied from, before it was copied). *)
Theorem C31_history : forall ops, (forall r pos, ~ In (OpSet r pos) ops) -> exists h bs,
  reg_run handler_init ops = Ret (h, bs) /\
  forall r, reg_positions h r =
    match nth_error (s_regs (fold_left simple_step ops simple_init)) r with Some l => Ret (rev l) | None => Throw end.
Proof.
  intros ops Hs. destruct (C31_registers_exact ops) as (h & E & Hr). exists h, (snd (cell_run cells_init ops)). split; [exact E|].
  intros r. rewrite Hr. change simple_init with (simple_of cells_init). rewrite simple_run_ok.
  - unfold simple_of, cell_positions. cbn [s_regs]. rewrite nth_error_map.
    destruct (nth_error (c_regs (fst (cell_run cells_init ops))) r); reflexivity.
  - split; cbn; [tauto|intros h0 [<-|[]] i []].
  - apply forallb_forall. intros o Ho. destruct o; cbn; auto. exfalso. eapply Hs; eauto.
Qed.
Print Assumptions C31_history.
(** Without copy_register and with every register added under the root, registers are independent lists. *)
Theorem C31_set_independent : forall ops, (forall d s, ~ In (OpCopy d s) ops) ->
  (forall p pos, In (OpAdd p pos) ops -> p = cRootId) -> exists h bs,
  reg_run handler_init ops = Ret (h, bs) /\
  forall r, reg_positions h r =
    match nth_error (fold_left indep_step ops []) r with Some l => Ret (rev l) | None => Throw end.
Proof.
  intros ops Hc Ha. destruct (C31_registers_exact ops) as (h & E & Hr). exists h, (snd (cell_run cells_init ops)). split; [exact E|].
  intros r. rewrite Hr. change (@nil (list Z)) with (map (val_of (c_val cells_init)) (c_regs cells_init)). rewrite indep_run_ok.
  - unfold cell_positions. rewrite nth_error_map. destruct (nth_error (c_regs (fst (cell_run cells_init ops))) r); reflexivity.
  - apply indep_init.
  - apply forallb_forall. intros o Ho. destruct o; cbn; auto.
    + apply Nat.eqb_eq. eapply Ha; eauto.
    + exfalso. eapply Hc; eauto.
Qed.
Print Assumptions C31_set_independent.
Local Open Scope Z_scope.
Definition ex_ops : list reg_op := [OpAdd 0 10; OpAdd 0 20; OpAppend 0 11; OpCopy 1 0; OpAppend 0 12; OpAppend 1 21; OpAppend 7 0; OpAdd 9 0].
Example C31_example : exists h, reg_run handler_init ex_ops = Ret (h, [false; false; false; false; false; false; true; true]) /\
  reg_positions h 0 = Ret [12; 11; 10] /\ reg_positions h 1 = Ret [21; 11; 10] /\ reg_positions h 2 = Throw.
Proof. eexists. repeat split. Qed.
Definition ex_ops_set : list reg_op := [OpAdd 0 10; OpAppend 0 11; OpAdd 0 20; OpSet 0 15; OpAppend 0 16].
Example C31_set_example : exists h bs, reg_run handler_init ex_ops_set = Ret (h, bs) /\ reg_positions h 0 = Ret [16; 15; 10] /\ reg_positions h 1 = Ret [20].
Proof. do 2 eexists. repeat split. Qed.
(** Refuted in general: after a copy, set_register on one of the two registers changes the other one too. *)
Theorem C31_refuted_set_after_copy : exists h bs,
  reg_run handler_init [OpAdd 0 10; OpAdd 0 20; OpCopy 1 0; OpSet 1 30] = Ret (h, bs) /\ reg_positions h 0 = Ret [30] /\ reg_positions h 1 = Ret [30].
Proof. do 2 eexists. repeat split. Qed.
Print Assumptions C31_refuted_set_after_copy.
Local Close Scope Z_scope.

(** * C34 *)
(** The bytes of a token, from the description of what a token is: [len] bytes from [start] on, going on at
    position 0 after the last byte of the buffer. *)
Definition ring_byte (buf : list N) (p : N) : N := nth (N.to_nat (p mod N.of_nat (length buf))) buf 0.
Definition ring_bytes (buf : list N) (start len : N) : list N :=
  map (fun i => ring_byte buf (start + N.of_nat i)) (seq 0 (N.to_nat len)).
(** A token whose positions lie in its buffer; one that wraps around starts at a byte of the buffer. Its cache
    is empty, or holds its bytes (nothing else ever fills it). *)
Definition rt_valid (t : rtoken) : Prop :=
  rt_end t <= rt_size t /\ (rt_start t < rt_size t \/ rt_start t = rt_end t) /\
  (rt_wrap t = [] \/ rt_wrap t = ring_bytes (rt_buf t) (rt_start t) (rt_get_length t)).
Definition token_length (t : rtoken) : N :=
  if rt_start t <=? rt_end t then rt_end t - rt_start t else rt_size t - rt_start t + rt_end t.

Lemma nth_firstn_skipn (buf : list N) k n : forall a, (n < k)%nat -> nth n (firstn k (skipn a buf)) 0 = nth (a + n) buf 0.
Proof.
  intros a Hn. revert a. induction buf as [|x buf IH]; intros a.
  - rewrite skipn_nil, firstn_nil. destruct n; cbn; destruct (a + _)%nat; reflexivity.
  - destruct a as [|a]; [|cbn; apply IH]. cbn [skipn Nat.add]. clear IH. revert n Hn. generalize (x :: buf) as l. clear.
    intros l. revert k. induction l as [|y l IH]; intros k n Hn; [rewrite firstn_nil; reflexivity|].
    destruct k as [|k]; [lia|]. destruct n as [|n]; [reflexivity|]. cbn. apply IH. lia.
Qed.
Lemma slice_ring buf a b : a <= b -> b <= N.of_nat (length buf) -> slice buf a b = Ret (ring_bytes buf a (b - a)).
Proof.
  intros H1 H2. unfold slice. replace (a <=? b) with true by (symmetry; apply N.leb_le; exact H1).
  replace (b <=? N.of_nat (length buf)) with true by (symmetry; apply N.leb_le; exact H2). cbn [andb]. f_equal.
  assert (L : length (ring_bytes buf a (b - a)) = N.to_nat (b - a)) by (unfold ring_bytes; rewrite map_length, seq_length; reflexivity).
  apply nth_ext with (d := 0) (d' := 0).
  - rewrite L, firstn_length, skipn_length. lia.
  - intros n Hn. rewrite firstn_length, skipn_length in Hn.
    unfold ring_bytes. erewrite (nth_indep (map _ _)) by (rewrite map_length, seq_length; lia).
    rewrite (map_nth (fun i => ring_byte buf (a + N.of_nat i)) (seq 0 (N.to_nat (b - a))) 0%nat n). rewrite seq_nth by lia.
    unfold ring_byte. rewrite N.mod_small by lia. replace (N.to_nat (a + N.of_nat (0 + n))) with (N.to_nat a + n)%nat by lia.
    apply nth_firstn_skipn. lia.
Qed.
Lemma ring_bytes_split buf a l1 l2 : ring_bytes buf a (l1 + l2) = ring_bytes buf a l1 ++ ring_bytes buf (a + l1) l2.
Proof.
  unfold ring_bytes. replace (N.to_nat (l1 + l2)) with (N.to_nat l1 + N.to_nat l2)%nat by lia. rewrite seq_app, map_app. f_equal.
  assert (G : forall n k s, seq (k + s) n = map (fun i => (k + i)%nat) (seq s n)).
  { induction n as [|n IH]; intros k s; [reflexivity|]. cbn. f_equal. rewrite <- IH. f_equal. lia. }
  rewrite Nat.add_comm, G, map_map. apply map_ext. intros i. f_equal. lia.
Qed.
Lemma ring_bytes_wrap buf len : buf <> [] -> ring_bytes buf (N.of_nat (length buf)) len = ring_bytes buf 0 len.
Proof.
  intros Hb. unfold ring_bytes. apply map_ext. intros i. unfold ring_byte. f_equal. f_equal.
  assert (N.of_nat (length buf) <> 0) by (destruct buf; [congruence|cbn; lia]).
  rewrite <- N.add_mod_idemp_l, N.mod_same by assumption. reflexivity.
Qed.
Lemma rt_bytes_ok t : rt_valid t -> exists t', rt_to_string t = Ret (ring_bytes (rt_buf t) (rt_start t) (token_length t), t') /\
  rt_to_string_view t = Ret (ring_bytes (rt_buf t) (rt_start t) (token_length t), t') /\
  rt_start t' = rt_start t /\ rt_end t' = rt_end t /\ rt_buf t' = rt_buf t /\ rt_valid t'.
Proof.
  intros (H1 & H2 & H3). unfold rt_to_string, rt_to_string_view, token_length. unfold rt_get_length in H3. destruct (rt_start t <=? rt_end t) eqn:E.
  - apply N.leb_le in E. rewrite !slice_ring by (unfold rt_size in *; lia). replace (rt_start t + (rt_end t - rt_start t) - rt_start t) with (rt_end t - rt_start t) by lia.
    cbn [bind]. exists t. repeat split; auto. unfold rt_get_length. apply N.leb_le in E. rewrite E. exact H3.
  - apply N.leb_gt in E. destruct H2 as [H2|H2]; [|lia].
    assert (Hb : rt_buf t <> []) by (intros Hb; unfold rt_size in H2; rewrite Hb in H2; cbn in H2; lia).
    assert (EQ : ring_bytes (rt_buf t) (rt_start t) (rt_size t - rt_start t) ++ ring_bytes (rt_buf t) 0 (rt_end t)
      = ring_bytes (rt_buf t) (rt_start t) (rt_size t - rt_start t + rt_end t)).
    { rewrite ring_bytes_split. f_equal. replace (rt_start t + (rt_size t - rt_start t)) with (rt_size t) by lia.
      unfold rt_size. rewrite ring_bytes_wrap by exact Hb. reflexivity. }
    destruct (rt_wrap t) as [|w ws] eqn:Ew.
    + rewrite !slice_ring by (unfold rt_size in *; lia). cbn [bind]. rewrite N.sub_0_r.
      rewrite EQ. eexists. split; [reflexivity|]. split; [reflexivity|]. cbn. repeat split; auto. right.
      unfold rt_get_length. cbn. apply N.leb_gt in E. rewrite E. reflexivity.
    + destruct H3 as [H3|H3]; [discriminate|]. exists t. rewrite <- H3. repeat split; auto. right. rewrite Ew. unfold rt_get_length.
      apply N.leb_gt in E. rewrite E. exact H3.
Qed.

(** C34: to_string and to_string_view give the token's bytes, in whatever order and however often they are
    called; get_length is their number; get_char(i) is the i-th of them, get_delimiter the first. *)
Theorem C34_accessors_agree : forall t, rt_valid t ->
  exists t', rt_to_string t = Ret (ring_bytes (rt_buf t) (rt_start t) (token_length t), t') /\
    rt_to_string_view t = Ret (ring_bytes (rt_buf t) (rt_start t) (token_length t), t') /\ rt_valid t' /\
    rt_to_string t' = Ret (ring_bytes (rt_buf t) (rt_start t) (token_length t), t') /\
    rt_to_string_view t' = Ret (ring_bytes (rt_buf t) (rt_start t) (token_length t), t') /\
    rt_get_length t = N.of_nat (length (ring_bytes (rt_buf t) (rt_start t) (token_length t))) /\
    (forall i b, i < 256 -> nth_error (ring_bytes (rt_buf t) (rt_start t) (token_length t)) (N.to_nat i) = Some b -> rt_get_char t i = Ret b) /\
    (0 < token_length t -> rt_get_delimiter t = Ret (firstn 1 (ring_bytes (rt_buf t) (rt_start t) (token_length t)))).
Proof.
  intros t Hv. destruct (rt_bytes_ok t Hv) as (t' & E1 & E2 & F1 & F2 & F3 & V).
  assert (EL : token_length t' = token_length t) by (unfold token_length, rt_size; rewrite F1, F2, F3; reflexivity).
  exists t'. split; [exact E1|]. split; [exact E2|]. split; [exact V|].
  destruct (rt_bytes_ok t' V) as (t2 & G1 & G2 & K1 & K2 & K3 & _). rewrite F1, F3, EL in G1, G2.
  assert (t2 = t').
  { clear - E1 G1. unfold rt_to_string in *. destruct (rt_start t <=? rt_end t) eqn:E.
    - apply bind_Ret in E1 as (s & Es & E1). injection E1 as _ <-. rewrite E in G1. apply bind_Ret in G1 as (? & _ & G1). congruence.
    - destruct (rt_wrap t) as [|w ws] eqn:Ew.
      + apply bind_Ret in E1 as (a & Ea & E1). apply bind_Ret in E1 as (b & Eb & E1). injection E1 as _ <-. unfold rt_size in *. cbn in G1. rewrite E in G1.
        destruct (a ++ b) eqn:Eab; [rewrite Ea, Eb in G1; cbn in G1; rewrite Eab in G1; congruence|congruence].
      + injection E1 as _ <-. rewrite E, Ew in G1. congruence. }
  subst t2. split; [exact G1|]. split; [exact G2|].
  assert (L : N.of_nat (length (ring_bytes (rt_buf t) (rt_start t) (token_length t))) = token_length t)
    by (unfold ring_bytes; rewrite map_length, seq_length; lia).
  split; [rewrite L; reflexivity|]. destruct Hv as (H1 & H2 & _).
  assert (GC : forall i b, nth_error (ring_bytes (rt_buf t) (rt_start t) (token_length t)) (N.to_nat i) = Some b -> rt_get_char t i = Ret b).
  { intros i b Hi. assert (Hlt : i < token_length t) by (apply nth_error_lt in Hi; lia).
    apply nth_error_nth with (d := 0) in Hi. unfold ring_bytes in Hi.
    erewrite (nth_indep (map _ _)) in Hi by (rewrite map_length, seq_length; lia).
    rewrite (map_nth (fun i => ring_byte (rt_buf t) (rt_start t + N.of_nat i)) (seq 0 (N.to_nat (token_length t))) 0%nat) in Hi.
    rewrite seq_nth in Hi by lia. cbn [Nat.add] in Hi. rewrite N2Nat.id in Hi. unfold rt_get_char, byte_at.
    assert (Hsz : rt_start t + i < 2 * rt_size t /\ rt_start t < rt_size t).
    { unfold token_length in Hlt. destruct (rt_start t <=? rt_end t) eqn:E; [apply N.leb_le in E|apply N.leb_gt in E]; lia. }
    unfold ring_byte in Hi. fold (rt_size t) in Hi. destruct (rt_start t + i <? rt_size t) eqn:E.
    - apply N.ltb_lt in E. rewrite N.mod_small in Hi by exact E. rewrite (nth_error_nth' _ 0) by (unfold rt_size in E; lia). congruence.
    - apply N.ltb_ge in E. replace (i - (rt_size t - rt_start t)) with (rt_start t + i - rt_size t) by lia.
      replace ((rt_start t + i) mod rt_size t) with (rt_start t + i - rt_size t) in Hi.
      2:{ apply (N.mod_unique _ _ 1); lia. }
      rewrite (nth_error_nth' _ 0) by (unfold rt_size in *; lia). congruence. }
  split; [intros i b _; apply GC|]. intros Hpos. unfold rt_get_delimiter.
  assert (rt_start t < rt_size t) by (unfold token_length in Hpos; destruct (rt_start t <=? rt_end t) eqn:E; [apply N.leb_le in E|apply N.leb_gt in E]; lia).
  rewrite slice_ring by (unfold rt_size in *; lia). f_equal. replace (rt_start t + 1 - rt_start t) with 1 by lia.
  replace (token_length t) with (1 + (token_length t - 1)) by lia. rewrite ring_bytes_split. reflexivity.
Qed.
Print Assumptions C34_accessors_agree.
Example C34_example : let t := mkRTok 3 2 [97; 98; 99; 100; 101] [] in rt_valid t /\ ring_bytes (rt_buf t) (rt_start t) (token_length t) = [100; 101; 97; 98] /\ rt_get_char t 2 = Ret 97.
Proof. unfold rt_valid, rt_size. cbn. repeat split; auto; try lia. Qed.

(** * C35 *)
Definition decimal (ds : list N) : N := fold_left (fun a d => 10 * a + d) ds 0.
Lemma decimal_shift ds : forall a, fold_left (fun a d => 10 * a + d) ds a = a * 10 ^ N.of_nat (length ds) + decimal ds.
Proof.
  induction ds as [|d ds IH]; intros a; [cbn; lia|]. unfold decimal. cbn [fold_left length]. rewrite IH, (IH (10 * 0 + d)).
  rewrite Nat2N.inj_succ, N.pow_succ_r'. lia.
Qed.
Lemma rep_loop_ok ds : forall a, (length ds <= 10)%nat -> a < 2 ^ 32 ->
  rep_loop a ds = Ret ((a + decimal ds) mod 2 ^ 32).
Proof.
  induction ds as [|d ds IH]; intros a Hl Ha.
  - cbn [rep_loop]. f_equal. unfold decimal. cbn [fold_left]. rewrite N.add_0_r, N.mod_small; auto.
  - cbn [rep_loop length] in *. unfold pow10_u32. replace (length ds <=? 9)%nat with true by (symmetry; apply Nat.leb_le; lia). cbn [bind].
    rewrite IH by (try lia; unfold uint32; apply N.mod_lt; lia). f_equal. unfold uint32.
    unfold decimal at 2. cbn [fold_left]. rewrite decimal_shift. rewrite N.add_mod_idemp_l by lia.
    rewrite (N.add_comm a), <- N.add_assoc, N.add_mod_idemp_l by lia. f_equal. lia.
Qed.
(** C35 (partial): a count of at most ten digits is the decimal number written, modulo 2^32. So it is the number
    written if that is below 2^32. Missing: counts of more than ten digits (undefined behaviour even if the
    number is small because of leading zeros), and larger numbers (wrapped). *)
Theorem C35_counts_partial : forall text,
  (length text <= 10)%nat -> (forall c, In c text -> 48 <= c <= 57) ->
  decimal (digits_of text) < 2 ^ 32 -> rep_count (digits_of text) = Ret (decimal (digits_of text)).
Proof.
  intros text Hl _ Hd. unfold rep_count. rewrite rep_loop_ok; [|unfold digits_of; rewrite map_length; exact Hl|lia].
  rewrite N.add_0_l, N.mod_small by exact Hd. reflexivity.
Qed.
Print Assumptions C35_counts_partial.
Theorem C35_refuted_wraps : rep_count (digits_of [52; 50; 57; 52; 57; 54; 55; 50; 57; 55]) = Ret 1 /\
  rep_count (digits_of [48; 48; 48; 48; 48; 48; 48; 48; 48; 48; 51]) = UB.
Proof. split; reflexivity. Qed.
Print Assumptions C35_refuted_wraps.
(** A pattern R{N} means exactly N copies of R, R{N,M} from N to M copies. *)
Theorem C35_exactly : forall r text p, (length text <= 10)%nat -> (forall c, In c text -> 48 <= c <= 57) ->
  0 < decimal (digits_of text) < 2 ^ 32 -> act_exactly r (digits_of text) = Ret p ->
  l_eq (matches p) (l_pow (matches r) (N.to_nat (decimal (digits_of text)))).
Proof.
  intros r text p Hl Hc Hd H. unfold act_exactly in H. rewrite (C35_counts_partial text Hl Hc) in H by lia. cbn [bind] in H. injection H as <-.
  intros w. cbn [matches]. unfold l_rep. split.
  - intros (k & Hk & H1 & [H2|H2]); [lia|]. replace (N.to_nat (decimal (digits_of text))) with k by lia. exact Hk.
  - intros Hw. exists (N.to_nat (decimal (digits_of text))). split; [exact Hw|]. lia.
Qed.
Print Assumptions C35_exactly.
Theorem C35_range : forall r t1 t2 p, (length t1 <= 10)%nat -> (length t2 <= 10)%nat ->
  (forall c, In c (t1 ++ t2) -> 48 <= c <= 57) ->
  decimal (digits_of t1) <= decimal (digits_of t2) -> 0 < decimal (digits_of t2) < 2 ^ 32 ->
  act_range r (digits_of t1) (digits_of t2) = Ret p ->
  forall w, matches p w <-> exists k, l_pow (matches r) k w /\ decimal (digits_of t1) <= N.of_nat k <= decimal (digits_of t2).
Proof.
  intros r t1 t2 p Hl1 Hl2 Hc Hle Hd H. unfold act_range in H.
  rewrite (C35_counts_partial t1 Hl1), (C35_counts_partial t2 Hl2) in H by (intros; try (apply Hc; apply in_or_app; auto); lia). cbn [bind] in H.
  intros w. destruct (decimal (digits_of t1) =? 0) eqn:E; injection H as <-; cbn [matches].
  - apply N.eqb_eq in E. unfold l_or, l_rep, l_eps. split.
    + intros [->|(k & Hk & H1 & [H2|H2])]; [exists 0%nat; split; [reflexivity|lia]|lia|]. exists k. split; [exact Hk|lia].
    + intros (k & Hk & H1). destruct k as [|k]; [left; exact Hk|]. right. exists (S k). split; [exact Hk|lia].
  - apply N.eqb_neq in E. unfold l_rep. split.
    + intros (k & Hk & H1 & [H2|H2]); [lia|]. exists k. split; [exact Hk|lia].
    + intros (k & Hk & H1). exists k. split; [exact Hk|lia].
Qed.
Print Assumptions C35_range.
Example C35_example : rep_count (digits_of [49; 50; 48]) = Ret 120 /\
  act_range (RLit 97) (digits_of [50]) (digits_of [49; 48]) = Ret (RMult (RLit 97) 2 10).
Proof. split; reflexivity. Qed.
(** Refuted for zero: the automaton of a{0} accepts aa (a maximum of 0 is taken for infinity). *)
Theorem C35_refuted_zero : exists p A, act_exactly (RLit 97) (digits_of [48]) = Ret p /\ nfa_of_rules [(1, p)] = Ret A /\ accepts A 1 [97; 97].
Proof.
  exists (RMult (RLit 97) 0 0). destruct (C07_nfa_exists [(1, RMult (RLit 97) 0 0)]) as (A & HA); [intros i r [[= <- <-]|[]]; reflexivity|].
  exists A. split; [reflexivity|]. split; [exact HA|]. apply (accepts_full _ _ HA). eexists. split; [left; reflexivity|].
  exists [SByte 97; SByte 97]. split; [reflexivity|]. unfold full. exists [], [SByte 97; SByte 97]. split; [reflexivity|]. split.
  - left. auto.
  - exists 2%nat. exists [SByte 97], [SByte 97]. split; [reflexivity|]. split; [left; split; [reflexivity|unfold cSizeOfByte; lia]|].
    exists [SByte 97], []. split; [reflexivity|]. split; [left; split; [reflexivity|unfold cSizeOfByte; lia]|reflexivity].
Qed.
Print Assumptions C35_refuted_zero.
