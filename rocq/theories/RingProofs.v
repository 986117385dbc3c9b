(** RingProofs.v -- invariant of the ring buffer. *)
From Verif Require Import Base LexerModel RingModel RingSpec.

(** [lia] without the hypotheses about remainders (which slow it down). *)
Ltac nl := repeat match goal with H : context [_ mod _] |- _ => clear H end; lia.

(** * Arithmetic *)
Lemma mod_at : forall x s q r, x = s * q + r -> r < s -> x mod s = r.
Proof. intros x s q r E H. symmetry. apply (N.mod_unique x s q r); lia. Qed.

Lemma ring_back : forall F o s e a, 0 < s -> (F + o) mod s = e -> a <= F -> F - a <= e -> (a + o) mod s = e - (F - a).
Proof.
  intros F o s e a Hs E H1 H2. pose proof (N.div_mod (F + o) s ltac:(lia)) as D. pose proof (N.mod_lt (F + o) s ltac:(lia)) as L.
  rewrite E in *. apply (mod_at _ _ ((F + o) / s)); lia.
Qed.
Lemma ring_back_wrap : forall F o s e a, 0 < s -> (F + o) mod s = e -> a <= F -> e < F - a -> F - a <= s ->
  (a + o) mod s = s + e - (F - a).
Proof.
  intros F o s e a Hs E H1 H2 H3. pose proof (N.div_mod (F + o) s ltac:(lia)) as D. pose proof (N.mod_lt (F + o) s ltac:(lia)) as L.
  rewrite E in *. set (q := (F + o) / s) in *.
  assert (q <> 0) by (intro Q; rewrite Q in D; lia).
  apply (mod_at _ _ (q - 1)); [|lia].
  replace q with ((q - 1) + 1) in D by lia. rewrite N.mul_add_distr_l in D. lia.
Qed.
Lemma ring_fwd : forall F o s e j, 0 < s -> (F + o) mod s = e -> e + j < s -> (F + j + o) mod s = e + j.
Proof.
  intros F o s e j Hs E H. pose proof (N.div_mod (F + o) s ltac:(lia)) as D. rewrite E in D.
  apply (mod_at _ _ ((F + o) / s)); lia.
Qed.
Lemma ring_fwd_wrap : forall F o s e j, 0 < s -> (F + o) mod s = e -> s <= e + j -> e + j < 2 * s -> (F + j + o) mod s = e + j - s.
Proof.
  intros F o s e j Hs E H H'. pose proof (N.div_mod (F + o) s ltac:(lia)) as D. rewrite E in D.
  apply (mod_at _ _ ((F + o) / s + 1)); [rewrite N.mul_add_distr_l|]; lia.
Qed.
Lemma ring_inj : forall a b o s, 0 < s -> a <= b -> b - a < s -> (a + o) mod s = (b + o) mod s -> a = b.
Proof.
  intros a b o s Hs H1 H2 E. set (e := (b + o) mod s) in *.
  pose proof (N.mod_lt (b + o) s ltac:(lia)) as L. fold e in L.
  destruct (N.le_gt_cases (b - a) e) as [C|C].
  - rewrite (ring_back b o s e a) in E by (auto; lia). lia.
  - rewrite (ring_back_wrap b o s e a) in E by (auto; lia). lia.
Qed.

Lemma behind_eq : forall b A o d, ib_pos b = (A + o) mod ib_size b -> 0 < ib_size b -> d <= ib_size b -> d <= A ->
  behind b d = (A - d + o) mod ib_size b.
Proof.
  intros b A o d P Hs H1 H2. unfold behind. rewrite P. set (s := ib_size b) in *. set (e := (A + o) mod s).
  pose proof (N.mod_lt (A + o) s ltac:(lia)) as L. fold e in L.
  destruct (N.le_gt_cases d e) as [C|C].
  - rewrite (ring_back A o s e (A - d)) by (auto; lia). apply (mod_at _ _ 1); lia.
  - rewrite (ring_back_wrap A o s e (A - d)) by (auto; lia). apply (mod_at _ _ 0); lia.
Qed.
(** ... and one more than everything obtained. *)
Lemma behind_eq1 : forall b A o d, ib_pos b = (A + o) mod ib_size b -> 0 < ib_size b -> d <= ib_size b -> d <= A + 1 ->
  behind b d = (A + 1 + (ib_size b - 1) + o - d) mod ib_size b.
Proof.
  intros b A o d P Hs H1 H2. unfold behind. rewrite P. set (s := ib_size b) in *.
  pose proof (N.div_mod (A + o) s ltac:(lia)) as D. pose proof (N.mod_lt (A + o) s ltac:(lia)) as L.
  set (e := (A + o) mod s) in *. set (q := (A + o) / s) in *.
  replace (A + 1 + (s - 1) + o - d) with ((e + s - d) + q * s) by lia.
  rewrite N.mod_add by lia. reflexivity.
Qed.

Lemma fresh_offset : forall F s, 0 < s -> (F + (s + 2 * s - F mod (2 * s))) mod (2 * s) = s.
Proof.
  intros F s Hs. pose proof (N.div_mod F (2 * s) ltac:(lia)) as D. pose proof (N.mod_lt F (2 * s) ltac:(lia)) as L.
  apply (mod_at _ _ (F / (2 * s) + 1)); [|lia]. rewrite N.mul_add_distr_l.
  generalize dependent (2 * s * (F / (2 * s))). generalize dependent (F mod (2 * s)). intros. lia.
Qed.

Definition edge (b : ibuf) (hf : N) : N := if ib_lrfh b then hf else 0.

(** * The invariant
    [F]: log position just after the last half read (if it had been filled); [R]: bytes delivered by the reader;
    [o]: the byte at log position [a] is stored at [(a + o) mod size]. *)
Record rinv (log : list N) (h : ring) (hf F R o : N) : Prop := {
  ri_size : ib_size (h_buf h) = 2 * hf;
  ri_hf : 0 < hf;
  ri_edge : (F + o) mod ib_size (h_buf h) = edge (h_buf h) hf;
  ri_pos : ib_pos (h_buf h) = (h_at h + o) mod ib_size (h_buf h);
  ri_low : F < h_used h + ib_size (h_buf h);
  ri_ua : h_used h <= h_at h;
  ri_ar : h_at h <= R;
  ri_rf : R <= F;
  ri_short : F < R + hf;
  ri_fin : R < F -> ib_fin (h_buf h) = true;
  ri_last : ib_last (h_buf h) = (R + o) mod ib_size (h_buf h)
            \/ (ib_last (h_buf h) = ib_size (h_buf h) /\ (R + o) mod ib_size (h_buf h) = 0);
  ri_data : forall a, h_used h <= a -> a < R ->
            ib_heap (h_buf h) (ib_active (h_buf h)) ((a + o) mod ib_size (h_buf h)) = nth_error log (N.to_nat a);
  ri_rest : rd_rest (h_rd h) = skipn (N.to_nat R) log;
  ri_len : R <= N.of_nat (length log);
  ri_cons : ib_cons (h_buf h) = (h_used h + o) mod ib_size (h_buf h)
            \/ ib_cons (h_buf h) = (h_used h + o + (ib_size (h_buf h) - 1)) mod ib_size (h_buf h)
            \/ (ib_cons (h_buf h) < hf /\ (ib_lrfh (h_buf h) = true -> F < h_used h + hf));
  ri_fresh : forall k, (ib_dyn (h_buf h) <= k)%nat -> ib_active (h_buf h) <> Dyn k;
  ri_full : ib_full (h_buf h) = true -> ib_fin (h_buf h) = true /\ h_at h = R /\ ib_pos (h_buf h) = ib_last (h_buf h);
  ri_oob : h_oob h = true -> h_at h = F /\ R = F /\ ib_full (h_buf h) = false
}.

Lemma half_eq : forall s hf, s = 2 * hf -> s / 2 = hf.
Proof. intros s hf ->. rewrite N.mul_comm, N.div_mul; lia. Qed.

Lemma rinv_start : forall log b size, empty_buffer size b -> 0 < size -> size mod 2 = 0 ->
  rinv log (ring_start b log) (size / 2) 0 0 0.
Proof.
  intros log b size (E1 & E2 & E3 & E4 & E5 & E6 & E7 & E8 & E9) Hs Hm.
  pose proof (N.div_mod size 2 ltac:(lia)) as D. rewrite Hm in D.
  constructor; cbn; rewrite ?E1, ?E2, ?E3, ?E5, ?E6, ?E7, ?E8; unfold edge; rewrite ?E4; try lia.
  all: try (rewrite N.mod_small by lia; lia).
  all: try (left; rewrite N.mod_small by lia; lia).
  all: try (right; left; rewrite N.mod_small by lia; lia).
  all: try discriminate; try reflexivity.
  intros k _. rewrite E9. discriminate.
Qed.

(** * get_next_character *)
Lemma next_spec : forall log h hf F R o, rinv log h hf F R o ->
  match get_next_character (h_buf h) with
  | Ret None => h_at h = F /\ R = F /\ ib_full (h_buf h) = false
  | Ret (Some (c, b')) =>
    (h_at h = R /\ ib_fin (h_buf h) = true /\ ib_pos (h_buf h) = ib_last (h_buf h) /\ b' = ib_set_full (h_buf h) true)
    \/ (h_at h < R /\ ib_full (h_buf h) = false /\ nth_error log (N.to_nat (h_at h)) = Some c
        /\ b' = ib_set_pos (h_buf h) ((h_at h + 1 + o) mod ib_size (h_buf h)))
  | _ => False
  end.
Proof.
  intros log h hf F R o I. destruct I as [Isz Ihf Iedge Ipos Ilow Iua Iar Irf Ishort Ifin Ilast Idata Irest Ilen Icons Ifresh Ifull Ioob].
  set (b := h_buf h) in *. set (A := h_at h) in *. set (U := h_used h) in *. set (s := ib_size b) in *.
  unfold get_next_character. fold s. rewrite (half_eq s hf) by assumption.
  assert (Hs0 : s <> 0) by (clear - Isz Ihf; lia).
  assert (Hs1 : 0 < s) by (clear - Isz Ihf; lia).
  assert (Hlt : ib_pos b < s) by (rewrite Ipos; apply N.mod_lt; exact Hs0).
  destruct (ib_fin b && (ib_pos b =? ib_last b)) eqn:Ef.
  - apply andb_true_iff in Ef. destruct Ef as (Ef & El). apply N.eqb_eq in El. left.
    repeat split; auto. destruct Ilast as [L | (L & _)]; [|nl].
    apply (ring_inj A R o s); try nl. congruence.
  - assert (ib_full b = false) as NFull.
    { destruct (ib_full b) eqn:Q; [exfalso|reflexivity]. destruct (Ifull eq_refl) as (Q1 & _ & Q3).
      rewrite Q1, Q3, N.eqb_refl in Ef. discriminate. }
    destruct ((ib_lrfh b && (ib_pos b =? hf)) || (negb (ib_lrfh b) && (ib_pos b =? 0))) eqn:Eo.
    + assert (ib_pos b = edge b hf) as P.
      { unfold edge. destruct (ib_lrfh b); cbn in Eo; apply N.eqb_eq; [rewrite orb_false_r in Eo|]; exact Eo. }
      assert (A = F) by (apply (ring_inj A F o s); try nl; congruence). repeat split; try assumption; nl.
    + assert (A <> F) as NF.
      { intro Q. rewrite Q, Iedge in Ipos. unfold edge in Ipos.
        destruct (ib_lrfh b); rewrite Ipos, N.eqb_refl in Eo; cbn in Eo; discriminate. }
      assert (A < R) as AR.
      { destruct (N.eq_dec A R) as [Q|Q]; [exfalso|nl].
        rewrite (Ifin ltac:(nl)) in Ef. cbn in Ef. apply N.eqb_neq in Ef.
        destruct Ilast as [L | (L & Z)]; [congruence|].
        assert (F - R < hf /\ 0 < F - R) as (G1 & G2) by nl.
        unfold edge in Iedge. destruct (ib_lrfh b).
        - rewrite (ring_back F o s hf R) in Z by (auto; nl). nl.
        - rewrite (ring_back_wrap F o s 0 R) in Z by (auto; nl). nl. }
      rewrite Ipos. rewrite Idata by nl.
      destruct (nth_error log (N.to_nat A)) as [c|] eqn:En.
      2:{ apply nth_error_None in En. nl. }
      right. repeat split; auto. f_equal.
      pose proof (N.mod_lt (A + o) s Hs0) as L. remember ((A + o) mod s) as e eqn:Ee. symmetry in Ee.
      destruct (e + 1 =? s) eqn:E1.
      * apply N.eqb_eq in E1. rewrite (ring_fwd_wrap A o s e 1 Hs1 Ee) by nl. nl.
      * apply N.eqb_neq in E1. rewrite (ring_fwd A o s e 1 Hs1 Ee) by nl. nl.
Qed.

(** * The operations preserve the invariant *)

Section Preserve.
Variable chunk : nat -> N.
Lemma rinv_next : forall log h hf F R o, rinv log h hf F R o ->
  exists h' t, ring_step chunk RNext h = Ret (h', t) /\ rinv log h' hf F R o /\
    h_rd h' = h_rd h /\ ib_fin (h_buf h') = ib_fin (h_buf h) /\
    ((t = [OOob] /\ h_at h' = h_at h /\ h_at h = R /\ h_at h = F)
     \/ (t = [OEof] /\ h_at h' = h_at h /\ h_at h = R /\ ib_fin (h_buf h) = true)
     \/ (exists c, t = [OChar c] /\ h_at h' = h_at h + 1 /\ nth_error log (N.to_nat (h_at h)) = Some c)).
Proof.
  intros log h hf F R o I. pose proof (next_spec _ _ _ _ _ _ I) as N. cbn [ring_step].
  destruct (get_next_character (h_buf h)) as [[(c, b')|]| | |]; try contradiction; cbn [bind];
    destruct I as [Isz Ihf Iedge Ipos Ilow Iua Iar Irf Ishort Ifin Ilast Idata Irest Ilen Icons Ifresh Ifull Ioob].
  - destruct N as [(N1 & N2 & N3 & ->) | (N1 & N2 & N3 & ->)].
    + cbn. eexists _, _. split; [reflexivity|]. split; [|cbn; eauto 10]. constructor; cbn; auto; try discriminate.
    + cbn. rewrite N2. eexists _, _. split; [reflexivity|]. split; [|cbn; eauto 10].
      constructor; cbn; auto; try discriminate; try nl; try congruence.
  - destruct N as (N1 & N2 & N3). eexists _, _. split; [reflexivity|]. split.
    + constructor; cbn; auto.
    + cbn. repeat split. left. repeat split; nl.
Qed.

Lemma rinv_back : forall log h hf F R o d, rinv log h hf F R o -> h_used h + d <= h_at h ->
  rinv log (mkRing (ib_set_full (ib_set_pos (h_buf h) (behind (h_buf h) d)) false) (h_rd h) (h_at h - d) (h_used h) false) hf F R o.
Proof.
  intros log h hf F R o d I Hd.
  destruct I as [Isz Ihf Iedge Ipos Ilow Iua Iar Irf Ishort Ifin Ilast Idata Irest Ilen Icons Ifresh Ifull Ioob].
  constructor; cbn; auto; try discriminate; try nl.
  apply behind_eq; auto; nl.
Qed.

Lemma rinv_consume : forall log h hf F R o d (incl : bool), rinv log h hf F R o -> h_used h + d <= h_at h ->
  rinv log (mkRing (ib_set_cons (h_buf h) (behind (h_buf h) (if incl then d + 1 else d))) (h_rd h) (h_at h) (h_at h - d) (h_oob h)) hf F R o.
Proof.
  intros log h hf F R o d incl I Hd.
  destruct I as [Isz Ihf Iedge Ipos Ilow Iua Iar Irf Ishort Ifin Ilast Idata Irest Ilen Icons Ifresh Ifull Ioob].
  constructor; cbn; auto; try discriminate; try nl.
  - intros a H1 H2. apply Idata; nl.
  - destruct incl.
    + right. left. rewrite (behind_eq1 _ (h_at h) o) by (auto; nl). f_equal. nl.
    + left. apply behind_eq; auto; nl.
Qed.

Lemma rd_amount_bounds : forall r n, 0 < n -> rd_rest r <> [] ->
  1 <= rd_amount chunk r n /\ rd_amount chunk r n <= n /\ rd_amount chunk r n <= N.of_nat (length (rd_rest r)).
Proof.
  intros r n Hn Hr. unfold rd_amount. destruct (rd_rest r); [congruence|]. cbn [length]. lia.
Qed.
Lemma rd_amount_fills : forall r n log, fills chunk log -> (length (rd_rest r) <= length log)%nat -> 0 < n -> rd_rest r <> [] ->
  rd_amount chunk r n < n -> rd_amount chunk r n = N.of_nat (length (rd_rest r)).
Proof.
  intros r n log Hf Hl Hn Hr. unfold rd_amount. specialize (Hf (rd_calls r)). destruct (rd_rest r); [congruence|]. cbn [length] in *. lia.
Qed.

(** A safe read may overwrite only bytes declared not needed. *)
Lemma safe_room : forall log h hf F R o, rinv log h hf F R o -> read_is_safe (h_buf h) = true ->
  R = F /\ ib_fin (h_buf h) = false /\ F < h_used h + hf.
Proof.
  intros log h hf F R o I S.
  destruct I as [Isz Ihf Iedge Ipos Ilow Iua Iar Irf Ishort Ifin Ilast Idata Irest Ilen Icons Ifresh Ifull Ioob].
  unfold read_is_safe in S. rewrite (half_eq _ hf) in S by assumption.
  destruct (ib_fin (h_buf h)) eqn:Ef; [discriminate|].
  assert (R = F) by (destruct (N.eq_dec R F) as [|Q]; [assumption|]; specialize (Ifin ltac:(nl)); discriminate).
  repeat split; auto. clear Idata Ilast Ipos Ifull Ioob.
  set (b := h_buf h) in *. set (U := h_used h) in *. set (s := ib_size b) in *.
  assert (Hs0 : s <> 0) by (clear - Isz Ihf; lia).
  assert (Hs1 : 0 < s) by (clear - Isz Ihf; lia).
  destruct (N.lt_ge_cases F (U + hf)) as [|C]; [assumption|exfalso].
  enough ((ib_lrfh b = true -> ib_cons b = 0 \/ hf <= ib_cons b) /\ (ib_lrfh b = false -> ib_cons b <= hf)) as (K1 & K2).
  { apply orb_true_iff in S. destruct S as [S|S].
    - apply andb_true_iff in S. destruct S as (S1 & S2). apply negb_true_iff in S1. apply N.ltb_lt in S2. specialize (K2 S1). nl.
    - apply andb_true_iff in S. destruct S as (S1 & S3). apply andb_true_iff in S1. destruct S1 as (S1 & S2).
      apply N.ltb_lt in S2, S3. specialize (K1 S1). nl. }
  destruct Icons as [K | [K | (K & K')]].
  - rewrite K. unfold edge in Iedge. split; intro L; rewrite L in Iedge.
    + destruct (N.eq_dec F (U + hf)) as [G|G].
      * rewrite (ring_back F o s hf U Hs1 Iedge) by nl. nl.
      * rewrite (ring_back_wrap F o s hf U Hs1 Iedge) by nl. nl.
    + rewrite (ring_back_wrap F o s 0 U Hs1 Iedge) by nl. nl.
  - rewrite K. replace (U + o + (s - 1)) with (F + (U + s - 1 - F) + o) by nl.
    unfold edge in Iedge. split; intro L; rewrite L in Iedge.
    + rewrite (ring_fwd F o s hf _ Hs1 Iedge) by nl. nl.
    + rewrite (ring_fwd F o s 0 _ Hs1 Iedge) by nl. nl.
  - split; intro L; [specialize (K' L)|]; nl.
Qed.

Lemma mem_write_in : forall m off bytes i, off <= i -> i < off + N.of_nat (length bytes) ->
  mem_write m off bytes i = nth_error bytes (N.to_nat (i - off)).
Proof.
  intros m off bytes i H1 H2. unfold mem_write. apply N.leb_le in H1. apply N.ltb_lt in H2. rewrite H1, H2. reflexivity.
Qed.
Lemma mem_write_out : forall m off bytes i, i < off \/ off + N.of_nat (length bytes) <= i -> mem_write m off bytes i = m i.
Proof.
  intros m off bytes i H. unfold mem_write.
  destruct ((off <=? i) && (i <? off + N.of_nat (length bytes))) eqn:E; [|reflexivity].
  apply andb_true_iff in E. destruct E as (E1 & E2). apply N.leb_le in E1. apply N.ltb_lt in E2. lia.
Qed.
Lemma sid_eqb_refl : forall s, sid_eqb s s = true.
Proof. intros [| |k|k]; cbn; auto using Nat.eqb_refl. Qed.
Lemma sid_eqb_neq : forall s s', s <> s' -> sid_eqb s s' = false.
Proof.
  intros [| |k|k] [| |k'|k'] H; cbn; auto; try congruence; apply Nat.eqb_neq; congruence.
Qed.
Lemma nth_error_firstn_lt : forall (l : list N) n i, (i < n)%nat -> nth_error (firstn n l) i = nth_error l i.
Proof.
  intros l n; revert l; induction n as [|n IH]; intros l i H; [lia|].
  destruct l as [|x l]; [reflexivity|]. destruct i as [|i]; [reflexivity|]. cbn. apply IH. lia.
Qed.
Lemma nth_error_skipn' : forall (l : list N) n i, nth_error (skipn n l) i = nth_error l (n + i).
Proof.
  intros l n; revert l; induction n as [|n IH]; intros l i; [reflexivity|].
  destruct l as [|x l]; cbn; [now destruct i|]. apply IH.
Qed.

Lemma skipn_skipn' : forall (l : list N) i j, skipn i (skipn j l) = skipn (j + i) l.
Proof.
  intros l i j; revert l; induction j as [|j IH]; intros l; [reflexivity|]. destruct l; [now rewrite !skipn_nil|]. cbn. apply IH.
Qed.

Lemma rinv_read : forall log h hf F R o, rinv log h hf F R o -> read_is_safe (h_buf h) = true ->
  exists F' R', rinv log (let (b', r') := ib_read chunk (h_buf h) (h_rd h) in mkRing b' r' (h_at h) (h_used h) false) hf F' R' o /\
    (fills chunk log -> ib_fin (fst (ib_read chunk (h_buf h) (h_rd h))) = true -> R' = N.of_nat (length log)).
Proof.
  intros log h hf F R o I S. destruct (safe_room _ _ _ _ _ _ I S) as (RF & Ef & Room).
  destruct I as [Isz Ihf Iedge Ipos Ilow Iua Iar Irf Ishort Ifin Ilast Idata Irest Ilen Icons Ifresh Ifull Ioob].
  subst F. set (b := h_buf h) in *. set (U := h_used h) in *. set (s := ib_size b) in *.
  assert (Hs0 : s <> 0) by (clear - Isz Ihf; lia).
  assert (Hs1 : 0 < s) by (clear - Isz Ihf; lia).
  unfold ib_read, ib_fill, rd_read. fold s. rewrite (half_eq s hf) by assumption.
  destruct (rd_rest (h_rd h)) as [|x rest] eqn:Er.
  - exists R, R. split.
    + constructor; cbn; auto; try discriminate; try nl.
    + intros _ _. pose proof (f_equal (@length N) Irest) as L. rewrite skipn_length in L. cbn in L. nl.
  - assert (rd_rest (h_rd h) <> []) as Ne by (rewrite Er; discriminate).
    pose proof (rd_amount_bounds (h_rd h) hf Ihf Ne) as (B1 & B2 & B3).
    pose proof (fun log Hf Hl => rd_amount_fills (h_rd h) hf log Hf Hl Ihf Ne) as BF.
    set (k := rd_amount chunk (h_rd h) hf) in *. rewrite Er in B3, BF. set (rs := x :: rest) in *.
    assert (N.of_nat (length (firstn (N.to_nat k) rs)) = k) as Lk by (rewrite firstn_length; nl).
    assert (R + N.of_nat (length rs) = N.of_nat (length log)) as Lr
      by (rewrite Irest, skipn_length; nl).
    rewrite Lk. exists (R + hf), (R + k).
    assert ((R + hf + o) mod s = (if negb (ib_lrfh b) then hf else 0)) as Edge'.
    { unfold edge in Iedge. destruct (ib_lrfh b); cbn [negb].
      - rewrite (ring_fwd_wrap R o s hf hf Hs1 Iedge) by nl. nl.
      - rewrite (ring_fwd R o s 0 hf Hs1 Iedge) by nl. nl. }
    split.
    + constructor; cbn; auto; try discriminate; try nl.
      * intro Q. destruct (k <? hf) eqn:Ek; [reflexivity|]. apply N.ltb_ge in Ek. nl.
      * fold s. unfold edge in Iedge. destruct (ib_lrfh b).
        -- assert (ib_last b = hf) as L by (destruct Ilast as [Q | (_ & Q)]; [congruence|rewrite Iedge in Q; nl]).
           rewrite L. destruct (s <? hf + k) eqn:Q; [apply N.ltb_lt in Q; nl|].
           destruct (N.eq_dec (hf + k) s) as [G|G].
           ++ right. split; [assumption|]. rewrite (ring_fwd_wrap R o s hf k Hs1 Iedge) by nl. nl.
           ++ left. rewrite (ring_fwd R o s hf k Hs1 Iedge) by nl. reflexivity.
        -- left. rewrite (ring_fwd R o s 0 k Hs1 Iedge) by nl.
           destruct Ilast as [Q | (Q & _)].
           ++ assert (ib_last b = 0) as -> by congruence. destruct (s <? 0 + k) eqn:G; [apply N.ltb_lt in G|]; nl.
           ++ rewrite Q. fold s. destruct (s <? s + k) eqn:G; [|apply N.ltb_ge in G]; nl.
      * fold s. unfold heap_set. rewrite sid_eqb_refl. intros a H1 H2.
        set (off := if ib_lrfh b then hf else 0) in *.
        assert ((R + o) mod s = off) as E0 by exact Iedge.
        assert (off = 0 \/ off = hf) as Off by (unfold off; destruct (ib_lrfh b); auto).
        destruct (N.lt_ge_cases a R) as [Q|Q].
        -- rewrite mem_write_out; [apply Idata; nl|]. rewrite Lk.
           destruct (N.le_gt_cases (R - a) off) as [G|G].
           ++ rewrite (ring_back R o s off a Hs1 E0) by nl. nl.
           ++ rewrite (ring_back_wrap R o s off a Hs1 E0) by nl. nl.
        -- replace a with (R + (a - R)) at 1 by nl. rewrite (ring_fwd R o s off _ Hs1 E0) by nl.
           rewrite mem_write_in by nl. rewrite nth_error_firstn_lt by nl. rewrite Irest, nth_error_skipn'. f_equal. nl.
      * rewrite Irest, skipn_skipn'. f_equal. nl.
      * destruct Icons as [K | [K | (K & K')]]; auto. right. right. split; [assumption|]. intro L.
        apply negb_true_iff in L. exfalso. unfold read_is_safe in S. fold s in S. rewrite Ef, L, (half_eq s hf Isz) in S. cbn in S.
        rewrite orb_false_r in S. apply N.ltb_lt in S. nl.
      * intros Q. apply Ifull in Q. destruct Q as (Q & _). congruence.
    + intros Hf Hfin. cbn in Hfin. destruct (k <? hf) eqn:Ek; [|congruence]. apply N.ltb_lt in Ek.
      rewrite (BF log Hf) by (fold rs; nl). fold rs. nl.
Qed.

Lemma rinv_grow : forall log h hf F R o, rinv log h hf F R o -> h_oob h = true ->
  exists o', rinv log (mkRing (increase_capacity (h_buf h)) (h_rd h) (h_at h) (h_used h) false) (2 * hf) F R o'.
Proof.
  intros log h hf F R o I Ho.
  destruct I as [Isz Ihf Iedge Ipos Ilow Iua Iar Irf Ishort Ifin Ilast Idata Irest Ilen Icons Ifresh Ifull Ioob].
  destruct (Ioob Ho) as (AF & RF & NFull).
  set (b := h_buf h) in *. set (U := h_used h) in *. set (s := ib_size b) in *.
  assert (Hs0 : s <> 0) by (clear - Isz Ihf; lia).
  assert (Hs1 : 0 < s) by (clear - Isz Ihf; lia).
  exists (s + 2 * s - F mod (2 * s)). set (o' := s + 2 * s - F mod (2 * s)).
  assert ((F + o') mod (2 * s) = s) as Edge'.
  { apply fresh_offset. exact Hs1. }
  clearbody o'. assert (0 < 2 * s) as Hs2 by nl.
  constructor; cbn; fold b; fold s; auto; try discriminate; try nl.
  - rewrite (N.mul_comm s 2), Edge'. unfold edge. cbn. nl.
  - rewrite (N.mul_comm s 2), AF, Edge'. reflexivity.
  - left. rewrite (N.mul_comm s 2), RF, Edge'. nl.
  - intros a H1 H2. rewrite RF in H2. unfold heap_set. rewrite sid_eqb_refl. rewrite (N.mul_comm s 2).
    rewrite (ring_back F o' (2 * s) s a Hs2 Edge') by nl.
    set (i := s - (F - a)). assert (i < s /\ 0 < i) as (Hi & Hi0) by (unfold i; nl).
    rewrite (proj2 (N.ltb_lt i s) Hi). rewrite (half_eq s hf Isz).
    rewrite <- Idata by nl. unfold edge in Iedge. destruct (ib_lrfh b).
    + destruct (i <? hf) eqn:E.
      * apply N.ltb_lt in E. rewrite (ring_back_wrap F o s hf a Hs1 Iedge) by (unfold i in *; nl). f_equal. unfold i. nl.
      * apply N.ltb_ge in E. rewrite (ring_back F o s hf a Hs1 Iedge) by (unfold i in *; nl). f_equal. unfold i. nl.
    + rewrite (ring_back_wrap F o s 0 a Hs1 Iedge) by (unfold i in *; nl). f_equal. unfold i. nl.
  - right. right. split.
    + rewrite <- Isz. destruct Icons as [K | [K | (K & K')]]; [rewrite K; apply N.mod_lt; assumption ..|nl].
    + intros _. nl.
  - intros k Hk Q. injection Q as Q. nl.
  - intro Q. fold b in Q. congruence.
Qed.
End Preserve.

(** * Every schedule *)
Definition ring_ok (chunk : nat -> N) (log : list N) (h : ring) : Prop :=
  exists hf F R o, rinv log h hf F R o /\ (fills chunk log -> ib_fin (h_buf h) = true -> R = N.of_nat (length log)).
(** The bytes the reader has given away. *)
Definition taken (log : list N) (h : ring) : N := N.of_nat (length log) - N.of_nat (length (rd_rest (h_rd h))).

Lemma taken_eq : forall log h hf F R o, rinv log h hf F R o -> taken log h = R.
Proof.
  intros log h hf F R o I. unfold taken. rewrite (ri_rest _ _ _ _ _ _ I), skipn_length. pose proof (ri_len _ _ _ _ _ _ I). nl.
Qed.

(** What one operation may show. *)
Definition step_shows (log : list N) (h h' : ring) (t : list robs) : Prop :=
  (t = [] /\ h_at h' = h_at h)
  \/ (t = [OOob] /\ h_at h' = h_at h /\ h_at h = taken log h)
  \/ (t = [OEof] /\ h_at h' = h_at h /\ h_at h = taken log h /\ ib_fin (h_buf h) = true)
  \/ (exists c, t = [OChar c] /\ h_at h' = h_at h + 1 /\ nth_error log (N.to_nat (h_at h)) = Some c)
  \/ (exists d, t = [OBack d] /\ d <= h_at h /\ h_at h' = h_at h - d).

Lemma ring_step_ok : forall chunk log op h, ring_ok chunk log h ->
  exists h' t, ring_step chunk op h = Ret (h', t) /\ ring_ok chunk log h' /\ step_shows log h h' t /\
    (ib_fin (h_buf h) = true -> ib_fin (h_buf h') = true /\ taken log h' = taken log h).
Proof.
  intros chunk log op h (hf & F & R & o & I & Hfull). unfold step_shows. rewrite (taken_eq _ _ _ _ _ _ I).
  destruct op as [| | |d incl|d]; cbn [ring_step].
  - unfold read_if_safe. destruct (read_is_safe (h_buf h)) eqn:S.
    + destruct (rinv_read chunk _ _ _ _ _ _ I S) as (F' & R' & I' & Hf').
      destruct (safe_room _ _ _ _ _ _ I S) as (_ & Ef & _).
      destruct (ib_read chunk (h_buf h) (h_rd h)) as (b', r') eqn:E. cbn [fst] in Hf'.
      eexists _, _. split; [reflexivity|]. split; [|split; [left; auto|congruence]].
      exists hf, F', R', o. split; assumption.
    + eexists _, _. split; [reflexivity|]. split; [|split; [left; auto|]].
      * exists hf, F, R, o. split; [|assumption].
        destruct I as [Isz Ihf Iedge Ipos Ilow Iua Iar Irf Ishort Ifin Ilast Idata Irest Ilen Icons Ifresh Ifull Ioob].
        constructor; cbn; auto; discriminate.
      * intros Q. cbn. split; [assumption|]. unfold taken; cbn. fold (taken log h). apply (taken_eq _ _ _ _ _ _ I).
  - destruct (rinv_next chunk _ _ _ _ _ _ I) as (h' & t & E & I' & Er & Ef & Sh). cbn [ring_step] in E.
    exists h', t. split; [exact E|]. split; [|split].
    + exists hf, F, R, o. split; [assumption|]. rewrite Ef. assumption.
    + destruct Sh as [(S1 & S2 & S3 & S4) | [(S1 & S2 & S3 & S4) | (c & S1 & S2 & S3)]]; eauto 10.
    + intro Q. rewrite Ef. split; [assumption|]. unfold taken. rewrite Er. fold (taken log h). apply (taken_eq _ _ _ _ _ _ I).
  - destruct (h_oob h) eqn:Ho.
    + destruct (rinv_grow chunk _ _ _ _ _ _ I Ho) as (o' & I').
      eexists _, _. split; [reflexivity|]. split; [|split; [left; auto|]].
      * exists (2 * hf), F, R, o'. split; [assumption|]. exact Hfull.
      * intro Q. split; [exact Q|]. unfold taken; cbn. fold (taken log h). apply (taken_eq _ _ _ _ _ _ I).
    + eexists _, _. split; [reflexivity|]. split; [exists hf, F, R, o; auto|]. split; [left; auto|].
      intro Q. split; [exact Q|]. apply (taken_eq _ _ _ _ _ _ I).
  - destruct (h_used h + d <=? h_at h) eqn:Ed.
    + apply N.leb_le in Ed. eexists _, _. split; [reflexivity|]. split; [|split; [left; auto|]].
      * exists hf, F, R, o. split; [apply rinv_consume; assumption|exact Hfull].
      * intro Q. split; [exact Q|]. unfold taken; cbn. fold (taken log h). apply (taken_eq _ _ _ _ _ _ I).
    + eexists _, _. split; [reflexivity|]. split; [exists hf, F, R, o; auto|]. split; [left; auto|].
      intro Q. split; [exact Q|]. apply (taken_eq _ _ _ _ _ _ I).
  - destruct (h_used h + d <=? h_at h) eqn:Ed.
    + apply N.leb_le in Ed. eexists _, _. split; [reflexivity|]. split; [|split].
      * exists hf, F, R, o. split; [apply rinv_back; assumption|exact Hfull].
      * right. right. right. right. exists d. repeat split. lia.
      * intro Q. split; [exact Q|]. unfold taken; cbn. fold (taken log h). apply (taken_eq _ _ _ _ _ _ I).
    + eexists _, _. split; [reflexivity|]. split; [exists hf, F, R, o; auto|]. split; [left; auto|].
      intro Q. split; [exact Q|]. apply (taken_eq _ _ _ _ _ _ I).
Qed.

Lemma ring_run_ok : forall chunk log ops h, ring_ok chunk log h ->
  exists h' t, ring_run chunk ops h = Ret (h', t) /\ ring_ok chunk log h' /\ replay log (fun a => a = taken log h') (h_at h) t /\
    (ib_fin (h_buf h) = true -> ib_fin (h_buf h') = true /\ taken log h' = taken log h) /\
    (In OEof t -> ib_fin (h_buf h') = true).
Proof.
  intros chunk log ops; induction ops as [|op ops IH]; intros h OK.
  - exists h, []. cbn. repeat split; auto; contradiction.
  - destruct (ring_step_ok chunk log op h OK) as (h1 & t1 & E1 & OK1 & S1 & K1).
    destruct (IH h1 OK1) as (h2 & t2 & E2 & OK2 & S2 & K2 & K3).
    exists h2, (t1 ++ t2). cbn [ring_run]. rewrite E1. cbn [bind]. rewrite E2. cbn [bind].
    split; [reflexivity|]. split; [assumption|].
    assert (ib_fin (h_buf h) = true -> ib_fin (h_buf h2) = true /\ taken log h2 = taken log h) as K.
    { intro Q. destruct (K1 Q) as (Q1 & Q2). destruct (K2 Q1) as (Q3 & Q4). split; [assumption|congruence]. }
    destruct S1 as [(-> & S) | [(-> & S & _) | [(-> & S & S' & Q) | [(c & -> & S & S') | (d & -> & S' & S)]]]];
      rewrite S in S2; cbn [app replay]; (split; [|split; [exact K|]]); auto; try (intros [G|G]; [discriminate|auto]).
    + split; [|assumption]. destruct (K Q) as (_ & ->). exact S'.
    + intros _. apply (K Q).
Qed.

Lemma ring_start_ok : forall chunk log b size, empty_buffer size b -> 0 < size -> size mod 2 = 0 -> ring_ok chunk log (ring_start b log).
Proof.
  intros chunk log b size E H1 H2. exists (size / 2), 0, 0, 0. split; [apply (rinv_start _ _ _ E); assumption|].
  intros _ Q. cbn in Q. destruct E as (_ & _ & _ & _ & E & _). congruence.
Qed.
