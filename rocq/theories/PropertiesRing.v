(** PropertiesRing.v -- C23, C24, C25, C26: the ring buffer under every schedule of operations. *)
From Verif Require Import Base LexerModel LogParserModel RingModel RingSpec RingProofs.

(** * C23: the buffer delivers the log in order *)

(** Whatever a client of the buffer does, in whatever order, he sees the log: no undefined behaviour, each character is
    the one at the cursor, and end-of-file is reported only at the end of the log. *)
Theorem C23_log_in_order : forall chunk log size b ops,
  empty_buffer size b -> 0 < size -> size mod 2 = 0 -> fills chunk log ->
  exists h t, ring_run chunk ops (ring_start b log) = Ret (h, t) /\ replay log (fun a => a = N.of_nat (length log)) 0 t.
Proof.
  intros chunk log size b ops E H1 H2 Hf.
  destruct (ring_run_ok chunk log ops _ (ring_start_ok chunk log b size E H1 H2)) as (h & t & R & OK & S & _ & K).
  exists h, t. split; [exact R|]. cbn [ring_start h_at] in S.
  assert (forall t' a, (In OEof t' -> ib_fin (h_buf h) = true) -> replay log (fun a => a = taken log h) a t' ->
                       replay log (fun a => a = N.of_nat (length log)) a t') as G.
  { induction t' as [|o t' IH]; intros a K' R'; [exact I|].
    assert (In OEof t' -> ib_fin (h_buf h) = true) as K'' by (intro Q; apply K'; right; exact Q).
    destruct o; cbn in *; try (split; [apply R'|]; apply IH; [auto|apply R']).
    - destruct R' as (R1 & R2). split; [|apply IH; auto]. rewrite R1.
      destruct OK as (hf & F & RR & o & I & Hfull). rewrite (taken_eq _ _ _ _ _ _ I). apply Hfull; auto.
    - apply IH; auto. }
  apply G; assumption.
Qed.

(** In particular, a client who never goes back sees each byte once: what he has seen is the beginning of the log, and
    it is the whole log if he has seen end-of-file. *)
Definition no_back (ops : list rop) : Prop := forall d, ~ In (RBack d) ops.

Lemma ring_run_no_back : forall chunk ops h h' t, ring_run chunk ops h = Ret (h', t) -> no_back ops -> forall d, ~ In (OBack d) t.
Proof.
  intros chunk ops; induction ops as [|op ops IH]; intros h h' t E N d.
  - injection E as <- <-. auto.
  - cbn [ring_run] in E. destruct (ring_step chunk op h) as [(h1, t1)| | |] eqn:E1; try discriminate. cbn [bind] in E.
    destruct (ring_run chunk ops h1) as [(h2, t2)| | |] eqn:E2; try discriminate. cbn [bind] in E. injection E as <- <-.
    intro Q. apply in_app_or in Q. destruct Q as [Q|Q].
    + assert (forall d, op <> RBack d) as No by (intros d' ->; apply (N d'); left; reflexivity).
      destruct op as [| | |d' incl|d']; cbn [ring_step] in E1.
      * destruct (read_if_safe chunk (h_buf h) (h_rd h)). injection E1 as <- <-. contradiction.
      * destruct (get_next_character (h_buf h)) as [[(c, b')|]| | |]; try discriminate; cbn [bind] in E1.
        -- destruct (ib_full b'); injection E1 as <- <-; destruct Q as [Q|[]]; discriminate.
        -- injection E1 as <- <-; destruct Q as [Q|[]]; discriminate.
      * destruct (h_oob h); injection E1 as <- <-; contradiction.
      * destruct (h_used h + d' <=? h_at h); injection E1 as <- <-; contradiction.
      * exact (No d' eq_refl).
    + revert Q. apply (IH h1 h2 t2 E2). intros d' Q. apply (N d'). right. exact Q.
Qed.

Lemma replay_prefix : forall log stop t a, (forall d, ~ In (OBack d) t) -> replay log stop a t ->
  seen t = firstn (length (seen t)) (skipn (N.to_nat a) log) /\
  (In OEof t -> exists t1 t2, t = t1 ++ OEof :: t2 /\ stop (a + N.of_nat (length (seen t1)))).
Proof.
  intros log stop t; induction t as [|o t IH]; intros a N R; [cbn; tauto|].
  assert (forall d, ~ In (OBack d) t) as N' by (intros d Q; apply (N d); right; exact Q).
  destruct o as [c| | |d]; cbn [replay] in R.
  - destruct R as (R1 & R2). destruct (IH (a + 1) N' R2) as (P1 & P2). cbn [seen flat_map app length firstn]. fold (seen t). split.
    + assert (skipn (N.to_nat a) log = c :: skipn (N.to_nat (a + 1)) log) as ->.
      { clear - R1. replace (N.to_nat (a + 1)) with (S (N.to_nat a)) by lia. revert log R1. generalize (N.to_nat a).
        induction n as [|n IH]; intros [|x l] R; cbn in *; try discriminate; [congruence|]. apply IH, R. }
      cbn [firstn]. f_equal. exact P1.
    + intros [Q|Q]; [discriminate|]. destruct (P2 Q) as (t1 & t2 & E & St). exists (OChar c :: t1), t2. split; [rewrite E; reflexivity|].
      cbn [seen flat_map app length]. fold (seen t1). replace (a + N.of_nat (S (length (seen t1)))) with (a + 1 + N.of_nat (length (seen t1))) by lia. exact St.
  - destruct R as (R1 & R2). destruct (IH a N' R2) as (P1 & P2). split; [exact P1|].
    intros _. exists [], t. split; [reflexivity|]. cbn. rewrite N.add_0_r. exact R1.
  - destruct (IH a N' R) as (P1 & P2). split; [exact P1|].
    intros [Q|Q]; [discriminate|]. destruct (P2 Q) as (t1 & t2 & E & St). exists (OOob :: t1), t2. split; [rewrite E; reflexivity|exact St].
  - exfalso. apply (N d). left. reflexivity.
Qed.

Theorem C23_each_byte_once : forall chunk log size b ops,
  empty_buffer size b -> 0 < size -> size mod 2 = 0 -> fills chunk log -> no_back ops ->
  exists h t rest, ring_run chunk ops (ring_start b log) = Ret (h, t) /\ log = seen t ++ rest /\ (In OEof t -> rest = []).
Proof.
  intros chunk log size b ops E H1 H2 Hf N. destruct (C23_log_in_order chunk log size b ops E H1 H2 Hf) as (h & t & R & S).
  pose proof (ring_run_no_back _ _ _ _ _ R N) as N'.
  destruct (replay_prefix _ _ _ _ N' S) as (P1 & P2). cbn [N.to_nat skipn] in P1. change (skipn 0%nat log) with log in P1.
  exists h, t, (skipn (length (seen t)) log). split; [exact R|]. split.
  - rewrite P1 at 1. rewrite firstn_skipn. reflexivity.
  - intro Q. destruct (P2 Q) as (t1 & t2 & Et & St). apply skipn_all2. rewrite Et. unfold seen. rewrite flat_map_app, app_length. fold (seen t1). lia.
Qed.

(** The buffer of a ParserInputBuffer after reset() is such a buffer. *)
Lemma reset_empty : forall b, empty_buffer cStaticByteBuffSize (ib_reset b).
Proof. intros b. repeat split. Qed.

(** BufferOutOfBounds is reported only when the client has seen every byte the reader has given away. *)
Theorem C23_out_of_bounds_only_at_the_end : forall chunk log size b ops h t,
  empty_buffer size b -> 0 < size -> size mod 2 = 0 ->
  ring_run chunk ops (ring_start b log) = Ret (h, t) ->
  get_next_character (h_buf h) = Ret None -> h_at h + N.of_nat (length (rd_rest (h_rd h))) = N.of_nat (length log).
Proof.
  intros chunk log size b ops h t E H1 H2 R G.
  destruct (ring_run_ok chunk log ops _ (ring_start_ok chunk log b size E H1 H2)) as (h' & t' & R' & OK & _).
  rewrite R in R'. injection R' as <- <-. destruct OK as (hf & F & RR & o & I & _).
  pose proof (next_spec _ _ _ _ _ _ I) as N. rewrite G in N. destruct N as (N1 & N2 & _).
  pose proof (taken_eq _ _ _ _ _ _ I) as T. unfold taken in T.
  pose proof (ri_rest _ _ _ _ _ _ I) as Q. pose proof (ri_len _ _ _ _ _ _ I) as L. rewrite Q, skipn_length in *. lia.
Qed.

(** A run on a buffer of four bytes: the log wraps around, the cursor goes back, the buffer grows, and end-of-file comes last. *)
Definition fast : nat -> N := fun _ => 1000.
Definition small_buffer : ibuf := mkIbuf (fun _ _ => None) Static 0%nat 4 0 0 false false false 3.
Definition small_ops : list rop :=
  [RRead; RNext; RNext; RConsume 0 true; RRead; RNext; RNext; RConsume 0 true; RRead; RNext; RBack 1; RNext; RNext; RNext; RGrow; RRead; RNext; RNext].
Example C23_example :
  exists h, ring_run fast small_ops (ring_start small_buffer [97; 98; 99; 100; 101; 102; 103])
            = Ret (h, [OChar 97; OChar 98; OChar 99; OChar 100; OChar 101; OBack 1; OChar 101; OChar 102; OOob; OChar 103; OEof]).
Proof. eexists. vm_compute. reflexivity. Qed.
Example C23_example_hyps : empty_buffer 4 small_buffer /\ 0 < 4 /\ 4 mod 2 = 0 /\ fills fast [97; 98; 99; 100; 101; 102; 103].
Proof. repeat split; try lia. intro n. cbn. unfold fast. lia. Qed.

(** * C25: a read never overwrites unconsumed data *)

(** In every state a client can bring the buffer into, if read_is_safe() holds, then whatever the reader delivers
    (1) the [d]-th last character obtained, unless consumed, is still in its place after the read, and is the log's;
    (2) so is the [j]-th character not yet obtained among those already read. *)
Theorem C25_safe_read_keeps_data : forall chunk log size b ops h t b' r',
  empty_buffer size b -> 0 < size -> size mod 2 = 0 ->
  ring_run chunk ops (ring_start b log) = Ret (h, t) ->
  read_is_safe (h_buf h) = true -> ib_read chunk (h_buf h) (h_rd h) = (b', r') ->
  let place := ib_heap b' (ib_active b') in
  let old := ib_heap (h_buf h) (ib_active (h_buf h)) in
  (forall d, 1 <= d -> h_used h + d <= h_at h ->
     place (behind (h_buf h) d) = nth_error log (N.to_nat (h_at h - d)) /\ old (behind (h_buf h) d) = place (behind (h_buf h) d)) /\
  (forall j, h_at h + j + N.of_nat (length (rd_rest (h_rd h))) < N.of_nat (length log) ->
     let p := (ib_pos (h_buf h) + j) mod ib_size (h_buf h) in
     place p = nth_error log (N.to_nat (h_at h + j)) /\ old p = place p).
Proof.
  intros chunk log size b ops h t b' r' E H1 H2 R S ER place old.
  destruct (ring_run_ok chunk log ops _ (ring_start_ok chunk log b size E H1 H2)) as (h' & t' & R' & OK & _).
  rewrite R in R'. injection R' as <- <-. destruct OK as (hf & F & RR & o & I & _).
  destruct (rinv_read chunk _ _ _ _ _ _ I S) as (F' & RR' & I' & _). rewrite ER in I'.
  destruct (safe_room _ _ _ _ _ _ I S) as (EF & _ & _). subst F.
  pose proof (taken_eq _ _ _ _ _ _ I) as T. unfold taken in T.
  pose proof (ri_data _ _ _ _ _ _ I') as D'. pose proof (ri_data _ _ _ _ _ _ I) as D. cbn in D'. fold place in D'. fold old in D.
  assert (ib_size b' = ib_size (h_buf h)) as Sz.
  { pose proof (ri_size _ _ _ _ _ _ I'). pose proof (ri_size _ _ _ _ _ _ I). cbn in *. nl. }
  rewrite Sz in D'.
  assert (RR <= RR') as Mono.
  { pose proof (ri_edge _ _ _ _ _ _ I'). pose proof (taken_eq _ _ _ _ _ _ I') as T'. unfold taken in T'. cbn in T'.
    unfold ib_read, ib_fill, rd_read in ER. destruct (rd_rest (h_rd h)) as [|x l] eqn:Er.
    - injection ER as <- <-. cbn in T'. cbn in T. nl.
    - injection ER as <- <-. cbn [rd_rest] in T'. rewrite skipn_length in T'. cbn [length] in *. nl. }
  destruct I as [Isz Ihf Iedge Ipos Ilow Iua Iar Irf Ishort Ifin Ilast Idata Irest Ilen Icons Ifresh Ifull Ioob].
  split.
  - intros d Hd1 Hd2. rewrite (behind_eq _ (h_at h) o d Ipos) by nl. rewrite D, D' by nl. split; reflexivity.
  - intros j Hj p. assert (p = (h_at h + j + o) mod ib_size (h_buf h)) as ->.
    { unfold p. rewrite Ipos. rewrite N.add_mod_idemp_l by nl. f_equal. nl. }
    rewrite D, D' by nl. split; reflexivity.
Qed.

(** Not vacuous: after two characters of which one is consumed, a read is safe, and the other one is kept. *)
Example C25_example :
  exists h t, ring_run fast [RRead; RNext; RNext; RConsume 1 false] (ring_start small_buffer [97; 98; 99; 100; 101]) = Ret (h, t)
    /\ read_is_safe (h_buf h) = true /\ h_used h + 1 <= h_at h
    /\ ib_heap (fst (ib_read fast (h_buf h) (h_rd h))) Static (behind (h_buf h) 1) = Some 98.
Proof.
  eexists _, _. split; [vm_compute; reflexivity|]. vm_compute. repeat split; congruence.
Qed.

(** * C24: growing the buffer *)

(** increase_capacity, called when the buffer has reported BufferOutOfBounds: the new storage is twice as large, the
    cursor stands after the first half, and place [size - d] holds what the [d]-th place behind the cursor held -- so the
    last [size] bytes read, in log order; the bytes not consumed are the log's. No other storage changes: the tokens
    obtained so far keep their text. *)
Theorem C24_growth_keeps_content : forall chunk log size b ops h t,
  empty_buffer size b -> 0 < size -> size mod 2 = 0 ->
  ring_run chunk ops (ring_start b log) = Ret (h, t) -> h_oob h = true ->
  let old := h_buf h in
  let new := increase_capacity old in
  ib_size new = 2 * ib_size old /\ ib_pos new = ib_size old /\
  (forall d, 1 <= d -> d <= ib_size old ->
     ib_heap new (ib_active new) (ib_size old - d) = ib_heap old (ib_active old) (behind old d)) /\
  (forall d, 1 <= d -> h_used h + d <= h_at h ->
     ib_heap new (ib_active new) (ib_size old - d) = nth_error log (N.to_nat (h_at h - d))) /\
  (forall i, ib_size old <= i -> i < 2 * ib_size old -> ib_heap new (ib_active new) i = Some 0) /\
  (forall tok, t_sid tok = ib_active old -> tok_text (ib_heap new) tok = tok_text (ib_heap old) tok).
Proof.
  intros chunk log size b ops h t E H1 H2 R Ho old new.
  destruct (ring_run_ok chunk log ops _ (ring_start_ok chunk log b size E H1 H2)) as (h' & t' & R' & OK & _).
  rewrite R in R'. injection R' as <- <-. destruct OK as (hf & F & RR & o & I & _).
  destruct (rinv_grow chunk _ _ _ _ _ _ I Ho) as (o' & I').
  destruct (ri_oob _ _ _ _ _ _ I Ho) as (AF & RF & _).
  pose proof (ri_data _ _ _ _ _ _ I) as D.
  destruct I as [Isz Ihf Iedge Ipos Ilow Iua Iar Irf Ishort Ifin Ilast Idata Irest Ilen Icons Ifresh Ifull Ioob].
  fold old in Isz, Iedge, Ipos, Ilow, Ifresh, D. set (s := ib_size old) in *.
  assert (Hs1 : 0 < s) by nl.
  assert (ib_pos old = edge old hf) as P by (rewrite Ipos, AF; exact Iedge).
  assert (forall d, 1 <= d -> d <= s -> ib_heap new (ib_active new) (s - d) = ib_heap old (ib_active old) (behind old d)) as K.
  { intros d D1 D2. unfold behind. rewrite P. cbn [new increase_capacity ib_heap ib_active]. fold s. unfold heap_set.
    rewrite sid_eqb_refl. rewrite (proj2 (N.ltb_lt (s - d) s)) by nl. rewrite (half_eq s hf Isz). unfold edge.
    destruct (ib_lrfh old).
    - destruct (s - d <? hf) eqn:Q.
      + apply N.ltb_lt in Q. f_equal. symmetry. apply (mod_at _ _ 0); nl.
      + apply N.ltb_ge in Q. f_equal. symmetry. apply (mod_at _ _ 1); nl.
    - f_equal. symmetry. apply (mod_at _ _ 0); nl. }
  split; [cbn; fold old s; nl|]. split; [reflexivity|]. split; [exact K|]. split; [|split].
  - intros d D1 D2. rewrite K by nl. rewrite (behind_eq old (h_at h) o d) by (auto; fold s; nl). fold s. apply D; nl.
  - intros i D1 D2. cbn [new increase_capacity ib_heap ib_active]. fold s. unfold heap_set. rewrite sid_eqb_refl.
    rewrite (proj2 (N.ltb_ge i s)) by nl. rewrite (proj2 (N.ltb_lt i (2 * s))) by nl. reflexivity.
  - intros tok Ht. unfold tok_text. cbn [new increase_capacity ib_heap]. unfold heap_set. rewrite Ht.
    rewrite (sid_eqb_neq _ _ (Ifresh (ib_dyn old) (le_n _))). reflexivity.
Qed.

(** ... and the positions the lexer keeps are moved with the bytes: a position [d] characters behind the cursor before
    is [d] characters behind the cursor after. [start] and [last] may be at the cursor itself, then both are. A pending
    match must end before the cursor: see [C24_refuted]. *)
Theorem C24_positions_follow_partial : forall chunk log size b ops h t l ds dl dm,
  empty_buffer size b -> 0 < size -> size mod 2 = 0 ->
  ring_run chunk ops (ring_start b log) = Ret (h, t) -> h_oob h = true ->
  let old := h_buf h in
  l_start_pos l = behind old ds -> l_last_match_pos l = behind old dl -> l_match_pos l = behind old dm ->
  h_used h + ds <= h_at h -> h_used h + dl <= h_at h -> h_used h + dm <= h_at h ->
  (ds = 0 <-> dl = 0) -> 1 <= dm ->
  let l' := fst (increase_buffer_capacity l old) in
  let new := snd (increase_buffer_capacity l old) in
  new = increase_capacity old /\
  l_start_pos l' = behind new ds /\ l_last_match_pos l' = behind new dl /\ l_match_pos l' = behind new dm.
Proof.
  intros chunk log size b ops h t l ds dl dm E H1 H2 R Ho old Es El Em Us Ul Um S0 M1.
  destruct (ring_run_ok chunk log ops _ (ring_start_ok chunk log b size E H1 H2)) as (h' & t' & R' & OK & _).
  rewrite R in R'. injection R' as <- <-. destruct OK as (hf & F & RR & o & I & _).
  destruct (ri_oob _ _ _ _ _ _ I Ho) as (AF & RF & _).
  destruct I as [Isz Ihf Iedge Ipos Ilow Iua Iar Irf Ishort Ifin Ilast Idata Irest Ilen Icons Ifresh Ifull Ioob].
  fold old in Isz, Iedge, Ipos, Ilow. unfold increase_buffer_capacity.
  assert (ib_size (increase_capacity old) = 2 * ib_size old) as S2 by (cbn; nl).
  assert (ib_pos (increase_capacity old) = ib_size old) as P2 by reflexivity.
  set (s := ib_size old) in *. assert (Hs1 : 0 < s) by nl.
  assert (forall d, d < s -> behind (increase_capacity old) d = s - d) as BN.
  { intros d Hd. unfold behind. rewrite P2, S2. destruct (N.eq_dec d 0) as [->|]; apply (mod_at _ _ 1); nl. }
  assert (ib_pos old = edge old hf) as P by (rewrite Ipos, AF; exact Iedge).
  assert (forall d, d < s -> behind old d = if ib_lrfh old then (if d <=? hf then hf - d else s + hf - d) else (if d =? 0 then 0 else s - d)) as BO.
  { intros d Hd. unfold behind. rewrite P. fold s. unfold edge. destruct (ib_lrfh old).
    - destruct (d <=? hf) eqn:Q; [apply N.leb_le in Q; apply (mod_at _ _ 1); nl | apply N.leb_gt in Q; apply (mod_at _ _ 0); nl].
    - destruct (d =? 0) eqn:Q; [apply N.eqb_eq in Q; apply (mod_at _ _ 1); nl | apply N.eqb_neq in Q; apply (mod_at _ _ 0); nl]. }
  rewrite (proj2 (N.ltb_lt s _)) by nl.
  assert (ds < s /\ dl < s /\ dm < s) as (Ls & Ll & Lm) by nl.
  rewrite !BO in * by assumption. clear BO. unfold capacity_flips, flip_states. fold s. rewrite (half_eq s hf Isz).
  assert (forall d, d < s -> (if hf <? (if d <=? hf then hf - d else s + hf - d) then (if d <=? hf then hf - d else s + hf - d) - hf
                              else (if d <=? hf then hf - d else s + hf - d) + hf) = s - d) as A1.
  { intros d Hd. clear - Hd Isz Ihf. destruct (d <=? hf) eqn:G; rewrite ?N.leb_le, ?N.leb_gt in G;
    [destruct (hf <? hf - d) eqn:G' | destruct (hf <? s + hf - d) eqn:G']; rewrite ?N.ltb_lt, ?N.ltb_ge in G'; lia. }
  assert (forall d, d < s -> (if hf <=? (if d <=? hf then hf - d else s + hf - d) then (if d <=? hf then hf - d else s + hf - d) - hf
                              else (if d <=? hf then hf - d else s + hf - d) + hf) = if d =? 0 then 0 else s - d) as A2.
  { intros d Hd. clear - Hd Isz Ihf. destruct (d =? 0) eqn:G0; rewrite ?N.eqb_eq, ?N.eqb_neq in G0; destruct (d <=? hf) eqn:G; rewrite ?N.leb_le, ?N.leb_gt in G;
    [destruct (hf <=? hf - d) eqn:G' | destruct (hf <=? s + hf - d) eqn:G' | destruct (hf <=? hf - d) eqn:G' | destruct (hf <=? s + hf - d) eqn:G']; rewrite ?N.leb_le, ?N.leb_gt in G'; lia. }
  rewrite !BN by (cbn; assumption).
  assert (forall d, d < s -> d <> 0 -> s - d <> 0) as A3 by (intros; nl).
  assert (dm =? 0 = false) as Zm by (apply N.eqb_neq; nl).
  destruct (ib_lrfh old); cbn [l_last_match_pos]; rewrite El, ?A2 by assumption;
    destruct (N.eq_dec dl 0) as [Z|Z].
  - rewrite (proj2 (N.eqb_eq dl 0) Z). rewrite N.eqb_refl. cbn [l_last_match_pos l_start_pos l_match_pos fst snd].
    rewrite Em, A2 by assumption. rewrite Zm, Z, (proj2 S0 Z). repeat split; nl.
  - rewrite (proj2 (N.eqb_neq dl 0) Z), (proj2 (N.eqb_neq _ 0) (A3 dl Ll Z)). cbn [l_last_match_pos l_start_pos l_match_pos fst snd].
    rewrite Es, Em, ?El, A1, !A2 by assumption. rewrite ?Zm, ?(proj2 (N.eqb_neq dl 0) Z). repeat split; nl.
  - rewrite (proj2 (N.eqb_eq dl 0) Z), N.eqb_refl. cbn [l_last_match_pos l_start_pos l_match_pos fst snd].
    rewrite Em, Zm, Z, (proj2 S0 Z). repeat split; nl.
  - rewrite (proj2 (N.eqb_neq dl 0) Z), (proj2 (N.eqb_neq _ 0) (A3 dl Ll Z)). cbn [l_last_match_pos l_start_pos l_match_pos fst snd].
    rewrite Es, Em, ?El, ?Zm, ?(proj2 (N.eqb_neq dl 0) Z).
    rewrite (proj2 (N.eqb_neq ds 0)) by (intro Q; apply Z, S0, Q). repeat split; nl.
Qed.

(** Refuted in general: if a pending match ends at the cursor -- the last byte read is the newline ending a line -- then
    after growing the match ends at place 0, not at the cursor. The lexer then continues from place 0, that is, from
    the oldest byte of the buffer. (In the second case the storage is flipped, in the first it is not.) *)
Theorem C24_refuted :
  exists h1 h2 t1 t2,
    ring_run fast [RRead; RNext; RNext; RConsume 0 true; RRead; RNext; RNext; RNext] (ring_start small_buffer [97; 98; 99; 10; 101; 102; 103]) = Ret (h1, t1)
    /\ ring_run fast [RRead; RNext; RNext; RNext] (ring_start small_buffer [97; 10; 99; 100; 101; 102; 103]) = Ret (h2, t2)
    /\ forall h, h = h1 \/ h = h2 ->
       h_oob h = true /\
       forall l, l_match_pos l = ib_pos (h_buf h) -> l_start_pos l = behind (h_buf h) 1 -> l_last_match_pos l = behind (h_buf h) 2 ->
       let (l', b') := increase_buffer_capacity l (h_buf h) in
       l_match_pos l' = 0 /\ ib_pos b' = 4 /\ l_start_pos l' = behind b' 1 /\ l_last_match_pos l' = behind b' 2.
Proof.
  eexists _, _, _, _. split; [vm_compute; reflexivity|]. split; [vm_compute; reflexivity|].
  intros h [-> | ->]; (split; [reflexivity|]); intros l Em Es El; destruct l as [mp sp ml lp ll ma ids li asked prev]; cbn in *; subst;
    vm_compute; auto.
Qed.

(** Not vacuous: the first buffer of [C24_refuted], with a match that ends one character earlier. *)
Example C24_example :
  exists h t, ring_run fast [RRead; RNext; RNext; RNext] (ring_start small_buffer [97; 10; 99; 100; 101; 102; 103]) = Ret (h, t)
    /\ h_oob h = true /\ h_used h + 2 <= h_at h
    /\ let (l', b') := increase_buffer_capacity (mkLex 1 1 0 0 0 true (Some [7]) 0 true None) (h_buf h) in
       l_match_pos l' = 3 /\ l_start_pos l' = 3 /\ l_last_match_pos l' = 2 /\ ib_pos b' = 4 /\
       map (ib_heap b' (ib_active b')) [2; 3] = [Some 97; Some 10].
Proof. eexists _, _. split; [vm_compute; reflexivity|]. vm_compute. repeat split; congruence. Qed.

(** * C26: chunking *)

(** Refuted: a reader may deliver fewer bytes than asked for (Reader.hpp 17-22) without being at the end; the buffer
    takes a short read for the end of the input, and the rest of the log is lost. *)
Theorem C26_refuted :
  exists h, ring_run (fun _ => 1) [RRead; RNext; RConsume 0 false; RRead; RNext] (ring_start small_buffer [97; 98; 99]) = Ret (h, [OChar 97; OEof])
    /\ rd_rest (h_rd h) = [98; 99].
Proof. eexists. split; vm_compute; reflexivity. Qed.

(** What holds for every reader: the client sees a beginning of the log in order, and end-of-file only after the last
    byte the reader was asked for; for a reader that fills its requests this is the whole log ([C23_log_in_order]). *)
Theorem C26_any_chunking_partial : forall chunk log size b ops,
  empty_buffer size b -> 0 < size -> size mod 2 = 0 ->
  exists h t, ring_run chunk ops (ring_start b log) = Ret (h, t) /\
    replay log (fun a => a + N.of_nat (length (rd_rest (h_rd h))) = N.of_nat (length log)) 0 t.
Proof.
  intros chunk log size b ops E H1 H2.
  destruct (ring_run_ok chunk log ops _ (ring_start_ok chunk log b size E H1 H2)) as (h & t & R & OK & S & _ & K).
  exists h, t. split; [exact R|]. cbn [ring_start h_at] in S.
  destruct OK as (hf & F & RR & o & I & _). pose proof (taken_eq _ _ _ _ _ _ I) as T.
  pose proof (ri_rest _ _ _ _ _ _ I) as Q. pose proof (ri_len _ _ _ _ _ _ I) as L.
  assert (RR + N.of_nat (length (rd_rest (h_rd h))) = N.of_nat (length log)) as Z by (rewrite Q, skipn_length; nl).
  rewrite T in S. clear - S Z. revert S. generalize 0. induction t as [|x t IH]; intros a S; [exact I|].
  destruct x; cbn in *; try (destruct S as (S1 & S2); split; [try assumption; lia|]; apply IH; assumption). apply IH, S.
Qed.

(** ... so two readers that fill their requests, however they would split the log otherwise, show the same to every
    client who sees end-of-file and does not go back. *)
Theorem C26_full_readers_agree_partial : forall chunk1 chunk2 log size b ops1 ops2 h1 t1 h2 t2,
  empty_buffer size b -> 0 < size -> size mod 2 = 0 -> fills chunk1 log -> fills chunk2 log -> no_back ops1 -> no_back ops2 ->
  ring_run chunk1 ops1 (ring_start b log) = Ret (h1, t1) -> ring_run chunk2 ops2 (ring_start b log) = Ret (h2, t2) ->
  In OEof t1 -> In OEof t2 -> seen t1 = seen t2.
Proof.
  intros chunk1 chunk2 log size b ops1 ops2 h1 t1 h2 t2 E H1 H2 F1 F2 N1 N2 R1 R2 I1 I2.
  destruct (C23_each_byte_once chunk1 log size b ops1 E H1 H2 F1 N1) as (h & t & r & Q1 & Q2 & Q3).
  destruct (C23_each_byte_once chunk2 log size b ops2 E H1 H2 F2 N2) as (h' & t' & r' & Q1' & Q2' & Q3').
  rewrite R1 in Q1. injection Q1 as <- <-. rewrite R2 in Q1'. injection Q1' as <- <-.
  rewrite (Q3 I1), app_nil_r in Q2. rewrite (Q3' I2), app_nil_r in Q2'. congruence.
Qed.

Print Assumptions C23_log_in_order.
Print Assumptions C23_each_byte_once.
Print Assumptions C23_out_of_bounds_only_at_the_end.
Print Assumptions C24_growth_keeps_content.
Print Assumptions C24_positions_follow_partial.
Print Assumptions C24_refuted.
Print Assumptions C25_safe_read_keeps_data.
Print Assumptions C26_refuted.
Print Assumptions C26_any_chunking_partial.
Print Assumptions C26_full_readers_agree_partial.
