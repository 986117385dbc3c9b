(** CopyProofs.v -- what a LogEvent holds. *)
From Verif Require Import Base LexerModel LexerSpec LogParserModel EventSpec CopyModel.
From Verif Require Import LexerProofs LogParserProofs EventProofs WindowBound.

(** What can be seen of a token, except its line. *)
Definition seen (h : heap) (t : token) : out (list N) * option (list N) := (tok_text h t, t_ids t).

Lemma put_all_spec : forall size s m p, p + len s <= size -> exists m', put_all size m p s = Ret (m', p + len s) /\
  (forall i, i < len s -> m' (p + i) = byte_at s i) /\ (forall i, i < p -> m' i = m i).
Proof.
  intros size. induction s as [|x s IH]; intros m p H.
  - exists m. cbn [put_all]. replace (p + len []) with p by (unfold len; cbn; lia). split; [reflexivity|]. split; [intros i Hi; unfold len in Hi; cbn in Hi; lia|auto].
  - assert (len (x :: s) = 1 + len s) as El by (unfold len; cbn [length]; lia). rewrite El in *.
    cbn [put_all]. unfold put. destruct (N.ltb_spec p size) as [_|]; [|lia]. cbn [bind].
    destruct (IH (fun i => if i =? p then Some x else m i) (p + 1) ltac:(lia)) as (m' & E & H1 & H2). exists m'.
    rewrite E. replace (p + 1 + len s) with (p + (1 + len s)) by lia. split; [reflexivity|]. split.
    + intros i Hi. destruct (N.eq_dec i 0) as [->|Hn].
      * rewrite N.add_0_r, H2 by lia. rewrite N.eqb_refl. reflexivity.
      * replace (p + i) with (p + 1 + (i - 1)) by lia. rewrite H1 by lia. unfold byte_at.
        replace (N.to_nat i) with (S (N.to_nat (i - 1))) by lia. reflexivity.
    + intros i Hi. rewrite H2 by lia. destruct (N.eqb_spec i p); [lia|reflexivity].
Qed.

Lemma read_at : forall s m a, (forall i, i < len s -> m (a + i) = byte_at s i) -> read_range m a (length s) = Ret s.
Proof.
  induction s as [|x s IH]; intros m a H; [reflexivity|]. cbn [length read_range].
  pose proof (H 0) as H0. rewrite N.add_0_r in H0. rewrite H0 by (unfold len; cbn [length]; lia). cbn.
  rewrite IH; [reflexivity|]. intros i Hi. replace (a + 1 + i) with (a + (i + 1)) by lia. rewrite H by (unfold len in *; cbn [length]; lia).
  unfold byte_at. replace (N.to_nat (i + 1)) with (S (N.to_nat i)) by lia. reflexivity.
Qed.

Lemma indices_cons : forall a b, a < b -> indices a b = a :: indices (a + 1) b.
Proof.
  intros a b H. unfold indices. replace (N.to_nat (b - a)) with (S (N.to_nat (b - (a + 1)))) by lia. cbn [seq map]. f_equal; [lia|].
  rewrite <- seq_shift, map_map. apply map_ext. intros; lia.
Qed.

Lemma advance_curr : forall o t, ob_pos o < ob_size o -> let o' := ob_advance (ob_set_curr o t) in
  ob_pos o' = ob_pos o + 1 /\ ob_pos o' < ob_size o' /\ ob_act o' (ob_pos o) = t /\ (forall i, i < ob_pos o -> ob_act o' i = ob_act o i) /\
  ob_has_ts o' = ob_has_ts o /\ ob_has_delims o' = ob_has_delims o.
Proof.
  intros o t H. cbv zeta. unfold ob_advance, ob_set_curr, ob_set_token. cbn [ob_pos ob_size ob_act ob_base ob_has_ts ob_has_delims].
  destruct (N.eqb_spec (ob_pos o + 1) (ob_size o)) as [E|E]; cbn; unfold ob_upd.
  - repeat split; try lia.
    + destruct (N.ltb_spec (ob_pos o) (ob_size o)); [|lia]. rewrite N.eqb_refl. reflexivity.
    + intros i Hi. destruct (N.ltb_spec i (ob_size o)); [|lia]. destruct (N.eqb_spec i (ob_pos o)); [lia|reflexivity].
  - repeat split; try lia.
    + rewrite N.eqb_refl. reflexivity.
    + intros i Hi. destruct (N.eqb_spec i (ob_pos o)); [lia|reflexivity].
Qed.

Lemma copy_loop_spec : forall h kc size toks texts m cur o,
  map (tok_text h) toks = map Ret texts -> cur + len (concat texts) <= size -> ob_pos o < ob_size o ->
  exists m' o', copy_loop h kc size toks m cur o = Ret (m', o') /\ ob_has_ts o' = ob_has_ts o /\ ob_has_delims o' = ob_has_delims o /\
    ob_pos o' = ob_pos o + N.of_nat (length toks) /\ (forall i, i < ob_pos o -> ob_act o' i = ob_act o i) /\ (forall i, i < cur -> m' i = m i) /\
    forall h', h' (User kc) = m' ->
      map (seen h') (map (ob_act o') (indices (ob_pos o) (ob_pos o'))) = map (seen h) toks /\
      Forall2 (fun t s => s <> [] -> tok_delimiter h' t = Ret (hd 0 s)) (map (ob_act o') (indices (ob_pos o) (ob_pos o'))) texts.
Proof.
  intros h kc size. induction toks as [|t toks IH]; intros texts m cur o Ht Hs Ho.
  - destruct texts; [|discriminate]. exists m, o. cbn [copy_loop length map]. change (N.of_nat 0) with 0. rewrite N.add_0_r. split; [reflexivity|]. repeat split; auto.
    + rewrite indices_nil by lia. reflexivity.
    + rewrite indices_nil by lia. constructor.
  - destruct texts as [|s texts]; [discriminate|]. cbn [map] in Ht. injection Ht as Ht0 Ht. cbn [concat] in Hs. rewrite len_app in Hs.
    cbn [copy_loop]. rewrite Ht0. cbn [bind]. destruct (put_all_spec size s m cur ltac:(lia)) as (m1 & P & P1 & P2). rewrite P. cbn [bind].
    set (tc := mkToken cur (cur + len s) (User kc) size 0 (t_ids t)). destruct (advance_curr o tc Ho) as (A1 & A2 & A3 & A4 & A5 & A6).
    destruct (IH texts m1 (cur + len s) _ Ht ltac:(lia) A2) as (m' & o' & E & B1 & B2 & B3 & B4 & B5 & B6).
    exists m', o'. split; [exact E|]. split; [congruence|]. split; [congruence|].
    cbn [length] in *. split; [lia|].
    split; [intros i Hi; rewrite B4 by lia; apply A4; exact Hi|]. split; [intros i Hi; rewrite B5 by lia; apply P2; exact Hi|].
    intros h' Hh. destruct (B6 h' Hh) as (C1 & C2). rewrite indices_cons by lia. rewrite A1 in C1, C2. cbn [map].
    assert (ob_act o' (ob_pos o) = tc) as Ec by (rewrite B4 by lia; exact A3). rewrite Ec.
    assert (forall i, i < len s -> m' (cur + i) = byte_at s i) as Hms by (intros i Hi; rewrite B5 by lia; apply P1; exact Hi).
    split.
    + f_equal; [|exact C1]. unfold seen. rewrite Ht0. f_equal. unfold tok_text, tc. cbn. rewrite Hh.
      destruct (N.leb_spec cur (cur + len s)); [|lia]. replace (N.to_nat (cur + len s - cur)) with (length s) by (unfold len; lia). apply read_at. exact Hms.
    + constructor; [|exact C2]. intros Hne. unfold tok_delimiter, tc. cbn. rewrite Hh. specialize (Hms 0). rewrite N.add_0_r in Hms.
      destruct s as [|x s]; [contradiction Hne; reflexivity|]. rewrite Hms by (unfold len; cbn [length]; lia). reflexivity.
Qed.

Lemma length_text : forall h t s, tok_text h t = Ret s -> tok_length t = len s.
Proof.
  assert (forall cnt m a s, read_range m a cnt = Ret s -> length s = cnt) as K.
  { induction cnt as [|cnt IH]; intros m a s H; cbn in H; [injection H as <-; reflexivity|].
    destruct (m a); [|discriminate]. apply bind_ret_inv in H as (r & R & H). injection H as <-. cbn. f_equal. apply (IH _ _ _ R). }
  intros h t s H. unfold tok_text in H. unfold tok_length. destruct (t_start t <=? t_end t).
  - apply K in H. unfold len. lia.
  - apply bind_ret_inv in H as (a & Ha & H). apply bind_ret_inv in H as (b & Hb & H). injection H as <-. apply K in Ha. apply K in Hb. rewrite len_app. unfold len. lia.
Qed.
Lemma total_text : forall h toks texts, map (tok_text h) toks = map Ret texts -> total_length toks = len (concat texts).
Proof.
  intros h toks texts H. unfold total_length. enough (forall a, fold_left (fun n t => n + tok_length t) toks a = a + len (concat texts)) as K by (rewrite K; lia).
  revert texts H. induction toks as [|t toks IH]; intros [|s texts] H a; try discriminate; cbn.
  - unfold len; cbn; lia.
  - injection H as Hs H. rewrite (IH _ H), len_app, (length_text _ _ _ Hs). lia.
Qed.

Lemma occ_add_eq (occ : list (list N)) id slot :
  id < N.of_nat (length occ) ->
  exists occ', occ_add occ id slot = Ret occ' /\ length occ' = length occ /\
    forall j, nth j occ' [] = if Nat.eqb j (N.to_nat id) then nth j occ [] ++ [slot] else nth j occ [].
Proof.
  intros Hlt. unfold occ_add.
  set (i := N.to_nat id). assert (Hi : (i < length occ)%nat) by (unfold i; lia).
  destruct (nth_error occ i) as [l|] eqn:El; [|apply nth_error_None in El; lia].
  eexists. split; [reflexivity|].
  assert (Hlf : length (firstn i occ) = i) by (rewrite firstn_length; lia).
  split.
  - rewrite app_length, Hlf. cbn [length]. rewrite skipn_length. lia.
  - intros j. pose proof (nth_error_nth _ _ [] El) as Hn.
    assert (Hsplit : occ = firstn i occ ++ l :: skipn (S i) occ).
    { pose proof (nth_error_split _ _ El) as (l1 & l2 & Hocc & Hl1). rewrite Hocc at 1.
      f_equal.
      - rewrite Hocc, <- Hl1. rewrite firstn_app, Nat.sub_diag, firstn_all. cbn. rewrite app_nil_r. reflexivity.
      - f_equal. rewrite Hocc, <- Hl1. rewrite skipn_app. rewrite skipn_all2 by lia.
        replace (S (length l1) - length l1)%nat with 1%nat by lia. reflexivity. }
    destruct (Nat.eqb_spec j i) as [->|Hne].
    + rewrite app_nth2 by lia. rewrite Hlf, Nat.sub_diag. cbn [nth]. rewrite Hn. reflexivity.
    + destruct (Nat.lt_ge_cases j i).
      * transitivity (nth j (firstn i occ ++ l :: skipn (S i) occ) []); [|rewrite <- Hsplit; reflexivity].
        rewrite !app_nth1 by lia. reflexivity.
      * transitivity (nth j (firstn i occ ++ l :: skipn (S i) occ) []); [|rewrite <- Hsplit; reflexivity].
        rewrite !app_nth2 by lia. rewrite Hlf.
        destruct (j - i)%nat eqn:Ej; [lia|]. reflexivity.
Qed.
Lemma occ_loop_spec : forall o is occ nsym, length occ = N.to_nat nsym ->
  Forall (fun i => exists ty, tok_type (ob_act o i) = Ret ty /\ ty < nsym) is ->
  exists occ', occ_loop o is occ = Ret occ' /\ length occ' = length occ /\
    forall j, nth j occ' [] = nth j occ [] ++ filter (fun i => of_type (N.of_nat j) (ob_act o i)) is.
Proof.
  intros o. induction is as [|i is IH]; intros occ nsym Hl Hall.
  - exists occ. cbn. split; [reflexivity|]. split; [reflexivity|]. intros; rewrite app_nil_r; reflexivity.
  - inversion Hall as [|? ? (ty & Hty & Hlt) Hall']; subst. cbn [occ_loop].
    assert (first_type (ob_act o i) = Ret ty) as Ef.
    { unfold first_type, tok_type in *. destruct (t_ids (ob_act o i)) as [[|x l]|]; try discriminate. exact Hty. }
    rewrite Ef. cbn [bind]. destruct (occ_add_eq occ ty i) as (occ1 & Hadd & Hlen1 & Hnth1); [lia|].
    rewrite Hadd. cbn [bind]. destruct (IH occ1 nsym ltac:(lia) Hall') as (occ' & E & L & Hn). exists occ'. split; [exact E|]. split; [lia|].
    intros j. rewrite Hn, Hnth1. cbn [filter]. unfold of_type at 2. rewrite Hty.
    destruct (Nat.eqb_spec j (N.to_nat ty)) as [->|Hne].
    + rewrite N2Nat.id, N.eqb_refl. rewrite <- app_assoc. reflexivity.
    + destruct (N.eqb_spec ty (N.of_nat j)); [lia|reflexivity].
Qed.

(** [texts]: the texts of the view's tokens. *)
Lemma deep_copy_spec : forall kc nsym p texts,
  map (tok_text (ib_heap (lp_in p))) (ev_tokens p) = map Ret texts -> concat texts <> [] ->
  Forall (fun t => exists ty, tok_type t = Ret ty /\ ty < nsym) (ev_tokens p) ->
  exists q, deep_copy kc nsym p = Ret q /\ ob_has_ts (lp_out q) = ob_has_ts (lp_out p) /\ lp_multi q = lp_multi p /\
    (forall s, s <> User kc -> forall i, ib_heap (lp_in q) s i = None) /\
    let copies := map (ob_act (lp_out q)) (indices 0 (ob_pos (lp_out q))) in
    map (seen (ib_heap (lp_in q))) copies = map (seen (ib_heap (lp_in p))) (ev_tokens p) /\
    Forall2 (fun t s => s <> [] -> tok_delimiter (ib_heap (lp_in q)) t = Ret (hd 0 s)) copies texts /\
    forall id, id < nsym -> ev_variables q id = Ret (filter (of_type id) copies).
Proof.
  intros kc nsym p texts Ht Hne Hty. unfold deep_copy. fold (ev_tokens p). rewrite (total_text _ _ _ Ht).
  destruct (N.eqb_spec (len (concat texts)) 0) as [E|_].
  { exfalso. apply Hne. unfold len in E. destruct (concat texts); [reflexivity|cbn in E; lia]. }
  set (o := ob_set_delims (ob_set_ts obuf_init (ob_has_ts (lp_out p))) (ob_has_delims (lp_out p))).
  assert (ob_pos o = 0) as Eo by reflexivity.
  destruct (copy_loop_spec (ib_heap (lp_in p)) kc (len (concat texts)) (ev_tokens p) texts (fun i => if i <? len (concat texts) then Some 0 else None) 0 o Ht ltac:(lia))
    as (m' & o' & E & B1 & B2 & B3 & B4 & B5 & B6).
  { rewrite Eo. reflexivity. }
  rewrite E. cbn [bind]. rewrite Eo in *.
  set (h' := heap_set (ib_heap (lp_in (bp_lp (bp_init nsym)))) (User kc) m') in *.
  assert (h' (User kc) = m') as Hh by (unfold h', heap_set; cbn; rewrite Nat.eqb_refl; reflexivity).
  destruct (B6 h' Hh) as (C1 & C2).
  assert (map t_ids (map (ob_act o') (indices 0 (ob_pos o'))) = map t_ids (ev_tokens p)) as Ei.
  { apply (f_equal (map snd)) in C1. rewrite !map_map in C1. rewrite map_map. exact C1. }
  assert (Forall (fun i => exists ty, tok_type (ob_act o' i) = Ret ty /\ ty < nsym) (indices 0 (ob_pos o'))) as Hall.
  { rewrite <- (Forall_map (ob_act o') (fun t => exists ty, tok_type t = Ret ty /\ ty < nsym)). revert Ei Hty. generalize (map (ob_act o') (indices 0 (ob_pos o'))). generalize (ev_tokens p).
    clear. induction l as [|t l IH]; intros [|t' l'] E H; try discriminate; constructor; injection E as E1 E2; inversion H as [|? ? (ty & T1 & T2) H']; subst.
    - exists ty. unfold tok_type in *. rewrite E1. auto.
    - apply IH; auto. }
  destruct (occ_loop_spec o' _ (repeat [] (N.to_nat nsym)) nsym ltac:(apply repeat_length) Hall) as (occ & Eo' & Lo & No). rewrite Eo'. cbn [bind].
  eexists. split; [reflexivity|]. cbn [lp_out lp_multi lp_in ib_heap]. split; [exact B1|]. split; [reflexivity|]. split.
  { intros s Hs i. fold h'. unfold h', heap_set. destruct (sid_eqb s (User kc)) eqn:Es; [|reflexivity]. destruct s; try discriminate. cbn in Es. apply Nat.eqb_eq in Es. congruence. }
  fold h'. split; [exact C1|]. split; [exact C2|].
  intros id Hid. unfold ev_variables. cbn [lp_occ lp_out]. destruct (nth_error occ (N.to_nat id)) as [l|] eqn:El.
  - f_equal. apply (nth_error_nth _ _ []) in El. rewrite No, N2Nat.id in El. subst l. rewrite nth_repeat. cbn [app].
    clear. induction (indices 0 (ob_pos o')) as [|i is IH]; [reflexivity|]. cbn [filter map]. destruct (of_type id (ob_act o' i)); cbn [map]; rewrite IH; reflexivity.
  - apply nth_error_None in El. rewrite Lo, repeat_length in El. lia.
Qed.

(** * A BufferParser's events *)
Section Event.
Variables (c : lexcfg) (nsym : N) (t : list N) (k : nat) (m : mem).
Hypothesis Hus : usable c nsym.
Hypothesis Hh : holds m t.

Lemma chain_seen : forall h e toks e', h (User k) = m -> chain t k e toks e' -> exists texts, map (tok_text h) toks = map Ret texts /\ concat texts = sub t e e'.
Proof.
  intros h e toks e' Hm C. induction C as [a Ha|tok toks e2 H1 H2 H3 C (texts & T1 & T2)].
  - exists []. rewrite sub_nil. split; reflexivity.
  - exists (sub t (t_start tok) (t_end tok) :: texts). cbn [map concat]. rewrite T1, T2.
    rewrite (tok_text_sub c t k m nsym (proj1 Hh) (us_ids _ _ Hus) (us_nsym _ _ Hus)) by auto. split; [reflexivity|].
    pose proof (chain_le c t k m nsym (proj1 Hh) (us_ids _ _ Hus) (us_nsym _ _ Hus) _ _ _ C). symmetry. apply sub_app; lia.
Qed.
Lemma tail_nonempty : forall e p e' fin, event_at c t k m nsym e p e' fin -> Forall (fun tok => t_start tok < t_end tok) (tl (ev_tokens p)).
Proof.
  intros e p e' fin H. destruct (ea_shape _ _ _ _ _ _ _ _ _ H) as (nxt & Hsh & Hn). unfold ev_tokens.
  inversion Hsh as [|tok Hl Ht|ts e0 t0 body E tl0 e1 fin' nx Hf Hts Hb Hc Hen]; subst; cbn [tl]; try constructor.
  apply Forall_app. split.
  - rewrite Forall_forall in *. intros x Hx. apply (Hb x Hx).
  - inversion Hen as [|tok F1 F2 F3 F4|tok F1 F2 F3 F4]; subst; constructor; try constructor; try exact F2; cbn; lia.
Qed.
Lemma evat_types : forall e p e' fin, event_at c t k m nsym e p e' fin -> Forall (fun t => exists ty, tok_type t = Ret ty /\ ty < nsym) (ev_tokens p).
Proof.
  intros e p e' fin H. destruct (ea_shape _ _ _ _ _ _ _ _ _ H) as (nxt & Hsh & _).
  pose proof (shape_ev c t k m nsym (us_wf _ _ Hus) (proj1 Hh) (us_ids _ _ Hus) (us_nsym _ _ Hus) _ _ _ _ _ _ Hsh) as Hev.
  unfold ev_tokens. eapply Forall_impl; [|exact Hev]. intros x (_ & _ & ty & H1 & H2 & _). eauto.
Qed.
End Event.

Lemma seen_logtype : forall h h' name toks toks', map (seen h) toks = map (seen h') toks' -> Forall2 (fun x x' => tok_delimiter h x = tok_delimiter h' x') toks toks' ->
  logtype_loop h name toks = logtype_loop h' name toks'.
Proof.
  intros h h' name. induction toks as [|x toks IH]; intros [|x' toks'] Hs Hd; try discriminate; [reflexivity|].
  cbn [map] in Hs. injection Hs as H1 H2 Hs. inversion Hd as [|? ? ? ? D1 D2]; subst. cbn [logtype_loop].
  assert (tok_type x = tok_type x') as -> by (unfold tok_type; rewrite H2; reflexivity).
  rewrite H1, D1, (IH _ Hs D2). reflexivity.
Qed.
Lemma seen_filter : forall h h' id toks toks', map (seen h) toks = map (seen h') toks' -> map (seen h) (filter (of_type id) toks) = map (seen h') (filter (of_type id) toks').
Proof.
  intros h h' id. induction toks as [|x toks IH]; intros [|x' toks'] Hs; try discriminate; [reflexivity|].
  cbn [map] in Hs. injection Hs as H1 H2 Hs. cbn [filter].
  assert (of_type id x = of_type id x') as -> by (unfold of_type, tok_type; rewrite H2; reflexivity).
  destruct (of_type id x'); cbn [map]; rewrite (IH _ Hs); [|reflexivity]. unfold seen at 1 2. rewrite H1, H2. reflexivity.
Qed.
