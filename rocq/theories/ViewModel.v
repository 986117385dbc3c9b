(** ViewModel.v -- input buffers seen as windows of a text, independent of where the bytes are stored. *)
From Verif Require Import Base LexerModel LexerSpec LogParserModel.

(** [b] with its cursor at place [p] and the given fully-consumed flag. *)
(** Proof vocabulary, no code: the buffer with its cursor and flag replaced. *)
Definition cur (b : ibuf) (p : N) (f : bool) : ibuf := ib_set_full (ib_set_pos b p) f.
Lemma cur_cur : forall b p f p' f', cur (cur b p f) p' f' = cur b p' f'.
Proof. reflexivity. Qed.
Lemma cur_pos : forall b p f, ib_pos (cur b p f) = p.
Proof. reflexivity. Qed.
Lemma cur_full : forall b p f, ib_full (cur b p f) = f.
Proof. reflexivity. Qed.
Lemma cur_set_pos : forall b p f p', ib_set_pos (cur b p f) p' = cur b p' f.
Proof. reflexivity. Qed.
Lemma cur_set_full : forall b p f p', ib_set_pos (ib_set_full (cur b p f) false) p' = cur b p' false.
Proof. reflexivity. Qed.

(** Buffer [b] shows the bytes [lo, hi) of [txt]; the byte at text position [a] is at place [phi a]. After the last of them
    comes end-of-file ([eof]) or BufferOutOfBounds. *)
Record view (txt : list N) (b : ibuf) (phi : N -> N) (lo hi : N) (eof : bool) : Prop := {
  v_get : forall a, lo <= a -> a < hi -> exists x, byte_at txt a = Some x /\
          get_next_character (cur b (phi a) false) = Ret (Some (x, cur b (phi (a + 1)) false));
  v_end : forall f, get_next_character (cur b (phi hi) f)
          = if eof then Ret (Some (cCharEOF, cur b (phi hi) true)) else Ret None;
  v_inj : forall a a', lo <= a -> a <= hi -> lo <= a' -> a' <= hi -> phi a = phi a' -> a = a';
  v_mem : forall a, lo <= a -> a < hi -> ib_heap b (ib_active b) (phi a) = byte_at txt a;
  v_read : exists x, ib_heap b (ib_active b) (phi hi) = Some x;
  v_lt0 : forall a, lo <= a -> a <= hi -> phi a < ib_size b \/ (phi a = 0 /\ lo = hi);
  v_step : forall a, lo <= a -> a < hi -> phi (a + 1) = if phi a + 1 =? ib_size b then 0 else phi a + 1
}.

Lemma v_eqb : forall txt b phi lo hi eof a a', view txt b phi lo hi eof -> lo <= a -> a <= hi -> lo <= a' -> a' <= hi ->
  (phi a =? phi a') = (a =? a').
Proof.
  intros txt b phi lo hi eof a a' V H1 H2 H3 H4. destruct (N.eqb_spec a a') as [->|Hn]; [apply N.eqb_refl|].
  apply N.eqb_neq. intro E. apply Hn. apply (v_inj _ _ _ _ _ _ V); assumption.
Qed.

Lemma v_lt : forall txt b phi lo hi eof, view txt b phi lo hi eof -> forall a, lo <= a -> a <= hi -> lo < hi -> phi a < ib_size b.
Proof. intros txt b phi lo hi eof V a H1 H2 H3. destruct (v_lt0 _ _ _ _ _ _ V a H1 H2); lia. Qed.
(** A smaller window. *)
Lemma view_lo : forall txt b phi lo lo' hi eof, view txt b phi lo hi eof -> lo <= lo' -> lo' <= hi -> view txt b phi lo' hi eof.
Proof.
  intros txt b phi lo lo' hi eof V H H'. destruct V as [V1 V2 V3 V4 V5 V6 V7].
  constructor; auto.
  - intros a A1 A2. apply V1; lia.
  - intros a a' A1 A2 A3 A4. apply V3; lia.
  - intros a A1 A2. apply V4; lia.
  - intros a A1 A2. destruct (V6 a ltac:(lia) A2) as [Q|(Q & R)]; [left; exact Q|right; split; [exact Q|lia]].
  - intros a A1 A2. apply V7; lia.
Qed.

(** Token [t] covers the text positions [s, e). (The end of a one-byte token may be written as [start + 1] without
    wrapping around.) *)
Record tok_at (sd : sid) (sz : N) (phi : N -> N) (s e : N) (t : token) : Prop := {
  ta_se : s <= e;
  ta_start : t_start t = phi s;
  ta_end : t_end t = phi e \/ (t_end t = phi s + 1 /\ e = s + 1);
  ta_sid : t_sid t = sd;
  ta_sz : t_bufsz t = sz
}.

(** * The text of a token *)
Lemma view_walk : forall txt b phi lo hi eof s k, view txt b phi lo hi eof -> lo <= s -> s + k <= hi ->
  (phi (s + k) = phi s + k) \/ (phi (s + k) + ib_size b = phi s + k /\ phi (s + k) < phi s /\ ib_size b <= phi s + k).
Proof.
  intros txt b phi lo hi eof s k V Hs. induction k as [|k IH] using N.peano_ind; intros Hk.
  - left. rewrite !N.add_0_r. reflexivity.
  - rewrite <- N.add_1_r in *. rewrite N.add_assoc in *.
    pose proof (v_step _ _ _ _ _ _ V (s + k) ltac:(lia) ltac:(lia)) as St. pose proof (v_lt _ _ _ _ _ _ V (s + k) ltac:(lia) ltac:(lia) ltac:(lia)).
    pose proof (v_lt _ _ _ _ _ _ V s ltac:(lia) ltac:(lia) ltac:(lia)).
    destruct (IH ltac:(lia)) as [E|(E1 & E2 & E3)].
    + destruct (N.eqb_spec (phi (s + k) + 1) (ib_size b)) as [Q|Q]; [right|left]; rewrite St; [|lia].
      split; [lia|]. split; [|lia].
      assert (0 <> phi s); [|lia]. intro Z. rewrite Z in St. apply (v_inj _ _ _ _ _ _ V) in St; lia.
    + right. destruct (N.eqb_spec (phi (s + k) + 1) (ib_size b)) as [Q|Q]; [lia|].
      rewrite St. split; [lia|]. split; [|lia].
      assert (phi (s + k) + 1 <> phi s); [|lia]. intro Z. rewrite Z in St. apply (v_inj _ _ _ _ _ _ V) in St; lia.
Qed.

Lemma sub_cons' : forall t a e x, a < e -> byte_at t a = Some x -> sub t a e = x :: sub t (a + 1) e.
Proof.
  intros t a e x H B. unfold sub, byte_at in *.
  replace (N.to_nat (e - a)) with (S (N.to_nat (e - (a + 1)))) by lia. replace (N.to_nat (a + 1)) with (S (N.to_nat a)) by lia.
  revert B. generalize (N.to_nat a) as i. clear. induction t as [|y t IH]; intros i B; [destruct i; discriminate|].
  destruct i; [injection B as ->; reflexivity|]. cbn in B |- *. apply IH in B. exact B.
Qed.
Lemma read_view : forall txt b phi lo hi eof k s, view txt b phi lo hi eof -> lo <= s -> s + N.of_nat k <= hi -> 
  (forall j, j < N.of_nat k -> phi (s + j) = phi s + j) ->
  read_range (ib_heap b (ib_active b)) (phi s) k = Ret (sub txt s (s + N.of_nat k)).
Proof.
  intros txt b phi lo hi eof k. induction k as [|k IH]; intros s V Hs Hk Hj.
  - cbn. unfold sub. replace (s + 0 - s) with 0 by lia. reflexivity.
  - cbn [read_range]. rewrite (v_mem _ _ _ _ _ _ V s) by lia.
    destruct (v_get _ _ _ _ _ _ V s) as (x & B & _); [lia|lia|]. rewrite B.
    rewrite (sub_cons' txt s (s + N.of_nat (S k)) x) by (auto; lia).
    destruct k as [|k].
    + cbn [read_range bind]. unfold sub. replace (s + N.of_nat 1 - (s + 1)) with 0 by lia. reflexivity.
    + rewrite <- (Hj 1) by lia. rewrite (IH (s + 1)); auto; try lia.
      * cbn [bind]. replace (s + 1 + N.of_nat (S k)) with (s + N.of_nat (S (S k))) by lia. reflexivity.
      * intros j Q. rewrite (Hj 1) by lia. replace (s + 1 + j) with (s + (1 + j)) by lia. rewrite (Hj (1 + j)) by lia. lia.
Qed.
Lemma sub_app' : forall t a b e, a <= b -> b <= e -> sub t a b ++ sub t b e = sub t a e.
Proof.
  intros t a b e H1 H2. unfold sub. replace (N.to_nat (e - a)) with (N.to_nat (b - a) + N.to_nat (e - b))%nat by lia.
  replace (skipn (N.to_nat b) t) with (skipn (N.to_nat (b - a)) (skipn (N.to_nat a) t)).
  - generalize (skipn (N.to_nat a) t) as w, (N.to_nat (b - a)) as n, (N.to_nat (e - b)) as k. clear.
    induction w as [|x w IH]; intros n k; [now rewrite !firstn_nil, skipn_nil, firstn_nil|]. destruct n; [reflexivity|]. cbn. f_equal. apply IH.
  - replace (N.to_nat b) with (N.to_nat a + N.to_nat (b - a))%nat by lia. generalize (N.to_nat a) as i, (N.to_nat (b - a)) as j. clear.
    intros i. revert t. induction i as [|i IH]; intros t j; [reflexivity|]. destruct t; [now rewrite !skipn_nil|]. cbn. apply IH.
Qed.
(** Token::to_string gives the text the token covers, wherever it is stored. *)
Lemma tok_at_text : forall txt b phi lo hi eof s e t, view txt b phi lo hi eof -> lo <= s -> e <= hi ->
  tok_at (ib_active b) (ib_size b) phi s e t -> tok_text (ib_heap b) t = Ret (sub txt s e).
Proof.
  intros txt b phi lo hi eof s e t V Hs He [T1 T2 T3 T4 T5]. unfold tok_text. rewrite T4, T5, T2.
  destruct (N.eq_dec s e) as [<-|Hne].
  { destruct T3 as [T3|(T3 & Q)]; [|lia]. rewrite T3, N.leb_refl, N.sub_diag. cbn. unfold sub. rewrite N.sub_diag. reflexivity. }
  pose proof (v_lt _ _ _ _ _ _ V s ltac:(lia) ltac:(lia) ltac:(lia)) as Ls.
  destruct T3 as [T3|(T3 & ->)]; rewrite T3.
  - pose proof (view_walk _ _ _ _ _ _ s (e - s) V Hs ltac:(lia)) as W. replace (s + (e - s)) with e in W by lia.
    destruct W as [W|(W1 & W2 & W3)].
    + destruct (N.leb_spec (phi s) (phi e)); [|lia]. rewrite W. replace (phi s + (e - s) - phi s) with (e - s) by lia.
      rewrite (read_view txt b phi lo hi eof).
      2:{ assumption. } 2:{ assumption. } 2:{ lia. }
      2:{ intros j Hj. destruct (view_walk _ _ _ _ _ _ s j V Hs ltac:(lia)) as [|(A1 & A2 & A3)]; [assumption|].
        pose proof (v_lt _ _ _ _ _ _ V e ltac:(lia) ltac:(lia) ltac:(lia)); lia. }
      f_equal. f_equal. lia.
    + destruct (N.leb_spec (phi s) (phi e)); [lia|].
      set (k := ib_size b - phi s). assert (s + k <= e) by (unfold k; lia).
      rewrite (read_view txt b phi lo hi eof).
      2:{ assumption. } 2:{ assumption. } 2:{ unfold k in *. lia. }
      2:{ intros j Hj. destruct (view_walk _ _ _ _ _ _ s j V Hs ltac:(lia)) as [|(A1 & A2 & A3)]; [assumption|]. unfold k in *. lia. }
      assert (phi (s + k) = 0) as Z.
      { pose proof (v_lt _ _ _ _ _ _ V (s + k) ltac:(lia) ltac:(lia) ltac:(lia)).
        destruct (view_walk _ _ _ _ _ _ s k V Hs ltac:(lia)) as [A|(A1 & A2 & A3)]; unfold k in *; lia. }
      cbn [bind]. rewrite <- Z at 1. rewrite (read_view txt b phi lo hi eof).
      2:{ assumption. } 2:{ unfold k in *. lia. } 2:{ unfold k in *. lia. }
      2:{ intros j Hj. destruct (view_walk _ _ _ _ _ _ (s + k) j V ltac:(lia) ltac:(unfold k in *; lia)) as [|(A1 & A2 & A3)]; [assumption|]. lia. }
      cbn [bind]. f_equal. replace (s + N.of_nat (N.to_nat k)) with (s + k) by lia.
      replace (s + k + N.of_nat (N.to_nat (phi e))) with e by (unfold k in *; lia). apply sub_app'; lia.
  - destruct (N.leb_spec (phi s) (phi s + 1)); [|lia]. replace (N.to_nat (phi s + 1 - phi s)) with 1%nat by lia.
    rewrite (read_view txt b phi lo hi eof); auto; try lia.
    intros j Hj. replace j with 0 by lia. rewrite !N.add_0_r. reflexivity.
Qed.
(** get_char(0) and get_delimiter. *)
Lemma tok_at_char : forall txt b phi lo hi eof s e t, view txt b phi lo hi eof -> lo <= s -> s <= hi ->
  tok_at (ib_active b) (ib_size b) phi s e t ->
  exists x, tok_char (ib_heap b) t 0 = Ret x /\ tok_delimiter (ib_heap b) t = Ret x /\ (s < hi -> byte_at txt s = Some x).
Proof.
  intros txt b phi lo hi eof s e t V Hs He [T1 T2 T3 T4 T5]. unfold tok_char, tok_delimiter. rewrite T4, T5, T2, N.add_0_r.
  assert ((if phi s <? ib_size b then phi s else 0 - (ib_size b - phi s)) = phi s) as ->.
  { destruct (N.ltb_spec (phi s) (ib_size b)) as [_|Q]; [reflexivity|]. destruct (v_lt0 _ _ _ _ _ _ V s Hs He) as [Z|(Z & _)]; lia. }
  destruct (N.eq_dec s hi) as [->|Hn].
  - destruct (v_read _ _ _ _ _ _ V) as (x & ->). exists x. repeat split. lia.
  - rewrite (v_mem _ _ _ _ _ _ V s) by lia. destruct (v_get _ _ _ _ _ _ V s) as (x & B & _); [lia|lia|]. rewrite B. exists x. auto.
Qed.
