(** LexerProofs.v -- scan over a complete in-memory buffer. *)
From Verif Require Import Base LexerModel LexerSpec.

Lemma byte_at_some t p : p < len t -> exists x, byte_at t p = Some x.
Proof.
  unfold byte_at, len; intros H.
  destruct (nth_error t (N.to_nat p)) eqn:E; [eauto|].
  apply nth_error_None in E; lia.
Qed.
Lemma byte_at_lt t p x : byte_at t p = Some x -> p < len t.
Proof.
  unfold byte_at, len; intros H.
  assert (N.to_nat p < length t)%nat by (apply nth_error_Some; congruence). lia.
Qed.

Lemma firstn_snoc {A} (l : list A) n x :
  nth_error l n = Some x -> firstn (S n) l = firstn n l ++ [x].
Proof.
  revert n; induction l as [|y l IH]; intros [|n]; cbn; intros H; try discriminate.
  - injection H as ->; reflexivity.
  - f_equal; apply IH; exact H.
Qed.
Lemma nth_error_skipn {A} (l : list A) n m : nth_error (skipn n l) m = nth_error l (n + m)%nat.
Proof. revert l; induction n as [|n IH]; intros [|x l]; cbn; auto. destruct m; reflexivity. Qed.

Lemma skipn_skipn' {A} (l : list A) a b : skipn a (skipn b l) = skipn (b + a)%nat l.
Proof. revert l; induction b as [|b IH]; intros [|x l]; cbn; auto. apply skipn_nil. Qed.

Lemma sub_nil t a : sub t a a = [].
Proof. unfold sub; rewrite N.sub_diag; reflexivity. Qed.
Lemma sub_snoc t a p x : a <= p -> byte_at t p = Some x -> sub t a (p + 1) = sub t a p ++ [x].
Proof.
  unfold sub, byte_at; intros Hap Hx.
  replace (N.to_nat (p + 1 - a)) with (S (N.to_nat (p - a))) by lia.
  apply firstn_snoc. rewrite nth_error_skipn.
  replace (N.to_nat a + N.to_nat (p - a))%nat with (N.to_nat p) by lia. exact Hx.
Qed.
Lemma sub_app t a b e : a <= b -> b <= e -> sub t a e = sub t a b ++ sub t b e.
Proof.
  unfold sub; intros Hab Hbe.
  replace (N.to_nat (e - a)) with (N.to_nat (b - a) + N.to_nat (e - b))%nat by lia.
  replace (N.to_nat b) with (N.to_nat a + N.to_nat (b - a))%nat by lia.
  set (u := N.to_nat (b - a)). set (v := N.to_nat (e - b)). set (w := N.to_nat a).
  rewrite <- (firstn_skipn u (skipn w t)) at 1.
  destruct (Nat.le_gt_cases (length (skipn w t)) u) as [Hle|Hgt].
  - rewrite firstn_all2 with (n := u) by lia.
    rewrite (skipn_all2 (skipn w t)) by lia. rewrite app_nil_r.
    rewrite firstn_all2 by lia.
    rewrite skipn_all2 with (n := (w + u)%nat) by (rewrite skipn_length in Hle; lia).
    rewrite firstn_nil, app_nil_r; reflexivity.
  - rewrite firstn_app, firstn_firstn, firstn_length.
    replace (Nat.min (u + v) u) with u by lia.
    replace (u + v - Nat.min u (length (skipn w t)))%nat with v by lia.
    f_equal. rewrite skipn_skipn'. reflexivity.
Qed.
Lemma sub_length t a b : a <= b -> b <= len t -> len (sub t a b) = b - a.
Proof. unfold sub, len; intros H1 H2. rewrite firstn_length, skipn_length. lia. Qed.
Lemma sub_full t : sub t 0 (len t) = t.
Proof. unfold sub, len. cbn [N.to_nat skipn]. rewrite firstn_all2; [reflexivity|lia]. Qed.
Lemma sub_one t p x : byte_at t p = Some x -> sub t p (p + 1) = [x].
Proof. intros H. rewrite (sub_snoc t p p x) by (auto; lia). rewrite sub_nil; reflexivity. Qed.
Lemma sub_cons t a b x : byte_at t a = Some x -> a < b -> sub t a b = x :: sub t (a + 1) b.
Proof. intros Hx Hab. rewrite (sub_app t a (a+1) b) by lia. rewrite (sub_one t a x Hx). reflexivity. Qed.

Lemma run_app d q u v :
  run d q (u ++ v) = match run d q u with Some q' => run d q' v | None => None end.
Proof.
  revert q; induction u as [|x u IH]; intros q; cbn [run app]; [reflexivity|].
  destruct (d_next d q x); [apply IH|reflexivity].
Qed.
Lemma newlines_snoc t p x :
  byte_at t p = Some x -> newlines t (p + 1) = newlines t p + (if x =? cNewline then 1 else 0).
Proof.
  unfold newlines, byte_at; intros Hx.
  replace (N.to_nat (p + 1)) with (S (N.to_nat p)) by lia.
  rewrite (firstn_snoc _ _ _ Hx), count_occ_app. cbn [count_occ].
  destruct (N.eq_dec x cNewline) as [->|Hne].
  - rewrite N.eqb_refl; lia.
  - destruct (N.eqb_spec x cNewline); [contradiction|lia].
Qed.

Lemma newlines_eq t a b :
  a <= b -> (forall p, a <= p < b -> byte_at t p <> Some cNewline) -> newlines t b = newlines t a.
Proof.
  intros Hab. replace b with (a + N.of_nat (N.to_nat (b - a))) by lia.
  generalize (N.to_nat (b - a)) as m. intros m. clear b Hab.
  induction m as [|m IH]; intros Hno; [f_equal; lia|].
  assert (IH' : newlines t (a + N.of_nat m) = newlines t a) by (apply IH; intros; apply Hno; lia).
  replace (a + N.of_nat (S m)) with (a + N.of_nat m + 1) by lia.
  destruct (N.lt_ge_cases (a + N.of_nat m) (len t)) as [Hlt|Hge].
  - destruct (byte_at_some t _ Hlt) as [x Hx]. rewrite (newlines_snoc _ _ _ Hx).
    destruct (N.eqb_spec x cNewline) as [->|]; [|lia].
    exfalso; apply (Hno (a + N.of_nat m)); [lia|exact Hx].
  - rewrite <- IH'. unfold newlines. rewrite !firstn_all2 by (unfold len in Hge; lia). reflexivity.
Qed.

Lemma is_accepting_spec d q : is_accepting d q = true <-> d_ids d q <> [].
Proof. unfold is_accepting; destruct (d_ids d q); split; congruence. Qed.

Section Static.
Context (c : lexcfg) (t : list N) (k : sid).
Hypothesis Hwf : wf_cfg c.
Let n := len t.
Let d := c_dfa c.

(** The buffer holds [t], complete, in one piece. *)
Record static_buf (b : ibuf) : Prop := {
  sb_active : ib_active b = k;
  sb_mem : forall p, p < n -> ib_heap b k p = byte_at t p;
  sb_size : ib_size b = n * 2;
  sb_last : ib_last b = n;
  sb_lrfh : ib_lrfh b = true;
  sb_fin : ib_fin b = true;
  sb_pos : ib_pos b <= n;
  sb_full : ib_full b = true -> ib_pos b = n
}.

(** Fields scan never touches. *)
Definition same_frame (b b' : ibuf) : Prop :=
  ib_heap b' = ib_heap b /\ ib_active b' = ib_active b /\ ib_dyn b' = ib_dyn b /\
  ib_size b' = ib_size b /\ ib_last b' = ib_last b /\ ib_lrfh b' = ib_lrfh b /\
  ib_fin b' = ib_fin b /\ ib_cons b' = ib_cons b.
Lemma same_frame_refl b : same_frame b b.
Proof. unfold same_frame; intuition. Qed.
Lemma same_frame_trans b1 b2 b3 : same_frame b1 b2 -> same_frame b2 b3 -> same_frame b1 b3.
Proof. unfold same_frame; intuition congruence. Qed.
Lemma same_frame_set_pos b p : same_frame b (ib_set_pos b p).
Proof. unfold same_frame; cbn; intuition. Qed.
Lemma same_frame_set_full b v : same_frame b (ib_set_full b v).
Proof. unfold same_frame; cbn; intuition. Qed.

Lemma static_move b b' :
  static_buf b -> same_frame b b' -> ib_pos b' <= n ->
  (ib_full b' = true -> ib_pos b' = n) -> static_buf b'.
Proof.
  intros [] (H1&H2&H3&H4&H5&H6&H7&H8) Hp Hf.
  constructor; try congruence; auto.
  intros p Hlt. rewrite H1. auto.
Qed.

(** get_next_character on a static buffer. *)
Lemma gnc_end b : static_buf b -> ib_pos b = n ->
  get_next_character b = Ret (Some (cCharEOF, ib_set_full b true)).
Proof.
  intros Hb Hp. unfold get_next_character. rewrite (sb_fin _ Hb), (sb_last _ Hb), Hp, N.eqb_refl.
  reflexivity.
Qed.
Lemma gnc_byte b x : static_buf b -> byte_at t (ib_pos b) = Some x ->
  get_next_character b = Ret (Some (x, ib_set_pos b (ib_pos b + 1))).
Proof.
  intros Hb Hx. pose proof (byte_at_lt _ _ _ Hx) as Hlt. fold n in Hlt.
  unfold get_next_character.
  rewrite (sb_fin _ Hb), (sb_last _ Hb), (sb_lrfh _ Hb), (sb_size _ Hb), (sb_active _ Hb).
  rewrite N.div_mul by lia.
  destruct (N.eqb_spec (ib_pos b) n); [lia|]. cbn [andb orb negb].
  rewrite (sb_mem _ Hb) by lia. rewrite Hx.
  destruct (N.eqb_spec (ib_pos b + 1) (n * 2)); [|reflexivity]. exfalso; lia.
Qed.

(** The skip loop stops at the first position >= prev that can start a variable, or at the end. *)
Lemma skip_loop_spec fuel : forall ch prev b,
  static_buf b ->
  (ib_full b = true -> prev = n /\ ib_pos b = n) ->
  (ib_full b = false -> byte_at t prev = Some ch /\ ib_pos b = prev + 1) ->
  prev <= n ->
  (n - prev + 2 <= N.of_nat fuel) ->
  exists prev' b',
    skip_loop fuel c ch prev b = Ret (Some prev', b') /\
    same_frame b b' /\ prev <= prev' <= n /\
    (ib_full b' = true -> prev' = n) /\
    (prev' < n -> exists x, byte_at t prev' = Some x /\ c_first c x = true /\ c_delim c x = true) /\
    (forall i x, prev <= i < prev' -> byte_at t i = Some x -> c_first c x = true -> c_delim c x = false).
Proof.
  induction fuel as [|fuel IH]; intros ch prev b Hb Hfull Hnot Hle Hfuel; [lia|].
  cbn [skip_loop].
  destruct (ib_full b) eqn:Ef.
  - cbn [negb andb]. exists prev, b. destruct (Hfull eq_refl) as [Hp _].
    split; [reflexivity|]. split; [apply same_frame_refl|]. split; [lia|].
    split; [auto|]. split; [lia|]. intros; lia.
  - destruct (Hnot eq_refl) as [Hch Hpos]. cbn [negb andb].
    pose proof (byte_at_lt _ _ _ Hch) as Hlt. fold n in Hlt.
    destruct (negb (c_first c ch) || negb (c_delim c ch)) eqn:Econd.
    + destruct (N.eq_dec (prev + 1) n) as [He|He].
      * rewrite (gnc_end b Hb) by lia.
        destruct (IH cCharEOF (ib_pos b) (ib_set_full b true)) as (p' & b' & Hr & Hfr & Hrng & Hfl & Hst & Hsk).
        { eapply static_move; [exact Hb|apply same_frame_set_full| |]; cbn; lia. }
        { cbn; lia. } { cbn; discriminate. } { lia. } { lia. }
        exists p', b'. rewrite Hr. split; [reflexivity|].
        split; [eapply same_frame_trans; [apply same_frame_set_full|exact Hfr]|].
        split; [lia|]. split; [auto|]. split; [auto|].
        intros i x Hi Hx Hfc. destruct (N.eq_dec i prev) as [->|Hne].
        -- rewrite Hch in Hx; injection Hx as <-. rewrite Hfc in Econd. cbn in Econd.
           destruct (c_delim c ch); [discriminate|reflexivity].
        -- apply (Hsk i x); auto; lia.
      * destruct (byte_at_some t (ib_pos b)) as [x0 Hx0]; [fold n; lia|].
        rewrite (gnc_byte b x0 Hb Hx0).
        destruct (IH x0 (ib_pos b) (ib_set_pos b (ib_pos b + 1))) as (p' & b' & Hr & Hfr & Hrng & Hfl & Hst & Hsk).
        { eapply static_move; [exact Hb|apply same_frame_set_pos| |]; cbn; [lia|congruence]. }
        { cbn; congruence. } { cbn; auto. } { lia. } { lia. }
        exists p', b'. rewrite Hr. split; [reflexivity|].
        split; [eapply same_frame_trans; [apply same_frame_set_pos|exact Hfr]|].
        split; [lia|]. split; [auto|]. split; [auto|].
        intros i x Hi Hx Hfc. destruct (N.eq_dec i prev) as [->|Hne].
        -- rewrite Hch in Hx; injection Hx as <-. rewrite Hfc in Econd. cbn in Econd.
           destruct (c_delim c ch); [discriminate|reflexivity].
        -- apply (Hsk i x); auto; lia.
    + apply orb_false_iff in Econd as [E1 E2].
      apply negb_false_iff in E1. apply negb_false_iff in E2.
      exists prev, b. split; [reflexivity|]. split; [apply same_frame_refl|].
      split; [lia|]. split; [congruence|]. split; [eauto|]. intros; lia.
Qed.

(** Positions that cannot be reported as a variable although a scan passed over them. *)
Definition dead (lo hi : N) : Prop :=
  c_delim c cNewline = true -> no_cross c t -> no_cross_sof c t ->
  forall i j, lo <= i < hi -> ~ occurrence c t i j.

(** The match recorded so far. *)
Definition match_ok (q0 : nat) (a b : N) (ids : list N) (line : N) : Prop :=
  a <= b /\ reported d q0 (sub t a b) = ids /\ ids <> [] /\
  (delimited c t b \/ (b = a + 1 /\ byte_at t a = Some cNewline)) /\
  (c_delim c cNewline = true -> line = newlines t b).

(** Invariant of the main loop. [E] is the end of the text already returned as tokens, [q0] the state the
    current attempt began in, [q] the current state. *)
Record linv (z : bool) (E : N) (fresh : bool) (q0 q : nat) (l : lex) (b : ibuf) : Prop := {
  li_buf : static_buf b;
  li_z : z = false -> q0 = d_root;
  li_last : l_last_match_pos l = E;
  li_lastline : c_delim c cNewline = true -> l_last_match_line l = newlines t E;
  li_asked : l_asked l = false;
  li_E : E <= l_start_pos l;
  li_start : l_start_pos l <= ib_pos b;
  li_origin : start_state c (l_start_pos l) q0;
  li_run : run d q0 (sub t (l_start_pos l) (ib_pos b)) = Some q;
  li_fresh : fresh = true -> q = d_root /\ q0 = d_root /\ l_start_pos l = ib_pos b /\ l_match l = false /\
      (forall x, byte_at t (ib_pos b) = Some x -> c_first c x = true);
  li_match : l_match l = true ->
      exists ids, l_ids l = Some ids /\ match_ok q0 (l_start_pos l) (l_match_pos l) ids (l_match_line l)
        /\ l_match_pos l <= ib_pos b;
  li_nomatch : l_match l = false ->
      (forall p, l_start_pos l <= p < ib_pos b -> byte_at t p <> Some cNewline) /\
      (c_delim c cNewline = true -> l_match_line l = newlines t E);
  li_line : c_delim c cNewline = true -> l_line l = newlines t (ib_pos b);
  li_longest : forall p, (if l_match l then l_match_pos l + 1 else l_start_pos l) <= p < ib_pos b ->
      ~ dmatch c t q0 (l_start_pos l) p;
  li_sbyte : E < l_start_pos l -> l_start_pos l = n \/
      exists x, byte_at t (l_start_pos l) = Some x /\ (c_delim c x = true \/ x = cNewline);
  li_nonl : c_delim c cNewline = true ->
      forall p, E <= p < l_start_pos l -> byte_at t p <> Some cNewline;
  li_dead : dead E (l_start_pos l)
}.

(** State between two calls of scan, [E] being the end of the text returned so far. *)
Inductive lex_between (E : N) (l : lex) (b : ibuf) : Prop :=
| lb_sof q0 :
    static_buf b -> ib_pos b = 0 -> E = 0 -> l_asked l = true -> l_prev l = Some q0 ->
    d_next d d_root cCharStartOfFile = Some q0 ->
    l_match l = false -> l_start_pos l = 0 -> l_last_match_pos l = 0 -> l_line l = 0 ->
    l_last_match_line l = 0 -> l_match_line l = 0 -> lex_between E l b
| lb_begin :
    static_buf b -> ib_pos b = E -> l_asked l = false -> l_match l = false ->
    l_last_match_pos l = E ->
    (c_delim c cNewline = true -> l_line l = newlines t E) ->
    (c_delim c cNewline = true -> l_last_match_line l = newlines t E) ->
    lex_between E l b
| lb_match ids :
    static_buf b -> ib_pos b = l_match_pos l -> l_asked l = false -> l_match l = true ->
    l_start_pos l = E -> l_ids l = Some ids ->
    var_token_ok c t E (l_match_pos l) ids (l_match_line l) ->
    E < l_match_pos l ->
    l_line l = l_match_line l ->
    lex_between E l b
| lb_end :
    static_buf b -> ib_pos b = n -> l_asked l = false -> l_match l = true ->
    l_start_pos l = E -> l_match_pos l = E -> E = n -> l_ids l = cTokenEndTypes ->
    (c_delim c cNewline = true -> l_line l = newlines t n) ->
    (c_delim c cNewline = true -> l_match_line l = newlines t n) ->
    lex_between E l b.

(** What a returned token is. *)
Inductive token_ok (z : bool) (E : N) : token -> Prop :=
| tk_var e line ids :
    var_token_ok c t E e ids line -> (z = false -> E < e) ->
    token_ok z E (mkToken E e k (n * 2) line (Some ids))
| tk_uncaught e line :
    E < e <= n -> dead E e -> (c_delim c cNewline = true -> line = newlines t E) ->
    (* the text after it begins with a variable's first byte, or is over *)
    (e = n \/ exists x, byte_at t e = Some x /\ (c_delim c x = true \/ x = cNewline)) ->
    (* it contains no newline when newline is a delimiter *)
    (c_delim c cNewline = true -> forall p, E <= p < e -> byte_at t p <> Some cNewline) ->
    token_ok z E (mkToken E e k (n * 2) line cTokenUncaughtStringTypes)
| tk_end line :
    E = n -> (c_delim c cNewline = true -> line = newlines t n) ->
    token_ok z E (mkToken n n k (n * 2) line cTokenEndTypes).

Lemma reported_run q w q' : run d q w = Some q' -> reported d q w = d_ids d q'.
Proof. unfold reported. intros ->. reflexivity. Qed.

Lemma first_newline : c_first c cNewline = true.
Proof. unfold c_first. destruct (wf_newline _ Hwf) as (q & Hq & _). fold d in Hq. unfold d in Hq. rewrite Hq. reflexivity. Qed.

(** A failed attempt from [s]: every position in [s, p) is dead. *)
Lemma attempt_dead q0 s p :
  start_state c s q0 -> s <= p <= n ->
  (forall i, s <= i < p -> byte_at t i <> Some cNewline) ->
  (exists q, run d q0 (sub t s p) = Some q) ->
  (forall i, s <= i <= p -> ~ dmatch c t q0 s i) ->
  (p < n -> run d q0 (sub t s (p + 1)) = None \/ byte_at t p = Some cNewline) ->
  dead s p.
Proof.
  intros Hst Hsp Hnl (qr & Hrun) Hno Hstuck Hdnl Hnc Hncs i j Hi (Hij & Hdm & (x & Hx & Hdx) & Hfree).
  destruct Hst as [->|[-> Hsof]].
  - destruct (N.eq_dec i s) as [->|Hne].
    + destruct (N.le_gt_cases j p) as [Hjp|Hjp].
      * apply (Hno j); [lia|exact Hdm].
      * destruct Hdm as (Hr & Hrep & _). fold n in Hr.
        destruct Hstuck as [Hstuck|Hstuck]; [lia| |].
        -- apply Hrep. unfold reported.
           rewrite (sub_app t s (p + 1) j) by lia. rewrite run_app. fold d.
           rewrite Hstuck by lia. reflexivity.
        -- rewrite (Hfree p cNewline) in Hdnl by (auto; lia). discriminate.
    + destruct (byte_at_some t s) as [y Hy]; [fold n; lia|].
      assert (Hyn : y <> cNewline) by (intros ->; apply (Hnl s); [lia|exact Hy]).
      pose proof (Hnc s i y x Hy Hyn ltac:(lia) Hx Hdx) as Hnone.
      fold d in Hnone.
      assert (run d d_root (sub t s p) = None) as Hn.
      { rewrite (sub_app t s (i + 1) p) by lia. rewrite run_app, Hnone. reflexivity. }
      congruence.
  - destruct (Hncs q0 i x Hsof Hx Hdx) as [Hnone | (b & Hb & Hdb)].
    + assert (run d q0 (sub t 0 p) = None) as Hn.
      { rewrite (sub_app t 0 (i + 1) p) by lia. rewrite run_app. fold d in Hnone. rewrite Hnone. reflexivity. }
      congruence.
    + apply (Hno b); [lia|exact Hdb].
Qed.

Lemma dead_app a b e : dead a b -> dead b e -> dead a e.
Proof.
  intros H1 H2 Hd Hn Hs i j Hi.
  destruct (N.lt_ge_cases i b); [apply H1|apply H2]; auto; lia.
Qed.

Lemma skip_dead a b :
  (forall i x, a <= i < b -> byte_at t i = Some x -> c_first c x = true -> c_delim c x = false) ->
  dead a b.
Proof.
  intros H Hd Hn Hs i j Hi (Hij & Hdm & (x & Hx & Hdx) & _).
  destruct (c_first c x) eqn:Ef.
  - rewrite (H i x Hi Hx Ef) in Hdx; discriminate.
  - destruct Hdm as (Hr & Hrep & _). apply Hrep. unfold reported.
    rewrite (sub_cons t i j x Hx Hij). cbn [run].
    unfold c_first in Ef. destruct (d_next (c_dfa c) d_root x); [discriminate|reflexivity].
Qed.

Definition scan_post (z : bool) (E : N) (b : ibuf) (r : scan_res) : Prop :=
  exists tok l' b', r = Ret (Some tok, l', b') /\ same_frame b b' /\ l_asked l' = false /\
    token_ok z E tok /\ lex_between (t_end tok) l' b'.

Lemma finish_match z E q0 ids l3 b1 :
  (z = false -> q0 = d_root) -> static_buf b1 -> l_last_match_pos l3 = E ->
  (c_delim c cNewline = true -> l_last_match_line l3 = newlines t E) ->
  l_asked l3 = false -> l_match l3 = true -> E <= l_start_pos l3 ->
  start_state c (l_start_pos l3) q0 -> l_ids l3 = Some ids ->
  match_ok q0 (l_start_pos l3) (l_match_pos l3) ids (l_match_line l3) ->
  l_match_pos l3 <= n ->
  (forall p, l_match_pos l3 < p -> ~ dmatch c t q0 (l_start_pos l3) p) ->
  (E < l_start_pos l3 -> l_start_pos l3 = n \/
     exists x, byte_at t (l_start_pos l3) = Some x /\ (c_delim c x = true \/ x = cNewline)) ->
  (c_delim c cNewline = true -> forall p, E <= p < l_start_pos l3 -> byte_at t p <> Some cNewline) ->
  dead E (l_start_pos l3) ->
  scan_post z E b1
    (let b2 := ib_set_pos (ib_set_full b1 false) (l_match_pos l3) in
     let l4 := lex_restore_line l3 in
     if negb (l_last_match_pos l4 =? l_start_pos l4) then
       Ret (Some (mk_tok b2 (l_last_match_pos l4) (l_start_pos l4) (l_last_match_line l4)
                         cTokenUncaughtStringTypes), l4, b2)
     else
       Ret (Some (mk_tok b2 (l_start_pos l4) (l_match_pos l4) (l_match_line l4) (l_ids l4)),
            lex_take l4, b2)).
Proof.
  intros Hz Hb HE HEl Hask Hm HEs Hst Hids (Hab & Hrep & Hne & Hdel & Hline) Hmn Hlong Hsb Hnonl Hdead.
  cbn zeta. set (b2 := ib_set_pos (ib_set_full b1 false) (l_match_pos l3)).
  assert (Hfr : same_frame b1 b2).
  { eapply same_frame_trans; [apply same_frame_set_full|apply same_frame_set_pos]. }
  assert (Hb2 : static_buf b2).
  { eapply static_move; [exact Hb|exact Hfr|cbn; exact Hmn|cbn; discriminate]. }
  assert (Hvt : var_token_ok c t (l_start_pos l3) (l_match_pos l3) ids (l_match_line l3)).
  { constructor; auto. exists q0. auto. }
  assert (Hpos : q0 = d_root -> l_start_pos l3 < l_match_pos l3).
  { intros ->.
    destruct (N.eq_dec (l_start_pos l3) (l_match_pos l3)) as [He|]; [|lia].
    exfalso. rewrite <- He, sub_nil in Hrep. cbn in Hrep. unfold d in Hrep.
    rewrite (wf_root _ Hwf) in Hrep. congruence. }
  cbn [lex_restore_line l_last_match_pos l_start_pos l_last_match_line l_match_pos l_match_line l_ids].
  rewrite HE.
  destruct (N.eqb_spec E (l_start_pos l3)) as [He|He]; cbn [negb].
  - do 3 eexists. split; [reflexivity|]. split; [exact Hfr|]. split; [exact Hask|]. split.
    + unfold mk_tok. rewrite <- He. rewrite <- He in Hvt, Hpos. rewrite (sb_active _ Hb2), (sb_size _ Hb2), Hids. apply tk_var; auto.
    + cbn [t_end mk_tok]. apply lb_begin; auto.
  - do 3 eexists. split; [reflexivity|]. split; [exact Hfr|]. split; [exact Hask|]. split.
    + unfold mk_tok. rewrite (sb_active _ Hb2), (sb_size _ Hb2). apply tk_uncaught; auto; [lia|]. apply Hsb; lia.
    + cbn [t_end mk_tok]. eapply lb_match with (ids := ids); auto; cbn; auto.
      apply Hpos. destruct Hst as [->|[Hst0 _]]; [reflexivity|lia].
Qed.

Lemma scan_post_frame z E b b1 r : same_frame b b1 -> scan_post z E b1 r -> scan_post z E b r.
Proof.
  intros Hf (tok & l' & b' & Hr & Hf' & H). exists tok, l', b'. split; [exact Hr|].
  split; [eapply same_frame_trans; eassumption|exact H].
Qed.

(** Measure on loop states. *)
Definition lmeas (fresh : bool) (b : ibuf) : N := 2 * (n - ib_pos b) + (if fresh then 3 else 4).

Lemma scan_loop_spec fuel : forall z E fresh q0 q l b,
  linv z E fresh q0 q l b -> lmeas fresh b <= N.of_nat fuel ->
  scan_post z E b (scan_loop fuel c q l b).
Proof.
  induction fuel as [|fuel IH]; intros z E fresh q0 q l b HI Hfuel.
  { unfold lmeas in Hfuel. destruct fresh; lia. }
  pose proof (li_z _ _ _ _ _ _ _ HI) as Hz.
  pose proof (li_buf _ _ _ _ _ _ _ HI) as Hb.
  pose proof (sb_pos _ Hb) as Hpn.
  pose proof (li_last _ _ _ _ _ _ _ HI) as HE.
  pose proof (li_lastline _ _ _ _ _ _ _ HI) as HEl.
  pose proof (li_asked _ _ _ _ _ _ _ HI) as Hask.
  pose proof (li_E _ _ _ _ _ _ _ HI) as HEs.
  pose proof (li_start _ _ _ _ _ _ _ HI) as Hsp.
  pose proof (li_origin _ _ _ _ _ _ _ HI) as Hst.
  pose proof (li_run _ _ _ _ _ _ _ HI) as Hrun.
  pose proof (li_sbyte _ _ _ _ _ _ _ HI) as Hsb.
  pose proof (li_nonl _ _ _ _ _ _ _ HI) as Hnonl.
  pose proof (li_dead _ _ _ _ _ _ _ HI) as Hdead.
  pose proof (li_match _ _ _ _ _ _ _ HI) as Hmat.
  pose proof (li_nomatch _ _ _ _ _ _ _ HI) as Hnom.
  pose proof (li_longest _ _ _ _ _ _ _ HI) as Hlong.
  pose proof (li_fresh _ _ _ _ _ _ _ HI) as Hfresh.
  pose proof (li_line _ _ _ _ _ _ _ HI) as Hline.
  cbn [scan_loop]. fold d.
  assert (Hdm : forall (Hdl : delimited c t (ib_pos b)),
      d_ids d q <> [] -> dmatch c t q0 (l_start_pos l) (ib_pos b)).
  { intros Hdl Hids. split; [fold n; lia|]. split; [|exact Hdl].
    fold d. rewrite (reported_run _ _ _ Hrun). exact Hids. }
  destruct (N.eq_dec (ib_pos b) n) as [Hend|Hend].
  - (* end of input *)
    rewrite (gnc_end b Hb Hend).
    set (b1 := ib_set_full b true).
    assert (Hfr1 : same_frame b b1) by apply same_frame_set_full.
    assert (Hb1 : static_buf b1).
    { eapply static_move; [exact Hb|apply same_frame_set_full|cbn; lia|cbn; auto]. }
    change (ib_full b1) with true. rewrite orb_true_r, orb_true_l. cbn [andb].
    assert (Hdl : delimited c t (ib_pos b)) by (left; exact Hend).
    destruct (is_accepting d q) eqn:Eacc.
    + (* a match ends here *)
      apply is_accepting_spec in Eacc.
      change (cCharEOF =? cNewline) with false. cbn [bind].
      cbn [lex_set_match l_match].
      apply (scan_post_frame z E b b1); [exact Hfr1|]. eapply finish_match with (q0 := q0) (ids := d_ids d q);
        cbn [lex_set_match l_last_match_pos l_last_match_line l_asked l_match l_start_pos l_ids
             l_match_pos l_match_line]; auto; try lia.
      * split; [lia|]. split; [apply reported_run; exact Hrun|]. split; [exact Eacc|].
        split; [left; exact Hdl|]. exact Hline.
      * intros p Hp [Hr _]. fold n in Hr. lia.
    + change (cCharEOF =? cNewline) with false. cbn [bind].
      assert (Hnacc : d_ids d q = []).
      { unfold is_accepting in Eacc. destruct (d_ids d q); [reflexivity|discriminate]. }
      assert (Hnodm : ~ dmatch c t q0 (l_start_pos l) (ib_pos b)).
      { intros (_ & Hr & _). fold d in Hr. rewrite (reported_run _ _ _ Hrun) in Hr. congruence. }
      destruct (l_match l) eqn:Em.
      * destruct (Hmat eq_refl) as (ids & Hids & Hmok & Hmp).
        apply (scan_post_frame z E b b1); [exact Hfr1|]. eapply finish_match with (q0 := q0) (ids := ids); auto; try lia.
        intros p Hp Hdmp. pose proof Hdmp as [[_ Hpr] _]. fold n in Hpr.
        destruct (N.eq_dec p (ib_pos b)) as [->|]; [contradiction|].
        apply (Hlong p); [lia|exact Hdmp].
      * destruct (Hnom eq_refl) as [Hnl Hmline].
        change (ib_pos b1) with (ib_pos b). cbn [andb].
        destruct (N.eqb_spec (l_start_pos l) (ib_pos b)) as [Hse|Hse].
        -- rewrite HE. destruct (N.eqb_spec E (l_start_pos l)) as [He|He]; cbn [negb].
           ++ do 3 eexists. split; [reflexivity|]. split; [exact Hfr1|]. split; [exact Hask|].
              unfold mk_tok. rewrite (sb_active _ Hb1), (sb_size _ Hb1), Hend. split.
              ** apply tk_end; [lia|]. intros Hd. rewrite (Hline Hd), Hend. reflexivity.
              ** cbn [t_end]. replace n with E by lia. apply lb_begin; auto; cbn; try lia.
                 intros Hd. rewrite (Hline Hd). f_equal. lia.
           ++ do 3 eexists. split; [reflexivity|]. split; [exact Hfr1|]. split; [exact Hask|].
              unfold mk_tok. rewrite (sb_active _ Hb1), (sb_size _ Hb1). split.
              ** apply tk_uncaught; auto; try lia.
              ** cbn [t_end]. apply lb_end; cbn; auto; try lia.
                 --- intros Hd. rewrite (Hline Hd). f_equal. lia.
                 --- intros Hd. rewrite (Hmline Hd). symmetry. apply newlines_eq; [lia|].
                     intros p Hp. destruct (N.lt_ge_cases p (l_start_pos l)); [apply (Hnonl Hd)|apply Hnl]; lia.
        -- (* restart at the end *)
           destruct (skip_loop_spec fuel cCharEOF (ib_pos b) b1 Hb1) as
               (p' & b2 & Hr & Hfr & Hrng & Hfl & Hstp & Hsk).
           { intros _. split; cbn; lia. } { cbn; discriminate. } { lia. }
           { unfold lmeas in Hfuel. destruct fresh; lia. }
           rewrite Hr. assert (p' = n) by lia. subst p'.
           assert (Hfr3 : same_frame b (ib_set_pos b2 n)).
           { eapply same_frame_trans; [exact Hfr1|]. eapply same_frame_trans; [exact Hfr|apply same_frame_set_pos]. }
           destruct (IH z E true d_root d_root (lex_set_start l n) (ib_set_pos b2 n)) as (tok & l' & b' & Hres & Hfr' & Hrest).
           { constructor; cbn [lex_set_start l_last_match_pos l_last_match_line l_asked l_start_pos l_match
                               l_ids l_match_pos l_match_line l_line ib_set_pos ib_pos]; auto; try lia.
             - eapply static_move; [exact Hb|exact Hfr3|cbn; lia|cbn; auto].
             - left; reflexivity.
             - rewrite sub_nil. reflexivity.
             - intros _. repeat split; auto.
               intros x Hx. apply byte_at_lt in Hx. fold n in Hx. lia.
             - congruence.
             - intros _. split; [lia|exact Hmline].
             - intros Hd. rewrite (Hline Hd). f_equal; lia.
             - rewrite Em. intros; lia.
             - intros Hd p Hp. destruct (N.lt_ge_cases p (l_start_pos l)).
               + apply (Hnonl Hd); lia. + apply Hnl; lia.
             - eapply dead_app; [exact Hdead|].
               eapply attempt_dead; eauto; try lia.
               + intros i Hi. apply Hnl. lia.
               + rewrite <- Hend. eauto.
               + intros i Hi. destruct (N.eq_dec i (ib_pos b)) as [->|]; [exact Hnodm|].
                 apply Hlong. lia. }
           { unfold lmeas in *. cbn [ib_pos ib_set_pos]. destruct fresh; lia. }
           rewrite Hres. exists tok, l', b'. split; [reflexivity|].
           split; [eapply same_frame_trans; eassumption|exact Hrest].
  - (* a byte *)
    destruct (byte_at_some t (ib_pos b)) as [x Hx]; [fold n; lia|].
    rewrite (gnc_byte b x Hb Hx).
    set (p := ib_pos b) in *. set (b1 := ib_set_pos b (p + 1)).
    assert (Hfr1 : same_frame b b1) by apply same_frame_set_pos.
    assert (Hfull : ib_full b = false).
    { destruct (ib_full b) eqn:Ef; [|reflexivity]. pose proof (sb_full _ Hb Ef). lia. }
    assert (Hb1 : static_buf b1).
    { eapply static_move; [exact Hb|exact Hfr1|cbn; lia|]. cbn. congruence. }
    change (ib_full b1) with (ib_full b). rewrite Hfull, orb_false_r, (wf_delims _ Hwf), orb_false_r.
    assert (H1 : exists l1,
      (if c_delim c x && is_accepting d q then lex_set_match l (d_ids d q) p (l_line l) else l) = l1 /\
      l_last_match_pos l1 = E /\ l_last_match_line l1 = l_last_match_line l /\ l_asked l1 = false /\
      l_start_pos l1 = l_start_pos l /\ l_line l1 = l_line l /\
      (l_match l1 = true -> exists ids, l_ids l1 = Some ids /\
          match_ok q0 (l_start_pos l) (l_match_pos l1) ids (l_match_line l1) /\ l_match_pos l1 <= p) /\
      (l_match l1 = false -> l_match l = false /\ l_match_line l1 = l_match_line l) /\
      (forall p', (if l_match l1 then l_match_pos l1 + 1 else l_start_pos l) <= p' < p + 1 ->
          ~ dmatch c t q0 (l_start_pos l) p')).
    { destruct (c_delim c x && is_accepting d q) eqn:Ec; eexists; (split; [reflexivity|]).
      - apply andb_true_iff in Ec as [Ed Ea]. apply is_accepting_spec in Ea.
        cbn [lex_set_match l_last_match_pos l_last_match_line l_asked l_match l_start_pos l_ids
             l_match_pos l_match_line l_line].
        do 5 (split; [auto; fail|]). split; [|split; [discriminate|intros; lia]].
        intros _. exists (d_ids d q). split; [reflexivity|]. split; [|lia].
        split; [lia|]. split; [apply reported_run; exact Hrun|]. split; [exact Ea|].
        split; [left; right; eauto|]. exact Hline.
      - do 5 (split; [auto; fail|]). split; [exact Hmat|]. split; [auto|].
        intros p' Hp'. destruct (N.eq_dec p' p) as [->|Hne].
        + intros (_ & Hr & Hdl). fold d in Hr. rewrite (reported_run _ _ _ Hrun) in Hr.
          apply is_accepting_spec in Hr. rewrite Hr, andb_true_r in Ec.
          destruct Hdl as [Hdl|(y & Hy & Hdy)]; [fold n in Hdl; lia|].
          rewrite Hx in Hy. injection Hy as <-. congruence.
        + apply Hlong. lia. }
    destruct H1 as (l1 & -> & HE1 & HEl1 & Hask1 & Hs1 & Hln1 & Hmat1 & Hnom1 & Hlong1).
    assert (Hnodm1 : l_match l1 = false -> forall i, l_start_pos l <= i <= p -> ~ dmatch c t q0 (l_start_pos l) i).
    { intros Em i Hi. apply Hlong1. rewrite Em. lia. }
    assert (Hnl1 : l_match l1 = false -> forall i, l_start_pos l <= i < p -> byte_at t i <> Some cNewline).
    { intros Em i Hi. destruct (Hnom1 Em) as [Em' _]. destruct (Hnom Em') as [Hnl _]. apply Hnl; lia. }
    assert (Hbranch : forall next l3,
        next = d_next d q x ->
        (if x =? cNewline then l_match l1 = true /\ l3 = lex_inc_line l1 else l3 = l1) ->
        scan_post z E b
          match next with
          | Some n0 => scan_loop fuel c n0 l3 b1
          | None =>
            if l_match l3
            then
             let b2 := ib_set_pos (ib_set_full b1 false) (l_match_pos l3) in
             let l4 := lex_restore_line l3 in
             if negb (l_last_match_pos l4 =? l_start_pos l4)
             then Ret (Some (mk_tok b2 (l_last_match_pos l4) (l_start_pos l4)
                                     (l_last_match_line l4) cTokenUncaughtStringTypes), l4, b2)
             else Ret (Some (mk_tok b2 (l_start_pos l4) (l_match_pos l4) (l_match_line l4) (l_ids l4)),
                       lex_take l4, b2)
            else
             match skip_loop fuel c x p b1 with
             | Ret (Some prev', b2) =>
                 scan_loop fuel c d_root (lex_set_start l3 prev') (ib_set_pos b2 prev')
             | Ret (None, b2) => Ret (None, lex_ask l3 q, b2)
             | UB => UB | Throw => Throw | OutOfFuel => OutOfFuel
             end
          end).
    { intros next l3 Hnext Hl3.
      assert (HE3 : l_last_match_pos l3 = E) by (destruct (x =? cNewline); [destruct Hl3 as [_ ->]|subst l3]; auto).
      assert (HEl3 : l_last_match_line l3 = l_last_match_line l) by (destruct (x =? cNewline); [destruct Hl3 as [_ ->]|subst l3]; auto).
      assert (Hask3 : l_asked l3 = false) by (destruct (x =? cNewline); [destruct Hl3 as [_ ->]|subst l3]; auto).
      assert (Hs3 : l_start_pos l3 = l_start_pos l) by (destruct (x =? cNewline); [destruct Hl3 as [_ ->]|subst l3]; auto).
      assert (Hm3 : l_match l3 = l_match l1) by (destruct (x =? cNewline); [destruct Hl3 as [_ ->]|subst l3]; auto).
      assert (Hi3 : l_ids l3 = l_ids l1) by (destruct (x =? cNewline); [destruct Hl3 as [_ ->]|subst l3]; auto).
      assert (Hp3 : l_match_pos l3 = l_match_pos l1) by (destruct (x =? cNewline); [destruct Hl3 as [_ ->]|subst l3]; auto).
      assert (Hml3 : l_match_line l3 = l_match_line l1) by (destruct (x =? cNewline); [destruct Hl3 as [_ ->]|subst l3]; auto).
      assert (Hln3 : l_line l3 = l_line l + (if x =? cNewline then 1 else 0)).
      { destruct (x =? cNewline); [destruct Hl3 as [_ ->]; cbn|subst l3]; lia. }
      assert (Hxnl : l_match l1 = false -> x <> cNewline).
      { intros Em ->. rewrite N.eqb_refl in Hl3. destruct Hl3; congruence. }
      clear Hl3.
      destruct next as [q'|].
      - apply (scan_post_frame z E b b1); [exact Hfr1|].
        apply (IH z E false q0).
        + constructor; change (ib_pos b1) with (p + 1); rewrite ?HE3, ?HEl3, ?Hs3, ?Hm3, ?Hi3, ?Hp3, ?Hml3; auto; try lia; try discriminate.
          * rewrite (sub_snoc t _ p x) by auto. rewrite run_app, Hrun. cbn [run]. rewrite <- Hnext. reflexivity.
          * intros Em. destruct (Hmat1 Em) as (ids & H1' & H2' & H3'). exists ids. split; [auto|]. split; [auto|lia].
          * intros Em. split.
            -- intros i Hi. destruct (N.eq_dec i p) as [->|].
               ++ rewrite Hx. intros [= ->]. apply (Hxnl Em); reflexivity.
               ++ apply (Hnl1 Em). lia.
            -- destruct (Hnom1 Em) as [Em' ->]. destruct (Hnom Em') as [_ ?]. auto.
          * intros Hd. rewrite Hln3, (newlines_snoc t p x Hx), (Hline Hd). reflexivity.
        + unfold lmeas in *. change (ib_pos b1) with (p + 1). fold p in Hfuel. destruct fresh; lia.
      - apply (scan_post_frame z E b b1); [exact Hfr1|].
        assert (Hstuck : run d q0 (sub t (l_start_pos l) (p + 1)) = None).
        { rewrite (sub_snoc t _ p x) by auto. rewrite run_app, Hrun. cbn [run]. rewrite <- Hnext. reflexivity. }
        destruct (l_match l3) eqn:Em3.
        + destruct (Hmat1 (eq_sym Hm3)) as (ids & Hids & Hmok & Hmp).
          apply finish_match with (q0 := q0) (ids := ids); rewrite ?HEl3, ?Hs3, ?Hi3, ?Hp3, ?Hml3; auto; try lia.
          intros p' Hp' Hdmp. destruct (N.le_gt_cases p' p) as [Hle|Hgt].
          * apply (Hlong1 p'); [rewrite <- Hm3; lia|exact Hdmp].
          * destruct Hdmp as (_ & Hr & _). apply Hr. unfold reported.
            rewrite (sub_app t _ (p + 1) p') by lia. rewrite run_app. fold d. rewrite Hstuck. reflexivity.
        + destruct (skip_loop_spec fuel x p b1 Hb1) as (p' & b2 & Hr & Hfr & Hrng & Hfl & Hstp & Hsk).
          { cbn. congruence. } { cbn. auto. } { lia. }
          { unfold lmeas in Hfuel. fold p in Hfuel. destruct fresh; lia. }
          rewrite Hr. symmetry in Hm3.
          destruct (Hnom1 Hm3) as [Em' Hml1]. destruct (Hnom Em') as [Hnl Hmline].
          assert (Hnl2 : forall i, p <= i < p' -> c_delim c cNewline = true -> byte_at t i <> Some cNewline).
          { intros i Hi Hd Hy. rewrite (Hsk i cNewline) in Hd; auto; [discriminate|]. apply first_newline. }
          assert (Hfr3 : same_frame b1 (ib_set_pos b2 p')).
          { eapply same_frame_trans; [exact Hfr|apply same_frame_set_pos]. }
          apply (scan_post_frame z E b1 _ _ Hfr3).
          apply (IH z E true d_root).
          * constructor; cbn [lex_set_start l_last_match_pos l_last_match_line l_asked l_start_pos l_match
                               l_ids l_match_pos l_match_line l_line ib_set_pos ib_pos]; rewrite ?HE3, ?HEl3, ?Em3; auto; try lia; try discriminate.
            -- eapply static_move; [exact Hb1|exact Hfr3|cbn; lia|cbn; auto].
            -- left; reflexivity.
            -- rewrite sub_nil. reflexivity.
            -- intros _. repeat split; auto.
               intros y Hy. destruct Hstp as (z0 & Hz0 & Hzf & _); [apply byte_at_lt in Hy; fold n in Hy; lia|].
               congruence.
            -- intros _. split; [lia|]. rewrite Hml3, Hml1. exact Hmline.
            -- intros Hd. rewrite Hln3. rewrite (newlines_eq t p p') by (try lia; intros; apply Hnl2; auto).
               rewrite (Hline Hd). destruct (N.eqb_spec x cNewline) as [->|]; [|lia].
               exfalso; apply (Hxnl Hm3); reflexivity.
            -- intros _. destruct (N.eq_dec p' n); [left; auto|]. right.
               destruct Hstp as (z0 & Hz0 & _ & Hzd); [lia|]. eauto.
            -- intros Hd i Hi. destruct (N.lt_ge_cases i (l_start_pos l)); [apply (Hnonl Hd); lia|].
               destruct (N.lt_ge_cases i p); [apply Hnl; lia|apply Hnl2; auto; lia].
            -- eapply dead_app; [exact Hdead|]. eapply dead_app.
               ++ apply (attempt_dead q0 _ p); eauto; try lia.
               ++ apply skip_dead. exact Hsk.
          * unfold lmeas in *. cbn [ib_pos ib_set_pos]. fold p in Hfuel.
            destruct fresh; [|lia]. destruct (Hfresh eq_refl) as (-> & _ & _ & _ & Hfc).
            specialize (Hfc x Hx). unfold c_first in Hfc. fold d in Hfc. rewrite <- Hnext in Hfc. discriminate. }
    destruct (N.eqb_spec x cNewline) as [Hxn|Hxn].
    + cbn [lex_inc_line l_match].
      destruct (l_match l1) eqn:Em1; cbn [negb andb bind].
      * apply Hbranch; auto.
      * subst x. destruct (wf_newline _ Hwf) as (qn & Hqn & Hqids). fold d in Hqn, Hqids. rewrite Hqn.
        cbn [bind].
        destruct (Hnom1 eq_refl) as [Em' Hml1]. destruct (Hnom Em') as [Hnl Hmline].
        apply (scan_post_frame z E b b1); [exact Hfr1|].
        apply (IH z E false d_root).
        -- constructor; cbn [lex_newline lex_inc_line l_last_match_pos l_last_match_line l_asked l_start_pos l_match
                               l_ids l_match_pos l_match_line l_line]; change (ib_pos b1) with (p + 1);
             rewrite ?HE1, ?HEl1, ?Hln1; auto; try lia; try discriminate.
           ++ left; reflexivity.
           ++ rewrite (sub_one t p cNewline Hx). cbn [run]. rewrite Hqn. reflexivity.
           ++ intros _. exists (d_ids d qn). split; [reflexivity|]. split; [|lia].
              split; [lia|]. split; [|split; [exact Hqids|split]].
              ** apply reported_run. rewrite (sub_one t p cNewline Hx). cbn [run]. rewrite Hqn. reflexivity.
              ** right. auto.
              ** intros Hd. rewrite (newlines_snoc t p _ Hx), (Hline Hd), N.eqb_refl. reflexivity.
           ++ intros Hd. rewrite (newlines_snoc t p _ Hx), (Hline Hd), N.eqb_refl. reflexivity.
           ++ intros _. right. eauto.
           ++ intros Hd i Hi. destruct (N.lt_ge_cases i (l_start_pos l)); [apply (Hnonl Hd); lia|apply Hnl; lia].
           ++ eapply dead_app; [exact Hdead|]. apply (attempt_dead q0 _ p); eauto; lia.
        -- unfold lmeas in *. change (ib_pos b1) with (p + 1). fold p in Hfuel. destruct fresh; lia.
    + cbn [bind]. apply Hbranch; auto.
Qed.

(** scan, between calls. [scan_fuel] iterations always suffice. *)
Definition scan_fuel : nat := N.to_nat (2 * n + 4).

Lemma scan_spec fuel E l b :
  (scan_fuel <= fuel)%nat -> lex_between E l b ->
  scan_post (l_asked l) E b (scan fuel c l b).
Proof.
  intros Hfuel HB. unfold scan_fuel in Hfuel. unfold scan.
  destruct HB as [q0 Hb Hp HE Hask Hprev Hsof Hm Hs Hl Hln Hll Hml
                 | Hb Hp Hask Hm Hl Hln Hll
                 | ids Hb Hp Hask Hm Hs Hids Hvt Hpos Hln
                 | Hb Hp Hask Hm Hs Hmp HE Hids Hln Hml].
  - rewrite Hask, Hprev. apply scan_loop_spec with (fresh := false) (q0 := q0).
    + subst E. constructor;
        cbn [lex_unask l_last_match_pos l_last_match_line l_asked l_start_pos l_match
             l_ids l_match_pos l_match_line l_line]; rewrite ?Hl, ?Hs, ?Hp, ?Hll, ?Hml, ?Hln;
        auto; try lia; try discriminate.
      * right. auto.
      * rewrite Hm. discriminate.
      * intros _. split; [intros; lia|]. auto.
      * intros Hd Hn Hs' i j Hi. lia.
    + unfold lmeas. rewrite Hp. lia.
  - rewrite Hask, Hm. apply scan_loop_spec with (fresh := false) (q0 := d_root).
    + constructor;
        cbn [lex_begin l_last_match_pos l_last_match_line l_asked l_start_pos l_match
             l_ids l_match_pos l_match_line l_line]; rewrite ?Hl, ?Hp; auto; try lia; try discriminate.
      * left; reflexivity.
      * rewrite sub_nil. reflexivity.
      * rewrite Hm. discriminate.
      * intros _. split; [intros; lia|]. auto.
      * rewrite Hm. intros; lia.
      * intros Hd Hn Hs' i j Hi. lia.
    + unfold lmeas. pose proof (sb_pos _ Hb). lia.
  - rewrite Hask, Hm. do 3 eexists. split; [reflexivity|]. split; [apply same_frame_refl|]. split; [exact Hask|].
    unfold mk_tok. rewrite (sb_active _ Hb), (sb_size _ Hb), Hs, Hids. split.
    + apply tk_var; auto.
    + cbn [t_end]. apply lb_begin; auto; cbn; auto.
      * intros Hd. rewrite Hln. apply (vt_line _ _ _ _ _ _ Hvt Hd).
      * apply (vt_line _ _ _ _ _ _ Hvt).
  - rewrite Hask, Hm. do 3 eexists. split; [reflexivity|]. split; [apply same_frame_refl|]. split; [exact Hask|].
    unfold mk_tok. rewrite (sb_active _ Hb), (sb_size _ Hb), Hs, Hids, Hmp, HE. split.
    + apply tk_end; auto.
    + cbn [t_end]. apply lb_begin; auto; cbn; try congruence.
Qed.

(** token_ok in terms of the token's fields. *)
Lemma token_cases z E tok : token_ok z E tok ->
  t_sid tok = k /\ t_bufsz tok = n * 2 /\ t_start tok = E /\ E <= t_end tok /\ t_end tok <= n /\
  ((exists ids, t_ids tok = Some ids /\ var_token_ok c t E (t_end tok) ids (t_line tok) /\
                (z = false -> E < t_end tok)) \/
   (t_ids tok = cTokenUncaughtStringTypes /\ E < t_end tok /\ dead E (t_end tok) /\
    (c_delim c cNewline = true -> t_line tok = newlines t E) /\
    (t_end tok = n \/ exists x, byte_at t (t_end tok) = Some x /\ (c_delim c x = true \/ x = cNewline)) /\
    (c_delim c cNewline = true -> forall p, E <= p < t_end tok -> byte_at t p <> Some cNewline)) \/
   (t_ids tok = cTokenEndTypes /\ E = n /\ t_end tok = n /\
    (c_delim c cNewline = true -> t_line tok = newlines t n))).
Proof.
  intros H. destruct H as [e line ids Hvt Hz|e line He Hd Hl Hb Hn|line He Hl];
    cbn [t_sid t_bufsz t_start t_end t_ids t_line].
  - pose proof (vt_range _ _ _ _ _ _ Hvt) as Hr. fold n in Hr.
    do 3 (split; [reflexivity|]). split; [lia|]. split; [lia|]. left. eauto.
  - do 3 (split; [reflexivity|]). split; [lia|]. split; [lia|]. right; left. repeat split; auto; lia.
  - do 2 (split; [reflexivity|]). split; [auto|]. split; [lia|]. split; [lia|]. right; right. auto.
Qed.
End Static.
