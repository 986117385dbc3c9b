(** EventProofs.v -- the properties of parsed events, derived from LogParserProofs. *)
From Verif Require Import Base LexerModel LexerSpec LexerProofs LogParserModel LogParserProofs EventSpec.

Lemma len_app a b : len (a ++ b) = len a + len b.
Proof. unfold len. rewrite app_length. lia. Qed.
Lemma nth_error_firstn_lt {A} (l : list A) i n : (i < n)%nat -> nth_error (firstn n l) i = nth_error l i.
Proof. revert i n; induction l as [|x l IH]; intros [|i] [|n] H; cbn; auto; try lia. apply IH. lia. Qed.
Lemma byte_at_sub t a b i : i < b - a -> byte_at (sub t a b) i = byte_at t (a + i).
Proof.
  intros H3. unfold byte_at, sub. rewrite nth_error_firstn_lt by lia.
  rewrite nth_error_skipn. f_equal. lia.
Qed.

Section Ev.
Context (c : lexcfg) (nsym : N) (t : list N) (k : nat) (m : mem).
Hypothesis Hus : usable c nsym.
Hypothesis Hh : holds m t.
Let n := len t.
Let K := User k.
Let evat := event_at c t k m nsym.
Let evs := events c t k m nsym.

Lemma chle a toks e : chain t k a toks e -> a <= e <= n.
Proof. exact (chain_le c t k m nsym (proj1 Hh) (us_ids _ _ Hus) (us_nsym _ _ Hus) a toks e). Qed.
Lemma evat_chain e p e' fin : evat e p e' fin -> chain t k e (ev_tokens p) e'.
Proof.
  intros H. destruct (ea_shape _ _ _ _ _ _ _ _ _ H) as (nxt & Hsh & _).
  exact (shape_chain c t k m nsym (us_wf _ _ Hus) (proj1 Hh) (us_ids _ _ Hus) (us_nsym _ _ Hus) _ _ _ _ _ _ Hsh).
Qed.
Lemma sknl tok : lexed c t k tok -> t_start tok < t_end tok -> skip_newline tok = set_t_start tok (t_start tok + 1).
Proof. exact (skip_newline_eq c t k m nsym (proj1 Hh) (us_ids _ _ Hus) (us_nsym _ _ Hus) tok). Qed.

Lemma evat_text e p e' fin : evat e p e' fin -> ev_to_string p = Ret (sub t e e').
Proof.
  intros H. unfold ev_to_string.
  exact (chain_text c t k m nsym (proj1 Hh) (us_ids _ _ Hus) (us_nsym _ _ Hus) _ _ _ _
           (ea_heap _ _ _ _ _ _ _ _ _ H) (evat_chain _ _ _ _ H)).
Qed.

Lemma evat_last e p e' : evat e p e' true -> e' = n.
Proof.
  intros H. destruct (ea_shape _ _ _ _ _ _ _ _ _ H) as (nxt & Hsh & _). inversion Hsh; subst; auto.
  match goal with H : ending _ _ _ _ _ _ _ true _ |- _ => inversion H; subst; auto end.
Qed.

Lemma events_texts e ps : evs e ps ->
  exists texts, map ev_to_string ps = map Ret texts /\ concat texts = sub t e n /\ e <= n.
Proof.
  induction 1 as [e p H|e p e' p' ps H Hlt Hlink Hr (texts & IH1 & IH2 & IH3)].
  - exists [sub t e n]. cbn. rewrite (evat_text _ _ _ _ H), app_nil_r.
    pose proof (chle _ _ _ (evat_chain _ _ _ _ H)). repeat split; auto. unfold n; lia.
  - exists (sub t e e' :: texts). rewrite map_cons, IH1. cbn. rewrite (evat_text _ _ _ _ H), IH2.
    repeat split; [|lia]. symmetry. apply sub_app; lia.
Qed.

(** The i-th event. *)
Lemma events_nth e ps : evs e ps -> forall texts i p, map ev_to_string ps = map Ret texts ->
  nth_error ps i = Some p ->
  exists ei ei' fin, evat ei p ei' fin /\ ei = e + len (concat (firstn i texts)) /\
    nth_error texts i = Some (sub t ei ei') /\ ei <= ei' <= n /\
    match nth_error ps (S i) with
    | None => fin = true
    | Some p' => fin = false /\ ei < ei' /\ (exists ei'' fin', evat ei' p' ei'' fin') /\
        (lp_has_start p = true -> hd_error (ev_tokens p') = Some (lp_start_tok p))
    end.
Proof.
  induction 1 as [e p0 H|e p0 e' p' ps H Hlt Hlink Hr IH]; intros texts i p Htx Hi.
  - destruct texts as [|x texts]; [discriminate|]. cbn in Htx. injection Htx as Hx Htx.
    destruct i as [|i]; [|destruct i; discriminate]. cbn in Hi. injection Hi as <-.
    pose proof (chle _ _ _ (evat_chain _ _ _ _ H)).
    exists e, n, true. cbn. rewrite (evat_text _ _ _ _ H) in Hx. injection Hx as Hx. subst x.
    split; [exact H|]. split; [unfold len; cbn; lia|]. split; [reflexivity|]. split; [unfold n in *; lia|]. reflexivity.
  - destruct texts as [|x texts]; [discriminate|]. rewrite !map_cons in Htx. injection Htx as Hx Hx'.
    destruct texts as [|x' texts]; [discriminate|]. injection Hx' as Hx'' Htx.
    pose proof (chle _ _ _ (evat_chain _ _ _ _ H)) as Hle.
    rewrite (evat_text _ _ _ _ H) in Hx. injection Hx as Hx. subst x.
    destruct i as [|i].
    + injection Hi as <-. exists e, e', false. cbn [nth_error firstn concat].
      split; [exact H|]. split; [unfold len; cbn; lia|]. split; [reflexivity|]. split; [unfold n; lia|].
      split; [reflexivity|]. split; [exact Hlt|]. split; [|exact Hlink].
      inversion Hr; subst; eauto.
    + destruct (IH (x' :: texts) i p) as (ei & ei' & fin & G1 & G2 & G3 & G4 & G5).
      { cbn. congruence. }
      { exact Hi. }
      exists ei, ei', fin. split; [exact G1|]. split; [|split; [exact G3|split; [exact G4|exact G5]]].
      rewrite G2. cbn [firstn concat]. rewrite len_app, sub_length by (unfold n in *; lia). lia.
Qed.

Lemma events_length e ps : evs e ps -> N.of_nat (length ps) <= n - e + 1.
Proof.
  induction 1 as [e p0 H|e p0 e' p' ps H Hlt Hlink Hr IH]; cbn [length] in *; [lia|].
  pose proof (chle _ _ _ (evat_chain _ _ _ _ H)). unfold n in *. lia.
Qed.

Lemma parse_all_spec calls fuel sfuel bp : idle nsym bp -> enough t calls fuel sfuel ->
  exists ps bp', parse_all calls fuel sfuel c k m t bp = Ret (ps, bp') /\ evs 0 ps /\
    bp_done bp' = true /\ idle nsym bp'.
Proof.
  intros (Hi1 & Hi2) [He1 He2 He3]. destruct Hh as (Hh1 & Hh2).
  destruct (drive_spec c t k m nsym (us_wf _ _ Hus) Hh1 Hh2 (us_ids _ _ Hus) (us_nsym _ _ Hus) (fun p => p) calls fuel sfuel bp)
    as (ps & bp' & H1 & H2 & H3 & H4 & H5); auto.
  { apply Hus. }
  { unfold scan_fuel. lia. }
  exists ps, bp'. rewrite map_id in H1. repeat split; auto.
Qed.

(** Facts used by several properties. *)
Lemma evat_ts e p e' fin : evat e p e' fin ->
  match ev_timestamp p with
  | Some tok => hd_error (ev_tokens p) = Some tok /\ is_timestamp tok
  | None => forall tok, hd_error (ev_tokens p) = Some tok -> ~ is_timestamp tok
  end.
Proof.
  intros H. pose proof (ea_first _ _ _ _ _ _ _ _ _ H) as Hf. destruct (ea_shape _ _ _ _ _ _ _ _ _ H) as (nxt & Hsh & _).
  unfold ev_timestamp. destruct (ob_has_ts (lp_out p)) eqn:Ets.
  - inversion Hsh as [| |ts e0 t0 body E tl e1 f' nx Hfo Hts Hb Hc Hen]; subst.
    unfold ev_tokens. match goal with H : _ = ob_tokens _ |- _ => rewrite <- H; rename H into Htk end.
    assert (Hhd : ob_act (lp_out p) 0 = t0).
    { unfold ob_tokens, ob_first in Htk. rewrite Ets in Htk.
      destruct (N.eq_dec (ob_pos (lp_out p)) 0) as [E0|E0]; [rewrite E0 in Htk; discriminate|].
      unfold indices in Htk. destruct (N.to_nat (ob_pos (lp_out p) - 0)) eqn:En; [lia|].
      cbn [seq map] in Htk. injection Htk as Htk _. rewrite Htk. reflexivity. }
    rewrite Hhd. split; [reflexivity|]. apply Hts. reflexivity.
  - intros tok Htok. unfold ev_tokens in Htok.
    inversion Hsh as [Hx|tok0 Hl Hty Hx|ts e0 t0 body E tl e1 f' nx Hfo Hts Hb Hc Hen]; subst;
      match goal with H : _ = ob_tokens _ |- _ => rewrite <- H in Htok end; cbn in Htok; try discriminate.
    + injection Htok as <-. intros [Hy|Hy]; cbn in Hy; discriminate.
    + injection Htok as <-. intros Hi. assert (false = true) by (apply Hts; exact Hi). discriminate.
Qed.

(** Slots and tokens. *)
Lemma tokens_slots p : ev_tokens p = map (ob_act (lp_out p)) (indices (ob_first (lp_out p)) (ob_pos (lp_out p))).
Proof. reflexivity. Qed.

Lemma map_filter_comm {A B} (f : A -> B) (g : B -> bool) l :
  map f (filter (fun x => g (f x)) l) = filter g (map f l).
Proof. induction l as [|x l IH]; cbn; [reflexivity|]. destruct (g (f x)); cbn; congruence. Qed.

Lemma evat_vars e p e' fin id : evat e p e' fin ->
  ev_variables p id = if id <? nsym then Ret (filter (of_type id) (ev_tokens p)) else UB.
Proof.
  intros H. destruct (ea_occ _ _ _ _ _ _ _ _ _ H) as (Hl & Ho). unfold ev_variables.
  destruct (N.ltb_spec id nsym) as [Hlt|Hge].
  - destruct (nth_error (lp_occ p) (N.to_nat id)) as [l|] eqn:El.
    + f_equal. apply (nth_error_nth _ _ []) in El. rewrite Ho in El. subst l.
      rewrite (map_filter_comm (ob_act (lp_out p)) (has_type id)). reflexivity.
    + apply nth_error_None in El. lia.
  - destruct (nth_error (lp_occ p) (N.to_nat id)) as [l|] eqn:El; [|reflexivity].
    assert (N.to_nat id < length (lp_occ p))%nat by (apply nth_error_Some; congruence). lia.
Qed.

(** C17 *)
Lemma evat_ts_interior e p e' fin : evat e p e' fin -> ev_timestamp p <> None ->
  (forall tok, In tok (tl (ev_tokens p)) -> tok_type tok <> Ret TokenNewlineTimestamp) /\
  (fin = false -> e < e' /\ byte_at t (e' - 1) = Some cNewline /\ lp_has_start p = true /\
     tok_type (lp_start_tok p) = Ret TokenNewlineTimestamp /\ t_start (lp_start_tok p) = e').
Proof.
  intros H Hts. destruct (ea_shape _ _ _ _ _ _ _ _ _ H) as (nxt & Hsh & Hnx).
  unfold ev_timestamp in Hts. destruct (ob_has_ts (lp_out p)) eqn:Ets; [|congruence].
  inversion Hsh as [| |ts e0 t0 body E tl e1 f' nx Hfo Hts' Hb Hc Hen]; subst.
  unfold ev_tokens. match goal with H : _ = ob_tokens _ |- _ => rewrite <- H end.
  pose proof (chle _ _ _ Hc) as Hle. cbn [List.tl]. split.
  - intros tok Hin. apply in_app_iff in Hin as [Hin|Hin].
    + rewrite Forall_forall in Hb. apply (Hb _ Hin).
    + inversion Hen; subst; cbn in Hin; [contradiction|discriminate|destruct Hin as [<-|[]]; cbn; discriminate].
  - intros ->. inversion Hen; subst; [discriminate|]. cbn in Hnx. destruct Hnx as (Hs & Hst).
    match goal with H : t_start tok < t_end tok |- _ => rename H into Hlt end.
    match goal with H : lexed _ _ _ tok |- _ => rename H into Hlx end.
    rewrite (sknl _ Hlx Hlt) in Hst. rewrite Hst.
    split; [lia|]. split; [replace (t_start tok + 1 - 1) with (t_start tok) by lia; assumption|].
    split; [exact Hs|]. split; [assumption|reflexivity].
Qed.

(** Which token covers a position. *)
Lemma chain_cover a toks e i : chain t k a toks e -> a <= i < e ->
  exists tok, In tok toks /\ t_start tok <= i < t_end tok.
Proof.
  induction 1 as [a Ha|tok toks e Hs H1 H2 Hc IH]; intros Hi; [lia|].
  destruct (N.lt_ge_cases i (t_end tok)).
  - exists tok. split; [left; reflexivity|lia].
  - destruct IH as (tok' & Hin & Hr); [lia|]. exists tok'. split; [right; exact Hin|exact Hr].
Qed.

(** C21, soundness *)
Lemma evat_multi_sound e p e' fin : evat e p e' fin -> ev_multiline p = true ->
  ev_timestamp p <> None /\ exists i, e <= i /\ i + 1 < e' /\ byte_at t i = Some cNewline.
Proof.
  intros H Hm. apply (ea_multi _ _ _ _ _ _ _ _ _ H) in Hm. destruct Hm as (Hts & i & Hi1 & Hi2 & Hi3).
  pose proof (evat_ts_interior _ _ _ _ H) as Hint.
  unfold ev_timestamp in *. rewrite Hts in *. split; [discriminate|].
  destruct (ea_shape _ _ _ _ _ _ _ _ _ H) as (nxt & Hsh & _). rewrite Hts in Hsh.
  pose proof (evat_chain _ _ _ _ H) as Hch.
  rewrite tokens_slots in Hch. unfold ob_first in Hch. rewrite Hts in Hch.
  assert (Hf0 : ob_tokens (lp_out p) = map (ob_act (lp_out p)) (indices 0 (ob_pos (lp_out p)))).
  { unfold ob_tokens, ob_first. rewrite Hts. reflexivity. }
  rewrite Hf0 in Hsh.
  assert (Hsplit : indices 0 (ob_pos (lp_out p)) = indices 0 i ++ i :: indices (i + 1) (ob_pos (lp_out p))).
  { assert (Hg : forall a b d, a <= b -> b <= d -> indices a d = indices a b ++ indices b d).
    { intros a b d Hab Hbd. unfold indices.
      replace (N.to_nat (d - a)) with (N.to_nat (b - a) + N.to_nat (d - b))%nat by lia.
      rewrite seq_app, map_app. f_equal. cbn [plus].
      replace (N.to_nat (b - a)) with (N.to_nat (b - a) + 0)%nat at 1 by lia.
      rewrite <- (map_id (seq 0 (N.to_nat (d - b)))) at 1.
      generalize (N.to_nat (d - b)) as cnt. intros cnt.
      assert (Hs : forall s, map (fun i0 => a + N.of_nat i0) (seq (N.to_nat (b - a) + s) cnt) =
                             map (fun i0 => b + N.of_nat i0) (seq s cnt)).
      { induction cnt as [|cnt IHc]; intros s; [reflexivity|]. cbn [seq map]. f_equal; [lia|].
        replace (S (N.to_nat (b - a) + s)) with (N.to_nat (b - a) + S s)%nat by lia. apply IHc. }
      rewrite map_id. apply Hs. }
    rewrite (Hg 0 i) by lia. f_equal. rewrite (Hg i (i + 1)) by lia.
    rewrite indices_snoc, indices_nil by lia. reflexivity. }
  rewrite Hsplit, map_app in Hch. cbn [map] in Hch.
  assert (Hmid : forall a l1 tok l2 e, chain t k a (l1 ++ tok :: l2) e ->
            a <= t_start tok /\ t_start tok <= t_end tok /\ chain t k (t_end tok) l2 e).
  { clear. intros a l1. revert a. induction l1 as [|x l1 IH]; intros a tok l2 e Hc; cbn in Hc; inversion Hc; subst.
    - repeat split; auto; lia.
    - match goal with H : chain _ _ _ (l1 ++ _) _ |- _ => apply IH in H; rename H into H5 end. destruct H5 as (Hx1 & Hx2 & Hx3). repeat split; auto. lia. }
  destruct (Hmid _ _ _ _ _ Hch) as (G1 & G2 & G3).
  (* the token itself and the one after it are not empty *)
  rewrite Hsplit, map_app in Hsh. cbn [map] in Hsh.
  inversion Hsh as [Hx|tok0 Hl Hty Hx|ts e0 t0 body E tl e1 f' nx Hfo Hts' Hb Hc Hen]; subst.
  assert (Hall : Forall (fun tok => t_start tok < t_end tok) (body ++ tl)).
  { apply Forall_app. split.
    - eapply Forall_impl; [|exact Hb]. intros tok (_ & Hlt & _). exact Hlt.
    - inversion Hen; subst; constructor; auto. cbn. lia. }
  assert (Hin : forall tok, In tok (ob_act (lp_out p) i :: map (ob_act (lp_out p)) (indices (i + 1) (ob_pos (lp_out p)))) ->
                 In tok (body ++ tl)).
  { intros tok Hin. destruct (indices 0 i) as [|x l] eqn:E0.
    { exfalso. assert (length (indices 0 i) = 0)%nat by (rewrite E0; reflexivity). match goal with H : length (indices 0 i) = 0%nat |- _ => rewrite indices_length in H; lia end. }
    match goal with H : t0 :: body ++ tl = _ |- _ => cbn in H; injection H as _ H; rewrite H end.
    apply in_app_iff. right. exact Hin. }
  rewrite Forall_forall in Hall.
  assert (Hlt1 : t_start (ob_act (lp_out p) i) < t_end (ob_act (lp_out p) i)) by (apply Hall, Hin; left; reflexivity).
  exists (t_start (ob_act (lp_out p) i)). split; [exact G1|].
  pose proof (chle _ _ _ G3) as Hle3.
  assert (Hlt2 : t_end (ob_act (lp_out p) i) < e').
  { destruct (indices (i + 1) (ob_pos (lp_out p))) as [|j l] eqn:Ej.
    - exfalso. assert (length (indices (i + 1) (ob_pos (lp_out p))) = 0)%nat by (rewrite Ej; reflexivity).
      match goal with H : length (indices (i + 1) _) = 0%nat |- _ => rewrite indices_length in H; lia end.
    - cbn in G3. inversion G3; subst. match goal with H : chain _ _ (t_end (ob_act _ j)) _ _ |- _ => pose proof (chle _ _ _ H) end.
      assert (t_start (ob_act (lp_out p) j) < t_end (ob_act (lp_out p) j)); [|lia].
      apply Hall, Hin. right. left. reflexivity. }
  split; [lia|]. unfold starts_nl in Hi3. destruct Hh as (Hh1 & _). rewrite Hh1 in Hi3 by (unfold n in *; lia).
  destruct (byte_at t (t_start (ob_act (lp_out p) i))) as [y|]; [|discriminate].
  apply N.eqb_eq in Hi3. subst y. reflexivity.
Qed.

(** ** Where newlines can be *)
Section Newlines.
Hypothesis Hnf : newline_free c.
Hypothesis Hnosof : ~ In cCharStartOfFile t.

Lemma byte_not_sof i : byte_at t i <> Some cCharStartOfFile.
Proof. intros Hb. apply Hnosof. eapply nth_error_In. exact Hb. Qed.

Lemma in_sub a b p x : a <= p < b -> b <= n -> byte_at t p = Some x -> In x (sub t a b).
Proof.
  intros Hp Hb Hx. apply (nth_error_In _ (N.to_nat (p - a))).
  change (byte_at (sub t a b) (p - a) = Some x). rewrite byte_at_sub by lia. rewrite <- Hx. f_equal. lia.
Qed.

(** A lexed token that is not a timestamp has a newline at most as its first byte. *)
Lemma lexed_newline tok p : lexed c t k tok -> ~ is_timestamp tok ->
  t_start tok <= p < t_end tok -> byte_at t p = Some cNewline ->
  p = t_start tok /\ (tok_type tok = Ret TokenNewline -> t_end tok = t_start tok + 1).
Proof.
  intros Hl Hnt Hp Hb.
  destruct (lexed_cases _ _ _ _ Hl) as (H1 & H2 & H3 & H4 & [(ids & Hi & Hvt)|(Hi & Hlt & Hnn)]).
  2: { exfalso. apply (Hnn (nf_delim _ Hnf) p Hp Hb). }
  destruct (vt_state _ _ _ _ _ _ Hvt) as (q & Hst & Hrep & _).
  destruct ids as [|i ids]; [exfalso; apply (vt_ids _ _ _ _ _ _ Hvt); reflexivity|].
  assert (Hty : tok_type tok = Ret i) by (unfold tok_type; rewrite Hi; reflexivity).
  assert (Hi1 : i <> TokenFirstTimestamp) by (intros ->; apply Hnt; left; exact Hty).
  assert (Hi2 : i <> TokenNewlineTimestamp) by (intros ->; apply Hnt; right; exact Hty).
  destruct Hst as [->|[Hs0 Hq]].
  - assert (Hin : In i (reported (c_dfa c) d_root (sub t (t_start tok) (t_end tok)))) by (rewrite Hrep; left; reflexivity).
    pose proof (nf_var _ Hnf _ _ Hin Hi1 Hi2) as Hno.
    destruct (byte_at_some t (t_start tok)) as [x Hx]; [lia|].
    rewrite (sub_cons t _ _ x Hx) in Hno by lia. cbn [List.tl] in Hno.
    assert (Hps : p = t_start tok).
    { destruct (N.eq_dec p (t_start tok)); [assumption|]. exfalso. apply Hno. apply (in_sub _ _ p); auto. lia. }
    split; [exact Hps|]. intros Hnl. rewrite Hty in Hnl. injection Hnl as ->.
    apply (nf_newline _ Hnf) in Hin. assert (len (sub t (t_start tok) (t_end tok)) = 1) by (rewrite Hin; reflexivity).
    rewrite sub_length in H by lia. lia.
  - exfalso. assert (Hin : In i (reported (c_dfa c) d_root (cCharStartOfFile :: sub t (t_start tok) (t_end tok)))).
    { unfold reported. cbn [run]. rewrite Hq. fold (reported (c_dfa c) q (sub t (t_start tok) (t_end tok))).
      rewrite Hrep. left; reflexivity. }
    apply (nf_var _ Hnf _ _ Hin Hi1 Hi2). cbn [List.tl]. apply (in_sub _ _ p); auto.
Qed.

(** The first timestamp is only found at the start of the file. *)
Lemma body_not_first tok a t0 body' E : lexed c t k tok -> t_start tok < t_end tok ->
  first_ok c t k a t0 -> chain t k a (t0 :: body') E -> In tok body' ->
  (exists E', chain t k (t_end t0) body' E' ) ->
  tok_type tok <> Ret TokenFirstTimestamp.
Proof.
  intros Hl Hlt Hfo Hc Hin _ Hty.
  destruct (lexed_cases _ _ _ _ Hl) as (H1 & H2 & H3 & H4 & [(ids & Hi & Hvt)|(Hi & _)]);
    unfold tok_type in Hty; rewrite Hi in Hty; [|discriminate].
  destruct ids as [|i ids]; [discriminate|]. injection Hty as ->.
  destruct (vt_state _ _ _ _ _ _ Hvt) as (q & Hst & Hrep & _).
  destruct Hst as [->|[Hs0 Hq]].
  - destruct (nf_first _ Hnf (sub t (t_start tok) (t_end tok))) as (w' & Hw); [rewrite Hrep; left; reflexivity|].
    destruct (byte_at_some t (t_start tok)) as [x Hx]; [lia|].
    rewrite (sub_cons t _ _ x Hx) in Hw by lia. injection Hw as -> _. apply (byte_not_sof _ Hx).
  - (* the first token would be empty *)
    assert (Hle : t_end t0 <= t_start tok).
    { inversion Hc as [|t1 b1 e1 _ _ _ Hc1]; subst. clear -Hc1 Hin.
      remember (t_end t0) as a1 eqn:E0. clear E0. revert Hin.
      induction Hc1 as [a Ha|x toks e Hs Hx1 Hx2 Hc IH]; intros Hin; [contradiction|].
      destruct Hin as [->|Hin]; [lia|]. specialize (IH Hin). lia. }
    assert (Ht0 : t_start t0 = a /\ t_start t0 <= t_end t0) by (inversion Hc; subst; auto).
    destruct Ht0 as (Ht0 & Ht0').
    destruct Hfo as [Hl0 Hs|tok0 Hl0 _ Hb0 He0 ->]; [|lia].
    destruct (lexed_cases _ _ _ _ Hl0) as (G1 & G2 & G3 & G4 & [(ids0 & Gi & Gvt)|(Gi & Glt & _)]); [|lia].
    destruct (vt_state _ _ _ _ _ _ Gvt) as (q0 & Gst & Grep & _).
    assert (Hz : t_end t0 = 0 /\ t_start t0 = 0) by lia. destruct Hz as (Hz1 & Hz2).
    rewrite Hz1, Hz2, sub_nil in Grep. unfold reported in Grep. cbn [run] in Grep.
    apply (vt_ids _ _ _ _ _ _ Gvt). rewrite <- Grep.
    destruct Gst as [->|[_ Gq]]; [apply (wf_root _ (us_wf _ _ Hus))|].
    pose proof (nf_sof _ Hnf) as Hsof. unfold reported in Hsof. cbn [run] in Hsof. rewrite Gq in Hsof. exact Hsof.
Qed.

Lemma evat_nots_newline e p e' fin i : evat e p e' fin -> ev_timestamp p = None ->
  e <= i < e' -> byte_at t i = Some cNewline -> i = e \/ i + 1 = e'.
Proof.
  intros H Hts Hi Hb. pose proof (evat_ts _ _ _ _ H) as Hnt. rewrite Hts in Hnt.
  destruct (ea_shape _ _ _ _ _ _ _ _ _ H) as (nxt & Hsh & Hnx).
  unfold ev_timestamp in Hts. destruct (ob_has_ts (lp_out p)) eqn:Ets; [discriminate|].
  destruct (chain_cover _ _ _ i (evat_chain _ _ _ _ H) Hi) as (tok & Hin & Hr).
  unfold ev_tokens in *.
  inversion Hsh as [Hx|tok0 Hl Hty Hx|ts e0 t0 body E tl e1 f' nx Hfo Hts' Hbd Hc Hen]; subst;
    match goal with H : _ = ob_tokens _ |- _ => rewrite <- H in Hin, Hnt end.
  - contradiction.
  - lia.
  - destruct Hin as [<-|Hin].
    + left. specialize (Hnt t0 eq_refl). destruct Hfo as [Hl Hs|tok0 Hl _ Hb0 He0 ->].
      * destruct (lexed_newline t0 i Hl Hnt Hr Hb). lia.
      * exfalso. assert (Hlt0 : t_start tok0 < t_end tok0).
        { cbn in Hr. lia. }
        rewrite (sknl _ Hl Hlt0) in Hr, Hnt. cbn in Hr.
        destruct (lexed_newline tok0 i Hl) as (Hq & _); auto; lia.
    + right. apply in_app_iff in Hin as [Hin|Hin].
      * exfalso. rewrite Forall_forall in Hbd. destruct (Hbd _ Hin) as (Hl & Hlt & Hn1 & Hn2).
        destruct (lexed_newline tok i Hl) as (-> & _); auto.
        intros [Hf|Hf].
        -- revert Hf. eapply body_not_first; eauto. inversion Hc; subst; eauto.
        -- pose proof (lexed_nt c t k m nsym (us_wf _ _ Hus) (proj1 Hh) (us_ids _ _ Hus) (us_nsym _ _ Hus) tok Hl Hf). tauto.
      * inversion Hen; subst; cbn in Hin; [contradiction| |].
        -- destruct Hin as [<-|[]].
           match goal with H : ty_is _ TokenNewline |- _ => rename H into Hty end.
           match goal with H : lexed _ _ _ _ |- _ => rename H into Hl end.
           destruct (lexed_newline _ i Hl) as (-> & He); auto.
           { intros [Hf|Hf]; unfold ty_is in Hty; rewrite Hty in Hf; discriminate. }
           rewrite He; auto.
        -- destruct Hin as [<-|[]]. cbn in Hr. lia.
Qed.

Lemma evat_multi_complete e p e' i ts : evat e p e' false -> ev_timestamp p = Some ts ->
  (forall j, t_start ts <= j < t_end ts -> byte_at t j <> Some cNewline) ->
  e <= i -> i + 1 < e' -> byte_at t i = Some cNewline -> ev_multiline p = true.
Proof.
  intros H Hts Htn Hi1 Hi2 Hb. pose proof (evat_ts _ _ _ _ H) as Hit. rewrite Hts in Hit. destruct Hit as (Hhd & Hist).
  destruct (ea_shape _ _ _ _ _ _ _ _ _ H) as (nxt & Hsh & Hnx).
  unfold ev_timestamp in Hts. destruct (ob_has_ts (lp_out p)) eqn:Ets; [|discriminate].
  destruct (chain_cover _ _ _ i (evat_chain _ _ _ _ H)) as (tok & Hin & Hr); [lia|].
  apply (ea_multi _ _ _ _ _ _ _ _ _ H). split; [exact Ets|].
  assert (Hslots : ob_tokens (lp_out p) = map (ob_act (lp_out p)) (indices 0 (ob_pos (lp_out p)))).
  { unfold ob_tokens, ob_first. rewrite Ets. reflexivity. }
  unfold ev_tokens in *.
  inversion Hsh as [Hx|tok0 Hl Hty Hx|ts0 e0 t0 body E tl e1 f' nx Hfo Hts' Hbd Hc Hen]; subst.
  match goal with H : _ = ob_tokens _ |- _ => rewrite <- H in Hin, Hhd, Hslots end.
  cbn in Hhd. injection Hhd as Hhd.
  destruct Hin as [<-|Hin]; [exfalso; rewrite Hhd in Hr; exact (Htn i Hr Hb)|].
  apply in_app_iff in Hin as [Hin|Hin].
  - rewrite Forall_forall in Hbd. destruct (Hbd _ Hin) as (Hl & Hlt & Hn1).
    destruct (lexed_newline tok i Hl) as (Hst & _); auto.
    { intros [Hf|Hf].
      - revert Hf. eapply body_not_first; eauto. inversion Hc; subst; eauto.
      - contradiction. }
    assert (Htl : exists x, tl = [x]).
    { inversion Hen; subst; eauto. }
    destruct Htl as (x & ->).
    apply in_split in Hin as (l1 & l2 & ->).
    exists (N.of_nat (S (length l1))).
    assert (Hlen : length (t0 :: (l1 ++ tok :: l2) ++ [x]) = N.to_nat (ob_pos (lp_out p))).
    { rewrite Hslots, map_length, indices_length. lia. }
    cbn [length] in Hlen. rewrite !app_length in Hlen. cbn [length] in Hlen.
    split; [lia|]. split; [lia|].
    assert (Hact : ob_act (lp_out p) (N.of_nat (S (length l1))) = tok).
    { assert (Hn : nth_error (t0 :: (l1 ++ tok :: l2) ++ [x]) (S (length l1)) = Some tok).
      { cbn [nth_error]. rewrite <- app_assoc. rewrite nth_error_app2 by lia. rewrite Nat.sub_diag. reflexivity. }
      rewrite Hslots in Hn. rewrite nth_error_map in Hn. unfold indices in Hn. rewrite nth_error_map in Hn.
      rewrite (nth_error_nth' _ 0%nat) in Hn by (rewrite seq_length; lia).
      rewrite seq_nth in Hn by lia. cbn [option_map] in Hn. injection Hn as Hn. rewrite <- Hn. f_equal. }
    rewrite Hact. unfold starts_nl. rewrite (proj1 Hh) by (apply byte_at_lt in Hb; lia).
    rewrite <- Hst, Hb. reflexivity.
  - exfalso. inversion Hen; subst; cbn in Hin; try contradiction; [discriminate|].
    destruct Hin as [<-|[]]. cbn in Hr. lia.
Qed.
End Newlines.

(** ** Logtype *)
Lemma evat_logtype e p e' fin name : evat e p e' fin -> (forall i, i < nsym -> name i <> None) ->
  exists parts, Forall2 (render (ib_heap (lp_in p)) name) (logtype_tokens p) parts /\
    ev_logtype name p = Ret (concat parts).
Proof.
  intros H Hname. pose proof (ea_heap _ _ _ _ _ _ _ _ _ H) as Hhp.
  destruct (ea_shape _ _ _ _ _ _ _ _ _ H) as (nxt & Hsh & Hnx).
  pose proof (shape_ev c t k m nsym (us_wf _ _ Hus) (proj1 Hh) (us_ids _ _ Hus) (us_nsym _ _ Hus) _ _ _ _ _ _ Hsh) as Hev.
  pose proof (evat_chain _ _ _ _ H) as Hch. pose proof (ea_first _ _ _ _ _ _ _ _ _ H) as Hf.
  unfold ev_logtype. set (h := ib_heap (lp_in p)) in *.
  assert (Hlt : exists pre, ev_tokens p = pre ++ logtype_tokens p).
  { unfold logtype_tokens. destruct (ev_timestamp p); [|exists []; reflexivity].
    destruct (ev_tokens p) as [|x l]; [exists []; reflexivity|exists [x]; reflexivity]. }
  assert (Hsl : map (ob_act (lp_out p)) (indices 1 (ob_pos (lp_out p))) = logtype_tokens p).
  { unfold logtype_tokens, ev_timestamp, ev_tokens, ob_tokens, ob_first.
    destruct (ob_has_ts (lp_out p)) eqn:Ets; [|reflexivity].
    unfold indices. replace (N.to_nat (ob_pos (lp_out p) - 1)) with (Nat.pred (N.to_nat (ob_pos (lp_out p) - 0))) by lia.
    destruct (N.to_nat (ob_pos (lp_out p) - 0)) as [|cnt]; [reflexivity|]. cbn [Nat.pred seq map List.tl].
    rewrite <- seq_shift, !map_map. apply map_ext. intros. f_equal. lia. }
  rewrite Hsl. destruct Hlt as (pre & Hpre).
  assert (Hall : Forall (fun tok => ev_tok t k nsym tok /\ exists s, tok_text h tok = Ret s) (logtype_tokens p)).
  { unfold ev_tokens in *. rewrite Hpre in Hev, Hch. apply Forall_app in Hev as [_ Hev].
    assert (Hch' : exists a, chain t k a (logtype_tokens p) e').
    { clear -Hch. revert e Hch. induction pre as [|x pre IH]; intros e Hch; [eauto|].
      cbn in Hch. inversion Hch; subst. eauto. }
    destruct Hch' as (a & Hch').
    apply Forall_forall. intros tok Hin. rewrite Forall_forall in Hev. split; [apply Hev; exact Hin|].
    clear -Hch' Hin Hh Hhp Hus. induction Hch' as [|x toks e Hs H1 H2 Hc IH]; [contradiction|].
    destruct Hin as [->|Hin]; [|auto].
    eexists. apply (tok_text_sub c t k m nsym (proj1 Hh) (us_ids _ _ Hus) (us_nsym _ _ Hus)); auto. }
  clear Hpre Hsl. induction Hall as [|tok toks ((Hs & Hst & ty & Hty & Hlt & _) & s & Htx) Hall (parts & IH1 & IH2)].
  - exists []. split; constructor.
  - cbn [logtype_loop]. rewrite Hty. cbn [bind].
    destruct (N.eqb_spec ty TokenUncaughtString) as [->|Hnu].
    + rewrite Htx. cbn [bind]. rewrite IH2. cbn [bind]. exists (s :: parts). split; [|reflexivity].
      constructor; [|exact IH1]. exists TokenUncaughtString. split; [exact Hty|]. exact Htx.
    + destruct (name ty) as [nm|] eqn:En; [|exfalso; exact (Hname ty Hlt En)].
      destruct (N.eqb_spec ty TokenNewline) as [->|Hnn]; cbn [bind].
      * rewrite IH2. cbn [bind]. eexists (_ :: parts). split; [|reflexivity]. constructor; [|exact IH1].
        exists TokenNewline. split; [exact Hty|]. cbn. exists nm. split; [exact En|reflexivity].
      * assert (Hd : exists d, tok_delimiter h tok = Ret d).
        { unfold tok_delimiter. rewrite Hs, Hhp.
          destruct (m_read c t k m nsym (proj1 Hh) (proj2 Hh) (us_ids _ _ Hus) (us_nsym _ _ Hus) (t_start tok) Hst) as (x & Hx). rewrite Hx. eauto. }
        destruct Hd as (d & Hd). rewrite Hd. cbn [bind]. rewrite IH2. cbn [bind].
        eexists (_ :: parts). split; [|reflexivity]. constructor; [|exact IH1].
        exists ty. split; [exact Hty|]. apply N.eqb_neq in Hnu. rewrite Hnu. exists nm. split; [exact En|].
        apply N.eqb_neq in Hnn. rewrite Hnn. exists d. split; [exact Hd|reflexivity].
Qed.

Lemma evat_logtype_static e p e' fin name : evat e p e' fin -> (forall i, i < nsym -> name i <> None) ->
  (forall tok, In tok (ev_tokens p) -> tok_type tok = Ret TokenUncaughtString) ->
  ev_logtype name p = ev_to_string p.
Proof.
  intros H Hname Hst. destruct (evat_logtype _ _ _ _ _ H Hname) as (parts & Hf & ->).
  pose proof (evat_ts _ _ _ _ H) as Hts. unfold logtype_tokens in Hf. unfold ev_to_string. fold (ev_tokens p).
  destruct (ev_timestamp p) as [ts|].
  { exfalso. destruct Hts as (Hhd & His). destruct (ev_tokens p) as [|x l]; [discriminate|].
    injection Hhd as ->. specialize (Hst ts (or_introl eq_refl)). unfold is_timestamp in His.
    rewrite Hst in His. destruct His; discriminate. }
  clear Hts. induction Hf as [|tok s toks parts Hr Hf IH]; [reflexivity|].
  cbn [map concat_out concat]. destruct Hr as (ty & Hty & Hr). rewrite (Hst tok) in Hty by (left; reflexivity).
  injection Hty as <-. cbn in Hr. rewrite Hr. cbn [bind].
  rewrite <- IH by (intros; apply Hst; right; assumption). reflexivity.
Qed.
End Ev.
