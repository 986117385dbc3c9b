(** FuelMono.v -- the loop bounds of the model: a bound that is large enough gives the result of every larger one. *)
From Verif Require Import Base LexerModel LogParserModel RingModel.

(** [x] ran out of fuel, or agrees with [y]. *)
Definition below {A} (x y : out A) : Prop := x = OutOfFuel \/ x = y.
Lemma below_refl {A} (x : out A) : below x x. Proof. right. reflexivity. Qed.
Lemma below_oof {A} (y : out A) : below OutOfFuel y. Proof. left. reflexivity. Qed.
Lemma below_bind {A B} (x y : out A) (f g : A -> out B) : below x y -> (forall a, below (f a) (g a)) -> below (bind x f) (bind y g).
Proof.
  intros [-> | ->] H; [left; reflexivity|]. destruct y; cbn; [apply H|right; reflexivity ..].
Qed.
Lemma below_trans {A} (x y z : out A) : below x y -> below y z -> below x z.
Proof. intros [-> | ->] H; [left; reflexivity|exact H]. Qed.
#[export] Hint Resolve below_refl below_oof : core.

Lemma skip_below : forall f f' c ch prev b, (f <= f')%nat -> below (skip_loop f c ch prev b) (skip_loop f' c ch prev b).
Proof.
  induction f as [|f IH]; intros f' c ch prev b H; [apply below_oof|]. destruct f' as [|f']; [lia|]. cbn [skip_loop].
  destruct (negb (ib_full b) && (negb (c_first c ch) || negb (c_delim c ch))); [|apply below_refl].
  destruct (get_next_character b) as [[(ch', b')|]| | |]; try apply below_refl. apply IH. lia.
Qed.
Lemma scan_loop_below : forall f f' c q l b, (f <= f')%nat -> below (scan_loop f c q l b) (scan_loop f' c q l b).
Proof.
  induction f as [|f IH]; intros f' c q l b H; [apply below_oof|]. destruct f' as [|f']; [lia|]. cbn [scan_loop].
  destruct (get_next_character b) as [[(ch, b1)|]| | |]; try apply below_refl.
  apply below_bind; [apply below_refl|]. intros (next2, l3).
  assert (below
    (if l_match l3 then
          let b2 := ib_set_pos (ib_set_full b1 false) (l_match_pos l3) in
          let l4 := lex_restore_line l3 in
          if negb (l_last_match_pos l4 =? l_start_pos l4) then
            Ret (Some (mk_tok b2 (l_last_match_pos l4) (l_start_pos l4) (l_last_match_line l4)
                              cTokenUncaughtStringTypes), l4, b2)
          else
            Ret (Some (mk_tok b2 (l_start_pos l4) (l_match_pos l4) (l_match_line l4) (l_ids l4)),
                 lex_take l4, b2)
        else if (ib_full b1) && (l_start_pos l3 =? ib_pos b1) then
          if negb (l_last_match_pos l3 =? l_start_pos l3) then
            Ret (Some (mk_tok b1 (l_last_match_pos l3) (l_start_pos l3) (l_last_match_line l3)
                              cTokenUncaughtStringTypes), lex_end l3 (ib_pos b1), b1)
          else
            Ret (Some (mk_tok b1 (ib_pos b1) (ib_pos b1) (l_line l3) cTokenEndTypes), l3, b1)
        else
          match skip_loop f c ch (ib_pos b) b1 with
          | UB => UB | Throw => Throw | OutOfFuel => OutOfFuel
          | Ret (None, b2) => Ret (None, lex_ask l3 q, b2)
          | Ret (Some prev', b2) =>
            scan_loop f c d_root (lex_set_start l3 prev') (ib_set_pos b2 prev')
          end)
    (if l_match l3 then
          let b2 := ib_set_pos (ib_set_full b1 false) (l_match_pos l3) in
          let l4 := lex_restore_line l3 in
          if negb (l_last_match_pos l4 =? l_start_pos l4) then
            Ret (Some (mk_tok b2 (l_last_match_pos l4) (l_start_pos l4) (l_last_match_line l4)
                              cTokenUncaughtStringTypes), l4, b2)
          else
            Ret (Some (mk_tok b2 (l_start_pos l4) (l_match_pos l4) (l_match_line l4) (l_ids l4)),
                 lex_take l4, b2)
        else if (ib_full b1) && (l_start_pos l3 =? ib_pos b1) then
          if negb (l_last_match_pos l3 =? l_start_pos l3) then
            Ret (Some (mk_tok b1 (l_last_match_pos l3) (l_start_pos l3) (l_last_match_line l3)
                              cTokenUncaughtStringTypes), lex_end l3 (ib_pos b1), b1)
          else
            Ret (Some (mk_tok b1 (ib_pos b1) (ib_pos b1) (l_line l3) cTokenEndTypes), l3, b1)
        else
          match skip_loop f' c ch (ib_pos b) b1 with
          | UB => UB | Throw => Throw | OutOfFuel => OutOfFuel
          | Ret (None, b2) => Ret (None, lex_ask l3 q, b2)
          | Ret (Some prev', b2) =>
            scan_loop f' c d_root (lex_set_start l3 prev') (ib_set_pos b2 prev')
          end)) as K.
  { destruct (l_match l3); [apply below_refl|].
    destruct (ib_full b1 && (l_start_pos l3 =? ib_pos b1)); [apply below_refl|].
    destruct (skip_below f f' c ch (ib_pos b) b1 ltac:(lia)) as [-> | ->]; [apply below_oof|].
    destruct (skip_loop f' c ch (ib_pos b) b1) as [([prev'|], b2)| | |]; try apply below_refl. apply IH. lia. }
  destruct (ib_full b1); [exact K|]. destruct next2; [apply IH; lia|exact K].
Qed.
Lemma scan_below : forall f f' c l b, (f <= f')%nat -> below (scan f c l b) (scan f' c l b).
Proof.
  intros f f' c l b H. unfold scan. destruct (l_asked l).
  - destruct (l_prev l); [apply scan_loop_below; exact H|apply below_refl].
  - destruct (l_match l); [apply below_refl|apply scan_loop_below; exact H].
Qed.
Lemma next_symbol_below : forall f f' c p, (f <= f')%nat -> below (get_next_symbol f c p) (get_next_symbol f' c p).
Proof.
  intros f f' c p H. unfold get_next_symbol. apply below_bind; [apply scan_below; exact H|]. intros ((ot, l), b). apply below_refl.
Qed.
Lemma parse_loop_below : forall f f' s s' c p, (f <= f')%nat -> (s <= s')%nat -> below (parse_loop f s c p) (parse_loop f' s' c p).
Proof.
  induction f as [|f IH]; intros f' s s' c p Hf Hs; [apply below_oof|]. destruct f' as [|f']; [lia|]. cbn [parse_loop].
  apply below_bind; [apply next_symbol_below; exact Hs|]. intros ([tok|], p1); [|apply below_refl].
  apply below_bind; [apply below_refl|]. intros ty.
  apply below_bind; [apply below_refl|]. intros found.
  destruct (ty =? TokenEnd); [apply below_refl|].
  destruct (negb (ob_has_ts (lp_out (lp_set_out p1 (ob_set_curr (lp_out p1) tok)))) && (ty =? TokenNewline)); [apply below_refl|].
  destruct found; [apply below_refl|]. apply IH; lia.
Qed.
Lemma parse_below : forall f f' s s' c p, (f <= f')%nat -> (s <= s')%nat -> below (parse f s c p) (parse f' s' c p).
Proof.
  intros f f' s s' c p Hf Hs.
  assert (forall p tok, below (parse_first f s c p tok) (parse_first f' s' c p tok)) as K.
  { intros p0 tok. unfold parse_first. apply below_bind; [apply below_refl|]. intros ty.
    destruct (ty =? TokenEnd); [apply below_refl|]. apply parse_loop_below; assumption. }
  unfold parse. destruct (ob_pos (lp_out p) =? 0); [|apply parse_loop_below; assumption].
  destruct (lp_has_start (lp_set_out p (ob_set_delims (lp_out p) (c_has_delims c)))); [apply K|].
  apply below_bind; [apply next_symbol_below; exact Hs|]. intros ([tok|], p2); [|apply below_refl].
  destruct (ob_has_ts (lp_out p2)); [apply K|]. apply below_bind; [apply below_refl|]. intros ty.
  destruct (ty =? TokenNewlineTimestamp); [apply below_refl|apply K].
Qed.
Lemma parse_meta_below : forall f f' s s' c p, (f <= f')%nat -> (s <= s')%nat ->
  below (parse_and_generate_metadata f s c p) (parse_and_generate_metadata f' s' c p).
Proof.
  intros f f' s s' c p Hf Hs. unfold parse_and_generate_metadata. apply below_bind; [apply parse_below; assumption|].
  intros ([a|], p1); apply below_refl.
Qed.
Lemma rp_loop_below : forall chunk g g' f f' s s' c p d r, (g <= g')%nat -> (f <= f')%nat -> (s <= s')%nat ->
  below (rp_loop chunk g f s c p d r) (rp_loop chunk g' f' s' c p d r).
Proof.
  intros chunk; induction g as [|g IH]; intros g' f f' s s' c p d r Hg Hf Hs; destruct g' as [|g']; try lia; cbn [rp_loop];
    (apply below_bind; [apply parse_meta_below; assumption|]); intros ([a|], p1); auto.
  destruct (lp_read chunk (lp_grow p1) r) as (p2, r'). apply IH; lia.
Qed.
Lemma rp_next_below : forall chunk g g' f f' s s' c rp, (g <= g')%nat -> (f <= f')%nat -> (s <= s')%nat ->
  below (rp_parse_next_event chunk g f s c rp) (rp_parse_next_event chunk g' f' s' c rp).
Proof.
  intros chunk g g' f f' s s' c rp Hg Hf Hs. unfold rp_parse_next_event.
  destruct (lp_read chunk (reset_log_event_view (rp_lp rp)) (rp_rd rp)) as (p1, r1). apply rp_loop_below; assumption.
Qed.
Lemma rp_drive_below : forall chunk A (obs : lparser -> A) n n' g g' f f' s s' c rp,
  (n <= n')%nat -> (g <= g')%nat -> (f <= f')%nat -> (s <= s')%nat ->
  below (rp_drive chunk obs n g f s c rp) (rp_drive chunk obs n' g' f' s' c rp).
Proof.
  intros chunk A obs; induction n as [|n IH]; intros n' g g' f f' s s' c rp Hn Hg Hf Hs; [apply below_oof|].
  destruct n' as [|n']; [lia|]. cbn [rp_drive]. apply below_bind; [apply rp_next_below; assumption|]. intros rp1.
  destruct (rp_done rp1); [apply below_refl|]. apply below_bind; [apply IH; lia|]. intros (l, rp2). apply below_refl.
Qed.
