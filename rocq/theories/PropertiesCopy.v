(** PropertiesCopy.v -- C22: LogEventView::deep_copy. *)
From Verif Require Import Base LexerModel LexerSpec LogParserModel EventSpec CopyModel.
From Verif Require Import LexerProofs LogParserProofs EventProofs CopyProofs PropertiesFeed Toy.

(** C22 (partial): a non-empty event of a BufferParser can be copied. The copy reads only its own buffer. It has the same
    multiline flag, timestamp and variables (texts and type ids; the copies' lines are 0). If the event has a timestamp, the
    copy has the same to_string() and get_logtype(). Without a timestamp, the copy's to_string() lacks the event's first
    token (C22_refuted). *)
Theorem C22_deep_copy_partial : forall c nsym t k m bp calls fuel sfuel ps bp' p s kc name,
  usable c nsym -> holds m t -> idle nsym bp -> enough t calls fuel sfuel ->
  parse_all calls fuel sfuel c k m t bp = Ret (ps, bp') -> In p ps -> ev_to_string p = Ret s -> s <> [] ->
  let hp := ib_heap (lp_in p) in
  exists q, deep_copy kc nsym p = Ret q /\ let hq := ib_heap (lp_in q) in
    (forall sid, sid <> User kc -> forall i, hq sid i = None) /\
    ev_multiline q = ev_multiline p /\
    option_map (seen hq) (ev_timestamp q) = option_map (seen hp) (ev_timestamp p) /\
    (forall id, id < nsym -> exists vq vp, ev_variables q id = Ret vq /\ ev_variables p id = Ret vp /\ map (seen hq) vq = map (seen hp) vp) /\
    (ev_timestamp p <> None -> ev_to_string q = Ret s /\ ev_logtype name q = ev_logtype name p) /\
    (ev_timestamp p = None -> exists tok x s', hd_error (ev_tokens p) = Some tok /\ tok_text hp tok = Ret x /\ ev_to_string q = Ret s' /\ s = x ++ s').
Proof.
  intros c nsym t k m bp calls fuel sfuel ps bp' p s kc name Hus Hh Hi He Hr Hp Hs Hne hp.
  destruct (parse_all_spec c nsym t k m Hus Hh calls fuel sfuel bp Hi He) as (ps0 & bp0 & Hr0 & Hevs & _ & _).
  rewrite Hr in Hr0. injection Hr0 as <- <-.
  destruct (events_texts c nsym t k m Hus Hh 0 ps Hevs) as (texts0 & Htx & _).
  apply In_nth_error in Hp as (j & Hp).
  destruct (events_nth c nsym t k m Hus Hh 0 ps Hevs texts0 j p Htx Hp) as (ei & ei' & fin & Hev & _). clear texts0 Htx.
  pose proof (evat_text c nsym t k m Hus Hh _ _ _ _ Hev) as Hs'. rewrite Hs in Hs'. injection Hs' as Hs'.
  destruct (chain_seen c nsym t k m Hus Hh hp ei (ev_tokens p) ei' (ea_heap _ _ _ _ _ _ _ _ _ Hev) (evat_chain c nsym t k m Hus Hh _ _ _ _ Hev)) as (texts & Ht & Hc).
  rewrite <- Hs' in Hc. destruct (deep_copy_spec kc nsym p texts Ht ltac:(congruence) (evat_types c nsym t k m Hus Hh _ _ _ _ Hev)) as (q & Hq & Q1 & Q2 & Q3 & Q4 & Q5 & Q6).
  set (copies := map (ob_act (lp_out q)) (indices 0 (ob_pos (lp_out q)))) in *. fold hp in Q4.
  exists q. split; [exact Hq|]. intro hq. fold hq in Q3, Q4, Q5.
  split; [exact Q3|]. split; [exact Q2|].
  assert (ev_tokens p <> []) as Hnn by (intro E; rewrite E in Ht; destruct texts; [cbn in Hc; congruence|discriminate]).
  assert (exists x texts', texts = x :: texts') as (x & texts' & ->) by (destruct texts; [destruct (ev_tokens p); [congruence|discriminate]|eauto]).
  destruct (ev_tokens p) as [|tok toks] eqn:Et; [congruence|]. cbn [map] in Ht. injection Ht as Ht0 Ht.
  destruct copies as [|c0 cs] eqn:Ec; [discriminate|]. cbn [map] in Q4. injection Q4 as Z1 Z2 Q4.
  assert (ob_act (lp_out q) 0 = c0 /\ map (ob_act (lp_out q)) (indices 1 (ob_pos (lp_out q))) = cs) as (Ec0 & Ecs).
  { unfold copies in Ec. destruct (N.eq_dec (ob_pos (lp_out q)) 0) as [E|E]; [rewrite E in Ec; discriminate|]. rewrite indices_cons in Ec by lia. cbn [map] in Ec. injection Ec as E1 E2. auto. }
  split.
  { unfold ev_timestamp. rewrite Q1. destruct (ob_has_ts (lp_out p)) eqn:Ets; [|reflexivity]. cbn [option_map]. f_equal. rewrite Ec0. unfold seen. rewrite Z1, Z2.
    unfold ev_tokens, ob_tokens, ob_first in Et. rewrite Ets in Et. destruct (N.eq_dec (ob_pos (lp_out p)) 0) as [E|E]; [rewrite E in Et; discriminate|].
    rewrite indices_cons in Et by lia. cbn [map] in Et. injection Et as -> _. reflexivity. }
  split.
  { intros id Hid. eexists _, _. split; [apply Q6; exact Hid|]. split; [rewrite (evat_vars c nsym t k m _ _ _ _ id Hev); apply N.ltb_lt in Hid; rewrite Hid; reflexivity|].
    rewrite Et. apply seen_filter. cbn [map]. unfold seen at 1 3. rewrite Z1, Z2, Q4. reflexivity. }
  assert (forall l l', map (seen hq) l = map (seen hp) l' -> concat_out (map (tok_text hq) l) = concat_out (map (tok_text hp) l')) as Kc.
  { intros l l' E. f_equal. apply (f_equal (map fst)) in E. rewrite !map_map in E. exact E. }
  split.
  - intros Hts. assert (ob_has_ts (lp_out p) = true) as Ets by (unfold ev_timestamp in Hts; destruct (ob_has_ts (lp_out p)); congruence).
    split.
    + rewrite <- Hs. unfold ev_to_string. fold hq hp. unfold ev_tokens in Et. rewrite Et. unfold ob_tokens, ob_first. rewrite Q1, Ets. fold copies. apply Kc.
      rewrite Ec. cbn [map]. unfold seen at 1 3. rewrite Z1, Z2, Q4. reflexivity.
    + unfold ev_logtype. fold hq hp. rewrite Ecs.
      assert (map (ob_act (lp_out p)) (indices 1 (ob_pos (lp_out p))) = toks) as ->.
      { unfold ev_tokens, ob_tokens, ob_first in Et. rewrite Ets in Et. destruct (N.eq_dec (ob_pos (lp_out p)) 0) as [E|E]; [rewrite E in Et; discriminate|].
        rewrite indices_cons in Et by lia. cbn [map] in Et. injection Et as _ Et. exact Et. }
      apply seen_logtype; [exact Q4|]. inversion Q5 as [|? ? ? ? _ Q5']; subst.
      pose proof (tail_nonempty c nsym t k m _ _ _ _ Hev) as Tn. rewrite Et in Tn. cbn [tl] in Tn. clear -Tn Q5' Ht.
      revert toks Tn Ht. induction Q5' as [|y w l lw H1 H2 IH]; intros [|z toks] Tn Ht; try discriminate; constructor; cbn [map] in Ht; injection Ht as Hz Ht; inversion Tn as [|? ? N1 N2]; subst.
      * assert (w <> [] /\ tok_delimiter hp z = Ret (hd 0 w)) as (W1 & W2).
        { unfold tok_text in Hz. destruct (N.leb_spec (t_start z) (t_end z)); [|lia]. unfold tok_delimiter.
          replace (N.to_nat (t_end z - t_start z)) with (S (N.to_nat (t_end z - t_start z - 1))) in Hz by lia. cbn [read_range] in Hz.
          destruct (hp (t_sid z) (t_start z)) as [b|]; [|discriminate]. apply WindowBound.bind_ret_inv in Hz as (r & _ & Hz). injection Hz as <-. split; [discriminate|reflexivity]. }
        rewrite W2. apply H1. exact W1.
      * apply IH; auto.
  - intros Hts. assert (ob_has_ts (lp_out p) = false) as Ets by (unfold ev_timestamp in Hts; destruct (ob_has_ts (lp_out p)); congruence).
    exists tok, x, (concat texts'). split; [reflexivity|]. split; [exact Ht0|]. split; [|rewrite <- Hc; reflexivity].
    unfold ev_to_string. fold hq. unfold ob_tokens, ob_first. rewrite Q1, Ets, Ecs.
    rewrite (Kc cs toks Q4), Ht. clear. induction texts' as [|y l IH]; [reflexivity|]. cbn. rewrite IH. reflexivity.
Qed.
Print Assumptions C22_deep_copy_partial.

(** C22 (refuted): the event "1 2\n" of a log without timestamps; the copy's to_string() is " 2\n" (the copies are stored from
    slot 0 on, LogEvent.cpp 102-103, but to_string() starts at slot 1, LogEvent.cpp 40-43). *)
Theorem C22_refuted : exists c nsym t k m calls fuel sfuel ps bp' p q kc s,
  usable c nsym /\ newline_free c /\ holds m t /\ idle nsym (bp_init nsym) /\ enough t calls fuel sfuel /\
  parse_all calls fuel sfuel c k m t (bp_init nsym) = Ret (ps, bp') /\ In p ps /\ deep_copy kc nsym p = Ret q /\
  ev_to_string p = Ret (49 :: s) /\ ev_to_string q = Ret s /\ s <> [].
Proof.
  destruct (parse_all_spec toy toy_nsym [49;32;50;10;51] 0 (buf_of [49;32;50;10;51]) toy_usable (buf_of_holds _) 102 102 210 (bp_init toy_nsym) (bp_init_idle _) (enough_100 [49;32;50;10;51] eq_refl))
    as (ps & bp' & P & Ev & _).
  assert (option_map (map (fun p => (ev_to_string p, option_map t_start (ev_timestamp p), option_map (tok_text (ib_heap (lp_in p))) (hd_error (ev_tokens p))))) (first_of (parse_all 102 102 210 toy 0 (buf_of [49;32;50;10;51]) [49;32;50;10;51] (bp_init toy_nsym)))
          = Some [(Ret [49;32;50;10], None, Some (Ret [49])); (Ret [51], None, Some (Ret [51]))]) as K by (vm_compute; reflexivity).
  rewrite P in K. cbn [first_of option_map] in K. injection K as K. destruct ps as [|p ps]; [discriminate|]. cbn [map] in K. injection K as K1 K2 K3 _.
  destruct (C22_deep_copy_partial toy toy_nsym [49;32;50;10;51] 0 _ _ 102 102 210 (p :: ps) bp' p [49;32;50;10] 3 (fun _ => None) toy_usable (buf_of_holds _) (bp_init_idle _)
    (enough_100 [49;32;50;10;51] eq_refl) P (or_introl eq_refl) K1 ltac:(discriminate)) as (q & Q & _ & _ & _ & _ & _ & H).
  destruct H as (tok & x & s' & H1 & H2 & H3 & H4).
  { destruct (ev_timestamp p); [discriminate|reflexivity]. }
  rewrite H1 in K3. cbn [option_map] in K3. rewrite H2 in K3. injection K3 as ->. injection H4 as <-.
  exists toy, toy_nsym, [49;32;50;10;51], 0%nat, (buf_of [49;32;50;10;51]), 102%nat, 102%nat, 210%nat, (p :: ps), bp', p, q, 3%nat, [32;50;10].
  split; [apply toy_usable|]. split; [apply toy_newline_free|]. split; [apply buf_of_holds|]. split; [apply bp_init_idle|]. split; [apply enough_100; reflexivity|].
  split; [exact P|]. split; [left; reflexivity|]. split; [exact Q|]. split; [exact K1|]. split; [exact H3|]. discriminate.
Qed.
Print Assumptions C22_refuted.

(** The copy of the first event of "T 1\n2 x\nT 3": same text, timestamp, multiline flag. *)
Example C22_example :
  match parse_all 102 102 210 toy 0 (buf_of [84;32;49;10;50;32;120;10;84;32;51]) [84;32;49;10;50;32;120;10;84;32;51] (bp_init toy_nsym) with
  | Ret (p :: _, _) =>
    match deep_copy 5 toy_nsym p with
    | Ret q => ev_to_string q = Ret [84;32;49;10;50;32;120;10] /\ ev_multiline q = true /\ option_map t_start (ev_timestamp q) = Some 0 /\
               (do v <- ev_variables q 8; Ret (map (tok_text (ib_heap (lp_in q))) v)) = Ret [Ret [32;49]; Ret [10;50]]
    | _ => False
    end
  | _ => False
  end.
Proof. vm_compute. repeat split. Qed.

(** An empty event (the last one of a log that ends with a newline) cannot be copied: the constructor throws. *)
Example C22_empty_throws :
  match parse_all 102 102 210 toy 0 (buf_of [120;10]) [120;10] (bp_init toy_nsym) with
  | Ret ([p1; p2], _) => ev_to_string p2 = Ret [] /\ deep_copy 5 toy_nsym p2 = Throw
  | _ => False
  end.
Proof. vm_compute. split; reflexivity. Qed.
