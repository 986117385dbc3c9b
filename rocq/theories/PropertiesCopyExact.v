(** PropertiesCopyExact.v -- C74: what a deep copy is, exactly. *)
From Verif Require Import Base LexerModel LexerSpec LogParserModel EventSpec CopyModel.
From Verif Require Import LexerProofs LogParserProofs EventProofs WindowBound CopyProofs PropertiesFeed PropertiesCopy Toy.

(** [tok'], read in the memory [h'], is a copy of [tok], read in [h]: the same text and type ids; its line is 0. *)
Definition copy_of (h' h : heap) (tok' tok : token) : Prop :=
  tok_text h' tok' = tok_text h tok /\ t_ids tok' = t_ids tok /\ t_line tok' = 0.

Lemma copy_loop_lines : forall h kc size toks m cur o m' o', ob_pos o < ob_size o -> copy_loop h kc size toks m cur o = Ret (m', o') ->
  ob_pos o <= ob_pos o' /\ (forall i, i < ob_pos o -> ob_act o' i = ob_act o i) /\ forall i, ob_pos o <= i -> i < ob_pos o' -> t_line (ob_act o' i) = 0.
Proof.
  intros h kc size. induction toks as [|t toks IH]; intros m cur o m' o' Ho E; cbn [copy_loop] in E.
  - injection E as _ <-. split; [lia|]. split; [auto|]. intros; lia.
  - apply bind_ret_inv in E as (s & _ & E). apply bind_ret_inv in E as ((m1 & cur1) & _ & E).
    set (tc := mkToken cur cur1 (User kc) size 0 (t_ids t)) in *. destruct (advance_curr o tc Ho) as (A1 & A2 & A3 & A4 & _).
    destruct (IH _ _ _ _ _ A2 E) as (B1 & B2 & B3). rewrite A1 in B1, B2, B3. split; [lia|]. split.
    + intros i Hi. rewrite B2 by lia. apply A4. exact Hi.
    + intros i H1 H2. destruct (N.eq_dec i (ob_pos o)) as [->|Hn]; [rewrite B2 by lia; rewrite A3; reflexivity|]. apply B3; lia.
Qed.
Lemma deep_copy_lines : forall kc nsym p q, deep_copy kc nsym p = Ret q -> forall i, i < ob_pos (lp_out q) -> t_line (ob_act (lp_out q) i) = 0.
Proof.
  intros kc nsym p q E. unfold deep_copy in E. destruct (_ =? 0); [discriminate|]. apply bind_ret_inv in E as ((m' & o') & E & E2).
  apply bind_ret_inv in E2 as (occ & _ & E2). injection E2 as <-. cbn [lp_out].
  apply copy_loop_lines in E; [|reflexivity]. destruct E as (_ & _ & E). intros i Hi. apply E; [cbn; lia|exact Hi].
Qed.

(** Copies and originals that show the same and do not start at a line. *)
Lemma copies_of : forall h' h l' l, map (seen h') l' = map (seen h) l -> Forall (fun x => t_line x = 0) l' -> Forall2 (copy_of h' h) l' l.
Proof.
  intros h' h. induction l' as [|x' l' IH]; intros [|x l] E F; try discriminate; constructor; cbn [map] in E; injection E as E1 E2 E3.
  - split; [exact E1|]. split; [exact E2|]. exact (Forall_inv F).
  - apply IH; [exact E3|]. exact (Forall_inv_tail F).
Qed.

Lemma delims_of_copies : forall h' h (ts : list token) (texts : list (list N)) (cs : list token),
  Forall2 (fun t s => s <> [] -> tok_delimiter h' t = Ret (hd 0 s)) cs texts ->
  map (tok_text h) ts = map Ret texts -> Forall (fun tok => t_start tok < t_end tok) ts ->
  Forall2 (fun x x' => tok_delimiter h' x = tok_delimiter h x') cs ts.
Proof.
  intros h' h ts texts cs Q. revert ts. induction Q as [|y w l lw H1 H2 IH]; intros [|z ts] Ht Tn; try discriminate; constructor; cbn [map] in Ht; injection Ht as Hz Ht.
  - pose proof (Forall_inv Tn) as N1. cbv beta in N1.
    assert (w <> [] /\ tok_delimiter h z = Ret (hd 0 w)) as (W1 & W2).
    { unfold tok_text in Hz. destruct (N.leb_spec (t_start z) (t_end z)); [|lia]. unfold tok_delimiter.
      replace (N.to_nat (t_end z - t_start z)) with (S (N.to_nat (t_end z - t_start z - 1))) in Hz by lia. cbn [read_range] in Hz.
      destruct (h (t_sid z) (t_start z)) as [b|]; [|discriminate]. apply bind_ret_inv in Hz as (r & _ & Hz). injection Hz as <-. split; [discriminate|reflexivity]. }
    rewrite W2. apply H1. exact W1.
  - apply IH; [exact Ht|]. exact (Forall_inv_tail Tn).
Qed.

(** C74: what deep_copy makes of an event. An event without text cannot be copied: the constructor throws. For any other
    event, the copy reads no memory but its own; its multiline flag is the event's; the variables of each type are copies of
    the event's, in the same order; the tokens that to_string() joins are copies of the event's tokens if the event has a
    timestamp, and otherwise of all the event's tokens but the first: its to_string() and its get_logtype() are the event's
    without the first token's part. A copy shows the same text and type ids, and line 0. *)
Theorem C74_deep_copy : forall c nsym t k m bp calls fuel sfuel ps bp' p s kc name,
  usable c nsym -> holds m t -> idle nsym bp -> enough t calls fuel sfuel ->
  parse_all calls fuel sfuel c k m t bp = Ret (ps, bp') -> In p ps -> ev_to_string p = Ret s ->
  (s = [] -> deep_copy kc nsym p = Throw) /\
  (s <> [] -> let hp := ib_heap (lp_in p) in exists q, deep_copy kc nsym p = Ret q /\ let hq := ib_heap (lp_in q) in
    (forall sid, sid <> User kc -> forall i, hq sid i = None) /\
    ev_multiline q = ev_multiline p /\
    (forall id, id < nsym -> exists vq vp, ev_variables q id = Ret vq /\ ev_variables p id = Ret vp /\ Forall2 (copy_of hq hp) vq vp) /\
    match ev_timestamp p with
    | Some ts =>
      (exists ts', ev_timestamp q = Some ts' /\ copy_of hq hp ts' ts) /\
      Forall2 (copy_of hq hp) (ev_tokens q) (ev_tokens p) /\ ev_to_string q = Ret s /\ ev_logtype name q = ev_logtype name p
    | None =>
      ev_timestamp q = None /\
      exists tok x s', hd_error (ev_tokens p) = Some tok /\ tok_text hp tok = Ret x /\ s = x ++ s' /\
        Forall2 (copy_of hq hp) (ev_tokens q) (tl (ev_tokens p)) /\ ev_to_string q = Ret s' /\
        forall l, ev_logtype name p = Ret l -> exists part l', render hp name tok part /\ ev_logtype name q = Ret l' /\ l = part ++ l'
    end).
Proof.
  intros c nsym t k m bp calls fuel sfuel ps bp' p s kc name Hus Hh Hi He Hr Hp Hs.
  destruct (parse_all_spec c nsym t k m Hus Hh calls fuel sfuel bp Hi He) as (ps0 & bp0 & Hr0 & Hevs & _ & _).
  rewrite Hr in Hr0. injection Hr0 as <- <-.
  destruct (events_texts c nsym t k m Hus Hh 0 ps Hevs) as (texts0 & Htx & _).
  apply In_nth_error in Hp as (j & Hp).
  destruct (events_nth c nsym t k m Hus Hh 0 ps Hevs texts0 j p Htx Hp) as (ei & ei' & fin & Hev & _). clear texts0 Htx.
  pose proof (evat_text c nsym t k m Hus Hh _ _ _ _ Hev) as Hs'. rewrite Hs in Hs'. injection Hs' as Hs'.
  destruct (chain_seen c nsym t k m Hus Hh (ib_heap (lp_in p)) ei (ev_tokens p) ei' (ea_heap _ _ _ _ _ _ _ _ _ Hev) (evat_chain c nsym t k m Hus Hh _ _ _ _ Hev)) as (texts & Ht & Hc).
  rewrite <- Hs' in Hc. split.
  { intros ->. unfold deep_copy. fold (ev_tokens p). rewrite (total_text _ _ _ Ht), Hc. reflexivity. }
  intros Hne hp.
  destruct (deep_copy_spec kc nsym p texts Ht ltac:(congruence) (evat_types c nsym t k m Hus Hh _ _ _ _ Hev)) as (q & Hq & Q1 & Q2 & Q3 & Q4 & Q5 & Q6).
  pose proof (deep_copy_lines _ _ _ _ Hq) as Q7.
  set (copies := map (ob_act (lp_out q)) (indices 0 (ob_pos (lp_out q)))) in *. fold hp in Q4.
  assert (Forall (fun x => t_line x = 0) copies) as Q8.
  { unfold copies. apply Forall_map. apply Forall_forall. intros i Hin. apply Q7. unfold indices in Hin. apply in_map_iff in Hin as (n & <- & Hin). apply in_seq in Hin. lia. }
  exists q. split; [exact Hq|]. intro hq. fold hq in Q3, Q4, Q5.
  split; [exact Q3|]. split; [exact Q2|]. split.
  { intros id Hid. eexists _, _. split; [apply Q6; exact Hid|]. split; [rewrite (evat_vars c nsym t k m _ _ _ _ id Hev); apply N.ltb_lt in Hid; rewrite Hid; reflexivity|].
    apply CopyProofs.seen_filter with (id := id) in Q4. apply (copies_of hq hp); [exact Q4|].
    apply Forall_forall. intros x Hx. apply filter_In in Hx as (Hx & _). revert x Hx. apply Forall_forall. exact Q8. }
  assert (ev_tokens p <> []) as Hnn by (intro E; rewrite E in Ht; destruct texts; [cbn in Hc; congruence|discriminate]).
  assert (exists x texts', texts = x :: texts') as (x & texts' & ->) by (destruct texts; [destruct (ev_tokens p); [congruence|discriminate]|eauto]).
  destruct (ev_tokens p) as [|tok toks] eqn:Et; [congruence|]. cbn [map] in Ht. injection Ht as Ht0 Ht.
  destruct copies as [|c0 cs] eqn:Ec; [discriminate|]. cbn [map] in Q4. pose proof Q4 as Q4'. injection Q4 as Z1 Z2 Q4.
  assert (ob_act (lp_out q) 0 = c0 /\ map (ob_act (lp_out q)) (indices 1 (ob_pos (lp_out q))) = cs) as (Ec0 & Ecs).
  { unfold copies in Ec. destruct (N.eq_dec (ob_pos (lp_out q)) 0) as [E|E]; [rewrite E in Ec; discriminate|]. rewrite indices_cons in Ec by lia. cbn [map] in Ec. injection Ec as E1 E2. auto. }
  assert (forall l l', map (seen hq) l = map (seen hp) l' -> concat_out (map (tok_text hq) l) = concat_out (map (tok_text hp) l')) as Kc.
  { intros l l' E. f_equal. apply (f_equal (map fst)) in E. rewrite !map_map in E. exact E. }
  assert (Forall2 (fun x x' => tok_delimiter hq x = tok_delimiter hp x') cs toks) as Dl.
  { apply (delims_of_copies hq hp toks texts' cs); [|exact Ht|].
    - inversion Q5 as [|? ? ? ? _ Q5']; subst. exact Q5'.
    - pose proof (tail_nonempty c nsym t k m _ _ _ _ Hev) as Tn. rewrite Et in Tn. exact Tn. }
  pose proof (seen_logtype hq hp name cs toks Q4 Dl) as Kl.
  pose proof (Forall_inv Q8) as L0. pose proof (Forall_inv_tail Q8) as Ls. cbv beta in L0.
  destruct (ev_timestamp p) as [ts|] eqn:Ets0.
  - assert (ob_has_ts (lp_out p) = true /\ ts = tok) as (Ets & ->).
    { unfold ev_timestamp in Ets0. destruct (ob_has_ts (lp_out p)) eqn:Ets; [|discriminate]. split; [reflexivity|]. injection Ets0 as <-.
      unfold ev_tokens, ob_tokens, ob_first in Et. rewrite Ets in Et. destruct (N.eq_dec (ob_pos (lp_out p)) 0) as [E|E]; [rewrite E in Et; discriminate|].
      rewrite indices_cons in Et by lia. cbn [map] in Et. injection Et as E1 _. exact E1. }
    assert (ev_tokens q = c0 :: cs) as Eq by (unfold ev_tokens, ob_tokens, ob_first; rewrite Q1, Ets; exact Ec).
    split.
    { exists c0. split; [unfold ev_timestamp; rewrite Q1, Ets, Ec0; reflexivity|]. split; [exact Z1|]. split; [exact Z2|exact L0]. }
    split; [rewrite Eq; apply (copies_of hq hp); [exact Q4'|exact Q8]|]. split.
    + rewrite <- Hs. unfold ev_to_string. fold hq hp (ev_tokens q) (ev_tokens p). rewrite Et, Eq. apply Kc. exact Q4'.
    + unfold ev_logtype. fold hq hp. rewrite Ecs, Kl. f_equal.
      unfold ev_tokens, ob_tokens, ob_first in Et. rewrite Ets in Et. destruct (N.eq_dec (ob_pos (lp_out p)) 0) as [E|E]; [rewrite E in Et; discriminate|].
      rewrite indices_cons in Et by lia. cbn [map] in Et. injection Et as _ Et. symmetry. exact Et.
  - assert (ob_has_ts (lp_out p) = false) as Ets by (unfold ev_timestamp in Ets0; destruct (ob_has_ts (lp_out p)); congruence).
    assert (ev_tokens q = cs) as Eq by (unfold ev_tokens, ob_tokens, ob_first; rewrite Q1, Ets; exact Ecs).
    split; [unfold ev_timestamp; rewrite Q1, Ets; reflexivity|].
    exists tok, x, (concat texts'). split; [reflexivity|]. split; [exact Ht0|]. split; [rewrite <- Hc; reflexivity|].
    cbn [tl]. rewrite Eq. split; [apply (copies_of hq hp); [exact Q4|exact Ls]|]. split.
    + unfold ev_to_string. fold hq. fold (ev_tokens q). rewrite Eq, (Kc cs toks Q4). change (ib_heap (lp_in p)) with hp in Ht. rewrite Ht. clear. induction texts' as [|y l IH]; [reflexivity|]. cbn. rewrite IH. reflexivity.
    + intros l Hl. unfold ev_logtype in Hl. fold hp in Hl.
      assert (map (ob_act (lp_out p)) (indices 1 (ob_pos (lp_out p))) = tok :: toks) as E1 by (unfold ev_tokens, ob_tokens, ob_first in Et; rewrite Ets in Et; exact Et).
      rewrite E1 in Hl. cbn [logtype_loop] in Hl. apply bind_ret_inv in Hl as (ty & T & Hl). apply bind_ret_inv in Hl as (part & P & Hl). apply bind_ret_inv in Hl as (l' & L & Hl).
      injection Hl as <-. exists part, l'. split; [|split; [unfold ev_logtype; fold hq; rewrite Ecs, Kl; exact L|reflexivity]].
      exists ty. split; [exact T|]. destruct (ty =? TokenUncaughtString); [exact P|].
      destruct (ty =? TokenNewline).
      * cbn [bind] in P. destruct (name ty) as [nm|] eqn:En; [|discriminate]. injection P as <-. exists nm. split; [reflexivity|]. reflexivity.
      * apply bind_ret_inv in P as (dl & D & P). apply bind_ret_inv in D as (d & D & D'). injection D' as <-.
        destruct (name ty) as [nm|] eqn:En; [|discriminate]. injection P as <-. exists nm. split; [reflexivity|]. exists d. split; [exact D|reflexivity].
Qed.
Print Assumptions C74_deep_copy.

(** The hypotheses are met: the events of "1 2\n3" (no timestamps), with the names of the toy schema's symbols. The first
    event's get_logtype() is longer than its copy's. *)
Example C74_example :
  match parse_all 102 102 210 toy 0 (buf_of [49;32;50;10;51]) [49;32;50;10;51] (bp_init toy_nsym) with
  | Ret (p :: _, _) =>
    let name := fun i => Some [96 + i] in
    match deep_copy 5 toy_nsym p with
    | Ret q => ev_to_string p = Ret [49;32;50;10] /\ ev_to_string q = Ret [32;50;10] /\
      (exists l l', ev_logtype name p = Ret l /\ ev_logtype name q = Ret l' /\ (List.length l' < List.length l)%nat /\ l' <> []) /\
      map t_line (ev_tokens q) <> []
    | _ => False
    end
  | _ => False
  end.
Proof. vm_compute. split; [reflexivity|]. split; [reflexivity|]. split; [|discriminate]. eexists _, _. split; [reflexivity|]. split; [reflexivity|]. split; [lia|discriminate]. Qed.
