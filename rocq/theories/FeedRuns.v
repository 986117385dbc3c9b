(** FeedRuns.v -- a run over a part of the log is the beginning of the run over the whole log. *)
From Verif Require Import Base LexerModel LexerSpec LogParserModel EventSpec ViewModel ReaderSpec ViewSim LineBound WindowBound FeedSpec.
From Verif Require Import LexerProofs LogParserProofs EventProofs ReaderProofs ReaderFits FlatSim FeedProofs.

(** [drive] is [feed] without the offsets. *)
Lemma feed_drive {A} (obs : lparser -> A) : forall calls fuel sfuel c k m size offset bp l bp',
  drive obs calls fuel sfuel c k m size offset bp = Ret (l, bp') ->
  exists lo off, feed obs calls fuel sfuel c k m size offset true bp = Ret (lo, true, off, bp') /\ map fst lo = l.
Proof.
  induction calls as [|calls IH]; intros fuel sfuel c k m size offset bp l bp' H; [discriminate|]. cbn [drive feed] in *.
  apply bind_ret_inv in H as (((ok, off), bp1) & P & H). rewrite P. cbn [bind]. destruct ok; [|discriminate].
  destruct (bp_done bp1).
  - injection H as <- <-. eauto.
  - apply bind_ret_inv in H as ((l1, bp2) & D & H). injection H as <- <-. destruct (IH _ _ _ _ _ _ _ _ _ _ D) as (lo & off' & -> & <-). cbn [bind]. eauto.
Qed.
Lemma feed_map {A B} (g : A -> B) (obs : lparser -> A) : forall calls fuel sfuel c k m size offset fin bp l d o bp',
  feed obs calls fuel sfuel c k m size offset fin bp = Ret (l, d, o, bp') ->
  feed (fun p => g (obs p)) calls fuel sfuel c k m size offset fin bp = Ret (map (fun x => (g (fst x), snd x)) l, d, o, bp').
Proof.
  induction calls as [|calls IH]; intros fuel sfuel c k m size offset fin bp l d o bp' H; [discriminate|]. cbn [feed] in *.
  apply bind_ret_inv in H as (((ok, off), bp1) & P & H). rewrite P. cbn [bind]. destruct ok.
  - destruct (bp_done bp1).
    + injection H as <- <- <- <-. reflexivity.
    + apply bind_ret_inv in H as ((((l1, d1), o1), bp2) & D & H). injection H as <- <- <- <-. rewrite (IH _ _ _ _ _ _ _ _ _ _ _ _ _ D). reflexivity.
  - injection H as <- <- <- <-. reflexivity.
Qed.

Section Runs.
Variables (log : list N) (c : lexcfg) (nsym : N) (k1 k2 : nat) (m1 m2 : mem) (d hi : N) (fin : bool).
Hypothesis Hus : usable c nsym.
Hypothesis Hd : d <= hi.
Hypothesis Hhi : hi <= len log.
Hypothesis Hfin : fin = true -> hi = len log.
Hypothesis Hm1 : holds m1 (sub log d hi).
Hypothesis Hm2 : holds m2 log.
Variables (fuel sfuel : nat).
Hypothesis Hsf : (scan_fuel log <= sfuel)%nat.
Hypothesis Hfu : len log < N.of_nat fuel.
Variable name : N -> option (list N).
Local Notation obs := (report_of name nsym).

(** How a run over the part ends. [e1]: where the first event not reported starts; [off], [bp1']: offset and parser then. [o0]: slot
    0 before the last call. *)
Record stopped_at (e1 off : N) (bp1' : bparser) (ps2 : list lparser) : Prop := {
  st_le : e1 <= hi;
  st_idle : idle nsym bp1';
  st_reset : exists bp0, bp1' = bp_reset c bp0;
  st_evs : events c log k2 m2 nsym e1 ps2;
  st_off : off = shift d e1 \/ exists p ps, ps2 = p :: ps /\ ev_timestamp p = None
}.

Lemma feed_sim : forall calls U E a bp1 bp2 e, bstate log c k1 k2 d hi fin U E a bp1 bp2 -> bp_done bp1 = false ->
  ready c log k2 m2 nsym e a (bp_lp bp2) -> len log - e < N.of_nat calls ->
  exists l1 l2 dn off bp1' offw bpw ps1 ps2,
    feed obs calls fuel sfuel c k1 m1 (hi - d) (shift d a) fin bp1 = Ret (l1, dn, off, bp1') /\
    feed (fun p => p) calls fuel sfuel c k2 m2 (len log) a true bp2 = Ret (l2, true, offw, bpw) /\ idle nsym bpw /\
    map fst l1 = map obs ps1 /\ map fst l2 = ps1 ++ ps2 /\ events c log k2 m2 nsym e (ps1 ++ ps2) /\
    (dn = true -> ps2 = [] /\ idle nsym bp1') /\
    (dn = false -> fin = false /\ map snd l1 = map (shift d) (firstn (length l1) (map snd l2)) /\
       exists texts1, map ev_to_string ps1 = map Ret texts1 /\ stopped_at (e + len (concat texts1)) off bp1' ps2).
Proof.
  pose proof (wf_root _ (us_wf _ _ Hus)) as Hroot.
  induction calls as [|calls IH]; intros U E a bp1 bp2 e B Hd1 Hrd Hc; [lia|].
  assert (bp_done bp2 = false) as Hd2 by (rewrite <- (bs_done _ _ _ _ _ _ _ _ _ _ _ _ B); exact Hd1).
  destruct (drive_ready c log k2 m2 nsym (us_wf _ _ Hus) (proj1 Hm2) (proj2 Hm2) (us_ids _ _ Hus) (us_nsym _ _ Hus) (fun p => p) sfuel Hsf fuel Hfu (S calls) bp2 e a Hrd Hd2 Hc)
    as (ps & bpw & Dr & Evs & _ & Ih1 & Ih2 & _).
  rewrite map_id in Dr. destruct (feed_drive _ _ _ _ _ _ _ _ _ _ _ _ Dr) as (l2 & offw & Fw & El2).
  pose proof (bstate_next _ _ _ _ _ _ _ _ _ _ _ _ B) as HU. rewrite (ready_next_start log c nsym k2 m2 Hm2 e a _ Hus Hrd) in HU. subst U.
  destruct (parse_next_event_spec c log k2 m2 nsym (us_wf _ _ Hus) (proj1 Hm2) (proj2 Hm2) (us_ids _ _ Hus) (us_nsym _ _ Hus) sfuel Hsf fuel bp2 e a Hrd Hd2 Hfu)
    as (bp2' & e' & P2 & Hev & Hle & _ & Hnext).
  pose proof (flat_call log c k1 k2 m1 m2 d hi fin Hroot Hd Hhi Hfin Hm1 Hm2 fuel sfuel e E a bp1 bp2 B) as K. rewrite P2 in K.
  cbn [feed]. destruct (parse_next_event fuel sfuel c k1 m1 (hi - d) (shift d a) fin bp1) as [((ok, off), bp1')| | |] eqn:P1; try discriminate K.
  cbn [bind]. destruct ok.
  - destruct K as (a' & bpx & X & Rep & Dn & Hs & Oc & Nx). injection X as <- <-. specialize (Nx Hd1). rewrite P2. cbn [bind]. rewrite <- Dn.
    cbn [feed] in Fw. rewrite P2 in Fw. cbn [bind] in Fw. rewrite <- Dn in Fw.
    destruct (bp_done bp1') eqn:Ed.
    + eexists _, _, true, off, bp1', _, _, [bp_lp bp2'], []. split; [reflexivity|]. split; [reflexivity|].
      rewrite <- Dn in Hev. injection Fw as El <- <-.
      split; [split; [exact Ih1|lia]|]. cbn [map fst app]. rewrite (Rep name nsym). split; [reflexivity|]. split; [reflexivity|].
      split.
      { apply evs_last. rewrite <- (evat_last c nsym log k2 m2 _ _ _ Hev). exact Hev. }
      split; [|discriminate]. intros _. split; [reflexivity|]. split; [congruence|]. rewrite Oc. lia.
    + rewrite <- Dn in Hnext, Hev. destruct Hnext as (Hrd' & Hlt). destruct (Nx eq_refl) as (-> & U' & E' & B' & _).
      destruct (IH U' E' _ bp1' bp2' e' B' Ed Hrd' ltac:(lia)) as (l1 & l2' & dn & off' & bp1'' & offw' & bpw' & ps1 & ps2 & F1 & F2 & F3 & F4 & F5 & F6 & F7 & F8).
      rewrite F1. rewrite F2 in Fw |- *. cbn [bind] in *. injection Fw as <- <- <-.
      eexists _, _, dn, off', bp1'', _, _, (bp_lp bp2' :: ps1), ps2. split; [reflexivity|]. split; [reflexivity|]. split; [exact F3|].
      cbn [map fst app]. rewrite (Rep name nsym). split; [congruence|]. split; [congruence|]. split.
      { cbn [map fst] in El2. rewrite F5 in El2. rewrite El2. exact Evs. }
      split; [exact F7|]. intros Q. destruct (F8 Q) as (G1 & G2 & texts1 & G3 & G4). split; [exact G1|]. split.
      { cbn [length firstn map snd]. rewrite G2. reflexivity. }
      exists (sub log e e' :: texts1). split; [cbn [map]; rewrite G3, (evat_text c nsym log k2 m2 Hus Hm2 _ _ _ _ Hev); reflexivity|].
      cbn [concat]. rewrite len_app, sub_length by lia. replace (e + (e' - e + len (concat texts1))) with (e' + len (concat texts1)) by lia. exact G4.
  - cbn [feed] in Fw. subst fin. exists [], l2, false, off, bp1', offw, bpw, [], ps. split; [reflexivity|]. split; [exact Fw|]. split; [split; [exact Ih1|lia]|].
    split; [reflexivity|]. split; [exact El2|]. split; [exact Evs|]. split; [discriminate|]. intros _. split; [reflexivity|]. split; [reflexivity|].
    exists []. split; [reflexivity|]. cbn [concat]. replace (e + len []) with e by (unfold len; cbn; lia).
    destruct (flat_fail log c k1 k2 m1 m2 d hi false Hroot Hd Hhi Hfin Hm1 Hm2 fuel sfuel e E a bp1 bp2 off bp1' _ _ B P1 P2) as (S1 & S2 & S3 & S4).
    pose proof (lr_Ea _ _ _ _ _ _ _ (bs_lex _ _ _ _ _ _ _ _ _ _ _ _ B)). pose proof (bs_UE _ _ _ _ _ _ _ _ _ _ _ _ B). pose proof (bs_hi _ _ _ _ _ _ _ _ _ _ _ _ B).
    pose proof (bs_occ _ _ _ _ _ _ _ _ _ _ _ _ B). destruct Hrd as (_ & Hl).
    constructor; auto.
    + lia.
    + split; [exact S1|lia].
    + destruct S4 as [(-> & ->)|S4]; [left; reflexivity|]. destruct (ob_has_ts (lp_out (bp_lp bp2'))) eqn:Ets; [left; exact S4|right].
      cbn [drive] in Dr. rewrite P2 in Dr. cbn [bind] in Dr. exists (bp_lp bp2').
      unfold ev_timestamp. rewrite Ets. destruct (bp_done bp2').
      * injection Dr as <- _. eauto.
      * apply bind_ret_inv in Dr as ((l', ?) & _ & Dr). injection Dr as <- _. eauto.
Qed.
End Runs.

(** * The offset after each event *)
Section Offsets.
Variables (log : list N) (c : lexcfg) (nsym : N) (k : nat) (m : mem).
Hypothesis Hus : usable c nsym.
Hypothesis Hm : holds m log.
Hypothesis Hdl : c_delim c cNewline = true.
Variables (fuel sfuel : nat).
Hypothesis Hsf : (scan_fuel log <= sfuel)%nat.
Hypothesis Hfu : len log < N.of_nat fuel.

Lemma last_snoc : forall (l : list token) x d, last (l ++ [x]) d = x.
Proof. induction l as [|y l IH]; intros x d; [reflexivity|]. cbn [app]. rewrite <- (IH x d) at 2. cbn. destruct (l ++ [x]) eqn:E; [destruct l; discriminate|reflexivity]. Qed.
(** The event ends with a newline token exactly if the parser does not yet hold the first token of the next one. *)
Lemma last_newline : forall e p e' dflt, event_at c log k m nsym e p e' false ->
  if lp_has_start p then tok_type (last (ob_tokens (lp_out p)) dflt) = Ret TokenUncaughtString
  else tok_type (last (ob_tokens (lp_out p)) dflt) = Ret TokenNewline.
Proof.
  intros e p e' dflt H. destruct (ea_shape _ _ _ _ _ _ _ _ _ H) as (nxt & Hsh & Hn).
  inversion Hsh as [|tok Hl Ht|ts e0 t0 body E tl e1 fin nx Hf Hts Hb Hc Hen]; subst.
  - destruct Hn as (-> & _). reflexivity.
  - rewrite app_comm_cons. inversion Hen as [|tok F1 F2 F3 F4|tok F1 F2 F3 F4]; subst; rewrite last_snoc; cbn in Hn.
    + rewrite Hn. exact F4.
    + destruct Hn as (-> & _). reflexivity.
Qed.

Lemma feed_offsets : forall calls bp e offset l off bp', ready c log k m nsym e offset (bp_lp bp) -> bp_done bp = false -> len log - e < N.of_nat calls ->
  feed (fun p => p) calls fuel sfuel c k m (len log) offset true bp = Ret (l, true, off, bp') ->
  forall texts, map ev_to_string (map fst l) = map Ret texts ->
  forall i p o p' o', nth_error l i = Some (p, o) -> nth_error l (S i) = Some (p', o') ->
  exists ei, event_at c log k m nsym ei p (e + len (concat (firstn (S i) texts))) false /\
    if lp_has_start p then
      exists tok, hd_error (ob_tokens (lp_out p')) = Some tok /\ t_start tok = e + len (concat (firstn (S i) texts)) /\ t_end tok = o /\ t_start tok <= o <= len log /\
        tok_text (ib_heap (lp_in p')) tok = Ret (sub log (t_start tok) o)
    else o = e + len (concat (firstn (S i) texts)).
Proof.
  induction calls as [|calls IH]; intros bp e offset l off bp' Hrd Hd Hc H texts Ht i p o p' o' Hi Hi'; [discriminate|]. cbn [feed] in H.
  destruct (parse_next_event_spec c log k m nsym (us_wf _ _ Hus) (proj1 Hm) (proj2 Hm) (us_ids _ _ Hus) (us_nsym _ _ Hus) sfuel Hsf fuel bp e offset Hrd Hd Hfu)
    as (bp1 & e' & P & Hev & Hle & _ & Hnext). rewrite P in H. cbn [bind] in H.
  destruct (bp_done bp1) eqn:Ed; [injection H as <- _ _; destruct i; discriminate|].
  destruct Hnext as (Hrd' & Hlt). apply bind_ret_inv in H as ((((l1, d1), o1), bp2) & F & H). injection H as <- -> -> ->.
  cbn [map fst] in Ht. destruct texts as [|x texts]; [discriminate|]. cbn [map] in Ht. injection Ht as Hx Ht.
  rewrite (evat_text c nsym log k m Hus Hm _ _ _ _ Hev) in Hx. injection Hx as <-.
  destruct i as [|i].
  - cbn in Hi. injection Hi as <- <-. cbn [firstn concat]. rewrite app_nil_r, sub_length by lia. replace (e + (e' - e)) with e' by lia.
    exists e. split; [exact Hev|].
    destruct (offset_after c nsym log k m sfuel fuel bp e offset Hus Hm Hdl Hsf Hfu Hrd Hd bp1 _ P Ed) as (e2 & Hev2 & _ & _ & Ho).
    assert (e2 = e') as ->.
    { pose proof (evat_text c nsym log k m Hus Hm _ _ _ _ Hev2) as T. rewrite (evat_text c nsym log k m Hus Hm _ _ _ _ Hev) in T. injection T as T.
      apply (f_equal len) in T. pose proof (chain_le c log k m nsym (proj1 Hm) (us_ids _ _ Hus) (us_nsym _ _ Hus) _ _ _ (evat_chain c nsym log k m Hus Hm _ _ _ _ Hev2)) as C2. rewrite !sub_length in T by lia. lia. }
    destruct (lp_has_start (bp_lp bp1)) eqn:Hs; [|exact Ho]. destruct Ho as (O1 & O2 & O3).
    destruct calls as [|calls]; [discriminate|]. cbn [feed] in F.
    destruct (parse_next_event_spec c log k m nsym (us_wf _ _ Hus) (proj1 Hm) (proj2 Hm) (us_ids _ _ Hus) (us_nsym _ _ Hus) sfuel Hsf fuel bp1 e' _ Hrd' Ed Hfu)
      as (bp3 & e3 & P3 & Hev3 & _ & Hlink & _). rewrite P3 in F. cbn [bind] in F.
    assert (p' = bp_lp bp3) as ->.
    { cbn [nth_error] in Hi'. destruct (bp_done bp3); [injection F as <- _ _; injection Hi' as <- _; reflexivity|].
      apply bind_ret_inv in F as ((((l4, d4), o4), bp4) & _ & F). injection F as <- _ _ _. injection Hi' as <- _. reflexivity. }
    exists (lp_start_tok (bp_lp bp1)). split; [apply Hlink; exact Hs|]. split; [exact O1|]. split; [exact O2|]. rewrite O1. split; [exact O3|].
    specialize (Hlink Hs). destruct (ob_tokens (lp_out (bp_lp bp3))) as [|t0 tk] eqn:Et; [discriminate|]. injection Hlink as ->.
    pose proof (evat_chain c nsym log k m Hus Hm _ _ _ _ Hev3) as C3. unfold ev_tokens in C3. rewrite Et in C3.
    rewrite <- O1, <- O2. inversion C3; subst. apply (tok_text_sub c log k m nsym (proj1 Hm) (us_ids _ _ Hus) (us_nsym _ _ Hus)); auto.
    apply (ea_heap _ _ _ _ _ _ _ _ _ Hev3).
  - cbn [nth_error] in Hi, Hi'. destruct (IH bp1 e' _ l1 _ _ Hrd' Ed ltac:(lia) F texts Ht i p o p' o' Hi Hi') as (ei & E1 & E2).
    exists ei. change (firstn (S (S i)) (sub log e e' :: texts)) with (sub log e e' :: firstn (S i) texts). remember (firstn (S i) texts) as ft. cbn [concat]. rewrite len_app, sub_length by lia.
    replace (e + (e' - e + len (concat ft))) with (e' + len (concat ft)) by lia. split; [exact E1|exact E2].
Qed.
End Offsets.
