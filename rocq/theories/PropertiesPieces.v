(** PropertiesPieces.v -- C43: a log given to a BufferParser in pieces. *)
From Verif Require Import Base LexerModel LexerSpec LogParserModel EventSpec ViewModel ReaderSpec ViewSim WindowBound FeedSpec PieceSpec.
From Verif Require Import LexerProofs LogParserProofs EventProofs ReaderProofs ReaderFits FlatSim FeedProofs FeedRuns PropertiesReader PropertiesFeed PieceSim PieceStart Toy.

Lemma skipn_sub log n : (n <= length log)%nat -> skipn n log = sub log (N.of_nat n) (len log).
Proof. intro H. unfold sub, len. rewrite Nat2N.id. rewrite firstn_all2; [reflexivity|]. rewrite skipn_length. lia. Qed.
Lemma enough_le t t' calls fuel sfuel : len t' <= len t -> enough t calls fuel sfuel -> enough t' calls fuel sfuel.
Proof. intros H [H1 H2 H3]. constructor; lia. Qed.
Lemma map_eq_app {A B} (f : A -> B) : forall l l1 l2, map f l = l1 ++ l2 -> exists a b, l = a ++ b /\ map f a = l1 /\ map f b = l2.
Proof.
  induction l as [|x l IH]; intros [|y l1] l2 H; cbn in *.
  - exists [], []. auto.
  - discriminate.
  - exists [], (x :: l). auto.
  - injection H as <- H. destruct (IH _ _ H) as (a & b & -> & <- & <-). exists (x :: a), b. auto.
Qed.

(** The events after the first ones, as events of the rest of the log. *)
Lemma rest_events : forall c nsym log k1 k2 m1 m2 name bp bpr calls fuel sfuel rs1 r2 rs2 bpw texts1 l bpl,
  usable c nsym -> one_line c -> starts_alike c -> holds m2 log -> idle nsym bp -> idle nsym bpr -> enough log calls fuel sfuel ->
  buffer_all name nsym calls fuel sfuel c k2 m2 log bp = Ret (rs1 ++ r2 :: rs2, bpw) -> rs1 <> [] -> (forall r, hd_error rs1 = Some r -> r_timestamp r <> None) ->
  map r_string rs1 = map Ret texts1 ->
  let rest := skipn (length (concat texts1)) log in
  holds m1 rest -> buffer_all name nsym calls fuel sfuel c k1 m1 rest bpr = Ret (l, bpl) ->
  r_timestamp r2 <> None /\ map plain_of l = map plain_of (r2 :: rs2).
Proof.
  intros c nsym log k1 k2 m1 m2 name bp bpr calls fuel sfuel rs1 r2 rs2 bpw texts1 l bpl Hus Hl Ha Hm2 (I1 & I2) (J1 & J2) [He1 He2 He3] H Hne Hts Htx rest Hm1 Hr.
  rewrite buffer_all_map in H. apply bind_ret_inv in H as ((ps, bz) & P & H). injection H as Hmap Hbz. subst bz.
  apply map_eq_app in Hmap as (ps1 & psr & -> & M1 & M2). destruct psr as [|p2 ps2]; [discriminate|]. cbn [map] in M2. injection M2 as M2 M3.
  assert (ps1 <> []) as Hne1 by (intros ->; cbn in M1; congruence).
  destruct (split_run c log k2 m2 nsym fuel sfuel Hus Hm2 ltac:(unfold scan_fuel; lia) He2 ps1 calls (bp_reset c bp) 0 0 p2 ps2 bpw
     (reset_ready c log k2 m2 nsym (proj1 Hm2) (us_ids _ _ Hus) (us_nsym _ _ Hus) bp (us_sof _ _ Hus) I1 I2) eq_refl Hne1 P) as (bpm & e' & off' & calls' & tx & R & Dn & St & Dr & Tx & Ee & Hlt & Ts).
  { intros p Ep. destruct ps1 as [|p' ps1']; [discriminate|]. cbn in Ep. injection Ep as ->. specialize (Hts (report_of name nsym p)). rewrite <- M1 in Hts. specialize (Hts eq_refl). cbn in Hts.
    destruct (ev_timestamp p); [discriminate|]. contradiction Hts. reflexivity. }
  assert (tx = texts1) as ->.
  { apply map_ret_inj. rewrite <- Tx, <- Htx, <- M1, map_map. reflexivity. }
  split.
  { rewrite <- M2. cbn. destruct (ev_timestamp p2); [discriminate|contradiction]. }
  rewrite N.add_0_l in Ee. assert (e' = N.of_nat (length (concat texts1))) as Ee' by exact Ee.
  assert (e' <= len log) as Hle.
  { destruct R as (Ae & _). destruct Ae as [Q|tok0 Q1 Q2 _ Q3 Q4 Q5 _ _ _]; [cbn in Q; pose proof (sd_start _ St); congruence|]. apply byte_at_lt in Q3. lia. }
  assert (rest = sub log e' (len log)) as Er by (unfold rest; rewrite Ee'; apply skipn_sub; unfold len in *; lia).
  rewrite Er in Hm1. unfold buffer_all in Hr. rewrite Er, sub_length in Hr by lia.
  pose proof (drive_map _ (report_of name nsym) calls' fuel sfuel c k2 m2 (len log) off' bpm) as Dm. rewrite Dr in Dm. cbn [bind map] in Dm. rewrite M2, M3 in Dm.
  exact (suffix_drive log c nsym k1 k2 m1 m2 e' fuel sfuel Hus Hl Ha Hm1 Hm2 ltac:(unfold scan_fuel; lia) He2 name bpm off' bpr calls' calls _ _ _ _ R Dn St (conj J1 J2) Dm Hr).
Qed.

(** C43 (partial): a log is cut into pieces in any way (empty pieces included) and given to a parser piece by piece, each buffer
    holding what buf[offset..] of the previous one still held and the next piece. If the log's first event has a timestamp,
    the parser reports the events it would report if one buffer held the whole log: the same strings, tokens, timestamps,
    variables and logtypes in the same order; only line numbers (counted from the start of the buffer) and whether a timestamp is
    the first thing in its buffer may differ. It is done() after the last piece. Missing: logs without timestamps (C43_refuted). *)
Theorem C43_pieces_partial : forall c nsym pieces place store k m name bp bpw calls fuel sfuel r rs bpw',
  usable c nsym -> one_line c -> sof_quiet c -> starts_alike c ->
  pieces <> [] -> (forall i buf, holds (store i buf) buf) -> holds m (concat pieces) -> idle nsym bp -> idle nsym bpw -> enough (concat pieces) calls fuel sfuel ->
  buffer_all name nsym calls fuel sfuel c k m (concat pieces) bpw = Ret (r :: rs, bpw') -> r_timestamp r <> None ->
  exists l bp', feed_pieces (report_of name nsym) calls fuel sfuel c place store [] pieces (bp_reset c bp) = Ret (l, true, bp') /\ idle nsym bp' /\
    map plain_of l = map plain_of (r :: rs).
Proof.
  intros c nsym pieces place store k m name bp bpw calls fuel sfuel r rs bpw' Hus Hl Hq Ha Hne Hst.
  change (concat pieces) with ([] ++ concat pieces). generalize (@nil N) as kept. revert k m bp bpw r rs bpw'.
  induction pieces as [|piece more IH]; [contradiction|]. intros k m bp bpw r rs bpw' kept Hm Ib Iw He Hw Hts. clear Hne.
  cbn [feed_pieces concat] in *. rewrite app_assoc in *. set (buf := kept ++ piece) in *. destruct more as [|piece2 more].
  - cbn [concat] in *. rewrite app_nil_r in *. clear IH.
    destruct (C30_reset_forgets_partial c nsym buf (place 0%nat) k (store 0%nat buf) m name bp bpw calls fuel sfuel Hus Hq (Hst _ _) Hm Ib Iw He) as (l & b1 & b2 & B1 & J1 & B2 & _).
    rewrite B2 in Hw. injection Hw as -> ->. destruct (feed_drive _ _ _ _ _ _ _ _ _ _ _ _ B1) as (lo & off & F & El). cbn [length]. rewrite F. cbn [bind].
    exists (map fst lo), b1. rewrite El. auto.
  - set (rest := concat (piece2 :: more)) in *. set (i := length (piece2 :: more)).
    destruct (C28_resumable_partial c nsym buf rest (place i) k (store i buf) m name bp bpw calls fuel sfuel Hus Hq (Hst _ _) Hm Ib Iw He)
      as (l1 & off & bp1 & r2 & l2 & bpz & texts1 & F & W & (bp0 & -> & I0) & Tx & _ & Off).
    rewrite Hw in W. injection W as W <-. rewrite F. cbn [bind].
    assert (exists l' bp', feed_pieces (report_of name nsym) calls fuel sfuel c place store (skipn (N.to_nat off) buf) (piece2 :: more) (bp_reset c bp0) = Ret (l', true, bp') /\ idle nsym bp' /\
      map plain_of l' = map plain_of (r2 :: l2)) as (l' & bp' & -> & J & Pl).
    { destruct (map fst l1) as [|r1 l1'] eqn:E1.
      - cbn [app] in W. injection W as <- <-. destruct texts1; [|discriminate]. destruct (Off Hts) as (O1 & O2).
        assert (skipn (N.to_nat off) buf = buf) as ->.
        { apply (f_equal (@length _)) in O1. cbn in O1. rewrite firstn_length in O1. unfold len in O2. destruct (N.to_nat off) eqn:En; [reflexivity|]. lia. }
        exact (IH ltac:(discriminate) k m bp0 bpw r rs bpw' buf Hm I0 Iw He Hw Hts).
      - cbn [app] in W. injection W as <- ->.
        assert (skipn (length (concat texts1)) (buf ++ rest) = skipn (length (concat texts1)) buf ++ rest) as Erest.
        { assert (length (concat texts1) <= length buf)%nat as Q.
          { rewrite <- E1 in Tx. destruct (C28_resumable_partial c nsym buf rest (place i) k (store i buf) m name bp bpw calls fuel sfuel Hus Hq (Hst _ _) Hm Ib Iw He)
              as (z1 & z2 & z3 & z4 & z5 & z6 & z7 & Z1 & _ & _ & Z2 & (n & Z3) & _). rewrite F in Z1. injection Z1 as <- _ _. rewrite Tx in Z2. apply map_ret_inj in Z2. subst z7. rewrite Z3, firstn_length. lia. }
          rewrite skipn_app. replace (length (concat texts1) - length buf)%nat with 0%nat by lia. reflexivity. }
        destruct (parse_all_spec c nsym (skipn (length (concat texts1)) buf ++ rest) 0%nat (store 0%nat (skipn (length (concat texts1)) buf ++ rest)) Hus (Hst _ _) calls fuel sfuel bp0 I0) as (ps & bpl & P & _).
        { apply (enough_le (buf ++ rest)); [|exact He]. rewrite <- Erest. unfold len. rewrite skipn_length. lia. }
        pose proof (buffer_all_map name nsym calls fuel sfuel c 0%nat (store 0%nat (skipn (length (concat texts1)) buf ++ rest)) (skipn (length (concat texts1)) buf ++ rest) bp0) as B. rewrite P in B. cbn [bind] in B.
        destruct (rest_events c nsym (buf ++ rest) 0%nat k (store 0%nat (skipn (length (concat texts1)) buf ++ rest)) m name bpw bp0 calls fuel sfuel (r :: l1') r2 l2 bpw' texts1 (map (report_of name nsym) ps) bpl
          Hus Hl Ha Hm Iw I0 He Hw ltac:(discriminate) ltac:(intros r' Er; cbn in Er; injection Er as <-; exact Hts) Tx ltac:(rewrite Erest; apply Hst) ltac:(rewrite Erest; exact B)) as (Ts2 & Pl).
        destruct (Off Ts2) as (O1 & O2).
        assert (N.to_nat off = length (concat texts1)) as -> by (rewrite O1, firstn_length; unfold len in O2; lia).
        destruct ps as [|p ps]; [discriminate Pl|]. cbn [map] in B, Pl.
        change (map plain_of (r2 :: l2)) with (plain_of r2 :: map plain_of l2). rewrite <- Pl. apply (IH ltac:(discriminate) 0%nat (store 0%nat (skipn (length (concat texts1)) buf ++ rest)) bp0 bp0 (report_of name nsym p) (map (report_of name nsym) ps) bpl); auto.
        + apply (enough_le (buf ++ rest)); [|exact He]. rewrite <- Erest. unfold len. rewrite skipn_length. lia.
        + injection Pl as _ _ Pt _ _ _ _. cbn in Pt |- *. destruct (ev_timestamp p); [discriminate|]. destruct (r_timestamp r2); [discriminate|congruence]. }
    cbn [bind]. exists (map fst l1 ++ l'), bp'. split; [reflexivity|]. split; [exact J|]. rewrite W, !map_app, Pl. reflexivity.
Qed.
Print Assumptions C43_pieces_partial.

Lemma toy_starts_alike : starts_alike toy.
Proof.
  constructor.
  - intros [|x v] H; [contradiction|]. unfold reported. change (d_root) with 0%nat. cbn [run c_dfa toy d_next].
    change (toy_next 0 cCharStartOfFile) with (Some 1%nat). change (toy_next 0 cNewline) with (Some 2%nat). cbn [toy_next].
    destruct (x =? 84).
    + destruct v; cbn; [split; discriminate|tauto].
    + destruct (is_digit x); [reflexivity|tauto].
  - intros w l H. assert (In TokenNewlineTimestamp (reported (c_dfa toy) d_root (cNewline :: w))) as Hi by (rewrite H; left; reflexivity).
    apply toy_reported in Hi as [(E & Q)|[(E & Q)|[(E & _)|(Q & _)]]]; try discriminate.
    injection E as ->. split; [discriminate|]. exists []. reflexivity.
Qed.
(** "T 1\nT 2\nT 3" in three pieces, the second one empty, the cut inside the second event. *)
Definition cut_log : list (list N) := [[84;32;49;10;84]; []; [32;50;10;84;32;51]].
Definition events_of {A B} (x : out (list A * B)) : option (list A) := match x with Ret (l, _) => Some l | _ => None end.
Example C43_example : exists r rs bpw',
  usable toy toy_nsym /\ one_line toy /\ sof_quiet toy /\ starts_alike toy /\ cut_log <> [] /\ (forall i buf, holds ((fun (_ : nat) b => buf_of b) i buf) buf) /\
  holds (buf_of (concat cut_log)) (concat cut_log) /\ idle toy_nsym (bp_init toy_nsym) /\ enough (concat cut_log) 102 102 210 /\
  buffer_all (fun _ => Some [110]) toy_nsym 102 102 210 toy 0 (buf_of (concat cut_log)) (concat cut_log) (bp_init toy_nsym) = Ret (r :: rs, bpw') /\ r_timestamp r <> None /\
  map r_string (r :: rs) = [Ret [84;32;49;10]; Ret [84;32;50;10]; Ret [84;32;51]].
Proof.
  destruct (buffer_all (fun _ => Some [110]) toy_nsym 102 102 210 toy 0 (buf_of (concat cut_log)) (concat cut_log) (bp_init toy_nsym)) as [[[|r rs] bpw']| | |] eqn:E;
    pose proof (f_equal events_of E) as E'; cbn [events_of] in E'.
  3, 4, 5: exfalso; vm_compute in E'; discriminate.
  1: exfalso; vm_compute in E'; discriminate.
  exists r, rs, bpw'. split; [apply toy_usable|]. split; [apply toy_one_line|]. split; [exact (nf_sof _ toy_newline_free)|]. split; [apply toy_starts_alike|]. split; [discriminate|].
  split; [intros; apply buf_of_holds|]. split; [apply buf_of_holds|]. split; [apply bp_init_idle|]. split; [apply enough_100; reflexivity|]. split; [exact eq_refl|]. split.
  - intro Ht. pose proof (f_equal (option_map (fun l => option_map (fun _ => tt) (match l with x :: _ => r_timestamp x | [] => None end))) E') as Q. cbn [option_map] in Q. rewrite Ht in Q. vm_compute in Q. discriminate.
  - pose proof (f_equal (option_map (map r_string)) E') as Q. cbn [option_map] in Q. assert (Some (map r_string (r :: rs)) = Some [Ret [84;32;49;10]; Ret [84;32;50;10]; Ret [84;32;51]]) as Z; [|congruence].
    rewrite <- Q. vm_compute. reflexivity.
Qed.

(** C43 (refuted): "1 2\n3 4\n" has the events "1 2\n", "3 4\n" and "". Cut before its last byte, "1 2\n" is reported twice. *)
Theorem C43_refuted : exists c nsym pieces store calls fuel sfuel l l' bp1 bp2,
  usable c nsym /\ newline_free c /\ one_line c /\ starts_alike c /\ (forall i buf, holds (store i buf) buf) /\ enough (concat pieces) calls fuel sfuel /\ idle nsym (bp_init nsym) /\
  feed_pieces ev_to_string calls fuel sfuel c (fun i => i) store [] [concat pieces] (bp_reset c (bp_init nsym)) = Ret (l, true, bp1) /\
  feed_pieces ev_to_string calls fuel sfuel c (fun i => i) store [] pieces (bp_reset c (bp_init nsym)) = Ret (l', true, bp2) /\
  l = [Ret [49;32;50;10]; Ret [51;32;52;10]; Ret []] /\ l' = [Ret [49;32;50;10]; Ret [49;32;50;10]; Ret [51;32;52;10]; Ret []].
Proof.
  exists toy, toy_nsym, [[49;32;50;10;51;32;52]; [10]], (fun (_ : nat) b => buf_of b), 102%nat, 102%nat, 210%nat. do 4 eexists.
  split; [apply toy_usable|]. split; [apply toy_newline_free|]. split; [apply toy_one_line|]. split; [apply toy_starts_alike|].
  split; [intros; apply buf_of_holds|]. split; [apply enough_100; reflexivity|]. split; [apply bp_init_idle|].
  split; [apply (ret_of _ _ (bp_init toy_nsym)); vm_compute; reflexivity|].
  split; [apply (ret_of _ _ (bp_init toy_nsym)); vm_compute; reflexivity|]. split; reflexivity.
Qed.
Print Assumptions C43_refuted.
