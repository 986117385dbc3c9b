(** QuoteProofs.v -- the line that the message of LogParser::add_rules quotes when it reads the schema's own file. *)
From Verif Require Import Base RegexModel SchemaModel SchemaActions SchemaRules SchemaSyntax SchemaSplit LineModel LineSpec LineTexts.
Local Open Scope list_scope.
Local Open Scope N_scope.

(** The line with a given number is unique. *)
Lemma read_line_eq l z : ~ In 10 l -> z = [] \/ (exists z', z = 10 :: z') -> read_line (l ++ z) = (l, tl z).
Proof.
  intros Hl Hz. induction l as [|b l IH]; cbn [app].
  - destruct Hz as [-> | (z' & ->)]; reflexivity.
  - cbn [read_line]. destruct (N.eqb_spec b 10) as [-> | _]; [exfalso; apply Hl; now left|]. rewrite IH; [reflexivity|]. intros H. apply Hl. now right.
Qed.
Lemma first_newline a : 0 < newlines a -> exists l r, a = l ++ 10 :: r /\ ~ In 10 l.
Proof.
  induction a as [|b a IH]; intros H; [cbn in H; lia|]. destruct (N.eq_dec b 10) as [-> | Hb]; [exists [], a; split; [reflexivity|intros []]|].
  destruct IH as (l & r & -> & Hl).
  { unfold newlines in *. cbn [filter] in H. destruct (N.eqb_spec 10 b) as [E | _]; [congruence|exact H]. }
  exists (b :: l), r. split; [reflexivity|]. intros [E | E]; [now apply Hb|now apply Hl].
Qed.
Lemma line_of_read k : forall content l, line_of content (N.of_nat k) l -> l = last_read k content.
Proof.
  induction k as [|k IH]; intros content l [(a & z & -> & Ha & Hl & Hs & Hz) | (Hlt & ->)].
  - assert (a = []) as ->. { destruct Hs as [-> | (a' & ->)]; [reflexivity|]. rewrite newlines_cons in Ha. change (newlines [10]) with 1 in Ha. lia. }
    cbn [app last_read]. now rewrite read_line_eq.
  - cbn in Hlt. lia.
  - destruct (first_newline a) as (l0 & r & -> & Hl0); [lia|]. cbn [last_read]. rewrite <- app_assoc. cbn [app].
    rewrite (read_line_eq l0 (10 :: r ++ l ++ z) Hl0 ltac:(right; eauto)). cbn [snd tl]. apply IH. left. exists r, z. split; [reflexivity|].
    rewrite newlines_cons, (newlines_none l0 Hl0) in Ha. change (10 :: r) with ([10] ++ r) in Ha. rewrite newlines_cons in Ha. change (newlines [10]) with 1 in Ha.
    split; [lia|]. split; [exact Hl|]. split; [|exact Hz]. destruct Hs as [E | (a' & E)]; [now destruct l0|].
    destruct r as [|x r _] using rev_ind; [now left|]. right. exists r. rewrite app_comm_cons, app_assoc in E. apply app_inj_tail in E as [_ ->]. reflexivity.
  - cbn [last_read]. pose proof (read_line_spec content) as R. destruct (read_line content) as [l0 r]. cbn [snd]. destruct R as (R1 & [(-> & ->) | ->]).
    + clear. induction k as [|k IH]; [reflexivity|exact IH].
    + apply IH. right. split; [|reflexivity]. rewrite newlines_cons, (newlines_none l0 R1) in Hlt. change (10 :: r) with ([10] ++ r) in Hlt.
      rewrite newlines_cons in Hlt. change (newlines [10]) with 1 in Hlt. lia.
Qed.
Lemma line_of_unique content k l l' : line_of content k l -> line_of content k l' -> l = l'.
Proof.
  rewrite <- (Nnat.N2Nat.id k). intros H H'. now rewrite (line_of_read _ _ _ H), (line_of_read _ _ _ H').
Qed.
Lemma underlines_unique q l B W : underlines q l -> l = B ++ 58 :: W -> ~ In 58 B ->
  q = repeat 32 10 ++ l ++ [10] ++ repeat 32 (10 + List.length B + 1) ++ repeat 94 (List.length W) ++ [10].
Proof.
  intros (front & back & E & Hc & Hq) El HB. assert (G : front = B ++ [58] /\ back = W).
  { clear Hq. rewrite El in E. destruct Hc as [(f & -> & Hf) | (Hf & ->)].
    - rewrite <- app_assoc in E. cbn [app] in E. revert f Hf E. clear -HB. induction B as [|b B IH]; intros [|c f] Hf E; cbn [app] in E.
      + injection E as ->. now split.
      + injection E as <- ->. exfalso. apply Hf. now left.
      + injection E as -> _. exfalso. apply HB. now left.
      + injection E as -> E. destruct (IH (fun h => HB (or_intror h)) f (fun h => Hf (or_intror h)) E) as (G1 & G2). split; [cbn; f_equal; exact G1|exact G2].
    - exfalso. apply Hf. rewrite app_nil_r in E. rewrite <- E. apply in_or_app. right. now left. }
  destruct G as (-> & ->). rewrite Hq, app_length. cbn [List.length]. rewrite !repeat_app, <- !app_assoc. reflexivity.
Qed.
(** A pattern contains no newline. *)
Definition quiet (w : toks) : Prop := forall t, In t w -> ~ In 10 t.
Lemma quiet_app a b : quiet a -> quiet b -> quiet (a ++ b).
Proof. intros Ha Hb t Ht. apply in_app_or in Ht as [H | H]; auto. Qed.
Lemma quiet_cons x a : x <> 10 -> quiet a -> quiet ([x] :: a).
Proof. intros Hx Ha t [<- | Ht]; [intros [E | []]; now apply Hx|auto]. Qed.
Lemma quiet_nil : quiet [].
Proof. intros t []. Qed.
Lemma quiet_chars l : (forall b, In b l -> b <> 10) -> quiet (chars l).
Proof. intros H t Ht. unfold chars in Ht. apply in_map_iff in Ht as (b & <- & Hb). intros [E | []]. now apply (H b Hb). Qed.
Lemma quiet_concat w : quiet w -> ~ In 10 (List.concat w).
Proof. intros H Hin. apply in_concat in Hin as (t & Ht & Hin). exact (H t Ht Hin). Qed.
Lemma quiet_alnum l : Forall alnum l -> quiet (chars l).
Proof. intros H. apply quiet_chars. intros b Hb E. rewrite Forall_forall in H. apply H in Hb. subst b. unfold alnum, digit in Hb. lia. Qed.
Lemma quiet_name w n : name w n -> quiet w.
Proof. intros (_ & H & ->). now apply quiet_alnum. Qed.
Lemma quiet_count w k : count w k -> quiet w.
Proof. intros (ds & _ & H & -> & _). apply quiet_alnum. eapply Forall_impl; [|exact H]. intros b Hb. now left. Qed.
Lemma quiet_pattern w r : pattern w r -> quiet w.
Proof.
  assert (Q1 : forall b, b <> 10 -> quiet [[b]]) by (intros b Hb; apply quiet_cons; [exact Hb|apply quiet_nil]).
  apply (pattern_m (fun w _ => quiet w) (fun w _ => quiet w) (fun w _ => quiet w) (fun w _ => quiet w) (fun w _ => quiet w) (fun w _ _ => quiet w) (fun w _ => quiet w)); intros;
    repeat match goal with
      | |- quiet (_ ++ _) => apply quiet_app
      | |- quiet (_ :: _ :: _) => apply quiet_cons
      | |- quiet ([_] :: _ ++ _) => apply quiet_cons
      | H : name ?w _ |- quiet ?w => exact (quiet_name _ _ H)
      | H : count ?w _ |- quiet ?w => exact (quiet_count _ _ H)
      | |- quiet [[_]] => apply Q1
      | |- quiet ([_] :: _) => apply quiet_cons
      | |- quiet [] => apply quiet_nil
      end; try assumption; try discriminate.
  - intros ->. match goal with H : plain _ |- _ => destruct H as [H | H]; [unfold alnum, digit in H; lia|cbn in H; intuition discriminate] end.
  - intros ->. match goal with H : special _ |- _ => unfold special in H; cbn in H; intuition discriminate end.
  - intros ->. match goal with H : control _ _ |- _ => unfold control in H; cbn in H; intuition discriminate end.
Qed.
(** The text of a variable's line. *)
Lemma variable_line v n r : variable v n r -> exists k wp, v = repeat [32] k ++ chars n ++ [58] :: wp /\ pattern wp r /\ List.concat v = repeat 32 k ++ n ++ 58 :: List.concat wp /\ ~ In 10 (List.concat v) /\ ~ In 58 (repeat 32 k ++ n).
Proof.
  intros H. inversion H as [k wn n' w r' Hn Hp]; subst. exists k, w. pose proof Hn as (_ & Ha & ->). split; [reflexivity|]. split; [exact Hp|].
  assert (E1 : List.concat (repeat [32] k) = repeat 32 k) by (clear; induction k as [|k IH]; [reflexivity|cbn; now rewrite IH]).
  assert (E2 : List.concat (chars n) = n) by (clear; unfold chars; induction n as [|b n IH]; [reflexivity|cbn; now rewrite IH]).
  split; [rewrite !concat_app, E1, E2; cbn [List.concat app]; reflexivity|]. split.
  - apply quiet_concat. apply quiet_app; [intros t Ht; apply repeat_spec in Ht; subst t; intros [E | []]; discriminate E|].
    apply quiet_app; [exact (quiet_name _ _ Hn)|]. apply quiet_cons; [discriminate|exact (quiet_pattern _ _ Hp)].
  - intros Hi. apply in_app_or in Hi as [Hi | Hi]; [apply repeat_spec in Hi; discriminate Hi|]. rewrite Forall_forall in Ha. apply Ha in Hi. unfold alnum, digit in Hi. lia.
Qed.
(** The line on which a variable stands. *)
Lemma variable_line_of pre v post n r : variable v n r -> (pre = [] \/ exists p b, pre = p ++ b /\ line_break b) -> (post = [] \/ exists b q, post = b ++ q /\ line_break b) ->
  exists cr, (cr = [] \/ cr = [13]) /\ line_of (List.concat (pre ++ v ++ post)) (newlines (List.concat pre)) (List.concat v ++ cr) /\
    (cr = [13] <-> exists q, post = [13] :: [10] :: q).
Proof.
  intros Hv Hpre Hpost. destruct (variable_line v n r Hv) as (_ & _ & _ & _ & _ & Hq & _).
  assert (Ha : List.concat pre = [] \/ exists a', List.concat pre = a' ++ [10]).
  { destruct Hpre as [-> | (p & b & -> & [-> | ->])]; [now left|right; exists (List.concat p)|right; exists (List.concat p ++ [13])]; rewrite concat_app; cbn [List.concat app];
    rewrite <- ?app_assoc; reflexivity. }
  assert (G : exists cr z, List.concat post = cr ++ z /\ (cr = [] \/ cr = [13]) /\ (z = [] \/ exists z', z = 10 :: z') /\ (cr = [13] <-> exists q, post = [13] :: [10] :: q)).
  { destruct Hpost as [-> | (b & q & -> & [-> | ->])].
    - exists [], []. split; [reflexivity|]. split; [now left|]. split; [now left|]. split; [discriminate|intros (q & [=])].
    - exists [], (10 :: List.concat q). split; [reflexivity|]. split; [now left|]. split; [right; eauto|]. split; [discriminate|intros (q' & [=])].
    - exists [13], (10 :: List.concat q). split; [reflexivity|]. split; [now right|]. split; [right; eauto|]. split; [intros _; exists q; reflexivity|reflexivity]. }
  destruct G as (cr & z & E & Hcr & Hz & Hiff). exists cr. split; [exact Hcr|]. split; [|exact Hiff]. left. exists (List.concat pre), z.
  split; [rewrite !concat_app, E, <- !app_assoc; reflexivity|]. split; [reflexivity|]. split; [|now split].
  intros Hi. apply in_app_or in Hi as [Hi | Hi]; [now apply Hq|]. destruct Hcr as [-> | ->]; [destruct Hi|destruct Hi as [Hi | []]; discriminate Hi].
Qed.
