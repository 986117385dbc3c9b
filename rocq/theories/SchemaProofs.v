(** SchemaProofs.v -- what building a LogParser from a schema yields. *)
From Verif Require Import Base LexerModel LexerSpec LogParserModel EventSpec RegexModel RegexSpec RegexProofs RegexLang
  DfaModel DfaProofs DfaExact SchemaModel.
From Coq Require Import String Permutation Sorted.
Local Open Scope list_scope.
Local Notation length := List.length.

(** * Symbol tables *)
Fixpoint number (k : N) (ns : list string) : list (string * N) :=
  match ns with [] => [] | x :: ns' => (x, k) :: number (k + 1) ns' end.
Definition swap {A B} (p : A * B) : B * A := (snd p, fst p).
(** The tables are the numbering of [ns]. *)
Definition sym_is (s : symtab) (ns : list string) : Prop :=
  NoDup ns /\ sy_id s = number 0 ns /\ sy_name s = map swap (number 0 ns).
Definition reserved : list string :=
  [cTokenEnd; cTokenUncaughtString; cTokenInt; cTokenFloat; cTokenHex; cTokenFirstTimestamp;
   cTokenNewlineTimestamp; cTokenNewline].

Lemma number_length ns : forall k, length (number k ns) = length ns.
Proof. induction ns; cbn; auto. Qed.
Lemma number_app ns ms : forall k, number k (ns ++ ms) = number k ns ++ number (k + N.of_nat (length ns)) ms.
Proof.
  induction ns as [|x ns IH]; intros k; cbn [number app].
  - f_equal. cbn. lia.
  - rewrite IH. cbn [length]. do 3 f_equal. lia.
Qed.
Lemma id_of_none ns x : forall k, id_of (number k ns) x = None <-> ~ In x ns.
Proof.
  induction ns as [|y ns IH]; intros k; cbn; [tauto|]. destruct (String.eqb_spec y x) as [->|Hne].
  - split; [discriminate|]. intros H. destruct H. auto.
  - rewrite IH. split; intros H; [intros [->|Hi]; auto|auto].
Qed.
Lemma id_of_number ns x i : forall k, NoDup ns ->
  id_of (number k ns) x = Some i <-> exists j, nth_error ns j = Some x /\ i = k + N.of_nat j.
Proof.
  induction ns as [|y ns IH]; intros k Hnd; cbn.
  - split; [discriminate|]. intros ([|j] & H & _); discriminate.
  - inversion Hnd as [|? ? Hny Hnd']; subst. destruct (String.eqb_spec y x) as [->|Hne].
    + split.
      * intros [= <-]. exists 0%nat. split; [reflexivity|cbn; lia].
      * intros ([|j] & H & ->); [f_equal; cbn; lia|]. cbn in H. apply nth_error_In in H. contradiction.
    + rewrite (IH (k + 1) Hnd'). split; intros (j & H & ->).
      * exists (S j). split; [exact H|lia].
      * destruct j as [|j]; [cbn in H; congruence|]. exists j. split; [exact H|lia].
Qed.
Lemma name_of_number ns x i : forall k,
  name_of (map swap (number k ns)) i = Some x <-> exists j, nth_error ns j = Some x /\ i = k + N.of_nat j.
Proof.
  induction ns as [|y ns IH]; intros k; cbn [number map swap fst snd name_of].
  - split; [discriminate|]. intros ([|j] & H & _); discriminate.
  - destruct (N.eqb_spec k i) as [->|Hne].
    + split.
      * intros [= <-]. exists 0%nat. split; [reflexivity|cbn; lia].
      * intros ([|j] & H & E); [cbn in H; congruence|lia].
    + rewrite IH. split; intros (j & H & ->).
      * exists (S j). split; [exact H|lia].
      * destruct j as [|j]; [lia|]. exists j. split; [exact H|lia].
Qed.
Lemma set_name_new ns x : forall k, set_name (map swap (number k ns)) (k + N.of_nat (length ns)) x =
  map swap (number k (ns ++ [x])).
Proof.
  induction ns as [|y ns IH]; intros k; cbn [number map swap fst snd set_name app].
  - unfold swap. cbn [fst snd length]. do 2 f_equal. lia.
  - cbn [length]. destruct (N.eqb_spec k (k + N.of_nat (S (length ns)))) as [E|_]; [lia|]. f_equal.
    rewrite <- (IH (k + 1)). f_equal. lia.
Qed.
Lemma sym_init : sym_is symtab_init reserved.
Proof.
  split; [|split; reflexivity]. unfold reserved.
  repeat (constructor; [cbn; intros H; repeat (destruct H as [H|H]; [discriminate|]); exact H|]). constructor.
Qed.
Lemma sym_add_spec s ns x s' i : sym_is s ns -> sym_add s x = (s', i) ->
  exists ns', sym_is s' ns' /\ id_of (sy_id s') x = Some i /\
    ((In x ns /\ ns' = ns) \/ (~ In x ns /\ ns' = ns ++ [x])).
Proof.
  intros (Hnd & H1 & H2) H. unfold sym_add in H. destruct (id_of (sy_id s) x) as [j|] eqn:E.
  - injection H as <- <-. exists ns. split; [repeat split; auto|]. split; [exact E|]. left. split; [|reflexivity].
    rewrite H1 in E. apply id_of_number in E as (m & Hm & _); [|exact Hnd]. eapply nth_error_In; eauto.
  - injection H as <- <-. rewrite H1 in E |- *. rewrite H2. rewrite number_length. pose proof E as Hni. apply id_of_none in Hni.
    assert (Hnd' : NoDup (ns ++ [x])).
    { apply NoDup_rev in Hnd. rewrite <- (rev_involutive (ns ++ [x])). apply NoDup_rev. rewrite rev_app_distr. cbn.
      constructor; [rewrite <- in_rev; exact Hni|exact Hnd]. }
    exists (ns ++ [x]). split; [|split].
    + split; [exact Hnd'|]. cbn [sy_id sy_name]. split.
      * rewrite number_app. cbn [number]. do 3 f_equal.
      * replace (N.of_nat (length ns)) with (0 + N.of_nat (length ns)) by lia. apply set_name_new.
    + cbn [sy_id]. replace (number 0 ns ++ [(x, N.of_nat (length ns))]) with (number 0 (ns ++ [x]))
        by (rewrite number_app; cbn [number]; do 3 f_equal).
      apply id_of_number; [exact Hnd'|]. exists (length ns). split; [|lia].
      rewrite nth_error_app2, Nat.sub_diag by lia. reflexivity.
    + right. auto.
Qed.

(** * Delimiters *)
Lemma delims_of_in tbl b : In b (delims_of tbl) <-> b < cSizeOfByte /\ tbl b = true.
Proof. unfold delims_of. rewrite filter_In, all_bytes_in. tauto. Qed.
Lemma seqN_sorted k : forall a, StronglySorted N.lt (map N.of_nat (seq a k)).
Proof.
  induction k as [|k IH]; intros a; cbn; constructor; auto.
  apply Forall_forall. intros x Hx. apply in_map_iff in Hx as (y & <- & Hy). apply in_seq in Hy. lia.
Qed.
Lemma filter_sorted (f : N -> bool) l : StronglySorted N.lt l -> StronglySorted N.lt (filter f l).
Proof.
  induction 1 as [|x l Hs IH Hf]; cbn; [constructor|]. destruct (f x); [|exact IH]. constructor; [exact IH|].
  apply Forall_forall. intros y Hy. apply filter_In in Hy as (Hy & _). rewrite Forall_forall in Hf. auto.
Qed.
Lemma delims_of_sorted tbl : StronglySorted N.lt (delims_of tbl).
Proof. unfold delims_of, all_bytes. apply filter_sorted, seqN_sorted. Qed.

Lemma in_ranges_cons lo hi rs b : in_ranges ((lo, hi) :: rs) b <-> lo <= b <= hi \/ in_ranges rs b.
Proof.
  unfold in_ranges. split.
  - intros (x & y & [[= <- <-]|H] & Hb); [left; exact Hb|right; eauto].
  - intros [H|(x & y & H & Hb)]; [exists lo, hi; cbn; auto|exists x, y; cbn; auto].
Qed.
Lemma in_ranges_nil b : ~ in_ranges [] b.
Proof. intros (x & y & [] & _). Qed.
Lemma wild_gaps_spec ds : forall prev b, StronglySorted N.lt (prev :: ds) -> (forall d, In d (prev :: ds) -> d <= cUnicodeMax) ->
  in_ranges (wild_gaps prev ds) b <-> prev < b <= cUnicodeMax /\ ~ In b ds.
Proof.
  induction ds as [|d ds IH]; intros prev b Hs Hm; cbn [wild_gaps].
  - specialize (Hm prev (or_introl eq_refl)). destruct (N.eqb_spec prev cUnicodeMax) as [->|Hne].
    + split; [intros H; destruct (in_ranges_nil _ H)|lia].
    + rewrite in_ranges_cons. split; [intros [H|H]; [split; [lia|auto]|destruct (in_ranges_nil _ H)]|lia].
  - inversion Hs as [|? ? Hs' Hf]; subst. inversion Hf as [|? ? Hlt Hf']; subst.
    pose proof (Hm d (or_intror (or_introl eq_refl))) as Hd.
    assert (Hm' : forall x, In x (d :: ds) -> x <= cUnicodeMax) by (intros x Hx; apply Hm; right; exact Hx).
    specialize (IH d b Hs' Hm'). inversion Hs' as [|? ? _ Hfd]; subst. rewrite Forall_forall in Hfd.
    assert (Hno : b <= d -> ~ In b ds) by (intros Hb Hi; specialize (Hfd b Hi); lia).
    destruct (N.ltb_spec 1 (d - prev)).
    + rewrite in_ranges_cons, IH. cbn [In]. split.
      * intros [Hb|(Hb & Hi)]; (split; [lia|]); intros [->|Hx]; try lia; auto. apply Hno in Hx; [exact Hx|lia].
      * intros (Hb & Hi). destruct (N.lt_trichotomy b d) as [H1|[->|H1]]; [left; lia|tauto|right; split; [lia|tauto]].
    + rewrite IH. cbn [In]. split; [intros (Hb & Hi); split; [lia|intros [->|Hx]; [lia|auto]]|].
      intros (Hb & Hi). assert (b <> d) by (intros ->; tauto). split; [lia|tauto].
Qed.
Lemma wild_ranges_spec ds b : ds <> [] -> StronglySorted N.lt ds -> (forall d, In d ds -> d <= cUnicodeMax) ->
  in_ranges (wild_ranges ds) b <-> b <= cUnicodeMax /\ ~ In b ds.
Proof.
  destruct ds as [|d ds]; [congruence|]. intros _ Hs Hm. unfold wild_ranges.
  pose proof (wild_gaps_spec ds d b Hs Hm) as Hg. inversion Hs as [|? ? _ Hf]; subst. rewrite Forall_forall in Hf.
  specialize (Hm d (or_introl eq_refl)). cbn [In].
  assert (Hno : b <= d -> ~ In b ds) by (intros Hb Hi; specialize (Hf b Hi); lia).
  destruct (N.eqb_spec d 0) as [->|Hne].
  - rewrite Hg. split; [intros (Hb & Hi); split; [lia|intros [<-|Hx]; [lia|auto]]|].
    intros (Hb & Hi). assert (b <> 0) by (intros ->; tauto). split; [lia|tauto].
  - rewrite in_ranges_cons, Hg. split.
    + intros [Hb|(Hb & Hi)]; (split; [lia|]); intros [<-|Hx]; try lia; auto. apply Hno in Hx; [exact Hx|lia].
    + intros (Hb & Hi). destruct (N.lt_trichotomy b d) as [H1|[->|H1]]; [left; lia|tauto|right; split; [lia|tauto]].
Qed.
(** * Bytes a pattern can read *)
Definition over (P : N -> Prop) (w : list sym) : Prop := forall b, In (SByte b) w -> P b.
Lemma over_nil P : over P [].
Proof. intros b []. Qed.
Lemma over_app P u v : over P (u ++ v) <-> over P u /\ over P v.
Proof.
  unfold over. split.
  - intros H. split; intros b Hb; apply H; apply in_app_iff; auto.
  - intros (H1 & H2) b Hb. apply in_app_iff in Hb as [Hb|Hb]; auto.
Qed.
Lemma over_pow P (L : lang sym) k : (forall w, L w -> over P w) -> forall w, l_pow L k w -> over P w.
Proof.
  intros H. induction k as [|k IH]; cbn [l_pow]; intros w Hw.
  - rewrite Hw. apply over_nil.
  - destruct Hw as (u & v & -> & Hu & Hv). apply over_app. auto.
Qed.
Lemma over_star P (L : lang sym) : (forall w, L w -> over P w) -> forall w, l_star L w -> over P w.
Proof. intros H w (k & Hw). eapply over_pow; eauto. Qed.
Lemma over_mono (P Q : N -> Prop) w : (forall b, P b -> Q b) -> over P w -> over Q w.
Proof. intros H Hw b Hb. auto. Qed.
Lemma over_neg P ts : over P [SNeg ts].
Proof. intros b [H|[]]. discriminate. Qed.

(** Negated bracket expressions list ranges in the right order (asserted in RegexAST.hpp 1002 for all). *)
Fixpoint neg_ranges_ok (r : regex) : Prop :=
  match r with
  | REmpty | RLit _ | RInt _ => True
  | RGroup _ neg rs => neg = true -> ranges_ok rs
  | ROr l r | RCat l r => neg_ranges_ok l /\ neg_ranges_ok r
  | RMult r _ _ | RCapture r _ => neg_ranges_ok r
  end.
Lemma in_rangesb_spec rs b : in_rangesb rs b = true <-> in_ranges rs b.
Proof.
  unfold in_rangesb, in_ranges. rewrite existsb_exists. split.
  - intros ((lo & hi) & Hi & H). apply andb_true_iff in H as (H1 & H2). apply N.leb_le in H1, H2. exists lo, hi. auto.
  - intros (lo & hi & Hi & H). exists (lo, hi). split; [exact Hi|]. apply andb_true_iff. cbn. split; apply N.leb_le; lia.
Qed.
Lemma merge_from_sound l b : forall cur, in_ranges (merge_from cur l) b -> in_ranges (cur :: l) b.
Proof.
  induction l as [|(x & y) l IH]; intros (lo & hi); cbn [merge_from fst snd]; [auto|].
  destruct (N.leb_spec x (hi + 1)).
  - intros H'. apply IH in H'. rewrite !in_ranges_cons in *. destruct H' as [H'|H']; [|auto].
    destruct (N.le_gt_cases b hi); [left; lia|right; left; lia].
  - intros H'. rewrite in_ranges_cons in H'. rewrite in_ranges_cons. destruct H' as [H'|H']; auto.
Qed.
Lemma group_possible neg rs b : (neg = true -> ranges_ok rs) -> b < cSizeOfByte ->
  in_ranges (group_ranges neg rs) b -> possible (RGroup false neg rs) b = true.
Proof.
  intros Hok Hb H. cbn [possible]. destruct neg.
  - apply negb_true_iff. destruct (in_rangesb rs b) eqn:E; [|reflexivity]. apply in_rangesb_spec in E.
    apply group_ranges_sound in H; [|auto|unfold cSizeOfByte, cUnicodeMax in *; lia]. cbn in H. contradiction.
  - apply in_rangesb_spec. unfold group_ranges in H. cbv zeta in H.
    assert (Hs : in_ranges (range_sort rs) b).
    { unfold merge in H. destruct (range_sort rs) as [|r l]; [exact H|]. apply merge_from_sound. exact H. }
    destruct Hs as (lo & hi & Hi & Hx). exists lo, hi. rewrite <- range_sort_in. auto.
Qed.
Lemma neg_lead_over P ts (L T : lang sym) w : (forall w, L w -> over P w) -> (forall w, T w -> over P w) ->
  neg_lead ts L T w -> over P w.
Proof.
  intros HL HT. destruct ts as [|t ts]; cbn [neg_lead]; [apply HL|].
  intros (u & v & -> & Hu & v1 & v2 & -> & Hv1 & ->). rewrite !over_app. split; [auto|]. split; [|apply over_neg].
  eapply over_star; eauto.
Qed.
Lemma lead_trail_possible r : neg_ranges_ok r ->
  (forall w, lead r w -> over (fun b => possible r b = true) w) /\
  (forall w, trail r w -> over (fun b => possible r b = true) w).
Proof.
  induction r as [|c|ds|wc neg rs|l IHl r IHr|l IHl r IHr|r IH mn mx|r IH t]; cbn [neg_ranges_ok]; intros Hok.
  - split; intros w [].
  - split; [|intros w []]. intros w (-> & _) b [[= ->]|[]]. cbn. apply N.eqb_refl.
  - split; intros w [].
  - split; [|intros w []]. intros w (b & -> & Hb & H) b' [[= ->]|[]]. apply (group_possible neg rs); auto.
  - destruct Hok as (Hl & Hr). destruct (IHl Hl) as (L1 & L2). destruct (IHr Hr) as (R1 & R2).
    assert (ML : forall w, over (fun b => possible l b = true) w -> over (fun b => possible (ROr l r) b = true) w)
      by (intros w; apply over_mono; intros b E; cbn; rewrite E; reflexivity).
    assert (MR : forall w, over (fun b => possible r b = true) w -> over (fun b => possible (ROr l r) b = true) w)
      by (intros w; apply over_mono; intros b E; cbn; rewrite E; apply orb_true_r).
    split.
    + intros w [H|H]; (eapply neg_lead_over; [| |exact H]); intros v Hv; auto.
    + intros w [H|H].
      * destruct (pos_tags r); [auto|destruct H].
      * destruct (pos_tags l); [auto|destruct H].
  - destruct Hok as (Hl & Hr). destruct (IHl Hl) as (L1 & L2). destruct (IHr Hr) as (R1 & R2).
    assert (ML : forall w, over (fun b => possible l b = true) w -> over (fun b => possible (RCat l r) b = true) w)
      by (intros w; apply over_mono; intros b E; cbn; rewrite E; reflexivity).
    assert (MR : forall w, over (fun b => possible r b = true) w -> over (fun b => possible (RCat l r) b = true) w)
      by (intros w; apply over_mono; intros b E; cbn; rewrite E; apply orb_true_r).
    split; [|intros w H; apply MR; apply R2; exact H].
    intros w (u & v & -> & Hu & v1 & v2 & -> & Hv1 & Hv2). rewrite !over_app. split; [auto|]. split; [|auto].
    apply ML. eapply over_star; [|exact Hv1]. auto.
  - destruct (IH Hok) as (R1 & R2). cbn [possible]. split.
    + intros w [(_ & ->)|(k & (u & v & -> & Hu & Hv) & _)]; [apply over_nil|]. apply over_app. split; [|auto].
      eapply over_pow; [|exact Hu]. intros x (a & c & -> & Ha & Hc). apply over_app. split; [auto|].
      eapply over_star; [|exact Hc]. auto.
    + intros w H. cbn [trail] in H. destruct (mx =? 0); [destruct H as [H|H]; auto|auto].
  - destruct (IH Hok) as (R1 & R2). cbn [possible]. split; [|intros w []].
    intros w (u & v & -> & -> & v1 & v2 & -> & Hv1 & v3 & v4 & -> & Hv3 & ->). rewrite !over_app.
    split; [intros b [H|[]]; discriminate|]. split; [auto|]. split; [eapply over_star; [|exact Hv3]; auto|].
    intros b [H|[]]; discriminate.
Qed.
Lemma bytes_of_in w b : In b (bytes_of w) <-> In (SByte b) w.
Proof.
  induction w as [|s w IH]; cbn; [tauto|]. destruct s; cbn; rewrite ?IH; split; intros H; auto;
    destruct H as [H|H]; try discriminate; auto; [left; congruence|left; congruence].
Qed.
Lemma img_full_possible r w : neg_ranges_ok r -> img (full r) w -> forall b, In b w -> possible r b = true.
Proof.
  intros Hok (v & <- & u1 & u2 & -> & H1 & H2) b Hb. apply bytes_of_in in Hb. revert b Hb.
  destruct (lead_trail_possible r Hok) as (L & T). apply over_app. split; [auto|]. eapply over_star; [|exact H2]. auto.
Qed.

(** * Patterns that match the empty string *)
Fixpoint nullable (r : regex) : bool :=
  match r with
  | REmpty | RLit _ | RInt _ | RGroup _ _ _ => false
  | ROr l r => nullable l || nullable r
  | RCat l r => nullable l && nullable r
  | RMult r mn mx => (mn =? 0) || nullable r
  | RCapture r _ => nullable r
  end.
Lemma bytes_nil_app u v : bytes_of (u ++ v) = [] -> bytes_of u = [] /\ bytes_of v = [].
Proof. rewrite bytes_app. apply app_eq_nil. Qed.
Lemma lead_nullable r : forall w, lead r w -> bytes_of w = [] -> nullable r = true.
Proof.
  induction r as [|c|ds|wc neg rs|l IHl r IHr|l IHl r IHr|r IH mn mx|r IH t]; cbn [lead nullable]; intros w Hw Hb.
  - destruct Hw.
  - destruct Hw as (-> & _). discriminate.
  - destruct Hw.
  - destruct Hw as (b & -> & _). discriminate.
  - apply orb_true_iff. destruct Hw as [Hw|Hw]; [left|right].
    + destruct (pos_tags r); cbn [neg_lead] in Hw; [eauto|]. destruct Hw as (u & v & -> & Hu & _).
      apply bytes_nil_app in Hb as (Hb & _). eauto.
    + destruct (pos_tags l); cbn [neg_lead] in Hw; [eauto|]. destruct Hw as (u & v & -> & Hu & _).
      apply bytes_nil_app in Hb as (Hb & _). eauto.
  - destruct Hw as (u & v & -> & Hu & v1 & v2 & -> & Hv1 & Hv2). apply bytes_nil_app in Hb as (Hb1 & Hb).
    apply bytes_nil_app in Hb as (Hb2 & Hb3). rewrite (IHl u Hu Hb1), (IHr v2 Hv2 Hb3). reflexivity.
  - destruct Hw as [(-> & _)|(k & (u & v & -> & Hu & Hv) & _)]; [reflexivity|]. apply orb_true_iff. right.
    apply bytes_nil_app in Hb as (_ & Hb). eauto.
  - destruct Hw as (u & v & -> & -> & v1 & v2 & -> & Hv1 & _). apply bytes_nil_app in Hb as (_ & Hb).
    apply bytes_nil_app in Hb as (Hb & _). eauto.
Qed.
Lemma img_full_nonempty r : nullable r = false -> ~ img (full r) [].
Proof.
  intros Hn (w & Hb & u & v & -> & Hu & _). apply bytes_nil_app in Hb as (Hb & _).
  rewrite (lead_nullable r u Hu Hb) in Hn. discriminate.
Qed.
