(** RegexLang.v -- when the automaton's language is the documented one; bracket groups; tags. *)
From Verif Require Import Base RegexModel RegexSpec RegexProofs.
From Coq Require Import Permutation Sorted.

(** * Bracket groups *)
Definition ranges_ok (rs : list range) : Prop := forall lo hi, In (lo, hi) rs -> lo <= hi.
Definition sorted_from (a : N) (l : list range) : Prop :=
  (forall r, In r l -> a <= fst r) /\ StronglySorted (fun x y => fst x <= fst y) l.

Lemma range_insert_in a l x : In x (range_insert a l) <-> x = a \/ In x l.
Proof.
  induction l as [|b l IH]; cbn [range_insert].
  - cbn. intuition.
  - destruct (range_le a b); cbn [In]; [intuition|]. rewrite IH. intuition.
Qed.
Lemma range_sort_in l x : In x (range_sort l) <-> In x l.
Proof. induction l as [|a l IH]; cbn [range_sort]; [tauto|]. rewrite range_insert_in, IH. cbn. intuition. Qed.
Lemma range_insert_sorted a l : StronglySorted (fun x y => fst x <= fst y) l ->
  StronglySorted (fun x y => fst x <= fst y) (range_insert a l).
Proof.
  induction l as [|b l IH]; intros H; cbn [range_insert].
  - repeat constructor.
  - inversion H as [|? ? Hs Hf]; subst. unfold range_le.
    destruct (N.ltb_spec (fst a) (fst b)) as [Hlt|Hge]; cbn [orb].
    + constructor; [exact H|]. constructor; [lia|]. eapply Forall_impl; [|exact Hf]. cbn. intros; lia.
    + destruct (N.eqb_spec (fst a) (fst b)) as [He|Hne]; cbn [andb].
      * destruct (snd a <=? snd b).
        -- constructor; [exact H|]. constructor; [lia|]. eapply Forall_impl; [|exact Hf]. cbn. intros; lia.
        -- constructor; [auto|]. apply Forall_forall. intros x Hx. apply range_insert_in in Hx as [->|Hx]; [lia|].
           rewrite Forall_forall in Hf. auto.
      * constructor; [auto|]. apply Forall_forall. intros x Hx. apply range_insert_in in Hx as [->|Hx]; [lia|].
        rewrite Forall_forall in Hf. auto.
Qed.
Lemma range_sort_sorted l : StronglySorted (fun x y => fst x <= fst y) (range_sort l).
Proof. induction l; cbn [range_sort]; [constructor|apply range_insert_sorted; auto]. Qed.

(** Ranges in increasing order, with a gap of at least one value between two of them. *)
Fixpoint separated (a : N) (l : list range) : Prop :=
  match l with [] => True | r :: l' => a <= fst r /\ fst r <= snd r /\ separated (snd r + 2) l' end.

Lemma merge_from_spec l : forall cur, fst cur <= snd cur -> ranges_ok l ->
  StronglySorted (fun x y => fst x <= fst y) (cur :: l) ->
  (forall b, in_ranges (merge_from cur l) b <-> in_ranges (cur :: l) b) /\
  separated (fst cur) (merge_from cur l) /\ merge_from cur l <> [].
Proof.
  induction l as [|r l IH]; intros cur Hc Hok Hs; cbn [merge_from].
  - split; [tauto|]. split; [cbn; lia|discriminate].
  - inversion Hs as [|? ? Hs' Hf]; subst. inversion Hf as [|? ? Hcr Hf']; subst.
    inversion Hs' as [|? ? Hs'' Hr]; subst.
    assert (Hrr : fst r <= snd r) by (destruct r; apply Hok; left; reflexivity).
    destruct (N.leb_spec (fst r) (snd cur + 1)) as [Hle|Hgt].
    + destruct (IH (fst cur, N.max (snd r) (snd cur))) as (H1 & H2 & H3).
      * cbn. lia.
      * intros lo hi Hi. apply Hok. right. exact Hi.
      * constructor; auto.
      * split; [|split; auto]. intros b. rewrite H1. split.
        -- intros (lo & hi & [[= <- <-]|Hi] & Hb).
           ++ destruct (N.leb_spec b (snd cur)).
              ** exists (fst cur), (snd cur). split; [left; destruct cur; reflexivity|lia].
              ** exists (fst r), (snd r). split; [right; left; destruct r; reflexivity|lia].
           ++ exists lo, hi. split; [right; right; exact Hi|exact Hb].
        -- intros (lo & hi & [Hi|[Hi|Hi]] & Hb).
           ++ subst cur. cbn [fst snd] in *. eexists _, _. split; [left; reflexivity|lia].
           ++ subst r. cbn [fst snd] in *. eexists _, _. split; [left; reflexivity|lia].
           ++ exists lo, hi. split; [right; exact Hi|exact Hb].
    + destruct (IH r Hrr) as (H1 & H2 & H3).
      * intros lo hi Hi. apply Hok. right. exact Hi.
      * exact Hs'.
      * split; [|split; [|discriminate]].
        -- intros b. split.
           ++ intros (lo & hi & [Hi|Hi] & Hb); [exists lo, hi; split; [left|]; auto|].
              destruct (proj1 (H1 b)) as (lo' & hi' & Hi' & Hb'); [exists lo, hi; auto|].
              exists lo', hi'. split; [right; exact Hi'|exact Hb'].
           ++ intros (lo & hi & [Hi|Hi] & Hb); [exists lo, hi; split; [left|]; auto|].
              destruct (proj2 (H1 b)) as (lo' & hi' & Hi' & Hb'); [exists lo, hi; auto|].
              exists lo', hi'. split; [right; exact Hi'|exact Hb'].
        -- cbn [separated]. split; [lia|]. split; [exact Hc|].
           destruct (merge_from r l) as [|x l'] eqn:E; [congruence|]. cbn [separated] in *. destruct H2 as (G1 & G2 & G3).
           split; [lia|]. auto.
Qed.

Lemma merge_sort_spec rs : ranges_ok rs ->
  (forall b, in_ranges (merge (range_sort rs)) b <-> in_ranges rs b) /\
  separated 0 (merge (range_sort rs)) /\ (rs <> [] -> merge (range_sort rs) <> []).
Proof.
  intros Hok.
  assert (Hin : forall b, in_ranges (range_sort rs) b <-> in_ranges rs b).
  { intros b. unfold in_ranges. split; intros (lo & hi & Hi & Hb); exists lo, hi; (split; [apply range_sort_in|]; auto). }
  pose proof (range_sort_sorted rs) as Hs.
  assert (Hok' : ranges_ok (range_sort rs)) by (intros lo hi Hi; apply Hok, range_sort_in; exact Hi).
  destruct (range_sort rs) as [|r l] eqn:E.
  - cbn. split; [exact Hin|]. split; [exact I|]. intros Hne. destruct rs as [|x rs]; [congruence|].
    pose proof (proj2 (range_sort_in (x :: rs) x) (or_introl eq_refl)) as G. rewrite E in G. contradiction.
  - cbn [merge]. destruct (merge_from_spec l r) as (H1 & H2 & H3); auto.
    + destruct r. apply Hok'. left. reflexivity.
    + intros lo hi Hi. apply Hok'. right. exact Hi.
    + split; [intros b; rewrite H1; apply Hin|]. split; [|auto].
      destruct (merge_from r l); [exact I|]. cbn [separated] in *. destruct H2 as (G1 & G2 & G3). split; [lia|auto].
Qed.

Lemma separated_low l : forall a, separated a l -> forall lo hi, In (lo, hi) l -> a <= lo.
Proof.
  induction l as [|r l IH]; intros a Hs lo hi Hi; [contradiction|]. cbn [separated] in Hs.
  destruct Hs as (G1 & G2 & G3). destruct Hi as [->|Hi]; [exact G1|]. specialize (IH _ G3 _ _ Hi). cbn in *. lia.
Qed.
Lemma separated_weaken a b l : b <= a -> separated a l -> separated b l.
Proof. destruct l as [|r l]; cbn [separated]; [auto|]. intros H (G1 & G2 & G3). split; [lia|auto]. Qed.

Lemma complement_from_spec l : forall low b, 0 < low -> separated low l -> b <= cUnicodeMax ->
  in_ranges (complement_from low l) b <-> low <= b /\ ~ in_ranges l b.
Proof.
  induction l as [|[x y] l IH]; intros low b Hlow Hs Hb; cbn [complement_from].
  - destruct (N.ltb_spec 0 low); [|lia]. split.
    + intros (lo & hi & [[= <- <-]|[]] & Hr). split; [lia|]. intros (? & ? & [] & _).
    + intros (Hr & _). exists low, cUnicodeMax. split; [left; reflexivity|lia].
  - cbn [separated fst snd] in Hs. destruct Hs as (H1 & H2 & H3).
    destruct (N.ltb_spec 0 x) as [Hx|Hx]; [|lia].
    assert (Hs' : separated (y + 1) l) by (eapply separated_weaken; [|exact H3]; lia).
    pose proof (separated_low l (y + 2) H3) as Hlow2.
    specialize (IH (y + 1) b ltac:(lia) Hs' Hb). split.
    + intros (lo & hi & [[= <- <-]|Hi] & Hr).
      * split; [lia|]. intros (lo & hi & [[= <- <-]|Hi] & Hb'); [lia|]. specialize (Hlow2 _ _ Hi). lia.
      * destruct (proj1 IH) as (Hb1 & Hn); [exists lo, hi; auto|].
        split; [lia|]. intros (lo' & hi' & [[= <- <-]|Hi'] & Hb'); [lia|]. apply Hn. exists lo', hi'. auto.
    + intros (Hl & Hn0).
      assert (Hn : ~ in_ranges l b).
      { intros (lo & hi & Hi & Hr). apply Hn0. exists lo, hi. split; [right|]; auto. }
      destruct (N.ltb_spec b x) as [Hbx|Hbx].
      * exists low, (x - 1). split; [left; reflexivity|lia].
      * assert (y < b).
        { destruct (N.leb_spec b y); [|lia]. exfalso. apply Hn0. exists x, y. split; [left; reflexivity|lia]. }
        destruct (proj2 IH) as (lo & hi & Hi & Hr); [split; [lia|exact Hn]|].
        exists lo, hi. split; [right; exact Hi|exact Hr].
Qed.

(** The ranges of a group are the documented ones, except that a negated group without ranges has none. *)
Lemma group_ranges_spec neg rs b : ranges_ok rs -> b <= cUnicodeMax -> (neg = true -> rs <> []) ->
  in_ranges (group_ranges neg rs) b <-> group_has neg rs b.
Proof.
  intros Hok Hb Hne. unfold group_ranges, group_has.
  destruct (merge_sort_spec rs Hok) as (H1 & H2 & H3). destruct neg; [|apply H1].
  rewrite <- H1. specialize (H3 (Hne eq_refl)).
  destruct (merge (range_sort rs)) as [|[x y] l]; [congruence|]. unfold complement. cbn [complement_from].
  cbn [separated fst snd] in H2. destruct H2 as (G1 & G2 & G3).
  pose proof (separated_low l (y + 2) G3) as Hlow2.
  assert (Hc := complement_from_spec l (y + 1) b ltac:(lia) (separated_weaken (y + 2) (y + 1) l ltac:(lia) G3) Hb).
  destruct (N.ltb_spec 0 x) as [Hx|Hx].
  - split.
    + intros (lo & hi & [[= <- <-]|Hi] & Hr).
      * intros (lo & hi & [[= <- <-]|Hi] & Hb'); [lia|]. specialize (Hlow2 _ _ Hi). lia.
      * destruct (proj1 Hc) as (Hb1 & Hn); [exists lo, hi; auto|].
        intros (lo' & hi' & [[= <- <-]|Hi'] & Hb'); [lia|]. apply Hn. exists lo', hi'. auto.
    + intros Hn0. destruct (N.ltb_spec b x) as [Hbx|Hbx].
      * exists 0, (x - 1). split; [left; reflexivity|lia].
      * assert (y < b).
        { destruct (N.leb_spec b y); [|lia]. exfalso. apply Hn0. exists x, y. split; [left; reflexivity|lia]. }
        destruct (proj2 Hc) as (lo & hi & Hi & Hr).
        { split; [lia|]. intros (lo & hi & Hi & Hr). apply Hn0. exists lo, hi. split; [right|]; auto. }
        exists lo, hi. split; [right; exact Hi|exact Hr].
  - assert (x = 0) as -> by lia. rewrite Hc. split.
    + intros (Hb1 & Hn) (lo & hi & [[= <- <-]|Hi] & Hb'); [lia|]. apply Hn. exists lo, hi. auto.
    + intros Hn0. split.
      * destruct (N.leb_spec b y); [|lia]. exfalso. apply Hn0. exists 0, y. split; [left; reflexivity|lia].
      * intros (lo & hi & Hi & Hr). apply Hn0. exists lo, hi. split; [right|]; auto.
Qed.
Lemma group_ranges_sound neg rs b : ranges_ok rs -> b <= cUnicodeMax ->
  in_ranges (group_ranges neg rs) b -> group_has neg rs b.
Proof.
  intros Hok Hb H. destruct neg.
  - destruct rs as [|r rs].
    + destruct H as (lo & hi & [] & _).
    + apply group_ranges_spec; auto. discriminate.
  - apply (group_ranges_spec false rs b); auto. discriminate.
Qed.

(** * The bytes of tagged words *)
Lemma bytes_app u v : bytes_of (u ++ v) = bytes_of u ++ bytes_of v.
Proof. induction u as [|[] u IH]; cbn; congruence. Qed.
Definition img (L : lang sym) : lang N := fun bs => exists w, bytes_of w = bs /\ L w.
Lemma img_cat L M : l_eq (img (l_cat L M)) (l_cat (img L) (img M)).
Proof.
  intros bs. split.
  - intros (w & <- & u & v & -> & Hu & Hv). exists (bytes_of u), (bytes_of v). rewrite bytes_app.
    split; [reflexivity|]. split; [exists u|exists v]; auto.
  - intros (x & y & -> & (u & <- & Hu) & (v & <- & Hv)). exists (u ++ v). rewrite bytes_app.
    split; [reflexivity|]. exists u, v; auto.
Qed.
Lemma l_cat_eq {A} (L M L' M' : lang A) : l_eq L L' -> l_eq M M' -> l_eq (l_cat L M) (l_cat L' M').
Proof. intros H1 H2 w. split; intros (u & v & -> & Hu & Hv); exists u, v; repeat split; auto; apply H1 || apply H2; auto. Qed.
Lemma l_pow_eq {A} (L L' : lang A) k : l_eq L L' -> l_eq (l_pow L k) (l_pow L' k).
Proof. intros H w. split; apply l_pow_mono; intros; apply H; auto. Qed.
Lemma img_pow L k : l_eq (img (l_pow L k)) (l_pow (img L) k).
Proof.
  induction k as [|k IH]; intros bs.
  - cbn. unfold img, l_eps. split; [intros (w & <- & ->); reflexivity|intros ->; exists []; auto].
  - cbn [l_pow]. rewrite (img_cat L (l_pow L k) bs). apply l_cat_eq; [intros x; tauto|exact IH].
Qed.

(** The language of the automaton of [r]. *)
Definition full (r : regex) : lang sym := l_cat (lead r) (l_star (trail r)).

(** Can the construction leave a loop on the end state? *)
Fixpoint has_trail (r : regex) : bool :=
  match r with
  | REmpty | RInt _ | RLit _ | RGroup _ _ _ | RCapture _ _ => false
  | ROr l r => (match pos_tags r with [] => has_trail l | _ => false end) ||
               (match pos_tags l with [] => has_trail r | _ => false end)
  | RCat _ r => has_trail r
  | RMult r _ mx => (mx =? 0) || has_trail r
  end.
Lemma has_trail_false r : has_trail r = false -> forall w, ~ trail r w.
Proof.
  induction r as [|c|ds|w neg rs|l IHl r IHr|l IHl r IHr|r IHr mn mx|r IHr t]; cbn [has_trail trail]; intros H x; auto.
  - apply orb_false_iff in H as (H1 & H2). intros [Hx|Hx].
    + destruct (pos_tags r); cbn in Hx; [eapply IHl; eauto|contradiction].
    + destruct (pos_tags l); cbn in Hx; [eapply IHr; eauto|contradiction].
  - apply orb_false_iff in H as (H1 & H2). rewrite H1. apply IHr; auto.
Qed.

(** Patterns on which the construction is faithful: no Empty or Integer node, groups with ranges in order and
    not an empty negated one, no reversed repetition bounds, no alternative ending in an unbounded repetition
    (unless the other alternative has a capture group), no zero repetition of such a pattern. *)
Fixpoint faithful (r : regex) : Prop :=
  match r with
  | REmpty | RInt _ => False
  | RLit _ => True
  | RGroup _ neg rs => ranges_ok rs /\ (neg = true -> rs <> [])
  | ROr l r => faithful l /\ faithful r /\ (pos_tags r = [] -> has_trail l = false) /\
               (pos_tags l = [] -> has_trail r = false)
  | RCat l r => faithful l /\ faithful r
  | RMult r mn mx => faithful r /\ (mx = 0 \/ mn <= mx) /\ (mn = 0 -> has_trail r = false)
  | RCapture r _ => faithful r
  end.

(** [full] of each construct. *)
Lemma full_no_trail r : has_trail r = false -> l_eq (full r) (lead r).
Proof.
  intros H w. pose proof (has_trail_false r H) as Ht. split.
  - intros (u & v & -> & Hu & Hv). apply l_star_empty in Hv; auto. subst v. rewrite app_nil_r. exact Hu.
  - intros Hw. exists w, []. rewrite app_nil_r. repeat split; auto. apply l_star_nil.
Qed.
Lemma full_cat l r : l_eq (full (RCat l r)) (l_cat (full l) (full r)).
Proof.
  intros w. unfold full. cbn [lead trail]. split.
  - intros (x & v & -> & (u & y & -> & Hu & s & z & -> & Hs & Hz) & Hv).
    exists (u ++ s), (z ++ v). rewrite !app_assoc. split; [reflexivity|]. split; [exists u, s|exists z, v]; auto.
  - intros (x & y & -> & (u & s & -> & Hu & Hs) & (z & v & -> & Hz & Hv)).
    exists (u ++ s ++ z), v. rewrite !app_assoc. split; [reflexivity|]. split; [|exact Hv].
    exists u, (s ++ z). rewrite !app_assoc. split; [reflexivity|]. split; [exact Hu|]. exists s, z. auto.
Qed.
Definition tagged_neg (ts : list tag) (L : lang sym) : lang sym :=
  match ts with [] => L | _ => l_cat L (l_word [SNeg ts]) end.
Lemma neg_lead_full ts r : (ts = [] -> has_trail r = false) ->
  l_eq (neg_lead ts (lead r) (trail r)) (tagged_neg ts (full r)).
Proof.
  intros H w. destruct ts as [|t ts]; cbn [neg_lead tagged_neg].
  - symmetry. apply full_no_trail; auto.
  - unfold full. split.
    + intros (u & v & -> & Hu & x & y & -> & Hx & Hy). exists (u ++ x), y. rewrite app_assoc.
      split; [reflexivity|]. split; [exists u, x|]; auto.
    + intros (z & y & -> & (u & x & -> & Hu & Hx) & Hy). exists u, (x ++ y). rewrite app_assoc.
      split; [reflexivity|]. split; [exact Hu|]. exists x, y. auto.
Qed.
Lemma has_trail_or l r : (pos_tags r = [] -> has_trail l = false) -> (pos_tags l = [] -> has_trail r = false) ->
  has_trail (ROr l r) = false.
Proof.
  intros H1 H2. cbn [has_trail]. destruct (pos_tags r), (pos_tags l); cbn; rewrite ?H1, ?H2 by reflexivity; reflexivity.
Qed.
Lemma full_or l r : (pos_tags r = [] -> has_trail l = false) -> (pos_tags l = [] -> has_trail r = false) ->
  l_eq (full (ROr l r)) (l_or (tagged_neg (pos_tags r) (full l)) (tagged_neg (pos_tags l) (full r))).
Proof.
  intros H1 H2 w. rewrite (full_no_trail _ (has_trail_or l r H1 H2) w). cbn [lead]. unfold l_or.
  rewrite (neg_lead_full _ l H1 w), (neg_lead_full _ r H2 w). tauto.
Qed.
Lemma full_capture r t : l_eq (full (RCapture r t)) (l_cat (l_word [SStart t]) (l_cat (full r) (l_word [SEnd t]))).
Proof.
  intros w. rewrite (full_no_trail (RCapture r t) eq_refl w). cbn [lead]. apply l_cat_eq; [intros x; tauto|].
  clear w. intros w. unfold full. split.
  - intros (u & v & -> & Hu & x & y & -> & Hx & Hy). exists (u ++ x), y. rewrite app_assoc.
    split; [reflexivity|]. split; [exists u, x|]; auto.
  - intros (z & y & -> & (u & x & -> & Hu & Hx) & Hy). exists u, (x ++ y). rewrite app_assoc.
    split; [reflexivity|]. split; [exact Hu|]. exists x, y. auto.
Qed.

(** [k + 1] operands, the last one followed by its loops. *)
Lemma seqs_full r k w : l_cat (seqs (lead r) (trail r) k) (l_star (trail r)) w <-> l_pow (full r) (S k) w.
Proof.
  rewrite (l_pow_snoc (full r) k w). unfold seqs. fold (full r). split.
  - intros (x & s & -> & (u & v & -> & Hu & Hv) & Hs). exists u, (v ++ s). rewrite app_assoc.
    split; [reflexivity|]. split; [exact Hu|]. exists v, s. auto.
  - intros (u & x & -> & Hu & (v & s & -> & Hv & Hs)). exists (u ++ v), s. rewrite app_assoc.
    split; [reflexivity|]. split; [|exact Hs]. exists u, v. auto.
Qed.
(** A first operand followed by operands and loops in any order is one or more operands with their loops. *)
Lemma mixed_star r w : l_cat (lead r) (l_star (l_or (lead r) (trail r))) w <-> exists k, l_pow (full r) (S k) w.
Proof.
  split.
  - intros (u & v & -> & Hu & Hv).
    assert (Hgen : forall x, l_star (l_or (lead r) (trail r)) x ->
      exists s k y, x = s ++ y /\ l_star (trail r) s /\ l_pow (full r) k y).
    { apply l_star_ind'.
      - exists [], O, []. repeat split. apply l_star_nil.
      - intros a b [Ha|Ha] _ (s & k & y & -> & Hs & Hk).
        + exists [], (S k), (a ++ s ++ y). split; [reflexivity|]. split; [apply l_star_nil|].
          exists (a ++ s), y. rewrite app_assoc. split; [reflexivity|]. split; [exists a, s; auto|exact Hk].
        + exists (a ++ s), k, y. rewrite app_assoc. split; [reflexivity|]. split; [apply l_star_cons; auto|exact Hk]. }
    destruct (Hgen v Hv) as (s & k & y & -> & Hs & Hk). exists k, (u ++ s), y. rewrite app_assoc.
    split; [reflexivity|]. split; [exists u, s; auto|exact Hk].
  - intros (k & (x & y & -> & (u & s & -> & Hu & Hs) & Hy)). exists u, (s ++ y). rewrite app_assoc.
    split; [reflexivity|]. split; [exact Hu|]. apply l_star_app.
    + eapply l_star_mono; [|exact Hs]. intros; right; auto.
    + clear - Hy. revert y Hy. induction k as [|k IH]; intros y Hy; [rewrite Hy; apply l_star_nil|].
      destruct Hy as (a & b & -> & (c & d & -> & Hc & Hd) & Hb). rewrite <- app_assoc.
      apply l_star_cons; [left; exact Hc|]. apply l_star_app; auto.
      eapply l_star_mono; [|exact Hd]. intros; right; auto.
Qed.
Lemma full_mult r mn mx : (mx = 0 \/ mn <= mx) -> (mn = 0 -> has_trail r = false) ->
  l_eq (full (RMult r mn mx)) (l_rep (full r) mn mx).
Proof.
  intros Hb H0 w. unfold full at 1. cbn [lead trail]. fold (full r). destruct (N.eqb_spec mx 0) as [->|Hmx].
  - (* unbounded *)
    destruct (N.eq_dec mn 0) as [->|Hmn].
    + assert (Ht := has_trail_false r (H0 eq_refl)). split.
      * intros (u & v & -> & Hu & Hv). destruct Hu as [[_ ->]|(k & _ & [Hk|Hk])]; [|lia|lia].
        destruct Hv as (k & Hk). exists k. split; [|lia]. cbn. eapply l_pow_mono; [|exact Hk].
        intros x [Hx|Hx]; [|destruct (Ht x Hx)]. apply full_no_trail; auto.
      * intros (k & Hk & _). exists [], w. split; [reflexivity|]. split; [left; auto|]. exists k.
        eapply l_pow_mono; [|exact Hk]. intros x Hx. left. apply (full_no_trail r) in Hx; auto.
    + split.
      * intros (x & v & -> & [[Hc _]|(k & (u & y & -> & Hu & Hy) & [Hk|Hk])] & Hv); [lia| |lia].
        destruct (proj1 (mixed_star r (y ++ v))) as (j & Hj); [exists y, v; auto|].
        exists (k + S j)%nat. split; [|lia]. apply (proj2 (l_pow_add _ _ _ _)).
        exists u, (y ++ v). rewrite app_assoc. auto.
      * intros (k & Hk & Hge & _). set (a := (N.to_nat (mn - 1))).
        replace k with (a + S (k - 1 - a))%nat in Hk by lia.
        apply (proj1 (l_pow_add _ _ _ _)) in Hk as (u & v & -> & Hu & Hv).
        destruct (proj2 (mixed_star r v)) as (y & s & -> & Hy & Hs); [exists (k - 1 - a)%nat; exact Hv|].
        exists (u ++ y), s. rewrite app_assoc. split; [reflexivity|]. split; [|exact Hs].
        right. exists a. split; [exists u, y; auto|lia].
  - (* bounded *)
    destruct Hb as [Hb|Hb]; [lia|]. split.
    + intros (x & v & -> & [[-> ->]|(k & Hx & Hk)] & Hv).
      * apply l_star_empty in Hv; [|apply has_trail_false; auto]. subst v. exists O. split; [reflexivity|lia].
      * exists (S k). split; [|lia]. apply (proj1 (seqs_full r k _)). exists x, v. auto.
    + intros (k & Hk & Hk1 & [Hk2|Hk2]); [lia|]. destruct k as [|k].
      * exists [], w. split; [reflexivity|]. split; [left; split; [lia|reflexivity]|]. rewrite Hk. apply l_star_nil.
      * apply (proj2 (seqs_full r k w)) in Hk as (x & v & -> & Hx & Hv). exists x, v.
        split; [reflexivity|]. split; [|exact Hv]. right. exists k. split; [exact Hx|lia].
Qed.
Lemma img_tagged_neg ts L : l_eq (img (tagged_neg ts L)) (img L).
Proof.
  destruct ts as [|t ts]; [intros x; tauto|]. intros bs. cbn [tagged_neg]. split.
  - intros (w & <- & u & v & -> & Hu & ->). exists u. rewrite bytes_app. cbn. rewrite app_nil_r. auto.
  - intros (w & <- & Hw). exists (w ++ [SNeg (t :: ts)]). rewrite bytes_app. cbn. rewrite app_nil_r. split; auto.
    exists w, [SNeg (t :: ts)]. repeat split; auto.
Qed.

(** On faithful patterns the automaton accepts exactly the documented language. *)
Theorem full_matches r : faithful r -> l_eq (img (full r)) (matches r).
Proof.
  induction r as [|c|ds|w neg rs|l IHl r IHr|l IHl r IHr|r IHr mn mx|r IHr t]; cbn [faithful matches]; intros Hf bs.
  - contradiction.
  - unfold img. split.
    + intros (w & <- & Hw). apply (full_no_trail (RLit c) eq_refl) in Hw as (-> & Hc). auto.
    + intros (-> & Hc). exists [SByte c]. split; [reflexivity|]. apply (full_no_trail (RLit c) eq_refl). cbn. auto.
  - contradiction.
  - destruct Hf as (Hok & Hne). unfold img. split.
    + intros (x & <- & Hx). apply (full_no_trail (RGroup w neg rs) eq_refl) in Hx as (b & -> & Hb & Hi).
      exists b. repeat split; auto. apply group_ranges_spec; auto. unfold cSizeOfByte, cUnicodeMax in *. lia.
    + intros (b & -> & Hb & Hi). exists [SByte b]. split; [reflexivity|].
      apply (full_no_trail (RGroup w neg rs) eq_refl). exists b. repeat split; auto.
      apply group_ranges_spec; auto. unfold cSizeOfByte, cUnicodeMax in *. lia.
  - destruct Hf as (Hl & Hr & H1 & H2). unfold l_or. rewrite <- (IHl Hl bs), <- (IHr Hr bs).
    rewrite <- (img_tagged_neg (pos_tags r) (full l) bs), <- (img_tagged_neg (pos_tags l) (full r) bs).
    unfold img. split.
    + intros (x & <- & Hx). apply (full_or l r H1 H2) in Hx as [Hx|Hx]; [left|right]; eauto.
    + intros [(x & <- & Hx)|(x & <- & Hx)]; exists x; (split; [reflexivity|]); apply (full_or l r H1 H2); [left|right]; auto.
  - destruct Hf as (Hl & Hr).
    assert (E : l_eq (img (full (RCat l r))) (img (l_cat (full l) (full r)))).
    { intros x. unfold img. split; intros (w & <- & Hw); exists w; (split; [reflexivity|]); apply full_cat; auto. }
    rewrite (E bs), (img_cat (full l) (full r) bs). apply l_cat_eq; auto.
  - destruct Hf as (Hr & Hb & H0). specialize (IHr Hr). split.
    + intros (x & <- & Hx). apply (full_mult r mn mx Hb H0) in Hx as (k & Hk & Hr2). exists k. split; [|exact Hr2].
      apply (l_pow_eq _ _ k IHr). apply img_pow. exists x. auto.
    + intros (k & Hk & Hr2). apply (l_pow_eq _ _ k IHr) in Hk. apply img_pow in Hk as (x & <- & Hx).
      exists x. split; [reflexivity|]. apply (full_mult r mn mx Hb H0). exists k. auto.
  - rewrite <- (IHr Hf bs). unfold img. split.
    + intros (x & <- & Hx). apply full_capture in Hx as (u & v & -> & -> & y & z & -> & Hy & ->).
      exists y. rewrite !bytes_app. cbn. rewrite app_nil_r. auto.
    + intros (y & <- & Hy). exists ([SStart t] ++ y ++ [SEnd t]). rewrite !bytes_app. cbn. rewrite app_nil_r.
      split; auto. apply full_capture. exists [SStart t], (y ++ [SEnd t]). split; [reflexivity|].
      split; [reflexivity|]. exists y, [SEnd t]. repeat split; auto.
Qed.

(** * Tagged words *)
Lemma l_rep_eq {A} (L L' : lang A) a b : l_eq L L' -> l_eq (l_rep L a b) (l_rep L' a b).
Proof. intros H w. split; intros (k & Hk & Hr); exists k; (split; [|exact Hr]); apply (l_pow_eq _ _ k H); exact Hk. Qed.
Lemma then_neg_eq ts L L' : l_eq L L' -> l_eq (tagged_neg ts L) (then_neg ts L').
Proof. intros H. destruct ts; [exact H|]. apply l_cat_eq; [exact H|intros w; tauto]. Qed.
Theorem full_tmatches r : faithful r -> l_eq (full r) (tmatches r).
Proof.
  induction r as [|c|ds|w neg rs|l IHl r IHr|l IHl r IHr|r IHr mn mx|r IHr t]; cbn [faithful tmatches]; intros Hf x.
  - contradiction.
  - apply (full_no_trail (RLit c) eq_refl).
  - contradiction.
  - destruct Hf as (Hok & Hne). rewrite (full_no_trail (RGroup w neg rs) eq_refl x). cbn [lead].
    split; intros (b & -> & Hb & Hi); exists b; repeat split; auto; apply group_ranges_spec; auto;
      unfold cSizeOfByte, cUnicodeMax in *; lia.
  - destruct Hf as (Hl & Hr & H1 & H2). rewrite (full_or l r H1 H2 x). unfold l_or.
    rewrite (then_neg_eq (pos_tags r) _ _ (IHl Hl) x), (then_neg_eq (pos_tags l) _ _ (IHr Hr) x). reflexivity.
  - destruct Hf as (Hl & Hr). rewrite (full_cat l r x). apply l_cat_eq; auto.
  - destruct Hf as (Hr & Hb & H0). rewrite (full_mult r mn mx Hb H0 x). apply l_rep_eq; auto.
  - rewrite (full_capture r t x). apply l_cat_eq; [intros y; tauto|]. apply l_cat_eq; [auto|intros y; tauto].
Qed.

(** [R*] is built as [R+]. *)
Lemma lead_star_empty r w : lead (ROr REmpty r) w <-> lead r w.
Proof.
  cbn [lead pos_tags]. unfold l_or. split; [|auto]. intros [H|H]; [|exact H].
  destruct (pos_tags r); cbn in H; [destruct H|destruct H as (u & v & _ & [] & _)].
Qed.
Lemma trail_star_empty r w : trail (ROr REmpty r) w <-> trail r w.
Proof. cbn [trail pos_tags]. unfold l_or. split; [|auto]. intros [H|H]; [|exact H]. destruct (pos_tags r); destruct H. Qed.
Lemma star_as_plus_or l r : (l = REmpty /\ star_as_plus (ROr l r) = star_as_plus r) \/
  (l <> REmpty /\ star_as_plus (ROr l r) = ROr (star_as_plus l) (star_as_plus r)).
Proof. destruct l; auto; right; (split; [discriminate|reflexivity]). Qed.
Lemma star_as_plus_tags r : pos_tags (star_as_plus r) = pos_tags r.
Proof.
  induction r as [|c|ds|w neg rs|l IHl r IHr|l IHl r IHr|r IHr mn mx|r IHr t]; cbn [star_as_plus pos_tags]; auto; try congruence.
  destruct (star_as_plus_or l r) as [(-> & E)|(_ & E)]; cbn [star_as_plus] in E |- *; [exact IHr|].
  fold (star_as_plus (ROr l r)). rewrite E. cbn [pos_tags]. congruence.
Qed.
Lemma l_star_eq {A} (L L' : lang A) : l_eq L L' -> l_eq (l_star L) (l_star L').
Proof. intros H w. split; apply l_star_mono; intros; apply H; auto. Qed.
Lemma neg_lead_eq ts P P' T T' : l_eq P P' -> l_eq T T' -> l_eq (neg_lead ts P T) (neg_lead ts P' T').
Proof.
  intros HP HT. destruct ts; [exact HP|]. apply l_cat_eq; [exact HP|]. apply l_cat_eq; [apply l_star_eq; exact HT|intros w; tauto].
Qed.
Lemma neg_trail_eq ts T T' : l_eq T T' -> l_eq (neg_trail ts T) (neg_trail ts T').
Proof. intros HT. destruct ts; [exact HT|intros w; tauto]. Qed.
Lemma star_as_plus_lead_trail r : l_eq (lead (star_as_plus r)) (lead r) /\ l_eq (trail (star_as_plus r)) (trail r).
Proof.
  induction r as [|c|ds|w neg rs|l (Ll & Tl) r (Lr & Tr)|l (Ll & Tl) r (Lr & Tr)|r (Lr & Tr) mn mx|r (Lr & Tr) t];
    try (split; intros x; reflexivity).
  - destruct (star_as_plus_or l r) as [(-> & ->)|(_ & ->)].
    + split; intros x; [rewrite (lead_star_empty r x); apply Lr|rewrite (trail_star_empty r x); apply Tr].
    + split; intros x; cbn [lead trail]; rewrite !star_as_plus_tags; unfold l_or.
      * rewrite (neg_lead_eq (pos_tags r) _ _ _ _ Ll Tl x), (neg_lead_eq (pos_tags l) _ _ _ _ Lr Tr x). reflexivity.
      * rewrite (neg_trail_eq (pos_tags r) _ _ Tl x), (neg_trail_eq (pos_tags l) _ _ Tr x). reflexivity.
  - split; [|exact Tr]. cbn [star_as_plus lead]. apply l_cat_eq; [exact Ll|]. apply l_cat_eq; [apply l_star_eq; exact Tl|exact Lr].
  - cbn [star_as_plus lead trail]. split.
    + intros x. assert (E : forall k, l_eq (l_cat (l_pow (l_cat (lead (star_as_plus r)) (l_star (trail (star_as_plus r)))) k) (lead (star_as_plus r)))
                              (l_cat (l_pow (l_cat (lead r) (l_star (trail r))) k) (lead r))).
      { intros k. apply l_cat_eq; [|exact Lr]. apply l_pow_eq. apply l_cat_eq; [exact Lr|apply l_star_eq; exact Tr]. }
      split; intros [H|(k & H1 & H2)]; auto; right; exists k; (split; [apply E; exact H1|exact H2]).
    + destruct (mx =? 0); [|exact Tr]. intros x. unfold l_or. rewrite (Lr x), (Tr x). reflexivity.
  - split; [|intros x; reflexivity]. cbn [star_as_plus lead]. apply l_cat_eq; [intros x; reflexivity|].
    apply l_cat_eq; [exact Lr|]. apply l_cat_eq; [apply l_star_eq; exact Tr|intros x; reflexivity].
Qed.
Lemma full_star_as_plus r : l_eq (full (star_as_plus r)) (full r).
Proof. destruct (star_as_plus_lead_trail r) as (H1 & H2). apply l_cat_eq; [exact H1|apply l_star_eq; exact H2]. Qed.

(** Every capture is recorded, if no capture is under a repetition with minimum zero. *)
Fixpoint no_zero_capture (r : regex) : Prop :=
  match r with
  | ROr l r | RCat l r => no_zero_capture l /\ no_zero_capture r
  | RMult r mn _ => no_zero_capture r /\ (mn = 0 -> pos_tags r = [])
  | RCapture r _ => no_zero_capture r
  | _ => True
  end.
Definition recorded (w : list sym) (t : tag) : Prop := rec_matched w t \/ rec_unmatched w t.
Lemma recorded_app_l u v t : recorded u t -> recorded (u ++ v) t.
Proof.
  intros [(H1 & H2)|(ts & H1 & H2)]; [left; split; apply in_app_iff; auto|right; exists ts; split; [apply in_app_iff; auto|auto]].
Qed.
Lemma recorded_app_r u v t : recorded v t -> recorded (u ++ v) t.
Proof.
  intros [(H1 & H2)|(ts & H1 & H2)]; [left; split; apply in_app_iff; auto|right; exists ts; split; [apply in_app_iff; auto|auto]].
Qed.
Lemma lead_recorded r : no_zero_capture r -> forall w t, lead r w -> In t (pos_tags r) -> recorded w t.
Proof.
  induction r as [|c|ds|w neg rs|l IHl r IHr|l IHl r IHr|r IHr mn mx|r IHr g]; cbn [no_zero_capture pos_tags];
    intros Hz x t Hx Ht; try contradiction.
  - destruct Hz as (Hl & Hr). assert (Gen : forall ts P T u, neg_lead ts P T u ->
      (forall y, P y -> In t ts \/ recorded y t) -> recorded u t \/ (ts = [] /\ P u)).
    { intros ts P T u Hu HP. destruct ts as [|a ts]; [right; auto|]. left.
      destruct Hu as (y & z & -> & Hy & s & z' & -> & _ & ->). destruct (HP y Hy) as [Hi|Hi].
      - apply recorded_app_r, recorded_app_r. right. exists (a :: ts). split; [left; reflexivity|exact Hi].
      - apply recorded_app_l. exact Hi. }
    cbn [lead] in Hx. apply in_app_iff in Ht. destruct Hx as [Hx|Hx].
    + destruct (Gen _ _ _ _ Hx) as [H|(E & H)]; [|exact H|].
      * intros y Hy. destruct Ht as [Ht|Ht]; [right; eauto|left; exact Ht].
      * rewrite E in Ht. destruct Ht as [Ht|[]]. eauto.
    + destruct (Gen _ _ _ _ Hx) as [H|(E & H)]; [|exact H|].
      * intros y Hy. destruct Ht as [Ht|Ht]; [left; exact Ht|right; eauto].
      * rewrite E in Ht. destruct Ht as [[]|Ht]. eauto.
  - destruct Hz as (Hl & Hr). destruct Hx as (u & v & -> & Hu & s & y & -> & _ & Hy).
    apply in_app_iff in Ht as [Ht|Ht]; [apply recorded_app_l; eauto|]. apply recorded_app_r, recorded_app_r. eauto.
  - destruct Hz as (Hr & H0). destruct Hx as [(E & _)|(k & (u & v & -> & _ & Hv) & _)].
    + rewrite (H0 E) in Ht. destruct Ht.
    + apply recorded_app_r. eauto.
  - destruct Hx as (u & v & -> & -> & y & z & -> & Hy & s & e & -> & _ & ->). apply in_app_iff in Ht as [Ht|[<-|[]]].
    + apply recorded_app_r, recorded_app_l. eauto.
    + left. split; [left; reflexivity|]. apply in_app_iff. right. apply in_app_iff. right. apply in_app_iff. right. left. reflexivity.
Qed.
Theorem full_recorded r w t : no_zero_capture r -> full r w -> In t (pos_tags r) -> recorded w t.
Proof. intros Hz (u & v & -> & Hu & _) Ht. apply recorded_app_l. eapply lead_recorded; eauto. Qed.

(** Only the pattern's own captures are entered or left. *)
Definition own (ts : list tag) (w : list sym) : Prop := forall t, In (SStart t) w \/ In (SEnd t) w -> In t ts.
Lemma own_app ts u v : own ts u -> own ts v -> own ts (u ++ v).
Proof. intros H1 H2 t [H|H]; apply in_app_iff in H as [H|H]; auto. Qed.
Lemma own_mono ts ts' w : incl ts ts' -> own ts w -> own ts' w.
Proof. intros H H1 t Ht. auto. Qed.
Lemma own_pow ts (L : lang sym) k : (forall w, L w -> own ts w) -> forall w, l_pow L k w -> own ts w.
Proof.
  intros H. induction k as [|k IH]; intros w Hw; [rewrite Hw; intros t [[]|[]]|].
  destruct Hw as (u & v & -> & Hu & Hv). apply own_app; auto.
Qed.
Lemma own_neg ts us : own ts [SNeg us].
Proof. intros t [[H|[]]|[H|[]]]; discriminate. Qed.
Lemma tmatches_own r w : tmatches r w -> own (pos_tags r) w.
Proof.
  revert w. induction r as [|c|ds|w neg rs|l IHl r IHr|l IHl r IHr|r IHr mn mx|r IHr g]; cbn [tmatches pos_tags]; intros x Hx.
  - rewrite Hx. intros t [[]|[]].
  - destruct Hx as (-> & _). intros t [[H|[]]|[H|[]]]; discriminate.
  - destruct Hx.
  - destruct Hx as (b & -> & _). intros t [[H|[]]|[H|[]]]; discriminate.
  - assert (Gen : forall ts L u, then_neg ts L u -> (forall y, L y -> own (pos_tags l ++ pos_tags r) y) -> own (pos_tags l ++ pos_tags r) u).
    { intros ts L u Hu HL. destruct ts as [|a ts]; [auto|]. destruct Hu as (y & z & -> & Hy & ->). apply own_app; [auto|apply own_neg]. }
    destruct Hx as [Hx|Hx]; eapply Gen; eauto; intros y Hy.
    + eapply own_mono; [apply incl_appl, incl_refl|auto].
    + eapply own_mono; [apply incl_appr, incl_refl|auto].
  - destruct Hx as (u & v & -> & Hu & Hv). apply own_app.
    + eapply own_mono; [apply incl_appl, incl_refl|auto].
    + eapply own_mono; [apply incl_appr, incl_refl|auto].
  - destruct Hx as (k & Hk & _). eapply own_pow; eauto.
  - destruct Hx as (u & v & -> & -> & y & z & -> & Hy & ->). apply own_app; [|apply own_app].
    + intros t [[[= <-]|[]]|[H|[]]]; [|discriminate]. apply in_app_iff. right. left. reflexivity.
    + eapply own_mono; [apply incl_appl, incl_refl|auto].
    + intros t [[H|[]]|[[= <-]|[]]]; [discriminate|]. apply in_app_iff. right. left. reflexivity.
Qed.
