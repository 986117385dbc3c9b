(** IntervalTreeProofs.v -- UnicodeIntervalTree is an ordered map whatever balancing does. *)
From Verif Require Import Base IntervalTreeModel.
From Coq Require Import Sorted.

Section Tree.
Context {V : Type}.
Notation itree := (itree V).
Definition iltp (x y : interval) : Prop := fst x < fst y \/ fst x = fst y /\ snd x < snd y.
Lemma ilt_spec x y : ilt x y = true <-> iltp x y.
Proof. unfold ilt, iltp. rewrite orb_true_iff, andb_true_iff, !N.ltb_lt, N.eqb_eq. tauto. Qed.
Lemma ilt_total x y : ilt x y = false -> ilt y x = false -> x = y.
Proof.
  intros H1 H2. destruct x as [a b], y as [c d]. assert (~ iltp (a, b) (c, d)) by (intros H; apply ilt_spec in H; congruence).
  assert (~ iltp (c, d) (a, b)) by (intros H'; apply ilt_spec in H'; congruence). unfold iltp in *; cbn in *. f_equal; lia.
Qed.
Lemma ilt_trans x y z : iltp x y -> iltp y z -> iltp x z.
Proof. unfold iltp. lia. Qed.
Definition elt (x y : interval * V) : Prop := iltp (fst x) (fst y).

(** The bounds stored in a node are those computed from its children. *)
Fixpoint bounds_ok (t : itree) : Prop :=
  match t with
  | Null => True
  | Node l i v lo hi a r => bounds_ok l /\ bounds_ok r /\ t = update t
  end.
Lemma bounds_update l i v lo hi a r : bounds_ok l -> bounds_ok r -> bounds_ok (update (Node l i v lo hi a r)).
Proof. intros Hl Hr. cbn. repeat split; auto. Qed.
Lemma all_update (t : itree) : all (update t) = all t.
Proof. destruct t; reflexivity. Qed.
Lemma update_node (t : itree) : t <> Null -> update t <> Null.
Proof. destruct t; [congruence|discriminate]. Qed.

Variable bf : option Z -> option Z -> Z.
Definition good (t t' : itree) : Prop := all t' = all t /\ bounds_ok t' /\ t' <> Null.
Lemma bind_ret {A B} (x : out A) (f : A -> out B) b : bind x f = Ret b -> exists a, x = Ret a /\ f a = Ret b.
Proof. destruct x; cbn; try discriminate. eauto. Qed.
Lemma ret_inj {A} (x y : A) : Ret x = Ret y -> x = y.
Proof. congruence. Qed.
Lemma rotate_ok l i v lo hi a r f t' : bounds_ok l -> bounds_ok r -> f <> 0%Z ->
  rotate (Node l i v lo hi a r) f = Ret t' -> good (Node l i v lo hi a r) t'.
Proof.
  unfold rotate. intros Hl Hr Hf H. destruct (Z.ltb_spec f 0).
  - cbn [rotate_cw] in H. destruct l as [|ll li lv llo lhi la lr]; [discriminate|]. apply ret_inj in H; subst t'. destruct Hl as (H1 & H2 & _).
    split; [|split; [|apply update_node; discriminate]].
    + rewrite all_update. cbn [all]. rewrite all_update. cbn [all]. rewrite <- !app_assoc. reflexivity.
    + apply bounds_update; auto. apply bounds_update; auto.
  - destruct (Z.ltb_spec 0 f); [|lia]. cbn [rotate_ccw] in H. destruct r as [|rl ri rv rlo rhi ra rr]; [discriminate|]. apply ret_inj in H; subst t'. destruct Hr as (H8 & H9 & _).
    split; [|split; [|apply update_node; discriminate]].
    + rewrite all_update. cbn [all]. rewrite all_update. cbn [all]. rewrite <- !app_assoc. reflexivity.
    + apply bounds_update; auto. apply bounds_update; auto.
Qed.
Lemma rotate_sub t f t' : bounds_ok t -> rotate t f = Ret t' -> all t' = all t /\ bounds_ok t'.
Proof.
  intros Ht H. destruct (Z.eq_dec f 0) as [->|Hf]; [unfold rotate in H; cbn in H; injection H as <-; auto|].
  destruct t as [|l i v lo hi a r].
  - unfold rotate in H. destruct (f <? 0)%Z; [discriminate|]. destruct (0 <? f)%Z; [discriminate|]. injection H as <-. auto.
  - destruct Ht as (H1 & H2 & _). apply rotate_ok in H as (A & B & _); auto.
Qed.
Lemma balance_ok t t' : bounds_ok t -> balance bf t = Ret t' -> good t t'.
Proof.
  intros Ht H. destruct t as [|l i v lo hi a r]; [discriminate|]. unfold balance in H. apply bind_ret in H as (f & _ & H).
  destruct (Z.leb_spec (f * f) 1) as [Hle|Hgt].
  { injection H as <-. split; [reflexivity|]. split; [exact Ht|discriminate]. }
  assert (Hf : f <> 0%Z) by lia. destruct Ht as (Hl & Hr & Hu). apply bind_ret in H as (sf & _ & H).
  destruct (0 <? f * sf)%Z; [apply rotate_ok in H; auto|].
  destruct (f =? 2)%Z; apply bind_ret in H as (x & Hx & H).
  - apply rotate_sub in Hx as (A & B); [|exact Hr]. apply rotate_ok in H as (C & D & E); auto. split; [|auto].
    rewrite C. cbn [all]. rewrite A. reflexivity.
  - apply rotate_sub in Hx as (A & B); [|exact Hl]. apply rotate_ok in H as (C & D & E); auto. split; [|auto].
    rewrite C. cbn [all]. rewrite A. reflexivity.
Qed.

(** Insertion into a sorted association list. *)
Fixpoint put (l : list (interval * V)) (i : interval) (v : V) : list (interval * V) :=
  match l with
  | [] => [(i, v)]
  | (j, w) :: l' => if ilt i j then (i, v) :: l else if ilt j i then (j, w) :: put l' i v else (j, v) :: l'
  end.
Lemma put_left l j w r i v : StronglySorted elt (l ++ (j, w) :: r) -> iltp i j -> put (l ++ (j, w) :: r) i v = put l i v ++ (j, w) :: r.
Proof.
  intros Hs Hij. induction l as [|(k, x) l IH]; cbn [app put].
  - apply ilt_spec in Hij. rewrite Hij. reflexivity.
  - inversion Hs as [|? ? Hs' Hf]; subst. destruct (ilt i k); [reflexivity|]. destruct (ilt k i); [|reflexivity]. cbn. f_equal. apply IH. exact Hs'.
Qed.
Lemma ilt_asym i j : iltp j i -> ilt i j = false.
Proof. intros H. destruct (ilt i j) eqn:E; [|reflexivity]. apply ilt_spec in E. unfold iltp in *. lia. Qed.
Lemma put_right l j w r i v : StronglySorted elt (l ++ (j, w) :: r) -> iltp j i -> put (l ++ (j, w) :: r) i v = l ++ (j, w) :: put r i v.
Proof.
  intros Hs Hji. induction l as [|(k, x) l IH]; cbn [app put].
  - rewrite (ilt_asym i j Hji). assert (E := Hji). apply ilt_spec in E. rewrite E. reflexivity.
  - inversion Hs as [|? ? Hs' Hf]; subst. rewrite Forall_forall in Hf.
    assert (iltp k j) by (apply (Hf (j, w)); apply in_or_app; right; left; reflexivity).
    assert (Hki := ilt_trans _ _ _ H Hji). rewrite (ilt_asym i k Hki). apply ilt_spec in Hki. rewrite Hki. f_equal. apply IH. exact Hs'.
Qed.
Lemma put_here l j w r v : StronglySorted elt (l ++ (j, w) :: r) -> put (l ++ (j, w) :: r) j v = l ++ (j, v) :: r.
Proof.
  assert (Hjj : ilt j j = false) by (destruct (ilt j j) eqn:E; [apply ilt_spec in E; unfold iltp in E; lia|reflexivity]).
  intros Hs. induction l as [|(k, x) l IH]; cbn [app put].
  - rewrite Hjj. reflexivity.
  - inversion Hs as [|? ? Hs' Hf]; subst. rewrite Forall_forall in Hf.
    assert (Hkj : iltp k j) by (apply (Hf (j, w)); apply in_or_app; right; left; reflexivity).
    rewrite (ilt_asym j k Hkj). apply ilt_spec in Hkj. rewrite Hkj. f_equal. apply IH. exact Hs'.
Qed.
Lemma sorted_app_l {A} (R : A -> A -> Prop) l r : StronglySorted R (l ++ r) -> StronglySorted R l.
Proof. induction l as [|x l IH]; intros H; [constructor|]. inversion H as [|? ? H1 H2]; subst. constructor; [auto|]. rewrite Forall_forall in *. intros y Hy. apply H2. apply in_or_app. auto. Qed.
Lemma sorted_app_r {A} (R : A -> A -> Prop) l r : StronglySorted R (l ++ r) -> StronglySorted R r.
Proof. induction l as [|x l IH]; intros H; [exact H|]. inversion H; subst. auto. Qed.

Lemma insert_ok t : forall i v a t', bounds_ok t -> StronglySorted elt (all t) -> node_insert bf t i v a = Ret t' ->
  all t' = put (all t) i v /\ bounds_ok t'.
Proof.
  induction t as [|l IHl j w lo hi b r IHr]; intros i v a t' Hb Hs H; cbn [node_insert] in H.
  - apply ret_inj in H; subst t'. split; [reflexivity|]. apply bounds_update; exact I.
  - destruct Hb as (Hl & Hr & _). cbn [all app] in Hs |- *. destruct (ilt i j) eqn:E1; [|destruct (ilt j i) eqn:E2].
    + apply bind_ret in H as (l' & H1 & H). apply IHl in H1 as (A & B); [|exact Hl|apply sorted_app_l in Hs; exact Hs].
      apply balance_ok in H as (C & D & _); [|apply bounds_update; assumption]. split; [|exact D]. rewrite C, all_update. cbn [all app]. rewrite A.
      symmetry. apply put_left; [exact Hs|]. apply ilt_spec. exact E1.
    + apply bind_ret in H as (r' & H1 & H). apply IHr in H1 as (A & B); [|exact Hr|apply sorted_app_r in Hs; inversion Hs; assumption].
      apply balance_ok in H as (C & D & _); [|apply bounds_update; assumption]. split; [|exact D]. rewrite C, all_update. cbn [all app]. rewrite A.
      symmetry. apply put_right; [exact Hs|]. apply ilt_spec. exact E2.
    + assert (i = j) as -> by (apply ilt_total; assumption).
      apply balance_ok in H as (C & D & _); [|apply bounds_update; assumption]. split; [|exact D]. rewrite C, all_update. cbn [all app].
      symmetry. apply put_here. exact Hs.
Qed.

Lemma put_in l i v : StronglySorted elt l -> forall j w, In (j, w) (put l i v) <-> (j = i /\ w = v) \/ (j <> i /\ In (j, w) l).
Proof.
  induction l as [|(k, x) l IH]; intros Hs j w; cbn [put].
  - cbn. split; [intros [H|[]]; injection H as <- <-; auto|intros [(-> & ->)|(_ & [])]; auto].
  - inversion Hs as [|? ? Hs' Hf]; subst. rewrite Forall_forall in Hf. destruct (ilt i k) eqn:E1; [|destruct (ilt k i) eqn:E2].
    + apply ilt_spec in E1. split.
      * intros [H|H]; [injection H as <- <-; auto|]. right. split; [|exact H]. intros ->. destruct H as [H|H].
        -- injection H as -> ->. unfold iltp in E1. lia.
        -- apply Hf in H. unfold elt, iltp in *. cbn in H. lia.
      * intros [(-> & ->)|(_ & H)]; [left; reflexivity|right; exact H].
    + apply ilt_spec in E2. split.
      * intros [H|H]; [injection H as <- <-; right; split; [intros ->; unfold iltp in E2; lia|left; reflexivity]|].
        apply (IH Hs') in H as [H|(H1 & H2)]; [auto|]. right. split; [exact H1|right; exact H2].
      * intros [H|(H1 & [H|H])]; [right; apply (IH Hs'); auto|left; exact H|right; apply (IH Hs'); auto].
    + assert (i = k) as -> by (apply ilt_total; assumption). split.
      * intros [H|H]; [injection H as <- <-; auto|]. right. split; [|right; exact H]. intros ->. apply Hf in H. unfold elt, iltp in H. cbn in H. lia.
      * intros [(-> & ->)|(H1 & [H|H])]; [left; reflexivity|injection H as -> ->; congruence|right; exact H].
Qed.
Lemma put_sorted l i v : StronglySorted elt l -> StronglySorted elt (put l i v).
Proof.
  induction l as [|(k, x) l IH]; intros Hs; cbn [put]; [repeat constructor|].
  inversion Hs as [|? ? Hs' Hf]; subst. destruct (ilt i k) eqn:E1; [|destruct (ilt k i) eqn:E2].
  - apply ilt_spec in E1. constructor; [exact Hs|]. constructor; [exact E1|]. rewrite Forall_forall in *. intros y Hy.
    eapply ilt_trans; [exact E1|]. apply Hf in Hy. exact Hy.
  - apply ilt_spec in E2. constructor; [apply IH; exact Hs'|]. rewrite Forall_forall in *. intros (j, w) Hy.
    apply put_in in Hy as [(-> & ->)|(_ & Hy)]; [exact E2|apply Hf; exact Hy|exact Hs'].
  - constructor; [exact Hs'|]. rewrite Forall_forall in *. intros y Hy. apply Hf in Hy. exact Hy.
Qed.
Lemma insert_all_ok ops : forall t t', bounds_ok t -> StronglySorted elt (all t) -> insert_all bf t ops = Ret t' ->
  all t' = fold_left (fun l (x : interval * V * Z) => put l (fst (fst x)) (snd (fst x))) ops (all t) /\ bounds_ok t' /\ StronglySorted elt (all t').
Proof.
  induction ops as [|((i, v), a) ops IH]; intros t t' Hb Hs H; cbn [insert_all] in H; [injection H as <-; auto|].
  apply bind_ret in H as (t1 & H1 & H). apply insert_ok in H1 as (A & B); auto. cbn [fold_left fst snd]. rewrite <- A. apply IH; auto.
  rewrite A. apply put_sorted. exact Hs.
Qed.

(** The stored bounds enclose the subtree. *)
Lemma bounds_enclose (t : itree) : bounds_ok t -> StronglySorted elt (all t) -> (forall j w, In (j, w) (all t) -> lower t <= fst j /\ snd j <= upper t) /\
  (t <> Null -> exists j w, In (j, w) (all t) /\ lower t = fst j).
Proof.
  induction t as [|l IHl i v lo hi a r IHr]; intros Hb Hs; [split; [intros j w []|congruence]|].
  destruct Hb as (Hl & Hr & Hu). cbn [all app] in Hs. destruct (IHl Hl (sorted_app_l _ _ _ Hs)) as (L1 & L2).
  assert (Hs2 := sorted_app_r _ _ _ Hs). inversion Hs2 as [|? ? Hs3 Hf]; subst. destruct (IHr Hr Hs3) as (R1 & R2). clear IHl IHr.
  rewrite Forall_forall in Hf. rewrite Hu. cbn [update lower upper all app].
  assert (Hll : forall j w, In (j, w) (all l) -> iltp j i).
  { intros j w Hj. clear - Hs Hj. induction (all l) as [|x xs IH]; [destruct Hj|]. inversion Hs as [|? ? H1 H2]; subst. rewrite Forall_forall in H2.
    destruct Hj as [->|Hj]; [|auto]. apply (H2 (i, v)). apply in_or_app. right. left. reflexivity. }
  split.
  - intros j w Hj. apply in_app_or in Hj as [Hj|[Hj|Hj]].
    + destruct (L1 j w Hj) as (B1 & B2). destruct l; [destruct Hj|]. split; [exact B1|]. destruct r; lia.
    + injection Hj as -> ->. split.
      * destruct l as [|l1 l2 l3 l4 l5 l6 l7]; [lia|]. destruct (L2 ltac:(discriminate)) as (j' & w' & K1 & K2). rewrite K2.
        apply Hll in K1. unfold iltp in K1. lia.
      * destruct l, r; lia.
    + assert (Hij := Hf (j, w) Hj). unfold elt, iltp in Hij. cbn in Hij. destruct (R1 j w Hj) as (B1 & B2). split.
      * destruct l as [|l1 l2 l3 l4 l5 l6 l7]; [lia|]. destruct (L2 ltac:(discriminate)) as (j' & w' & K1 & K2). rewrite K2.
        apply Hll in K1. unfold iltp in K1. lia.
      * destruct r; [destruct Hj|]. destruct l; lia.
  - intros _. destruct l as [|l1 l2 l3 l4 l5 l6 l7]; [exists i, v; split; [left; reflexivity|reflexivity]|].
    destruct (L2 ltac:(discriminate)) as (j' & w' & K1 & K2). exists j', w'. split; [apply in_or_app; left; exact K1|exact K2].
Qed.
Lemma find_ok (t : itree) q : bounds_ok t -> StronglySorted elt (all t) -> fst q <= snd q -> (forall j w, In (j, w) (all t) -> fst j <= snd j) ->
  node_find t q = filter (fun x => (fst (fst x) <=? snd q) && (fst q <=? snd (fst x))) (all t).
Proof.
  assert (Hov : forall m, fst q <= snd q -> fst m <= snd m -> overlaps m q = (fst m <=? snd q) && (fst q <=? snd m)).
  { intros m H1 H2. unfold overlaps. apply eq_iff_eq_true. rewrite !orb_true_iff, !andb_true_iff, !N.leb_le. lia. }
  intros Hb Hs Hq Hv. induction t as [|l IHl i v lo hi a r IHr]; [reflexivity|].
  assert (En := bounds_enclose _ Hb Hs). destruct En as (En & _). cbn [lower upper] in En.
  cbn [node_find]. destruct (overlaps (lo, hi) q) eqn:E; cbn [negb].
  - cbn [all app] in *. destruct Hb as (Hl & Hr & _). rewrite IHl, IHr.
    + rewrite filter_app. cbn [filter fst]. rewrite (Hov i Hq) by (apply (Hv i v); apply in_or_app; right; left; reflexivity).
      destruct ((fst i <=? snd q) && (fst q <=? snd i)); reflexivity.
    + exact Hr.
    + apply sorted_app_r in Hs. inversion Hs; assumption.
    + intros j w Hj. apply (Hv j w). apply in_or_app. right. right. exact Hj.
    + exact Hl.
    + apply sorted_app_l in Hs. exact Hs.
    + intros j w Hj. apply (Hv j w). apply in_or_app. left. exact Hj.
  - symmetry. clear IHl IHr. revert En Hv. generalize (all (Node l i v lo hi a r)) as es. intros es En Hv.
    induction es as [|(j, w) es IH]; [reflexivity|]. cbn [filter fst]. destruct ((fst j <=? snd q) && (fst q <=? snd j)) eqn:Ej.
    + exfalso. apply andb_true_iff in Ej as (E1 & E2). apply N.leb_le in E1, E2. destruct (En j w (or_introl eq_refl)) as (B1 & B2).
      assert (Hj := Hv j w (or_introl eq_refl)). rewrite Hov in E by (cbn; lia). cbn in E. apply andb_false_iff in E as [E|E]; apply N.leb_gt in E; lia.
    + apply IH; [intros; apply (En j0 w0); right; assumption|intros; apply (Hv j0 w0); right; assumption].
Qed.

(** *** pop *)
Definition hit (q : interval) (x : interval * V) : bool := (fst (fst x) <=? snd q) && (fst q <=? snd (fst x)).
Lemma overlaps_hit q m (v : V) : fst q <= snd q -> fst m <= snd m -> overlaps m q = hit q (m, v).
Proof. intros H1 H2. unfold overlaps, hit. cbn [fst]. apply eq_iff_eq_true. rewrite !orb_true_iff, !andb_true_iff, !N.leb_le. lia. Qed.
Lemma find_none (t : itree) q : bounds_ok t -> StronglySorted elt (all t) -> fst q <= snd q -> (forall j w, In (j, w) (all t) -> fst j <= snd j) ->
  overlaps (lower t, upper t) q = false -> forall x, In x (all t) -> hit q x = false.
Proof.
  intros Hb Hs Hq Hv Hov x Hx. assert (E := find_ok t q Hb Hs Hq Hv). destruct t as [|l i v lo hi a r]; [destruct Hx|].
  cbn [node_find] in E. cbn [lower upper] in Hov. rewrite Hov in E. cbn [negb] in E.
  destruct (hit q x) eqn:Eh; [|reflexivity]. exfalso. assert (Hi : In x (filter (hit q) (all (Node l i v lo hi a r)))) by (apply filter_In; auto).
  change ([] = filter (hit q) (all (Node l i v lo hi a r))) in E. rewrite <- E in Hi. destruct Hi.
Qed.
Lemma pop_min_ok (t : itree) : forall t' i v a, bounds_ok t -> pop_min bf t = Ret (t', (i, v, a)) -> all t = (i, v) :: all t' /\ bounds_ok t'.
Proof.
  induction t as [|l IHl j w lo hi b r IHr]; intros t' i v a Hb H; [discriminate|]. destruct Hb as (Hl & Hr & _).
  destruct l as [|l1 l2 l3 l4 l5 l6 l7].
  - cbn in H. destruct r; [discriminate|]. injection H as <- <- <- <-. split; [reflexivity|exact Hr].
  - change (pop_min bf (Node (Node l1 l2 l3 l4 l5 l6 l7) j w lo hi b r)) with
      (do (l', m) <- pop_min bf (Node l1 l2 l3 l4 l5 l6 l7); do t' <- balance bf (update (Node l' j w lo hi b r)); Ret (t', m)) in H.
    apply bind_ret in H as ((l', ((i', v'), a')) & H1 & H). apply bind_ret in H as (t1 & H2 & H).
    assert (t' = t1 /\ i' = i /\ v' = v /\ a' = a) as (-> & -> & -> & ->) by (injection H as <- <- <- <-; auto).
    apply IHl in H1 as (A & B); [|exact Hl]. apply balance_ok in H2 as (C & D & _); [|apply bounds_update; auto].
    split; [|exact D]. rewrite C, all_update. cbn [all] in A |- *. rewrite A. reflexivity.
Qed.
Lemma node_pop_ok (t : itree) : forall q t' ret, bounds_ok t -> StronglySorted elt (all t) -> fst q <= snd q ->
  (forall j w, In (j, w) (all t) -> fst j <= snd j) -> node_pop bf t q = Ret (t', ret) ->
  bounds_ok t' /\
  match ret with
  | None => t' = t /\ (forall x, In x (all t) -> hit q x = false)
  | Some x => hit q x = true /\ exists l1 l2, all t = l1 ++ x :: l2 /\ all t' = l1 ++ l2 /\ (forall y, In y l1 -> hit q y = false)
  end.
Proof.
  induction t as [|l IHl i v lo hi a r IHr]; intros q t' ret Hb Hs Hq Hv H.
  - cbn in H. injection H as <- <-. split; [exact I|]. split; [reflexivity|]. intros x [].
  - cbn [node_pop] in H. destruct (overlaps (lo, hi) q) eqn:Eo; cbn [negb] in H.
    2:{ injection H as <- <-. split; [exact Hb|]. split; [reflexivity|]. apply find_none; auto. }
    apply bind_ret in H as ((l', rl) & H1 & H). assert (Hb' := Hb). destruct Hb' as (Hl & Hr & _).
    apply IHl in H1; [|exact Hl|cbn [all app] in Hs; apply sorted_app_l in Hs; exact Hs|exact Hq|].
    2:{ intros j w Hj. apply (Hv j w). cbn [all app]. apply in_or_app. left. exact Hj. }
    destruct H1 as (Bl & H1). destruct rl as [x|].
    + apply bind_ret in H as (t1 & H2 & H). injection H as <- <-. destruct H1 as (Hx & l1 & l2 & E1 & E2 & E3).
      apply balance_ok in H2 as (C & D & _); [|apply bounds_update; auto]. split; [exact D|]. split; [exact Hx|].
      exists l1, (l2 ++ (i, v) :: all r). rewrite C, all_update. cbn [all app]. rewrite E1, E2, <- !app_assoc. split; [reflexivity|split; [reflexivity|exact E3]].
    + destruct H1 as (-> & Hno). destruct (overlaps i q) eqn:Ei; cbn [negb] in H; [|discriminate].
      assert (Hhit : hit q (i, v) = true).
      { assert (Hiv : fst i <= snd i); [|rewrite (overlaps_hit q i v Hq Hiv) in Ei; exact Ei]. apply (Hv i v). cbn [all app]. apply in_or_app. right. left. reflexivity. }
      assert (G : forall l'' (s : itree), all s = all l ++ all r -> bounds_ok s -> Ret (s, Some (i, v)) = Ret (t', ret) -> l'' = l ->
        bounds_ok t' /\ match ret with None => t' = Node l i v lo hi a r /\ (forall x, In x (all (Node l i v lo hi a r)) -> hit q x = false)
          | Some x => hit q x = true /\ exists l1 l2, all (Node l i v lo hi a r) = l1 ++ x :: l2 /\ all t' = l1 ++ l2 /\ (forall y, In y l1 -> hit q y = false) end).
      { intros l'' s Es Bs H0 _. injection H0 as <- <-. split; [exact Bs|]. split; [exact Hhit|]. exists (all l), (all r). split; [reflexivity|split; [exact Es|exact Hno]]. }
      destruct l as [|l1 l2 l3 l4 l5 l6 l7].
      * destruct r as [|r1 r2 r3 r4 r5 r6 r7]; [eapply (G Null Null); eauto|]. eapply (G Null); [| |exact H|reflexivity]; [reflexivity|exact Hr].
      * destruct r as [|r1 r2 r3 r4 r5 r6 r7].
        -- eapply (G _); [| |exact H|reflexivity]; [rewrite app_nil_r; reflexivity|exact Hl].
        -- apply bind_ret in H as ((sub, ((mi, mv), ma)) & H1 & H). apply bind_ret in H as (t1 & H2 & H). apply pop_min_ok in H1 as (A & B); [|exact Hr].
           apply balance_ok in H2 as (C & D & _); [|apply bounds_update; auto]. eapply (G _); [| |exact H|reflexivity]; [|exact D].
           rewrite C, all_update. rewrite A. reflexivity.
Qed.
(** Popping everything that overlaps [q]: in order, and nothing else. *)
Lemma pop_ok (q : interval) fuel (t : itree) : bounds_ok t -> StronglySorted elt (all t) -> fst q <= snd q ->
  (forall j w, In (j, w) (all t) -> fst j <= snd j) -> (length (all t) < fuel)%nat ->
  pop bf fuel t q <> OutOfFuel /\ forall t' ret, pop bf fuel t q = Ret (t', ret) ->
    bounds_ok t' /\ all t' = filter (fun x => negb (hit q x)) (all t) /\ ret = filter (hit q) (all t).
Proof.
  intros B C Hq Hval Hf.
  revert t Hf B C Hval. induction fuel as [|fuel IH]; intros t Hf B C Hval; [lia|]. cbn [pop].
  assert (NF : forall t : itree, node_pop bf t q <> OutOfFuel).
  { assert (RF : forall (x : itree) f, rotate x f <> OutOfFuel).
    { intros x f. unfold rotate. destruct (f <? 0)%Z; [destruct x as [|[] ? ? ? ? ? ?]; discriminate|]. destruct (0 <? f)%Z; [destruct x as [|? ? ? ? ? ? []]; discriminate|discriminate]. }
    assert (FF : forall x : itree, balance_factor bf x <> OutOfFuel) by (intros [|[] ? ? ? ? ? []]; discriminate).
    assert (BF : forall x : itree, balance bf x <> OutOfFuel).
    { intros [|l i v lo hi a r]; [discriminate|]. unfold balance. destruct (balance_factor bf (Node l i v lo hi a r)) as [f| | |] eqn:E; cbn; try discriminate; [|exact (fun _ => FF _ E)].
      destruct (f * f <=? 1)%Z; [discriminate|]. destruct (if (f <? 0)%Z then balance_factor bf l else balance_factor bf r) as [sf| | |] eqn:E2; cbn; try discriminate.
      2:{ destruct (f <? 0)%Z; exact (fun _ => FF _ E2). }
      destruct (0 <? f * sf)%Z; [apply RF|]. destruct (f =? 2)%Z.
      - destruct (rotate r sf) eqn:E3; cbn; try discriminate; [apply RF|exact (fun _ => RF _ _ E3)].
      - destruct (rotate l sf) eqn:E3; cbn; try discriminate; [apply RF|exact (fun _ => RF _ _ E3)]. }
    assert (PF : forall x : itree, pop_min bf x <> OutOfFuel).
    { induction x as [|l IHl i v lo hi a r IHr]; [discriminate|]. destruct l as [|l1 l2 l3 l4 l5 l6 l7]; [destruct r; discriminate|].
      change (pop_min bf (Node (Node l1 l2 l3 l4 l5 l6 l7) i v lo hi a r)) with
        (do (l', m) <- pop_min bf (Node l1 l2 l3 l4 l5 l6 l7); do t' <- balance bf (update (Node l' i v lo hi a r)); Ret (t', m)).
      destruct (pop_min bf (Node l1 l2 l3 l4 l5 l6 l7)) as [(l', m)| | |]; cbn [bind]; try discriminate; [|congruence].
      destruct (balance bf (update (Node l' i v lo hi a r))) eqn:E; cbn; try discriminate. exact (fun _ => BF _ E). }
    clear - BF PF. induction t as [|l IHl i v lo hi a r IHr]; [discriminate|]. cbn [node_pop]. destruct (negb (overlaps (lo, hi) q)); [discriminate|].
    destruct (node_pop bf l q) as [(l', rl)| | |]; cbn [bind]; try discriminate; [|congruence]. destruct rl.
    - destruct (balance bf (update (Node l' i v lo hi a r))) eqn:E; cbn; try discriminate. exact (fun _ => BF _ E).
    - destruct (negb (overlaps i q)); [discriminate|]. destruct l' as [|k1 k2 k3 k4 k5 k6 k7]; [destruct r; discriminate|]. destruct r as [|r1 r2 r3 r4 r5 r6 r7]; [discriminate|].
      destruct (pop_min bf (Node r1 r2 r3 r4 r5 r6 r7)) as [(sub, ((mi, mv), ma))| | |] eqn:E; cbn [bind]; try discriminate; [|exact (fun _ => PF _ E)].
      destruct (balance bf (update (Node (Node k1 k2 k3 k4 k5 k6 k7) mi mv 0 0 ma sub))) eqn:E2; cbn [bind]; try discriminate. exact (fun _ => BF _ E2). }
  destruct (node_pop bf t q) as [(t1, ret)| | |] eqn:E; cbn [bind]; [|split; discriminate|split; discriminate|exfalso; exact (NF _ E)].
  assert (P := node_pop_ok t q t1 ret B C Hq Hval E). destruct P as (B1 & P). destruct ret as [x|].
  - destruct P as (Hx & l1 & l2 & E1 & E2 & E3).
    assert (C1 : StronglySorted elt (all t1)).
    { rewrite E2. rewrite E1 in C. clear - C. induction l1 as [|y l1 IH]; cbn in *; inversion C as [|? ? K1 K2]; subst; [exact K1|].
      constructor; [apply IH; exact K1|]. rewrite Forall_forall in *. intros z Hz. apply K2. apply in_app_or in Hz as [Hz|Hz]; apply in_or_app; [auto|right; right; exact Hz]. }
    assert (Hlen : (length (all t1) < fuel)%nat) by (rewrite E1 in Hf; rewrite E2; rewrite app_length in *; cbn in Hf; lia).
    destruct (IH t1 Hlen B1 C1) as (N1 & R1).
    { intros j w Hj. apply (Hval j w). rewrite E1. rewrite E2 in Hj. apply in_app_or in Hj as [Hj|Hj]; apply in_or_app; [auto|right; right; exact Hj]. }
    destruct (pop bf fuel t1 q) as [(tf, l)| | |]; cbn [bind]; [|split; discriminate|split; discriminate|congruence].
    split; [discriminate|]. intros t' ret' H. injection H as <- <-. destruct (R1 tf l eq_refl) as (R0 & R2 & R3). split; [exact R0|].
    rewrite R2, E2, E1, !filter_app. cbn [filter]. rewrite Hx. cbn [negb]. split; [reflexivity|].
    rewrite E2, filter_app in R3.
    assert (F1 : filter (hit q) l1 = []). { clear - E3. induction l1 as [|y l1 IHl]; [reflexivity|]. cbn [filter]. rewrite (E3 y (or_introl eq_refl)). apply IHl. intros z Hz. apply E3. right. exact Hz. }
    rewrite F1 in R3 |- *. rewrite R3. reflexivity.
  - destruct P as (-> & Hno). split; [discriminate|]. intros t' ret' H. injection H as <- <-. split; [exact B|]. clear - Hno. induction (all t) as [|y l IH]; [auto|].
    cbn [filter]. rewrite (Hno y (or_introl eq_refl)). cbn [negb]. destruct IH as (I1 & I2); [intros x Hx; apply Hno; right; exact Hx|]. split; [f_equal; exact I1|exact I2].
Qed.
End Tree.
