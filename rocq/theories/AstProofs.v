(** AstProofs.v -- lemmas about AstModel. *)
From Verif Require Import Base RegexModel RegexSpec RegexProofs SerializeModel SerializeProofs AstModel.

Lemma pos_set_neg n a : a_pos (set_neg n a) = a_pos a.
Proof. destruct a; reflexivity. Qed.
Lemma neg_set_neg n a : a_neg (set_neg n a) = n.
Proof. destruct a; reflexivity. Qed.
Lemma nfa_set_neg n a : ast_nfa (set_neg n a) = ast_nfa a.
Proof. destruct a; reflexivity. Qed.
Lemma build_pos r : a_pos (build r) = pos_tags r.
Proof.
  induction r; cbn [build pos_tags a_pos]; auto.
  - unfold mk_or. cbn [a_pos]. rewrite !pos_set_neg, IHr1, IHr2. reflexivity.
  - unfold mk_cat. cbn [a_pos]. rewrite IHr1, IHr2. reflexivity.
  - unfold mk_capture. cbn [a_pos]. rewrite IHr. reflexivity.
Qed.
Lemma build_neg r : a_neg (build r) = [].
Proof. destruct r; reflexivity. Qed.
Lemma build_nfa r : ast_nfa (build r) = add_to_nfa r.
Proof.
  induction r; cbn [build add_to_nfa]; auto.
  - unfold mk_or. cbn [ast_nfa]. rewrite !neg_set_neg, !nfa_set_neg, pos_set_neg, !build_pos, IHr1, IHr2. reflexivity.
  - unfold mk_cat. cbn [ast_nfa]. rewrite !build_neg. cbn [with_neg]. rewrite IHr1, IHr2. reflexivity.
  - unfold mk_mult. cbn [ast_nfa]. rewrite !build_neg. unfold with_neg. rewrite IHr. reflexivity.
  - unfold mk_capture. cbn [ast_nfa]. rewrite !build_neg. unfold with_neg. rewrite IHr. reflexivity.
Qed.
Lemma build_rules rules n : add_asts (map (fun x => (fst x, build (snd x))) rules) n = add_rules rules n.
Proof.
  revert n. induction rules as [|[i r] rules IH]; intros n; [reflexivity|]. cbn [map fst snd add_asts add_rules]. rewrite build_neg, build_nfa. unfold with_neg.
  destruct (add_to_nfa r n_root n (S n)) as [[n1 e1]| | |]; cbn [bind]; [|reflexivity..]. rewrite IH. reflexivity.
Qed.

(** * Builders that differ only in the tags *)
Definition nm (m : mem) (t : N) : list N := match m_names m t with Some u => u | None => [] end.
Definition same_label (f : N -> list N) (l l' : label) : Prop :=
  match l, l' with
  | LByte a b, LByte c d => a = c /\ b = d
  | LEps, LEps => True
  | LPosStart t, LPosStart t' | LPosEnd t, LPosEnd t' => f t = f t'
  | LNeg ts, LNeg ts' => ts = ts'
  | _, _ => False
  end.
Definition same_edge (f : N -> list N) (x y : edge) : Prop :=
  let '(p, l, q) := x in let '(p', l', q') := y in p = p' /\ q = q' /\ same_label f l l'.
Definition same_out (f : N -> list N) (x y : out (nat * list edge)) : Prop :=
  match x, y with
  | Ret (n, es), Ret (n', es') => n = n' /\ Forall2 (same_edge f) es es'
  | Ret _, _ | _, Ret _ => False
  | _, _ => x = y
  end.
Definition brel (f : N -> list N) (g h : builder) : Prop := forall root e n, same_out f (g root e n) (h root e n).
Lemma same_edge_refl f x : same_edge f x x.
Proof. destruct x as [[p l] q]. split; [reflexivity|]. split; [reflexivity|]. destruct l; cbn; auto. Qed.
Lemma brel_refl f g : brel f g g.
Proof.
  intros root e n. unfold same_out. destruct (g root e n) as [[n1 e1]| | |]; auto. split; [reflexivity|]. induction e1; constructor; auto using same_edge_refl.
Qed.
Lemma brel_bind f x y (k k' : nat * list edge -> out (nat * list edge)) : same_out f x y ->
  (forall n es es', Forall2 (same_edge f) es es' -> same_out f (k (n, es)) (k' (n, es'))) -> same_out f (bind x k) (bind y k').
Proof.
  intros H Hk. destruct x as [[n1 e1]| | |], y as [[n2 e2]| | |]; cbn in H; try contradiction; try discriminate; cbn [bind]; try reflexivity.
  destruct H as [<- H]. apply Hk, H.
Qed.
Lemma brel_seq f g g' h h' : brel f g g' -> brel f h h' -> brel f (b_seq g h) (b_seq g' h').
Proof.
  intros H1 H2 root e n. unfold b_seq. apply (brel_bind f _ _ (fun '(n1, e1) => do (n2, e2) <- h root e n1; Ret (n2, e1 ++ e2)) (fun '(n1, e1) => do (n2, e2) <- h' root e n1; Ret (n2, e1 ++ e2))); [apply H1|].
  intros n1 e1 e1' F1. apply (brel_bind f _ _ (fun '(n2, e2) => Ret (n2, e1 ++ e2)) (fun '(n2, e2) => Ret (n2, e1' ++ e2))); [apply H2|].
  intros n2 e2 e2' F2. cbn. split; [reflexivity|]. apply Forall2_app; assumption.
Qed.
Lemma brel_cat f g g' h h' : brel f g g' -> brel f h h' -> brel f (b_cat g h) (b_cat g' h').
Proof.
  intros H1 H2 root e n. unfold b_cat. apply (brel_bind f _ _ (fun '(n1, e1) => do (n2, e2) <- h n e n1; Ret (n2, e1 ++ e2)) (fun '(n1, e1) => do (n2, e2) <- h' n e n1; Ret (n2, e1 ++ e2))); [apply H1|].
  intros n1 e1 e1' F1. apply (brel_bind f _ _ (fun '(n2, e2) => Ret (n2, e1 ++ e2)) (fun '(n2, e2) => Ret (n2, e1' ++ e2))); [apply H2|].
  intros n2 e2 e2' F2. cbn. split; [reflexivity|]. apply Forall2_app; assumption.
Qed.
Lemma brel_atend f g g' : brel f g g' -> brel f (b_atend g) (b_atend g').
Proof. intros H root e n. apply H. Qed.
Lemma brel_neg f ts g g' : brel f g g' -> brel f (with_neg ts g) (with_neg ts g').
Proof.
  intros H root e n. unfold with_neg. destruct ts as [|t ts]; [apply H|].
  apply (brel_bind f _ _ (fun '(n1, e1) => Ret (n1, (n, LNeg (t :: ts), e) :: e1)) (fun '(n1, e1) => Ret (n1, (n, LNeg (t :: ts), e) :: e1))); [apply H|].
  intros n1 e1 e1' F. cbn. split; [reflexivity|]. constructor; [apply same_edge_refl|exact F].
Qed.
Lemma brel_capture f t t' g g' : f t = f t' -> brel f g g' -> brel f (b_capture t g) (b_capture t' g').
Proof.
  intros Ht H root e n. unfold b_capture.
  apply (brel_bind f _ _ (fun '(n1, e1) => Ret (n1, (root, LPosStart t, n) :: (S n, LPosEnd t, e) :: e1)) (fun '(n1, e1) => Ret (n1, (root, LPosStart t', n) :: (S n, LPosEnd t', e) :: e1))); [apply H|].
  intros n1 e1 e1' F. cbn. split; [reflexivity|]. constructor; [cbn; auto|]. constructor; [cbn; auto|exact F].
Qed.
Lemma brel_chain f g g' k h h' : brel f g g' -> brel f h h' -> brel f (b_chain g k h) (b_chain g' k h').
Proof. intros H1 H2. induction k; cbn [b_chain]; auto using brel_cat. Qed.
Lemma brel_upto f g g' k : brel f g g' -> brel f (b_upto g k) (b_upto g' k).
Proof. intros H. induction k; cbn [b_upto]; auto using brel_cat, brel_seq. Qed.
Lemma brel_mult f g g' mn mx : brel f g g' -> brel f (b_mult g mn mx) (b_mult g' mn mx).
Proof.
  intros H. unfold b_mult. destruct (mn =? 0), (mx =? 0), (mn <? mx); auto using brel_seq, brel_chain, brel_atend, brel_upto, brel_cat, brel_refl.
Qed.

(** * Cloning *)
Definition sane (m : mem) : Prop := forall t, m_next m <= t -> m_names m t = None.
Definition ext (m m' : mem) : Prop := m_next m <= m_next m' /\ forall t, t < m_next m -> m_names m' t = m_names m t.
Lemma ext_refl m : ext m m.
Proof. split; [lia|auto]. Qed.
Lemma ext_trans a b c : ext a b -> ext b c -> ext a c.
Proof. intros [L1 E1] [L2 E2]. split; [lia|]. intros t Ht. rewrite E2 by lia. auto. Qed.
(** The tags of the captures of an object. *)
Fixpoint owned (a : ast) : list N :=
  match a with
  | ALeaf _ _ _ => []
  | AOr _ _ l r | ACat _ _ l r => owned l ++ owned r
  | AMult _ _ o _ _ => owned o
  | ACapture _ _ o t => owned o ++ [t]
  end.
(** The negative tags stored in a node and below it. *)
Fixpoint negatives (a : ast) : list N :=
  match a with
  | ALeaf _ n _ => n
  | AOr _ n l r | ACat _ n l r => negatives l ++ negatives r ++ n
  | AMult _ n o _ _ => negatives o ++ n
  | ACapture _ n o _ => negatives o ++ n
  end.
Definition present (m : mem) (ts : list N) : Prop := forall t, In t ts -> m_names m t <> None.
Lemma present_lt m ts t : sane m -> present m ts -> In t ts -> t < m_next m.
Proof. intros S P H. apply P in H. destruct (N.lt_ge_cases t (m_next m)) as [|G]; [assumption|]. destruct (H (S t G)). Qed.
Lemma ext_present m m' ts : sane m -> ext m m' -> present m ts -> present m' ts.
Proof. intros S [L E] P t Ht. rewrite E by (eapply present_lt; eauto). exact (P t Ht). Qed.

Lemma clone_spec a : forall m, sane m -> present m (owned a) ->
  exists c m', clone a m = Ret (c, m') /\ sane m' /\ ext m m' /\ a_pos c = a_pos a /\ a_neg c = a_neg a /\ negatives c = negatives a /\
    (forall t, In t (owned c) -> m_next m <= t < m_next m') /\ NoDup (owned c) /\
    map (m_names m') (owned c) = map (m_names m) (owned a) /\
    (forall M, ext m' M -> brel (nm M) (ast_nfa a) (ast_nfa c)) /\
    (forall M, ext m' M -> ast_text M c = ast_text M a).
Proof.
  induction a as [p n k|p n l IHl r IHr|p n l IHl r IHr|p n o IHo mn mx|p n o IHo t]; intros m Sm Hp.
  - exists (ALeaf p n k), m. split; [reflexivity|]. split; [exact Sm|]. split; [apply ext_refl|]. do 3 (split; [reflexivity|]).
    split; [intros t []|]. split; [constructor|]. split; [reflexivity|]. split; [intros; apply brel_refl|reflexivity].
  - destruct (IHl m Sm) as (c1 & m1 & E1 & S1 & X1 & A1 & B1 & C1 & D1 & N1 & M1 & R1 & T1); [intros t Ht; apply Hp, in_app_iff; auto|].
    assert (Hr : present m (owned r)) by (intros t Ht; apply Hp, in_app_iff; auto).
    destruct (IHr m1 S1) as (c2 & m2 & E2 & S2 & X2 & A2 & B2 & C2 & D2 & N2 & M2 & R2 & T2); [apply (ext_present m); auto|].
    exists (AOr p n c1 c2), m2. cbn [clone]. rewrite E1. cbn [bind]. rewrite E2. cbn [bind].
    split; [reflexivity|]. split; [exact S2|]. split; [exact (ext_trans _ _ _ X1 X2)|]. split; [reflexivity|]. split; [reflexivity|].
    split; [cbn [negatives]; congruence|]. split; [|split; [|split; [|split]]].
    + cbn [owned]. intros t Ht. destruct X1 as [L1 _], X2 as [L2 _]. apply in_app_iff in Ht as [Ht|Ht]; [specialize (D1 t Ht)|specialize (D2 t Ht)]; lia.
    + cbn [owned]. apply nodup_app; auto. intros t Ha Hb. specialize (D1 t Ha). specialize (D2 t Hb). lia.
    + cbn [owned]. rewrite !map_app. f_equal.
      * rewrite <- M1. apply map_ext_in. intros t Ht. apply (proj2 X2). apply D1, Ht.
      * rewrite M2. apply map_ext_in. intros t Ht. apply (proj2 X1). eapply present_lt; eauto.
    + intros M XM. cbn [ast_nfa]. rewrite B1, B2. apply brel_seq; apply brel_neg; [apply R1|apply R2]; eauto using ext_trans.
    + intros M XM. cbn [ast_text]. rewrite T1, T2 by eauto using ext_trans. reflexivity.
  - destruct (IHl m Sm) as (c1 & m1 & E1 & S1 & X1 & A1 & B1 & C1 & D1 & N1 & M1 & R1 & T1); [intros t Ht; apply Hp, in_app_iff; auto|].
    assert (Hr : present m (owned r)) by (intros t Ht; apply Hp, in_app_iff; auto).
    destruct (IHr m1 S1) as (c2 & m2 & E2 & S2 & X2 & A2 & B2 & C2 & D2 & N2 & M2 & R2 & T2); [apply (ext_present m); auto|].
    exists (ACat p n c1 c2), m2. cbn [clone]. rewrite E1. cbn [bind]. rewrite E2. cbn [bind].
    split; [reflexivity|]. split; [exact S2|]. split; [exact (ext_trans _ _ _ X1 X2)|]. split; [reflexivity|]. split; [reflexivity|].
    split; [cbn [negatives]; congruence|]. split; [|split; [|split; [|split]]].
    + cbn [owned]. intros t Ht. destruct X1 as [L1 _], X2 as [L2 _]. apply in_app_iff in Ht as [Ht|Ht]; [specialize (D1 t Ht)|specialize (D2 t Ht)]; lia.
    + cbn [owned]. apply nodup_app; auto. intros t Ha Hb. specialize (D1 t Ha). specialize (D2 t Hb). lia.
    + cbn [owned]. rewrite !map_app. f_equal.
      * rewrite <- M1. apply map_ext_in. intros t Ht. apply (proj2 X2). apply D1, Ht.
      * rewrite M2. apply map_ext_in. intros t Ht. apply (proj2 X1). eapply present_lt; eauto.
    + intros M XM. cbn [ast_nfa]. rewrite B1, B2. apply brel_cat; apply brel_neg; [apply R1|apply R2]; eauto using ext_trans.
    + intros M XM. cbn [ast_text]. rewrite T1, T2 by eauto using ext_trans. reflexivity.
  - destruct (IHo m Sm Hp) as (c1 & m1 & E1 & S1 & X1 & A1 & B1 & C1 & D1 & N1 & M1 & R1 & T1).
    exists (AMult p n c1 mn mx), m1. cbn [clone]. rewrite E1. cbn [bind]. cbn [owned a_pos a_neg negatives].
    split; [reflexivity|]. split; [exact S1|]. split; [exact X1|]. split; [reflexivity|]. split; [reflexivity|].
    split; [congruence|]. split; [exact D1|]. split; [exact N1|]. split; [exact M1|]. split.
    + intros M XM. cbn [ast_nfa]. rewrite B1. apply brel_mult, brel_neg, R1, XM.
    + intros M XM. cbn [ast_text]. rewrite T1 by exact XM. reflexivity.
  - destruct (IHo m Sm) as (c1 & m1 & E1 & S1 & X1 & A1 & B1 & C1 & D1 & N1 & M1 & R1 & T1); [intros u Hu; apply Hp, in_app_iff; auto|].
    assert (Ht : m_names m t <> None) by (apply Hp, in_app_iff; right; now left).
    assert (Hlt : t < m_next m) by (apply (present_lt m (owned (ACapture p n o t))); auto; apply in_app_iff; right; now left).
    destruct (m_names m t) as [u|] eqn:Eu; [|contradiction].
    assert (Eu1 : m_names m1 t = Some u) by (rewrite (proj2 X1) by exact Hlt; exact Eu).
    set (m2 := mkMem (m_next m1 + 1) (fun t' => if t' =? m_next m1 then Some u else m_names m1 t')).
    assert (X2 : ext m1 m2). { split; [cbn; lia|]. intros t' Ht'. cbn. destruct (N.eqb_spec t' (m_next m1)); [lia|reflexivity]. }
    assert (S2 : sane m2). { intros t' Ht'. cbn in *. destruct (N.eqb_spec t' (m_next m1)); [lia|]. apply S1. lia. }
    exists (ACapture p n c1 (m_next m1)), m2. cbn [clone]. rewrite E1. cbn [bind]. unfold name_at. rewrite Eu1. cbn [bind alloc].
    split; [reflexivity|]. split; [exact S2|]. split; [exact (ext_trans _ _ _ X1 X2)|]. split; [reflexivity|]. split; [reflexivity|].
    split; [cbn [negatives]; congruence|]. cbn [owned]. split; [|split; [|split; [|split]]].
    + intros t' Ht'. destruct X1 as [L1 _]. apply in_app_iff in Ht' as [Ht'|[<-|[]]]; [specialize (D1 t' Ht')|]; cbn; lia.
    + apply nodup_app; [exact N1|constructor; [intros []|constructor]|]. intros t' Ha [<-|[]]. specialize (D1 _ Ha). lia.
    + rewrite !map_app. f_equal.
      * rewrite <- M1. apply map_ext_in. intros t' Ht'. apply (proj2 X2). apply D1, Ht'.
      * cbn. rewrite N.eqb_refl, Eu. reflexivity.
    + intros M XM. cbn [ast_nfa]. rewrite B1. apply brel_capture.
      * unfold nm. destruct XM as [LM EM]. rewrite (EM (m_next m1)) by (cbn; lia). rewrite (EM t) by (destruct X1; cbn; lia).
        cbn. rewrite N.eqb_refl. destruct (N.eqb_spec t (m_next m1)) as [Hx|_]; [|rewrite Eu1; reflexivity]. destruct X1; lia.
      * apply brel_neg, R1. eauto using ext_trans.
    + intros M XM. cbn [ast_text]. rewrite T1 by eauto using ext_trans. unfold name_at. destruct XM as [LM EM]. rewrite (EM (m_next m1)) by (cbn; lia). rewrite (EM t) by (destruct X1; cbn; lia).
      cbn [m_names m2]. rewrite N.eqb_refl. destruct (N.eqb_spec t (m_next m1)) as [Hx|_]; [|rewrite Eu1; reflexivity]. destruct X1; lia.
Qed.

(** * Destruction *)
Lemma destroy_names a : forall m t, m_names (destroy a m) t = if existsb (N.eqb t) (owned a) then None else m_names m t.
Proof.
  induction a as [p n k|p n l IHl r IHr|p n l IHl r IHr|p n o IHo mn mx|p n o IHo g]; intros m t; cbn [destroy owned].
  - reflexivity.
  - rewrite existsb_app, IHr, IHl. destruct (existsb (N.eqb t) (owned l)), (existsb (N.eqb t) (owned r)); reflexivity.
  - rewrite existsb_app, IHr, IHl. destruct (existsb (N.eqb t) (owned l)), (existsb (N.eqb t) (owned r)); reflexivity.
  - apply IHo.
  - rewrite existsb_app, IHo. cbn. destruct (existsb (N.eqb t) (owned o)); cbn; [reflexivity|]. rewrite orb_false_r. reflexivity.
Qed.
Lemma owned_set_neg n a : owned (set_neg n a) = owned a.
Proof. destruct a; reflexivity. Qed.
Lemma build_owned r : owned (build r) = pos_tags r.
Proof.
  induction r; cbn [build pos_tags owned]; auto.
  - unfold mk_or. cbn [owned]. rewrite !owned_set_neg, IHr1, IHr2. reflexivity.
  - unfold mk_cat. cbn [owned]. rewrite IHr1, IHr2. reflexivity.
  - unfold mk_capture. cbn [owned]. rewrite IHr. reflexivity.
Qed.
(** An alternation one of whose branches contains a capture group. *)
Fixpoint splits_captures (r : regex) : bool :=
  match r with
  | REmpty | RLit _ | RInt _ | RGroup _ _ _ => false
  | ROr l r => match pos_tags l ++ pos_tags r with [] => false | _ => true end || splits_captures l || splits_captures r
  | RCat l r => splits_captures l || splits_captures r
  | RMult r _ _ | RCapture r _ => splits_captures r
  end.
Lemma negatives_set n a : a_neg a = [] -> negatives (set_neg n a) = negatives a ++ n.
Proof. destruct a; cbn [a_neg]; intros ->; cbn [set_neg negatives]; rewrite ?app_nil_r, ?app_assoc; reflexivity. Qed.
Lemma negatives_build r : (negatives (build r) = [] <-> splits_captures r = false) /\ (forall t, In t (negatives (build r)) -> In t (pos_tags r)).
Proof.
  induction r as [|c|ds|w neg rs|l [IHl1 IHl2] r [IHr1 IHr2]|l [IHl1 IHl2] r [IHr1 IHr2]|r [IHr1 IHr2] mn mx|r [IHr1 IHr2] t];
    cbn [build splits_captures pos_tags]; try (split; [split; reflexivity|intros ? []]; fail).
  - unfold mk_or. cbn [negatives]. rewrite !negatives_set by apply build_neg. rewrite pos_set_neg, !build_pos, app_nil_r. split.
    + rewrite !orb_false_iff. split.
      * intros H. apply app_eq_nil in H as [H1 H2]. apply app_eq_nil in H1 as [H1 H3]. apply app_eq_nil in H2 as [H2 H4]. rewrite H3, H4. split; [split; [reflexivity|]|]; [apply IHl1|apply IHr1]; assumption.
      * intros [[H1 H2] H3]. apply IHl1 in H2. apply IHr1 in H3. rewrite H2, H3. destruct (pos_tags l); [|discriminate]. cbn in H1. destruct (pos_tags r); [reflexivity|discriminate].
    + intros t Ht. apply in_app_iff. rewrite !in_app_iff in Ht. destruct Ht as [[Ht|Ht]|[Ht|Ht]]; auto.
  - unfold mk_cat. cbn [negatives]. rewrite app_nil_r. split.
    + rewrite orb_false_iff, <- IHl1, <- IHr1. split; [apply app_eq_nil|intros [-> ->]; reflexivity].
    + intros t Ht. apply in_app_iff in Ht. apply in_app_iff. destruct Ht; auto.
  - unfold mk_mult. cbn [negatives]. rewrite app_nil_r. auto.
  - unfold mk_capture. cbn [negatives]. rewrite app_nil_r. split; [exact IHr1|]. intros x Hx. apply in_app_iff. auto.
Qed.

(** The text of a copy when only its own tags exist. *)
Definition plain_out {X} (x : out X) : Prop := (exists v, x = Ret v) \/ x = UB.
Lemma names_out m ts : plain_out (each (name_at m) ts).
Proof.
  induction ts as [|t ts IH]; [left; eexists; reflexivity|]. cbn [each]. unfold name_at at 1. destruct (m_names m t); cbn [bind]; [|right; reflexivity].
  destruct IH as [(v & ->)| ->]; [left; eexists; reflexivity|right; reflexivity].
Qed.
Lemma neg_text_nil m : neg_text m [] = Ret [].
Proof. reflexivity. Qed.
Lemma neg_text_dead m ts : ts <> [] -> (forall t, In t ts -> m_names m t = None) -> neg_text m ts = UB.
Proof. intros H Hd. destruct ts as [|t ts]; [congruence|]. unfold neg_text. cbn [each]. unfold name_at at 1. rewrite (Hd t) by (now left). reflexivity. Qed.
Lemma text_own c : forall M, (forall t, In t (owned c) -> m_names M t <> None) -> (forall t, In t (negatives c) -> m_names M t = None) ->
  (negatives c = [] -> exists v, ast_text M c = Ret v) /\ (negatives c <> [] -> ast_text M c = UB).
Proof.
  induction c as [p n k|p n l IHl r IHr|p n l IHl r IHr|p n o IHo mn mx|p n o IHo g]; intros M Ho Hd; cbn [owned negatives ast_text] in *.
  - split; [intros ->; eexists; reflexivity|]. intros H. rewrite neg_text_dead by assumption. reflexivity.
  - destruct (IHl M) as [L1 L2]; [intros t Ht; apply Ho, in_app_iff; auto|intros t Ht; apply Hd; rewrite !in_app_iff; auto|].
    destruct (IHr M) as [R1 R2]; [intros t Ht; apply Ho, in_app_iff; auto|intros t Ht; apply Hd; rewrite !in_app_iff; auto|].
    split.
    + intros H. apply app_eq_nil in H as [H1 H]. apply app_eq_nil in H as [H2 ->]. destruct (L1 H1) as (v & ->), (R1 H2) as (v' & ->). eexists; reflexivity.
    + intros H. destruct (negatives l) as [|a la] eqn:El; [|rewrite L2 by discriminate; reflexivity]. destruct (L1 eq_refl) as (v & ->). cbn [bind].
      destruct (negatives r) as [|b lb] eqn:Er; [|rewrite R2 by discriminate; reflexivity]. destruct (R1 eq_refl) as (v' & ->). cbn [bind].
      cbn in H. rewrite neg_text_dead; [reflexivity|exact H|]. intros t Ht. apply Hd. exact Ht.
  - destruct (IHl M) as [L1 L2]; [intros t Ht; apply Ho, in_app_iff; auto|intros t Ht; apply Hd; rewrite !in_app_iff; auto|].
    destruct (IHr M) as [R1 R2]; [intros t Ht; apply Ho, in_app_iff; auto|intros t Ht; apply Hd; rewrite !in_app_iff; auto|].
    split.
    + intros H. apply app_eq_nil in H as [H1 H]. apply app_eq_nil in H as [H2 ->]. destruct (L1 H1) as (v & ->), (R1 H2) as (v' & ->). eexists; reflexivity.
    + intros H. destruct (negatives l) as [|a la] eqn:El; [|rewrite L2 by discriminate; reflexivity]. destruct (L1 eq_refl) as (v & ->). cbn [bind].
      destruct (negatives r) as [|b lb] eqn:Er; [|rewrite R2 by discriminate; reflexivity]. destruct (R1 eq_refl) as (v' & ->). cbn [bind].
      cbn in H. rewrite neg_text_dead; [reflexivity|exact H|]. intros t Ht. apply Hd. exact Ht.
  - destruct (IHo M) as [L1 L2]; [exact Ho|intros t Ht; apply Hd; rewrite in_app_iff; auto|]. split.
    + intros H. apply app_eq_nil in H as [H1 ->]. destruct (L1 H1) as (v & ->). eexists; reflexivity.
    + intros H. destruct (negatives o) as [|a la] eqn:El; [|rewrite L2 by discriminate; reflexivity]. destruct (L1 eq_refl) as (v & ->). cbn [bind].
      cbn in H. rewrite neg_text_dead; [reflexivity|exact H|]. intros t Ht. apply Hd. exact Ht.
  - destruct (IHo M) as [L1 L2]; [intros t Ht; apply Ho, in_app_iff; auto|intros t Ht; apply Hd; rewrite in_app_iff; auto|].
    assert (Hg : m_names M g <> None) by (apply Ho, in_app_iff; right; now left). unfold name_at. destruct (m_names M g) as [u|]; [|contradiction]. split.
    + intros H. apply app_eq_nil in H as [H1 ->]. destruct (L1 H1) as (v & ->). eexists; reflexivity.
    + intros H. destruct (negatives o) as [|a la] eqn:El; [|rewrite L2 by discriminate; reflexivity]. destruct (L1 eq_refl) as (v & ->). cbn [bind].
      cbn in H. rewrite neg_text_dead; [reflexivity|exact H|]. intros t Ht. apply Hd. exact Ht.
Qed.
(** Without negative tags the text only depends on the names of the captures. *)
Lemma text_names c : forall M M', negatives c = [] -> (forall t, In t (owned c) -> m_names M t = m_names M' t) -> ast_text M c = ast_text M' c.
Proof.
  induction c as [p n k|p n l IHl r IHr|p n l IHl r IHr|p n o IHo mn mx|p n o IHo g]; intros M M' Hn Ho; cbn [owned negatives ast_text] in *.
  - subst n. reflexivity.
  - apply app_eq_nil in Hn as [H1 H]. apply app_eq_nil in H as [H2 ->]. rewrite (IHl M M' H1), (IHr M M' H2); [reflexivity| |]; intros t Ht; apply Ho, in_app_iff; auto.
  - apply app_eq_nil in Hn as [H1 H]. apply app_eq_nil in H as [H2 ->]. rewrite (IHl M M' H1), (IHr M M' H2); [reflexivity| |]; intros t Ht; apply Ho, in_app_iff; auto.
  - apply app_eq_nil in Hn as [H1 ->]. rewrite (IHo M M' H1 Ho). reflexivity.
  - apply app_eq_nil in Hn as [H1 ->]. rewrite (IHo M M' H1) by (intros t Ht; apply Ho, in_app_iff; auto). unfold name_at. rewrite (Ho g) by (apply in_app_iff; right; now left). reflexivity.
Qed.
