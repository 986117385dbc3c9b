(** DfaExact.v -- what the generated DFA reports, in which order, and get_intersect. *)
From Verif Require Import Base LexerModel LexerSpec RegexModel RegexSpec RegexProofs RegexLang DfaModel DfaProofs.
From Coq Require Import Sorted Permutation.

(** * Every label of the edges a pattern adds satisfies [P] *)
Definition labels_ok (P : label -> Prop) (f : builder) : Prop :=
  forall root e n n' es, f root e n = Ret (n', es) -> forall p l q, In (p, l, q) es -> P l.
Section Labels.
Variable P : label -> Prop.
Lemma labels_nop : labels_ok P b_nop.
Proof. intros root e n n' es [= <- <-] p l q []. Qed.
Lemma labels_seq f g : labels_ok P f -> labels_ok P g -> labels_ok P (b_seq f g).
Proof.
  intros Hf Hg root e n n' es H p l q Hi. apply bind_Ret in H as ((n1 & e1) & H1 & H).
  apply bind_Ret in H as ((n2 & e2) & H2 & [= <- <-]). apply in_app_iff in Hi as [Hi|Hi]; eauto.
Qed.
Lemma labels_cat f g : labels_ok P f -> labels_ok P g -> labels_ok P (b_cat f g).
Proof.
  intros Hf Hg root e n n' es H p l q Hi. apply bind_Ret in H as ((n1 & e1) & H1 & H).
  apply bind_Ret in H as ((n2 & e2) & H2 & [= <- <-]). apply in_app_iff in Hi as [Hi|Hi]; eauto.
Qed.
Lemma labels_atend f : labels_ok P f -> labels_ok P (b_atend f).
Proof. intros Hf root e n n' es H. exact (Hf e e n n' es H). Qed.
Lemma labels_eps : P LEps -> labels_ok P b_eps.
Proof. intros H root e n n' es [= <- <-] p l q [[= _ <- _]|[]]. exact H. Qed.
Lemma labels_neg ts f : P (LNeg ts) -> labels_ok P f -> labels_ok P (with_neg ts f).
Proof.
  intros Ht Hf root e n n' es H. unfold with_neg in H. destruct ts as [|t ts]; [eauto|].
  apply bind_Ret in H as ((n1 & e1) & H1 & [= <- <-]). intros p l q [[= _ <- _]|Hi]; eauto.
Qed.
Lemma labels_chain f k g : labels_ok P f -> labels_ok P g -> labels_ok P (b_chain f k g).
Proof. intros Hf Hg. induction k; cbn [b_chain]; [exact Hg|]. apply labels_cat; auto. Qed.
Lemma labels_upto f k : labels_ok P f -> labels_ok P (b_upto f k).
Proof. intros Hf. induction k; cbn [b_upto]; [exact Hf|]. apply labels_seq; [exact Hf|]. apply labels_cat; auto. Qed.
Lemma labels_mult f mn mx : P LEps -> labels_ok P f -> labels_ok P (b_mult f mn mx).
Proof.
  intros He Hf. unfold b_mult.
  assert (Hr : labels_ok P (if mx =? 0 then b_atend f else if mn <? mx then
      (if mn =? 0 then b_upto f (N.to_nat (mx - 1 - mn)) else b_cat f (b_upto f (N.to_nat (mx - 1 - mn))))
      else b_nop)).
  { destruct (mx =? 0); [apply labels_atend; exact Hf|]. destruct (mn <? mx); [|apply labels_nop].
    destruct (mn =? 0); [apply labels_upto; exact Hf|]. apply labels_cat; [exact Hf|apply labels_upto; exact Hf]. }
  cbv zeta. destruct (mn =? 0); [apply labels_seq; [apply labels_eps; exact He|exact Hr]|].
  apply labels_chain; [exact Hf|]. apply labels_seq; [exact Hf|exact Hr].
Qed.
Lemma labels_capture t f : P (LPosStart t) -> P (LPosEnd t) -> labels_ok P f -> labels_ok P (b_capture t f).
Proof.
  intros H1 H2 Hf root e n n' es H. apply bind_Ret in H as ((n1 & e1) & H3 & [= <- <-]).
  intros p l q [[= _ <- _]|[[= _ <- _]|Hi]]; eauto.
Qed.
End Labels.

Definition byte_label_ok (l : label) : Prop := match l with LByte _ hi => hi < cSizeOfByte | _ => True end.
Lemma add_interval_ok p a q x l y : In (x, l, y) (add_interval p a q) -> byte_label_ok l.
Proof.
  unfold add_interval. destruct (N.ltb_spec (fst a) cSizeOfByte); [|contradiction].
  intros [[= _ <- _]|[]]. cbn. unfold cSizeOfByte in *. lia.
Qed.
Lemma add_to_nfa_bytes r : labels_ok byte_label_ok (add_to_nfa r).
Proof.
  induction r; cbn [add_to_nfa].
  - apply labels_nop.
  - intros root e n n' es [= <- <-] p l q Hi. eapply add_interval_ok; eauto.
  - intros root e n n' es [=].
  - intros root e n n' es [= <- <-] p l q Hi. apply in_flat_map in Hi as (a & _ & Hi). eapply add_interval_ok; eauto.
  - apply labels_seq; (apply labels_neg; [exact I|assumption]).
  - apply labels_cat; assumption.
  - apply labels_mult; [exact I|assumption].
  - apply labels_capture; try exact I; assumption.
Qed.
Definition bytes_ok (A : nfa) : Prop := forall p l q, In (p, l, q) (n_edges A) -> byte_label_ok l.
Lemma add_rules_bytes rules : forall n n' es acc, add_rules rules n = Ret (n', es, acc) ->
  forall p l q, In (p, l, q) es -> byte_label_ok l.
Proof.
  induction rules as [|(id & r) rules IH]; cbn [add_rules]; intros n n' es acc H p l q Hi.
  - injection H as <- <- <-. destruct Hi.
  - apply bind_Ret in H as ((n1 & e1) & H1 & H). apply bind_Ret in H as (((n2 & e2) & acc2) & H2 & [= <- <- <-]).
    apply in_app_iff in Hi as [Hi|Hi]; [eapply add_to_nfa_bytes; eauto|eapply IH; eauto].
Qed.
Lemma nfa_of_rules_bytes rules A : nfa_of_rules rules = Ret A -> bytes_ok A.
Proof.
  intros H. apply bind_Ret in H as (((n & es) & acc) & H & [= <-]). intros p l q Hi. eapply add_rules_bytes; eauto.
Qed.

(** * The ids of a state *)
Lemma insert_by_perm key x l : Permutation (x :: l) (insert_by key x l).
Proof.
  induction l as [|y l IH]; cbn [insert_by]; [reflexivity|]. destruct (key x <=? key y); [reflexivity|].
  etransitivity; [apply perm_swap|]. constructor. exact IH.
Qed.
Lemma sort_by_perm key l : Permutation l (sort_by key l).
Proof. induction l; cbn; [reflexivity|]. etransitivity; [|apply insert_by_perm]. constructor. exact IHl. Qed.
Lemma acc_ids_in acc q i : In i (acc_ids acc q) <-> In (q, i) acc.
Proof.
  unfold acc_ids. rewrite in_map_iff. split.
  - intros ((a & b) & <- & H). apply filter_In in H as (H1 & H2). apply Nat.eqb_eq in H2. cbn in *. subst. exact H1.
  - intros H. exists (q, i). split; [reflexivity|]. apply filter_In. cbn. rewrite Nat.eqb_refl. auto.
Qed.
Lemma ids_of_in addr acc s i : In i (ids_of addr acc s) <-> exists q, In q s /\ In (q, i) acc.
Proof.
  unfold ids_of. rewrite in_flat_map. split; intros (q & H1 & H2); exists q;
    (split; [eapply Permutation_in; [|exact H1]|apply acc_ids_in; exact H2]).
  - symmetry. apply sort_by_perm.
  - apply sort_by_perm.
Qed.

(** What the DFA knows after reading [w]: the set of NFA states [w] leads to. *)
Theorem nfa_to_dfa_run addr A : bytes_ok A -> exists F, forall fuel, (F <= fuel)%nat ->
  exists f, nfa_to_dfa fuel addr A = Ret f /\
    ((d_root < length (f_states f))%nat /\
     forall q b q', d_next (dfa_of f) q b = Some q' -> (q' < length (f_states f))%nat) /\
    forall w,
    match run (dfa_of f) d_root w with
    | Some q => exists s, inc s /\ s <> [] /\ (forall x, In x s <-> reads (n_edges A) n_root w x) /\
                  d_ids (dfa_of f) q = ids_of addr (n_acc A) s
    | None => forall x, ~ reads (n_edges A) n_root w x
    end.
Proof.
  intros Hb. destruct (nfa_to_dfa_sets addr A) as (F & sets & tr & H). exists F. intros fuel Hf.
  destruct (H fuel Hf) as (E & I & s0 & H0 & Hx). eexists. split; [exact E|].
  set (ids := fun q => nth q (map (ids_of addr (n_acc A)) sets) []).
  assert (Hrun : forall w,
    match run (mkDfa (find_tr tr) ids) 0 w with
    | Some j => exists s', nth_error sets j = Some s' /\ (forall p q, In p s' -> reads (n_edges A) p [] q -> In q s') /\
                  s' <> [] /\ forall q, In q s' <-> exists p, In p s0 /\ reads (n_edges A) p w q
    | None => forall p q, In p s0 -> ~ reads (n_edges A) p w q
    end).
  { intros w. apply (run_sets (n_edges A) sets tr ids I Hb w 0%nat s0 H0). intros p q Hp Hr. apply Hx in Hp. apply Hx.
    change (@nil N) with (@nil N ++ []). eapply reads_app; eauto. }
  assert (Hs0 : forall w q, (exists p, In p s0 /\ reads (n_edges A) p w q) <-> reads (n_edges A) n_root w q).
  { intros w q. split.
    - intros (p & Hp & Hr). apply Hx in Hp. change w with ([] ++ w). eapply reads_app; eauto.
    - intros Hr. exists n_root. split; [apply Hx, reads_refl|exact Hr]. }
  unfold dfa_of. cbn [f_states f_trans]. fold ids. unfold d_root. split.
  - rewrite map_length. split; [apply nth_error_Some; unfold d_root; congruence|]. cbn [d_next]. intros q b q' Hr.
    destruct (iv_tr _ _ _ _ I _ _ _ (find_tr_in _ _ _ _ Hr)) as (Hq & Hbb).
    destruct (nth_error sets q) as [s|] eqn:Es; [|apply nth_error_None in Es; lia].
    destruct (move_spec (n_edges A) s b) as (c & Hc & _).
    pose proof (iv_done _ _ _ _ I q s b Es (fun H => H) Hbb c Hc) as Ht. rewrite Hr in Ht.
    apply nth_error_Some. destruct Ht as (_ & ->). discriminate.
  - intros w. specialize (Hrun w). destruct (run _ 0 w) as [j|] eqn:Er.
    + destruct Hrun as (s' & H1 & _ & H3 & H4). exists s'. split; [|split; [exact H3|split]].
      * apply (iv_good _ _ _ _ I). eapply nth_error_In; eauto.
      * intros x. rewrite H4. apply Hs0.
      * cbn [d_ids]. unfold ids. erewrite nth_error_nth; [reflexivity|]. rewrite nth_error_map, H1. reflexivity.
    + intros x Hr. apply Hs0 in Hr as (p & Hp & Hr). exact (Hrun p x Hp Hr).
Qed.

(** * Which rules are reported *)
Definition acc_rule (es : list edge) (a : nat * N) (ir : N * regex) : Prop :=
  snd a = fst ir /\ forall w, path (g_edges es) n_root w (fst a) <-> full (snd ir) w.
Lemma add_rules_acc_inc rules : forall n n' es acc, add_rules rules n = Ret (n', es, acc) ->
  StronglySorted lt (map fst acc) /\ Forall (fun a => (n <= a)%nat) (map fst acc).
Proof.
  induction rules as [|(id & r) rules IH]; cbn [add_rules]; intros n n' es acc H.
  - injection H as <- <- <-. split; constructor.
  - apply bind_Ret in H as ((n1 & e1) & H1 & H). apply bind_Ret in H as (((n2 & e2) & acc2) & H2 & [= <- <- <-]).
    destruct (IH _ _ _ _ H2) as (IS & IF).
    destruct (add_to_nfa_implements r n_root n (S n) n1 e1 ltac:(unfold n_root; lia) ltac:(lia) H1) as [L1 _ _ _].
    rewrite Forall_forall in IF. cbn [map fst]. split; constructor; auto.
    + apply Forall_forall. intros x Hx. specialize (IF x Hx). lia.
    + apply Forall_forall. intros x Hx. specialize (IF x Hx). lia.
Qed.
Lemma forall2_of_maps (es : list edge) : forall (acc : list (nat * N)) ers rules,
  map fst ers = map fst acc -> map snd ers = map (@snd N regex) rules -> map snd acc = map fst rules ->
  (forall e r, In (e, r) ers -> forall w, path (g_edges es) n_root w e <-> full r w) ->
  Forall2 (acc_rule es) acc rules.
Proof.
  induction acc as [|(q & i) acc IH]; intros [|(e & r) ers] [|(i' & r') rules] H1 H2 H3 H; try discriminate; constructor.
  - cbn in *. injection H1 as -> _. injection H2 as -> _. injection H3 as -> _. split; [reflexivity|].
    cbn. apply H. left. reflexivity.
  - cbn in *. injection H1 as _ H1. injection H2 as _ H2. injection H3 as _ H3. eapply IH; eauto.
Qed.
Theorem nfa_of_rules_acc rules A : nfa_of_rules rules = Ret A ->
  StronglySorted lt (map fst (n_acc A)) /\ Forall2 (acc_rule (n_edges A)) (n_acc A) rules.
Proof.
  unfold nfa_of_rules. intros H. apply bind_Ret in H as (((n & es) & acc) & H & [= <-]). cbn [n_acc n_edges].
  split; [eapply add_rules_acc_inc; eauto|].
  destruct (add_rules_spec rules 1 n es acc ltac:(lia) H) as (ers & M1 & M2 & M3 & L & I & ND & Bd & B).
  assert (Hroot : ~ In n_root (map fst ers)).
  { intros Hi. apply in_map_iff in Hi as (er & E & Hi). specialize (I er Hi). unfold inside, n_root in *. lia. }
  apply (forall2_of_maps es acc ers rules M1 M2 M3). intros e r Hi x.
  unfold full. rewrite <- (rules_graph_path ers e r x ND Hroot Hi).
  assert (Hin : In e (map fst ers)) by (apply in_map_iff; exists (e, r); auto).
  specialize (B g_none n_root x e ltac:(intros ? ? ? []) ltac:(left; unfold inside, n_root; lia) (or_intror Hin)).
  rewrite (path_ext (g_or g_none (g_edges es)) (g_edges es)) in B by (intros; unfold g_or, g_none; tauto).
  rewrite (path_ext (g_or g_none (rules_graph ers)) (rules_graph ers)) in B by (intros; unfold g_or, g_none; tauto).
  exact B.
Qed.

(** The ids in the order of the accepting states' indices. *)
Definition acc_in (acc : list (nat * N)) (s : stset) : list N :=
  map snd (filter (fun a => st_mem (fst a) s) acc).
Lemma flat_map_nil {A B} (f : A -> list B) l : (forall x, In x l -> f x = []) -> flat_map f l = [].
Proof. induction l as [|a l IH]; cbn; intros H; [reflexivity|]. rewrite (H a), IH; auto. Qed.
Lemma flat_map_ext_in {A B} (f g : A -> list B) l : (forall x, In x l -> f x = g x) -> flat_map f l = flat_map g l.
Proof. induction l as [|a l IH]; cbn; intros H; [reflexivity|]. rewrite (H a), IH; auto. Qed.
Lemma flat_map_app' {A B} (f : A -> list B) l m : flat_map f (l ++ m) = flat_map f l ++ flat_map f m.
Proof. induction l as [|a l IH]; cbn; [reflexivity|]. rewrite IH, app_assoc. reflexivity. Qed.
Lemma sorted_split l m x : StronglySorted lt (l ++ x :: m) -> Forall (fun y => (y < x)%nat) l /\ Forall (fun y => (x < y)%nat) m.
Proof.
  induction l as [|a l IH]; cbn; intros H; inversion H as [|? ? Hs Hf]; subst.
  - split; [constructor|exact Hf].
  - destruct (IH Hs) as (H1 & H2). split; [|exact H2]. constructor; [|exact H1].
    rewrite Forall_forall in Hf. apply Hf. apply in_app_iff. right. left. reflexivity.
Qed.
Lemma acc_ids_low acc k x : Forall (fun a => (k < a)%nat) (map fst acc) -> (x <= k)%nat -> acc_ids acc x = [].
Proof.
  intros H Hx. destruct (acc_ids acc x) as [|i l] eqn:E; [reflexivity|].
  assert (Hi : In (x, i) acc) by (apply acc_ids_in; rewrite E; left; reflexivity).
  rewrite Forall_forall in H. specialize (H x ltac:(apply in_map_iff; exists (x, i); auto)). lia.
Qed.
Lemma ids_in_order acc s : StronglySorted lt (map fst acc) -> inc s ->
  flat_map (acc_ids acc) s = acc_in acc s.
Proof.
  intros Ha Hs. unfold acc_in. induction acc as [|(k & i) acc IH]; cbn [map fst filter].
  - rewrite flat_map_nil; [reflexivity|]. intros x _. reflexivity.
  - cbn [map fst] in Ha. inversion Ha as [|? ? Ha' Hf]; subst. specialize (IH Ha').
    assert (Hcons : forall x, acc_ids ((k, i) :: acc) x = if Nat.eqb k x then i :: acc_ids acc x else acc_ids acc x).
    { intros x. unfold acc_ids. cbn [filter fst]. destruct (Nat.eqb k x); reflexivity. }
    destruct (st_mem k s) eqn:Em.
    + apply st_mem_in in Em. apply in_split in Em as (l & m & ->). destruct (sorted_split _ _ _ Hs) as (Hl & Hm).
      rewrite Forall_forall in Hl, Hm. cbn [map snd]. rewrite <- IH, !flat_map_app'. cbn [flat_map].
      rewrite (flat_map_nil _ l), (flat_map_nil (acc_ids acc) l).
      * rewrite Hcons, Nat.eqb_refl, (acc_ids_low acc k k Hf (le_n _)). cbn. f_equal.
        apply flat_map_ext_in. intros x Hx. rewrite Hcons. specialize (Hm x Hx).
        destruct (Nat.eqb_spec k x); [lia|reflexivity].
      * intros x Hx. apply (acc_ids_low acc k); [exact Hf|]. specialize (Hl x Hx). lia.
      * intros x Hx. specialize (Hl x Hx). rewrite Hcons. destruct (Nat.eqb_spec k x); [lia|].
        apply (acc_ids_low acc k); [exact Hf|lia].
    + rewrite <- IH. apply flat_map_ext_in. intros x Hx. rewrite Hcons.
      destruct (Nat.eqb_spec k x) as [<-|]; [|reflexivity]. apply st_mem_in in Hx. congruence.
Qed.
Lemma insert_by_le key x l : Forall (fun y => key x <= key y) l -> insert_by key x l = x :: l.
Proof.
  destruct l as [|y l]; cbn; [reflexivity|]. intros H. inversion H; subst.
  destruct (N.leb_spec (key x) (key y)); [reflexivity|lia].
Qed.
Lemma sort_by_mono key l : (forall a b, (a < b)%nat -> key a < key b) -> inc l -> sort_by key l = l.
Proof.
  intros Hk. unfold inc, sort_by. induction 1 as [|x l Hl IH Hf]; cbn; [reflexivity|]. rewrite IH.
  apply insert_by_le. eapply Forall_impl; [|exact Hf]. cbn. intros a H. specialize (Hk _ _ H). lia.
Qed.
Lemma acc_in_selected es w s acc rules : Forall2 (acc_rule es) acc rules ->
  (forall x, In x s <-> reads es n_root w x) -> selected (fun r => img (full r) w) rules (acc_in acc s).
Proof.
  intros H Hs. unfold acc_in. induction H as [|(q & i) (i' & r) acc rules (H1 & H2) H IH]; cbn [filter fst snd map] in *; [constructor|].
  subst i'. assert (Hq : In q s <-> img (full r) w).
  { rewrite Hs. unfold reads, img. split; intros (v & E & Hv); exists v; (split; [exact E|apply H2; exact Hv]). }
  destruct (st_mem q s) eqn:Em.
  - apply st_mem_in in Em. constructor; [tauto|exact IH].
  - constructor; [|exact IH]. rewrite <- Hq, <- st_mem_in, Em. discriminate.
Qed.
Lemma perm_flat_map {A B} (f : A -> list B) l m : Permutation l m -> Permutation (flat_map f l) (flat_map f m).
Proof.
  induction 1; cbn; [reflexivity|apply Permutation_app_head; assumption| |etransitivity; eauto].
  rewrite !app_assoc. apply Permutation_app_tail, Permutation_app_comm.
Qed.
Lemma selected_none P rules : (forall i r, In (i, r) rules -> ~ P r) -> selected P rules [].
Proof.
  induction rules as [|(i & r) rules IH]; intros H; constructor.
  - apply (H i). left. reflexivity.
  - apply IH. intros j x Hx. apply (H j). right. exact Hx.
Qed.

Lemma selected_in P rules ids : selected P rules ids -> forall i, In i ids <-> exists r, In (i, r) rules /\ P r.
Proof.
  induction 1 as [|i r rules ids HP H IH|i r rules ids HP H IH]; intros j; cbn [In].
  - split; [intros []|intros (r & [] & _)].
  - rewrite IH. split.
    + intros [<-|(x & H1 & H2)]; [exists r; auto|exists x; auto].
    + intros (x & [[= <- <-]|H1] & H2); [auto|right; eauto].
  - rewrite IH. split.
    + intros (x & H1 & H2). exists x; auto.
    + intros (x & [[= <- <-]|H1] & H2); [contradiction|eauto].
Qed.
Theorem nfa_to_dfa_reports addr rules A : nfa_of_rules rules = Ret A -> exists F, forall fuel, (F <= fuel)%nat ->
  exists f, nfa_to_dfa fuel addr A = Ret f /\
    ((d_root < length (f_states f))%nat /\
     forall q b q', d_next (dfa_of f) q b = Some q' -> (q' < length (f_states f))%nat) /\
    (forall w, run (dfa_of f) d_root w = None <-> forall x, ~ reads (n_edges A) n_root w x) /\
    forall w, exists ids, selected (fun r => img (full r) w) rules ids /\
      Permutation (reported (dfa_of f) d_root w) ids /\
      ((forall a b, (a < b)%nat -> addr a < addr b) -> reported (dfa_of f) d_root w = ids).
Proof.
  intros HA. destruct (nfa_of_rules_acc rules A HA) as (Hinc & H2).
  destruct (nfa_to_dfa_run addr A (nfa_of_rules_bytes rules A HA)) as (F & H). exists F. intros fuel Hf.
  destruct (H fuel Hf) as (f & E & Hbd & Hr). exists f. split; [exact E|]. split; [exact Hbd|]. split.
  { intros w. specialize (Hr w). destruct (run (dfa_of f) d_root w) as [q|]; [|split; auto].
    destruct Hr as (s & _ & Hne & Hx & _). split; [discriminate|]. intros Hno. destruct s as [|x s]; [congruence|].
    destruct (Hno x). apply Hx. left. reflexivity. }
  intros w. specialize (Hr w). unfold reported.
  destruct (run (dfa_of f) d_root w) as [q|].
  - destruct Hr as (s & Hi & _ & Hx & ->). exists (acc_in (n_acc A) s).
    split; [eapply acc_in_selected; eauto|]. unfold ids_of. split.
    + rewrite <- ids_in_order by assumption. apply perm_flat_map. symmetry. apply sort_by_perm.
    + intros Hm. rewrite sort_by_mono by assumption. apply ids_in_order; assumption.
  - exists []. split; [|auto]. apply selected_none. intros i r Hi (v & Ev & Hv).
    clear -Hr H2 Hi Ev Hv. induction H2 as [|a ir acc rules (H3 & H4) H2 IH]; [destruct Hi|].
    destruct Hi as [->|Hi]; [|auto]. apply (Hr (fst a)). exists v. split; [exact Ev|]. apply H4. exact Hv.
Qed.

(** * get_intersect *)
Definition both (d1 d2 : dfa) (a : pair) (b : N) (c : pair) : Prop :=
  d_next d1 (fst a) b = Some (fst c) /\ d_next d2 (snd a) b = Some (snd c).
Section Intersect.
Variables (k1 k2 : nat -> N) (d1 d2 : dfa) (n1 n2 : nat).
Hypothesis k1_inj : forall a b, k1 a = k1 b -> a = b.
Hypothesis k2_inj : forall a b, k2 a = k2 b -> a = b.
Hypothesis root1 : (d_root < n1)%nat.
Hypothesis root2 : (d_root < n2)%nat.
Hypothesis fin1 : forall q b q', d_next d1 q b = Some q' -> (q' < n1)%nat.
Hypothesis fin2 : forall q b q', d_next d2 q b = Some q' -> (q' < n2)%nat.

Lemma pair_eqb_eq a b : pair_eqb a b = true <-> a = b.
Proof.
  destruct a, b. unfold pair_eqb. cbn. rewrite andb_true_iff, !Nat.eqb_eq. split; [intros (-> & ->); auto|intros [= -> ->]; auto].
Qed.
Lemma pair_mem_in a l : pair_mem a l = true <-> In a l.
Proof.
  unfold pair_mem. rewrite existsb_exists. split.
  - intros (x & H1 & H2). apply pair_eqb_eq in H2. subst. exact H1.
  - intros H. exists a. split; [exact H|]. apply pair_eqb_eq. reflexivity.
Qed.
Lemma pair_ltb_eq a b : pair_ltb k1 k2 a b = false -> pair_ltb k1 k2 b a = false -> a = b.
Proof.
  destruct a as (a1 & a2), b as (b1 & b2). unfold pair_ltb. cbn [fst snd].
  destruct (N.eqb_spec (k1 a1) (k1 b1)) as [E|E]; destruct (N.eqb_spec (k1 b1) (k1 a1)) as [E'|E']; try congruence.
  - intros H1 H2. apply N.ltb_ge in H1, H2. f_equal; [auto|]. apply k2_inj. lia.
  - intros H1 H2. apply N.ltb_ge in H1, H2. lia.
Qed.
Lemma pair_insert_in a l x : In x (pair_insert k1 k2 a l) <-> x = a \/ In x l.
Proof.
  induction l as [|b l IH]; cbn [pair_insert In]; [intuition|].
  destruct (pair_ltb k1 k2 a b) eqn:E1; [cbn; intuition|]. destruct (pair_ltb k1 k2 b a) eqn:E2; cbn [In].
  - rewrite IH. intuition.
  - pose proof (pair_ltb_eq a b E1 E2). subst. intuition.
Qed.
Lemma reachable_in cur visited bs : forall un x,
  In x (reachable_pairs k1 k2 d1 d2 cur visited bs un) <->
  In x un \/ (~ In x visited /\ exists b, In b bs /\ both d1 d2 cur b x).
Proof.
  induction bs as [|b bs IH]; intros un x; cbn [reachable_pairs].
  - split; [auto|]. intros [H|(_ & b & [] & _)]. exact H.
  - rewrite IH. clear IH. unfold both. destruct (d_next d1 (fst cur) b) as [q1|] eqn:E1; [destruct (d_next d2 (snd cur) b) as [q2|] eqn:E2|].
    + destruct (pair_mem (q1, q2) visited) eqn:Em.
      * apply pair_mem_in in Em. split.
        -- intros [H|(H & b' & H1 & H2)]; [auto|]. right. split; [exact H|]. exists b'. split; [right; exact H1|exact H2].
        -- intros [H|(H & b' & [<-|H1] & H2)]; [auto| |right; eauto]. rewrite E1, E2 in H2. destruct H2 as ([= H2] & [= H3]).
           destruct H. rewrite H2, H3 in Em. destruct x; exact Em.
      * rewrite pair_insert_in. assert (Hm : ~ In (q1, q2) visited) by (rewrite <- pair_mem_in, Em; discriminate). split.
        -- intros [[->|H]|(H & b' & H1 & H2)].
           ++ right. split; [exact Hm|]. exists b. cbn. auto.
           ++ auto.
           ++ right. split; [exact H|]. exists b'. split; [right; exact H1|exact H2].
        -- intros [H|(H & b' & [<-|H1] & H2)]; [auto| |right; eauto]. rewrite E1, E2 in H2. destruct H2 as ([= H2] & [= H3]).
           left. left. subst. destruct x; reflexivity.
    + split.
      * intros [H|(H & b' & H1 & H2)]; [auto|]. right. split; [exact H|]. exists b'. split; [right; exact H1|exact H2].
      * intros [H|(H & b' & [<-|H1] & H2)]; [auto| |right; eauto]. rewrite E2 in H2. destruct H2 as (_ & [=]).
    + split.
      * intros [H|(H & b' & H1 & H2)]; [auto|]. right. split; [exact H|]. exists b'. split; [right; exact H1|exact H2].
      * intros [H|(H & b' & [<-|H1] & H2)]; [auto| |right; eauto]. rewrite E1 in H2. destruct H2 as ([=] & _).
Qed.

(** [a] is reached by some byte string in both automata. *)
Definition jointly (a : pair) : Prop := exists w, (forall b, In b w -> b < cSizeOfByte) /\
  run d1 d_root w = Some (fst a) /\ run d2 d_root w = Some (snd a).
Lemma run_snoc d q w b : run d q (w ++ [b]) = match run d q w with Some q' => d_next d q' b | None => None end.
Proof.
  revert q; induction w as [|x w IH]; intros q; cbn.
  - destruct (d_next d q b); reflexivity.
  - destruct (d_next d q x); [apply IH|reflexivity].
Qed.
Lemma jointly_step a b c : jointly a -> b < cSizeOfByte -> both d1 d2 a b c -> jointly c.
Proof.
  intros (w & H1 & H2 & H3) Hb (H4 & H5). exists (w ++ [b]). split.
  - intros x Hx. apply in_app_iff in Hx as [Hx|[<-|[]]]; auto.
  - rewrite !run_snoc, H2, H3. auto.
Qed.
Lemma jointly_bound a : jointly a -> (fst a < n1)%nat /\ (snd a < n2)%nat.
Proof.
  intros (w & _ & H2 & H3). destruct w as [|b w] using rev_ind.
  - cbn in *. injection H2 as <-. injection H3 as <-. auto.
  - rewrite run_snoc in H2, H3. destruct (run d1 d_root w); [|discriminate]. destruct (run d2 d_root w); [|discriminate]. eauto.
Qed.
Definition hit (a : pair) (i : N) : Prop :=
  is_accepting d1 (fst a) = true /\ is_accepting d2 (snd a) = true /\ In i (d_ids d1 (fst a)).

Lemma intersect_loop_spec : forall fuel un vis types,
  (forall a, In a un -> jointly a) -> (forall a, In a vis -> jointly a) ->
  (In (d_root, d_root) vis \/ In (d_root, d_root) un) ->
  (forall a b c, In a vis -> b < cSizeOfByte -> both d1 d2 a b c -> In c vis \/ In c un) ->
  NoDup vis -> (forall a, In a un -> ~ In a vis) ->
  (forall i, In i types <-> exists a, In a vis /\ hit a i) ->
  (n1 * n2 - length vis < fuel)%nat ->
  exists res, intersect_loop fuel k1 k2 d1 d2 un vis types = Ret res /\
    forall i, In i res <-> exists a, jointly a /\ hit a i.
Proof.
  induction fuel as [|fuel IH]; intros un vis types Hun Hvis Hroot Hcl Hnd Hdis Hty Hf; [lia|].
  assert (Hcount : (length vis <= n1 * n2)%nat).
  { rewrite <- (seq_length n1 0), <- (seq_length n2 0), <- prod_length. apply NoDup_incl_length; [exact Hnd|].
    intros (a & b) Ha. apply Hvis, jointly_bound in Ha. cbn in Ha. apply in_prod; apply in_seq; lia. }
  cbn [intersect_loop]. destruct un as [|cur un].
  - exists types. split; [reflexivity|]. intros i. rewrite Hty. split; intros (a & H1 & H2); exists a; (split; [|exact H2]).
    + auto.
    + destruct Hroot as [Hroot|[]]. destruct H1 as (w & Hb & H3 & H4). destruct a as (p & q). cbn in H3, H4. clear H2.
      revert p q H3 H4 Hb. induction w as [|b w IHw] using rev_ind; intros p q H3 H4 Hb.
      * cbn in *. injection H3 as <-. injection H4 as <-. exact Hroot.
      * rewrite run_snoc in H3, H4. destruct (run d1 d_root w) as [p'|]; [|discriminate].
        destruct (run d2 d_root w) as [q'|]; [|discriminate].
        assert (H5 : In (p', q') vis) by (apply IHw; auto; intros x Hx; apply Hb, in_app_iff; auto).
        destruct (Hcl (p', q') b (p, q) H5) as [|[]]; [apply Hb, in_app_iff; right; left; reflexivity|split; assumption|assumption].
  - assert (Hcur : jointly cur) by (apply Hun; left; reflexivity).
    assert (Hnew : NoDup (cur :: vis)) by (constructor; [apply Hdis; left; reflexivity|exact Hnd]).
    assert (Hnext : (length (cur :: vis) <= n1 * n2)%nat).
    { rewrite <- (seq_length n1 0), <- (seq_length n2 0), <- prod_length. apply NoDup_incl_length; [exact Hnew|].
      intros (a & b) Ha. assert (Hj : jointly (a, b)) by (destruct Ha as [<-|Ha]; auto). apply jointly_bound in Hj. cbn in Hj.
      apply in_prod; apply in_seq; lia. }
    set (un' := filter _ _).
    assert (Hun' : forall x, In x un' <-> x <> cur /\ (In x (cur :: un) \/ (~ In x (cur :: vis) /\ exists b, In b all_bytes /\ both d1 d2 cur b x))).
    { intros x. unfold un'. rewrite filter_In, reachable_in, negb_true_iff. split.
      - intros (H1 & H2). split; [|exact H1]. intros ->. rewrite (proj2 (pair_eqb_eq cur cur) eq_refl) in H2. discriminate.
      - intros (H1 & H2). split; [exact H2|]. destruct (pair_eqb x cur) eqn:E; [|reflexivity]. apply pair_eqb_eq in E. contradiction. }
    clearbody un'. apply IH.
    + intros a Ha. apply Hun' in Ha as (_ & [Ha|(_ & b & Hb & Ha)]); [apply Hun; exact Ha|].
      eapply jointly_step; [exact Hcur| |exact Ha]. apply all_bytes_in. exact Hb.
    + intros a [<-|Ha]; auto.
    + assert (Hdec : forall x : pair, In x (cur :: un) -> In x (cur :: vis) \/ In x un').
      { intros x Hx. destruct (pair_eqb x cur) eqn:E.
        - apply pair_eqb_eq in E. subst. left. left. reflexivity.
        - right. apply Hun'. split; [|auto]. intros ->. rewrite (proj2 (pair_eqb_eq cur cur) eq_refl) in E. discriminate. }
      destruct Hroot as [H|H]; [left; right; exact H|apply Hdec; exact H].
    + intros a b c Ha Hb Hc.
      destruct (in_dec (fun x y : pair => ltac:(decide equality; apply Nat.eq_dec)) c (cur :: vis)) as [Hi|Hni]; [auto|].
      right. apply Hun'. split; [intros ->; apply Hni; left; reflexivity|]. destruct Ha as [<-|Ha].
      * right. split; [exact Hni|]. exists b. split; [apply all_bytes_in; exact Hb|exact Hc].
      * left. destruct (Hcl a b c Ha Hb Hc) as [H|H]; [destruct Hni; right; exact H|exact H].
    + exact Hnew.
    + intros a Ha. apply Hun' in Ha as (Hne & [Ha|(Ha & _)]); [|exact Ha]. intros [H|H]; [congruence|]. eapply Hdis; eauto.
    + intros i. assert (Hhit : (exists a, In a (cur :: vis) /\ hit a i) <-> hit cur i \/ In i types).
      { rewrite Hty. split.
        - intros (a & [<-|Ha] & H); eauto.
        - intros [H|(a & H1 & H2)]; [exists cur; split; [left; reflexivity|exact H]|exists a; split; [right; exact H1|exact H2]]. }
      rewrite Hhit. unfold hit. destruct (is_accepting d1 (fst cur)), (is_accepting d2 (snd cur)); cbn [andb].
      * rewrite in_app_iff. tauto.
      * intuition discriminate.
      * intuition discriminate.
      * intuition discriminate.
    + cbn [length] in *. lia.
Qed.
Theorem get_intersect_spec fuel : (n1 * n2 < fuel)%nat ->
  exists res, get_intersect fuel k1 k2 d1 d2 = Ret res /\
    forall i, In i res <-> exists w, (forall b, In b w -> b < cSizeOfByte) /\
      In i (reported d1 d_root w) /\ reported d2 d_root w <> [].
Proof.
  intros Hf. destruct (intersect_loop_spec fuel [(d_root, d_root)] [] []) as (res & E & H).
  - intros a [<-|[]]. exists []. split; [intros b []|]. auto.
  - intros a [].
  - right. left. reflexivity.
  - intros a b c [].
  - constructor.
  - intros a _ [].
  - intros i. split; [intros []|intros (a & [] & _)].
  - cbn. lia.
  - exists res. split; [exact E|]. intros i. rewrite H. unfold reported, hit, is_accepting. split.
    + intros ((p & q) & (w & Hb & H1 & H2) & H3 & H4 & H5). cbn in *. exists w. split; [exact Hb|]. rewrite H1, H2.
      split; [exact H5|]. intros E'. rewrite E' in H4. discriminate.
    + intros (w & Hb & H1 & H2). destruct (run d1 d_root w) as [p|] eqn:E1; [|destruct H1].
      destruct (run d2 d_root w) as [q|] eqn:E2; [|contradiction]. exists (p, q). cbn.
      split; [exists w; auto|]. split; [destruct (d_ids d1 p); [destruct H1|reflexivity]|].
      split; [destruct (d_ids d2 q); [contradiction|reflexivity]|exact H1].
Qed.
End Intersect.

(** A pattern with an Integer node throws. *)
Definition dead (f : builder) : Prop := forall root e n x, f root e n <> Ret x.
Lemma dead_seq f g : dead f \/ dead g -> dead (b_seq f g).
Proof.
  intros H root e n x E. apply bind_Ret in E as ((n1 & e1) & H1 & E). apply bind_Ret in E as ((n2 & e2) & H2 & _).
  destruct H as [H|H]; eapply H; eauto.
Qed.
Lemma dead_cat f g : dead f \/ dead g -> dead (b_cat f g).
Proof.
  intros H root e n x E. apply bind_Ret in E as ((n1 & e1) & H1 & E). apply bind_Ret in E as ((n2 & e2) & H2 & _).
  destruct H as [H|H]; eapply H; eauto.
Qed.
Lemma dead_neg ts f : dead f -> dead (with_neg ts f).
Proof.
  intros H root e n x E. unfold with_neg in E. destruct ts; [eapply H; eauto|].
  apply bind_Ret in E as ((n1 & e1) & H1 & _). eapply H; eauto.
Qed.
Lemma dead_chain f k g : dead g -> dead (b_chain f k g).
Proof. intros H. induction k; cbn [b_chain]; [exact H|]. apply dead_cat. auto. Qed.
Lemma dead_mult f mn mx : dead f -> dead (b_mult f mn mx).
Proof.
  intros H. unfold b_mult. cbv zeta. destruct (N.eqb_spec mn 0) as [->|Hm].
  - apply dead_seq. right. destruct (N.eqb_spec mx 0) as [->|Hx]; [intros root e n x; apply H|].
    destruct (N.ltb_spec 0 mx); [|lia]. destruct (N.to_nat (mx - 1 - 0)); cbn [b_upto]; [exact H|].
    apply dead_seq. auto.
  - apply dead_chain, dead_seq. auto.
Qed.
Lemma add_to_nfa_int r : no_int r = false -> dead (add_to_nfa r).
Proof.
  induction r as [|c|ds|w neg rs|l IHl r IHr|l IHl r IHr|r IHr mn mx|r IHr g]; cbn [no_int add_to_nfa]; intros H; try discriminate.
  - apply andb_false_iff in H as [H|H]; apply dead_seq; [left|right]; apply dead_neg; auto.
  - apply andb_false_iff in H as [H|H]; apply dead_cat; [left|right]; auto.
  - apply dead_mult. auto.
  - intros root e n x E. apply bind_Ret in E as ((n1 & e1) & H1 & _). eapply IHr; eauto.
Qed.
