(** RegexProofs.v -- the language of the automaton built by add_to_nfa. *)
From Verif Require Import Base RegexModel RegexSpec.

(** * Languages *)
Section Lang.
Context {A : Type}.
Implicit Types L M K : lang A.

Lemma l_pow_snoc L k w : l_pow L (S k) w <-> l_cat (l_pow L k) L w.
Proof.
  revert w; induction k as [|k IH]; intros w.
  - cbn. split.
    + intros (u & v & -> & H & ->). exists [], u. rewrite app_nil_r. repeat split; auto.
    + intros (u & v & -> & -> & H). exists v, []. rewrite app_nil_r. repeat split; auto.
  - split.
    + intros (u & v & -> & H & Hv). apply IH in Hv as (v1 & v2 & -> & H1 & H2).
      exists (u ++ v1), v2. rewrite app_assoc. repeat split; auto. exists u, v1. auto.
    + intros (u & v & -> & (u1 & u2 & -> & H1 & H2) & H). exists u1, (u2 ++ v). rewrite app_assoc.
      repeat split; auto. apply IH. exists u2, v. auto.
Qed.
Lemma l_pow_add L a b w : l_pow L (a + b) w <-> l_cat (l_pow L a) (l_pow L b) w.
Proof.
  revert w; induction a as [|a IH]; intros w; cbn.
  - split; [intros H; exists [], w; repeat split; auto|intros (u & v & -> & -> & H); exact H].
  - split.
    + intros (u & v & -> & H & Hv). apply IH in Hv as (v1 & v2 & -> & H1 & H2).
      exists (u ++ v1), v2. rewrite app_assoc. repeat split; auto. exists u, v1; auto.
    + intros (u & v & -> & (u1 & u2 & -> & H1 & H2) & H). exists u1, (u2 ++ v). rewrite app_assoc.
      repeat split; auto. apply IH. exists u2, v. auto.
Qed.
Lemma l_star_nil L : l_star L [].
Proof. exists O. reflexivity. Qed.
Lemma l_star_cons L u v : L u -> l_star L v -> l_star L (u ++ v).
Proof. intros H (k & Hk). exists (S k), u, v. auto. Qed.
Lemma l_star_app L u v : l_star L u -> l_star L v -> l_star L (u ++ v).
Proof. intros (a & Ha) (b & Hb). exists (a + b)%nat. apply (proj2 (l_pow_add _ _ _ _)). exists u, v. auto. Qed.
Lemma l_star_one L u : L u -> l_star L u.
Proof. intros H. rewrite <- (app_nil_r u). apply l_star_cons; auto. apply l_star_nil. Qed.
(** Induction on a starred word. *)
Lemma l_star_ind' L (Q : list A -> Prop) :
  Q [] -> (forall u v, L u -> l_star L v -> Q v -> Q (u ++ v)) -> forall w, l_star L w -> Q w.
Proof.
  intros H0 Hs w (k & Hk). revert w Hk; induction k as [|k IH]; intros w Hk.
  - rewrite Hk. exact H0.
  - destruct Hk as (u & v & -> & Hu & Hv). apply Hs; auto. exists k. exact Hv.
Qed.
Lemma l_pow_mono L M k w : (forall x, L x -> M x) -> l_pow L k w -> l_pow M k w.
Proof.
  intros H; revert w; induction k as [|k IH]; intros w; [auto|].
  intros (u & v & -> & Hu & Hv). exists u, v. auto.
Qed.
Lemma l_star_mono L M w : (forall x, L x -> M x) -> l_star L w -> l_star M w.
Proof. intros H (k & Hk). exists k. eapply l_pow_mono; eauto. Qed.
Lemma l_star_empty L w : (forall x, ~ L x) -> l_star L w <-> w = [].
Proof.
  intros H. split.
  - intros (k & Hk). destruct k; [exact Hk|]. destruct Hk as (u & _ & _ & Hu & _). destruct (H u Hu).
  - intros ->. apply l_star_nil.
Qed.
End Lang.

(** * Graphs *)
Section Graph.
Context {A : Type}.
Implicit Types (E G : graph A) (L P T : lang A).

Definition g_or E G : graph A := fun p w q => E p w q \/ G p w q.
Definition g_one (a : nat) L (b : nat) : graph A := fun p w q => p = a /\ q = b /\ L w.
Definition g_none : graph A := fun _ _ _ => False.

Lemma path_mono E G p w q : (forall p w q, E p w q -> G p w q) -> path E p w q -> path G p w q.
Proof. intros H. induction 1; [constructor|econstructor; eauto]. Qed.
Lemma path_ext E G p w q : (forall p w q, E p w q <-> G p w q) -> path E p w q <-> path G p w q.
Proof. intros H; split; apply path_mono; intros; apply H; auto. Qed.
Lemma path_one G p w q : G p w q -> path G p w q.
Proof. intros H. rewrite <- (app_nil_r w). econstructor; eauto. constructor. Qed.
Lemma path_app G p u r v q : path G p u r -> path G r v q -> path G p (u ++ v) q.
Proof.
  induction 1 as [|p u r' u' r H H' IH]; intros Hv; [exact Hv|].
  rewrite <- app_assoc. econstructor; eauto.
Qed.
(** Replacing edges by paths. *)
Lemma path_flat E G p w q : (forall p w q, E p w q -> path G p w q) -> path E p w q -> path G p w q.
Proof. intros H. induction 1; [constructor|eapply path_app; eauto]. Qed.

(** The interval of states [n, n'). *)
Definition inside (n n' p : nat) : Prop := (n <= p < n')%nat.
Definition avoids (E : graph A) (n n' : nat) : Prop :=
  forall p w q, E p w q -> ~ inside n n' p /\ ~ inside n n' q.

(** Eliminating one state. *)
Lemma eliminate E i a b L M K p w q :
  (forall p w q, E p w q -> p <> i /\ q <> i) -> a <> i -> b <> i -> p <> i -> q <> i ->
  path (g_or E (g_or (g_one a L i) (g_or (g_one i M i) (g_one i K b)))) p w q <->
  path (g_or E (g_one a (l_cat L (l_cat (l_star M) K)) b)) p w q.
Proof.
  intros HE Ha Hb Hp Hq. split.
  - intros H.
    assert (Hgen : (p <> i -> path (g_or E (g_one a (l_cat L (l_cat (l_star M) K)) b)) p w q) /\
                   (p = i -> exists y z w', w = y ++ z ++ w' /\ l_star M y /\ K z /\
                      path (g_or E (g_one a (l_cat L (l_cat (l_star M) K)) b)) b w' q)).
    { clear Hp. induction H as [p|p u r v q Hpr Hrq IH]; [split; [constructor|congruence]|].
      destruct (IH Hq) as (IH1 & IH2). destruct Hpr as [He|[(-> & -> & Hl)|[(-> & -> & Hm)|(-> & -> & Hk)]]].
      - destruct (HE _ _ _ He) as (_ & Hr). split; [|intros ->; destruct (HE _ _ _ He); congruence].
        intros _. econstructor; [left; exact He|]. apply IH1; auto.
      - split; [|congruence]. intros _. destruct (IH2 eq_refl) as (y & z & w' & -> & Hy & Hz & Hw').
        rewrite !app_assoc. econstructor; [right|exact Hw']. repeat split.
        exists u, (y ++ z). rewrite app_assoc. repeat split; auto. exists y, z; auto.
      - split; [congruence|]. intros _. destruct (IH2 eq_refl) as (y & z & w' & -> & Hy & Hz & Hw').
        exists (u ++ y), z, w'. rewrite !app_assoc. repeat split; auto. apply l_star_cons; auto.
      - split; [congruence|]. intros _. exists [], u, v. repeat split; auto. apply l_star_nil. }
    apply Hgen; auto.
  - apply path_flat. clear p w q Hp Hq. intros p w q [He|(-> & -> & u & v & -> & Hu & y & z & -> & Hy & Hz)].
    + apply path_one. left. exact He.
    + apply path_app with i; [apply path_one; right; left; repeat split; auto|].
      apply path_app with i; [|apply path_one; right; right; right; repeat split; auto].
      revert y Hy. apply l_star_ind'; [constructor|]. intros y1 y2 H1 _ H2. econstructor; [|exact H2].
      right; right; left. repeat split; auto.
Qed.
End Graph.

(** * Builders *)

(** A builder called with root [root] and end state [e] behaves as one transition reading [P] from [root] to
    [e] and one reading [T] from [e] to [e]: in any context that does not know its new states, the paths
    between the other states are the same. *)
Record behaves (root e n n' : nat) (es : list edge) (P T : lang sym) : Prop := {
  bh_le : (n <= n')%nat;
  bh_src : forall p l q, In (p, l, q) es -> p = root \/ p = e \/ inside n n' p;
  bh_dst : forall p l q, In (p, l, q) es -> q = e \/ inside n n' q;
  bh_path : forall E p w q, avoids E n n' -> ~ inside n n' p -> ~ inside n n' q ->
    path (g_or E (g_edges es)) p w q <->
    path (g_or E (g_or (g_one root P e) (g_one e T e))) p w q
}.
Definition implements (f : builder) (P T : lang sym) : Prop :=
  forall root e n n' es, (root < n)%nat -> (e < n)%nat -> f root e n = Ret (n', es) ->
    behaves root e n n' es P T.

Lemma implements_ext f P T P' T' : l_eq P P' -> l_eq T T' -> implements f P T -> implements f P' T'.
Proof.
  intros HP HT H root e n n' es Hr He Hf. destruct (H root e n n' es Hr He Hf) as [H1 H2 H3 H4].
  constructor; auto. intros E p w q HE Hp Hq. rewrite H4 by auto. apply path_ext. clear - HP HT.
  intros p w q. unfold g_or, g_one. split.
  - intros [H|[(-> & -> & H)|(-> & -> & H)]]; auto; [right; left|right; right]; repeat split; auto; apply HP || apply HT; auto.
  - intros [H|[(-> & -> & H)|(-> & -> & H)]]; auto; [right; left|right; right]; repeat split; auto; apply HP || apply HT; auto.
Qed.
Lemma g_edges_app es1 es2 p w q : g_edges (es1 ++ es2) p w q <-> g_edges es1 p w q \/ g_edges es2 p w q.
Proof.
  unfold g_edges. split.
  - intros (l & H & Hw). apply in_app_iff in H as [H|H]; [left|right]; eauto.
  - intros [(l & H & Hw)|(l & H & Hw)]; exists l; (split; [apply in_app_iff|]; auto).
Qed.
Lemma g_edges_cons a l b es p w q :
  g_edges ((a, l, b) :: es) p w q <-> g_one a (label_reads l) b p w q \/ g_edges es p w q.
Proof.
  unfold g_edges, g_one. split.
  - intros (l' & [[= -> -> ->]|H] & Hw); [left|right]; eauto.
  - intros [(-> & -> & H)|(l' & H & Hw)]; [exists l; split; [left|]; auto|exists l'; split; [right|]; auto].
Qed.
Lemma bind_Ret {A B} (x : out A) (f : A -> out B) b :
  bind x f = Ret b -> exists a, x = Ret a /\ f a = Ret b.
Proof. destruct x; try discriminate. eauto. Qed.

Lemma implements_nop : implements b_nop l_empty l_empty.
Proof.
  intros root e n n' es Hr He [= <- <-]. constructor; [lia|contradiction|contradiction|].
  intros E p w q _ _ _. apply path_ext. intros p' w' q'. unfold g_or, g_edges, g_one, l_empty.
  split; [intros [H|(l & [] & _)]; auto|intros [H|[(_ & _ & [])|(_ & _ & [])]]; auto].
Qed.

(** A builder that only adds edges from the root to the end state. *)
Lemma implements_direct (f : builder) (P : lang sym) :
  (forall root e n, exists es, f root e n = Ret (n, es) /\
     (forall p l q, In (p, l, q) es -> p = root /\ q = e) /\
     (forall w, P w <-> exists l, In (root, l, e) es /\ label_reads l w)) ->
  implements f P l_empty.
Proof.
  intros H root e n n' es Hr He Hf. destruct (H root e n) as (es' & Hf' & H1 & H2).
  rewrite Hf in Hf'. injection Hf' as -> <-. constructor.
  - lia.
  - intros p l q Hi. left. apply (H1 _ _ _ Hi).
  - intros p l q Hi. left. apply (H1 _ _ _ Hi).
  - intros E p w q _ _ _. apply path_ext. intros p' w' q'. unfold g_or, g_edges, g_one, l_empty. split.
    + intros [Hi|(l & Hi & Hl)]; auto. right; left. destruct (H1 _ _ _ Hi) as (-> & ->).
      repeat split; auto. apply H2. eauto.
    + intros [Hi|[(-> & -> & Hp)|(_ & _ & [])]]; auto. right. apply H2 in Hp. exact Hp.
Qed.

Lemma implements_eps : implements b_eps l_eps l_empty.
Proof.
  apply implements_direct. intros root e n. exists [(root, LEps, e)]. split; [reflexivity|]. split.
  - intros p l q [[= <- <- <-]|[]]. auto.
  - intros w. unfold l_eps. split.
    + intros ->. exists LEps. split; [left|]; reflexivity.
    + intros (l & [[= <-]|[]] & Hl). exact Hl.
Qed.

Lemma implements_seq f g P T P' T' :
  implements f P T -> implements g P' T' -> implements (b_seq f g) (l_or P P') (l_or T T').
Proof.
  intros Hf Hg root e n n' es Hr He H. unfold b_seq in H.
  apply bind_Ret in H as ((n1 & e1) & H1 & H). apply bind_Ret in H as ((n2 & e2) & H2 & H).
  injection H as -> <-.
  destruct (Hf root e n n1 e1 Hr He H1) as [L1 S1 D1 B1].
  destruct (Hg root e n1 n' e2 ltac:(lia) ltac:(lia) H2) as [L2 S2 D2 B2].
  constructor; [lia| | |].
  - intros p l q Hi. apply in_app_iff in Hi as [Hi|Hi].
    + destruct (S1 _ _ _ Hi) as [|[|]]; auto. right; right. unfold inside in *. lia.
    + destruct (S2 _ _ _ Hi) as [|[|]]; auto. right; right. unfold inside in *. lia.
  - intros p l q Hi. apply in_app_iff in Hi as [Hi|Hi].
    + destruct (D1 _ _ _ Hi); auto. right. unfold inside in *. lia.
    + destruct (D2 _ _ _ Hi); auto. right. unfold inside in *. lia.
  - intros E p w q HE Hp Hq.
    rewrite (path_ext _ (g_or (g_or E (g_edges e2)) (g_edges e1)))
      by (intros; unfold g_or; rewrite g_edges_app; tauto).
    rewrite B1; [| |unfold inside in *; lia|unfold inside in *; lia].
    2:{ intros p' w' q' [Hi|(l & Hi & _)].
        - destruct (HE _ _ _ Hi). unfold inside in *; lia.
        - destruct (S2 _ _ _ Hi) as [|[|]]; destruct (D2 _ _ _ Hi); unfold inside in *; lia. }
    rewrite (path_ext _ (g_or (g_or E (g_or (g_one root P e) (g_one e T e))) (g_edges e2)))
      by (intros; unfold g_or; tauto).
    rewrite B2; [| |unfold inside in *; lia|unfold inside in *; lia].
    2:{ intros p' w' q' [Hi|[(-> & -> & _)|(-> & -> & _)]].
        - destruct (HE _ _ _ Hi). unfold inside in *; lia.
        - unfold inside; lia.
        - unfold inside; lia. }
    apply path_ext. intros p' w' q'. unfold g_or, g_one, l_or. tauto.
Qed.

Lemma implements_cat f g P T P' T' :
  implements f P T -> implements g P' T' -> implements (b_cat f g) (l_cat P (l_cat (l_star T) P')) T'.
Proof.
  intros Hf Hg root e n n' es Hr He H. unfold b_cat in H.
  apply bind_Ret in H as ((n1 & e1) & H1 & H). apply bind_Ret in H as ((n2 & e2) & H2 & H).
  injection H as -> <-.
  destruct (Hf root n (S n) n1 e1 ltac:(lia) ltac:(lia) H1) as [L1 S1 D1 B1].
  destruct (Hg n e n1 n' e2 ltac:(lia) ltac:(lia) H2) as [L2 S2 D2 B2].
  constructor; [lia| | |].
  - intros p l q Hi. apply in_app_iff in Hi as [Hi|Hi].
    + destruct (S1 _ _ _ Hi) as [|[|]]; auto; right; right; unfold inside in *; lia.
    + destruct (S2 _ _ _ Hi) as [|[|]]; auto; right; right; unfold inside in *; lia.
  - intros p l q Hi. apply in_app_iff in Hi as [Hi|Hi].
    + destruct (D1 _ _ _ Hi); right; unfold inside in *; lia.
    + destruct (D2 _ _ _ Hi); auto. right. unfold inside in *. lia.
  - intros E p w q HE Hp Hq.
    rewrite (path_ext _ (g_or (g_or E (g_edges e2)) (g_edges e1)))
      by (intros; unfold g_or; rewrite g_edges_app; tauto).
    rewrite B1; [| |unfold inside in *; lia|unfold inside in *; lia].
    2:{ intros p' w' q' [Hi|(l & Hi & _)].
        - destruct (HE _ _ _ Hi). unfold inside in *; lia.
        - destruct (S2 _ _ _ Hi) as [|[|]]; destruct (D2 _ _ _ Hi); unfold inside in *; lia. }
    rewrite (path_ext _ (g_or (g_or E (g_or (g_one root P n) (g_one n T n))) (g_edges e2)))
      by (intros; unfold g_or; tauto).
    rewrite B2; [| |unfold inside in *; lia|unfold inside in *; lia].
    2:{ intros p' w' q' [Hi|[(-> & -> & _)|(-> & -> & _)]].
        - destruct (HE _ _ _ Hi). unfold inside in *; lia.
        - unfold inside; lia.
        - unfold inside; lia. }
    rewrite (path_ext _ (g_or (g_or E (g_one e T' e)) (g_or (g_one root P n) (g_or (g_one n T n) (g_one n P' e)))))
      by (intros; unfold g_or; tauto).
    rewrite eliminate; try (unfold inside in *; lia).
    + apply path_ext. intros p' w' q'. unfold g_or. tauto.
    + intros p' w' q' [Hi|(-> & -> & _)]; [destruct (HE _ _ _ Hi); unfold inside in *; lia|lia].
Qed.

Lemma implements_atend f P T : implements f P T -> implements (b_atend f) l_empty (l_or P T).
Proof.
  intros Hf root e n n' es Hr He H. destruct (Hf e e n n' es He He H) as [L1 S1 D1 B1].
  constructor; auto.
  - intros p l q Hi. destruct (S1 _ _ _ Hi) as [|[|]]; auto.
  - intros E p w q HE Hp Hq. rewrite B1 by auto. apply path_ext. intros p' w' q'.
    unfold g_or, g_one, l_or, l_empty. tauto.
Qed.

Lemma implements_neg ts f P T : implements f P T ->
  implements (with_neg ts f)
    (match ts with [] => P | _ => l_cat P (l_cat (l_star T) (l_word [SNeg ts])) end)
    (match ts with [] => T | _ => l_empty end).
Proof.
  intros Hf. destruct ts as [|t ts]; [exact Hf|]. set (tt := t :: ts).
  intros root e n n' es Hr He H. unfold with_neg in H. apply bind_Ret in H as ((n1 & e1) & H1 & H).
  injection H as -> <-. fold tt.
  destruct (Hf root n (S n) n' e1 ltac:(lia) ltac:(lia) H1) as [L1 S1 D1 B1].
  constructor; [lia| | |].
  - intros p l q [[= <- _ _]|Hi]; [right; right; unfold inside; lia|].
    destruct (S1 _ _ _ Hi) as [|[|]]; auto; right; right; unfold inside in *; lia.
  - intros p l q [[= _ _ <-]|Hi]; [auto|]. destruct (D1 _ _ _ Hi); right; unfold inside in *; lia.
  - intros E p w q HE Hp Hq.
    rewrite (path_ext _ (g_or (g_or E (g_one n (label_reads (LNeg tt)) e)) (g_edges e1)))
      by (intros; unfold g_or; rewrite g_edges_cons; tauto).
    rewrite B1; [| |unfold inside in *; lia|unfold inside in *; lia].
    2:{ intros p' w' q' [Hi|(-> & -> & _)].
        - destruct (HE _ _ _ Hi). unfold inside in *; lia.
        - unfold inside in *; lia. }
    rewrite (path_ext _ (g_or E (g_or (g_one root P n) (g_or (g_one n T n) (g_one n (label_reads (LNeg tt)) e)))))
      by (intros; unfold g_or; tauto).
    rewrite eliminate; try (unfold inside in *; lia).
    + apply path_ext. intros p' w' q'. unfold g_or, g_one, l_empty, l_cat, l_word. cbn [label_reads]. tauto.
    + intros p' w' q' Hi. destruct (HE _ _ _ Hi); unfold inside in *; lia.
Qed.

Lemma implements_capture t f P T : implements f P T ->
  implements (b_capture t f)
    (l_cat (l_word [SStart t]) (l_cat P (l_cat (l_star T) (l_word [SEnd t])))) l_empty.
Proof.
  intros Hf root e n n' es Hr He H. unfold b_capture in H. apply bind_Ret in H as ((n1 & e1) & H1 & H).
  injection H as -> <-.
  destruct (Hf n (S n) (S (S n)) n' e1 ltac:(lia) ltac:(lia) H1) as [L1 S1 D1 B1].
  constructor; [lia| | |].
  - intros p l q [[= <- _ _]|[[= <- _ _]|Hi]]; [auto|right; right; unfold inside; lia|].
    destruct (S1 _ _ _ Hi) as [|[|]]; right; right; unfold inside in *; lia.
  - intros p l q [[= _ _ <-]|[[= _ _ <-]|Hi]]; [right; unfold inside; lia|auto|].
    destruct (D1 _ _ _ Hi); right; unfold inside in *; lia.
  - intros E p w q HE Hp Hq.
    rewrite (path_ext _ (g_or (g_or E (g_or (g_one root (label_reads (LPosStart t)) n)
                                            (g_one (S n) (label_reads (LPosEnd t)) e))) (g_edges e1)))
      by (intros; unfold g_or; rewrite !g_edges_cons; tauto).
    rewrite B1; [| |unfold inside in *; lia|unfold inside in *; lia].
    2:{ intros p' w' q' [Hi|[(-> & -> & _)|(-> & -> & _)]].
        - destruct (HE _ _ _ Hi). unfold inside in *; lia.
        - unfold inside in *; lia.
        - unfold inside in *; lia. }
    rewrite (path_ext _ (g_or (g_or E (g_one root (label_reads (LPosStart t)) n))
               (g_or (g_one n P (S n)) (g_or (g_one (S n) T (S n)) (g_one (S n) (label_reads (LPosEnd t)) e)))))
      by (intros; unfold g_or; tauto).
    rewrite eliminate; try (unfold inside in *; lia).
    2:{ intros p' w' q' [Hi|(-> & -> & _)]; [destruct (HE _ _ _ Hi); unfold inside in *; lia|lia]. }
    rewrite (path_ext _ (g_or E (g_or (g_one root (label_reads (LPosStart t)) n) (g_or (g_one n l_empty n)
               (g_one n (l_cat P (l_cat (l_star T) (label_reads (LPosEnd t)))) e)))))
      by (intros; unfold g_or, g_one, l_empty; tauto).
    rewrite eliminate; try (unfold inside in *; lia).
    2:{ intros p' w' q' Hi. destruct (HE _ _ _ Hi); unfold inside in *; lia. }
    apply path_ext. intros p' w' q'. unfold g_or, g_one. cbn [label_reads].
    assert (Hl : l_cat (fun w => w = [SStart t]) (l_cat (l_star l_empty) (l_cat P (l_cat (l_star T) (fun w => w = [SEnd t])))) w'
             <-> l_cat (l_word [SStart t]) (l_cat P (l_cat (l_star T) (l_word [SEnd t]))) w').
    { unfold l_word. split.
      - intros (u & v & -> & Hu & x & y & -> & Hx & Hy). apply l_star_empty in Hx; [|auto]. subst x.
        exists u, y. auto.
      - intros (u & v & -> & Hu & Hv). exists u, v. repeat split; auto. exists [], v. repeat split; auto.
        apply l_star_nil. }
    rewrite Hl. unfold l_empty. tauto.
Qed.

Lemma implements_chain f P T k g P' T' : implements f P T -> implements g P' T' ->
  implements (b_chain f k g) (l_cat (l_pow (l_cat P (l_star T)) k) P') T'.
Proof.
  intros Hf Hg. induction k as [|k IH].
  - cbn [b_chain]. refine (implements_ext _ _ _ _ _ _ _ Hg); [|intros w; tauto].
    intros w. cbn. split; [intros H; exists [], w; repeat split; auto|intros (u & v & -> & -> & H); exact H].
  - cbn [b_chain]. refine (implements_ext _ _ _ _ _ _ _ (implements_cat _ _ _ _ _ _ Hf IH)); [|intros w; tauto].
    intros w. cbn [l_pow]. split.
    + intros (u & v & -> & Hu & y & z & -> & Hy & a & b & -> & Ha & Hb).
      exists ((u ++ y) ++ a), b. split; [rewrite !app_assoc; reflexivity|]. split; [|exact Hb].
      exists (u ++ y), a. split; [reflexivity|]. split; [|exact Ha]. exists u, y. auto.
    + intros (x & b & -> & (z & a & -> & (u & y & -> & Hu & Hy) & Ha) & Hb).
      exists u, (y ++ a ++ b). split; [rewrite !app_assoc; reflexivity|]. split; [exact Hu|].
      exists y, (a ++ b). split; [reflexivity|]. split; [exact Hy|]. exists a, b. auto.
Qed.

(** [k + 1] operands through [k] intermediate states. *)
Definition seqs (P T : lang sym) (k : nat) : lang sym := l_cat (l_pow (l_cat P (l_star T)) k) P.
Lemma seqs_S P T k w : seqs P T (S k) w <-> l_cat P (l_cat (l_star T) (seqs P T k)) w.
Proof.
  unfold seqs. cbn [l_pow]. split.
  - intros (x & b & -> & (z & a & -> & (u & y & -> & Hu & Hy) & Ha) & Hb).
    exists u, (y ++ a ++ b). split; [rewrite !app_assoc; reflexivity|]. split; [exact Hu|].
    exists y, (a ++ b). split; [reflexivity|]. split; [exact Hy|]. exists a, b. auto.
  - intros (u & v & -> & Hu & y & z & -> & Hy & a & b & -> & Ha & Hb).
    exists ((u ++ y) ++ a), b. split; [rewrite !app_assoc; reflexivity|]. split; [|exact Hb].
    exists (u ++ y), a. split; [reflexivity|]. split; [|exact Ha]. exists u, y. auto.
Qed.
Lemma seqs_O P T w : seqs P T 0 w <-> P w.
Proof.
  unfold seqs. cbn. split; [intros (u & v & -> & -> & H); exact H|intros H; exists [], w; repeat split; auto].
Qed.

Lemma implements_upto f P T k : implements f P T ->
  implements (b_upto f k) (fun w => exists j, (j <= k)%nat /\ seqs P T j w) T.
Proof.
  intros Hf. induction k as [|k IH]; cbn [b_upto].
  - refine (implements_ext _ _ _ _ _ _ _ Hf); [|intros w; tauto]. intros w. split.
    + intros H. exists O. split; [lia|]. apply (proj2 (seqs_O _ _ _)). exact H.
    + intros (j & Hj & H). assert (j = O) as -> by lia. apply (proj1 (seqs_O _ _ _)) in H. exact H.
  - refine (implements_ext _ _ _ _ _ _ _ (implements_seq _ _ _ _ _ _ Hf (implements_cat _ _ _ _ _ _ Hf IH)));
      [|intros w; unfold l_or; tauto].
    intros w. unfold l_or. split.
    + intros [H|(u & v & -> & Hu & y & z & -> & Hy & j & Hj & Hz)].
      * exists O. split; [lia|]. apply (proj2 (seqs_O _ _ _)). exact H.
      * exists (S j). split; [lia|]. apply (proj2 (seqs_S _ _ _ _)). exists u, (y ++ z). split; [reflexivity|]. split; [exact Hu|].
        exists y, z. auto.
    + intros (j & Hj & H). destruct j as [|j].
      * left. apply (proj1 (seqs_O _ _ _)) in H. exact H.
      * right. apply (proj1 (seqs_S _ _ _ _)) in H as (u & v & -> & Hu & y & z & -> & Hy & Hz).
        exists u, (y ++ z). split; [reflexivity|]. split; [exact Hu|]. exists y, z.
        split; [reflexivity|]. split; [exact Hy|]. exists j. split; [lia|exact Hz].
Qed.

Lemma implements_mult f P T mn mx : implements f P T ->
  implements (b_mult f mn mx)
    (fun w => (mn = 0 /\ w = []) \/ exists k, seqs P T k w /\
        (mn = N.of_nat k + 1 \/ (mn < N.of_nat k + 1 /\ N.of_nat k + 1 <= mx)))
    (if mx =? 0 then l_or P T else T).
Proof.
  intros Hf. unfold b_mult. destruct (N.eqb_spec mn 0) as [->|Hmn].
  - destruct (N.eqb_spec mx 0) as [->|Hmx].
    + refine (implements_ext _ _ _ _ _ _ _
                (implements_seq _ _ _ _ _ _ implements_eps (implements_atend _ _ _ Hf))).
      * intros w. unfold l_or, l_eps, l_empty. split; [intros [H|[]]; auto|].
        intros [[_ H]|(k & _ & [H|H])]; auto; lia.
      * intros w. unfold l_or, l_empty. tauto.
    + destruct (N.ltb_spec 0 mx); [|lia].
      refine (implements_ext _ _ _ _ _ _ _
                (implements_seq _ _ _ _ _ _ implements_eps (implements_upto _ _ _ (N.to_nat (mx - 1 - 0)) Hf))).
      * intros w. unfold l_or, l_eps. split.
        -- intros [H0|(j & Hj & H0)]; auto. right. exists j. split; [exact H0|]. lia.
        -- intros [[_ H0]|(k & H0 & Hk)]; auto. right. exists k. split; [lia|exact H0].
      * intros w. unfold l_or, l_empty. tauto.
  - destruct (N.eqb_spec mx 0) as [->|Hmx].
    + refine (implements_ext _ _ _ _ _ _ _
                (implements_chain _ _ _ (N.to_nat (mn - 1)) _ _ _ Hf
                   (implements_seq _ _ _ _ _ _ Hf (implements_atend _ _ _ Hf)))).
      * intros w. split.
        -- intros (u & v & -> & Hu & [Hv|[]]). right. exists (N.to_nat (mn - 1)). split; [|lia]. exists u, v. auto.
        -- intros [[H _]|(k & (u & v & -> & Hu & Hv) & [H|H])]; [lia| |lia].
           exists u, v. split; [reflexivity|]. replace (N.to_nat (mn - 1)) with k by lia.
           split; [exact Hu|]. left. exact Hv.
      * intros w. unfold l_or. tauto.
    + destruct (N.ltb_spec mn mx) as [Hlt|Hge].
      * refine (implements_ext _ _ _ _ _ _ _
                (implements_chain _ _ _ (N.to_nat (mn - 1)) _ _ _ Hf
                   (implements_seq _ _ _ _ _ _ Hf
                      (implements_cat _ _ _ _ _ _ Hf (implements_upto _ _ _ (N.to_nat (mx - 1 - mn)) Hf))))).
        2:{ intros w. unfold l_or. tauto. }
        assert (Hsplit : forall a j w, seqs P T (a + S j) w <->
          l_cat (l_pow (l_cat P (l_star T)) a) (l_cat P (l_cat (l_star T) (seqs P T j))) w).
        { clear. intros a j w. unfold seqs at 1. split.
          - intros (u & v & -> & Hu & Hv). apply (proj1 (l_pow_add _ _ _ _)) in Hu as (u1 & u2 & -> & H1 & H2).
            exists u1, (u2 ++ v). split; [rewrite app_assoc; reflexivity|]. split; [exact H1|].
            apply (proj1 (seqs_S _ _ _ _)). exists u2, v. auto.
          - intros (u & v & -> & Hu & Hv). apply (proj2 (seqs_S _ _ _ _)) in Hv as (x & y & -> & Hx & Hy).
            exists (u ++ x), y. split; [rewrite app_assoc; reflexivity|]. split; [|exact Hy].
            apply (proj2 (l_pow_add _ _ _ _)). exists u, x. auto. }
        intros w. split.
        -- intros (u & v & -> & Hu & [Hv|(x & y & -> & Hx & a & b & -> & Ha & j & Hj & Hb)]).
           ++ right. exists (N.to_nat (mn - 1)). split; [|lia]. exists u, v. auto.
           ++ right. exists (N.to_nat (mn - 1) + S j)%nat. split; [|lia]. apply (proj2 (Hsplit _ _ _)).
              exists u, (x ++ a ++ b). split; [reflexivity|]. split; [exact Hu|].
              exists x, (a ++ b). split; [reflexivity|]. split; [exact Hx|]. exists a, b. auto.
        -- intros [[H _]|(k & H & [Hk|Hk])]; [lia| |].
           ++ destruct H as (u & v & -> & Hu & Hv). exists u, v. split; [reflexivity|].
              replace (N.to_nat (mn - 1)) with k by lia. split; [exact Hu|]. left. exact Hv.
           ++ replace k with (N.to_nat (mn - 1) + S (k - N.to_nat mn))%nat in H by lia.
              apply (proj1 (Hsplit _ _ _)) in H as (u & v & -> & Hu & x & y & -> & Hx & a & b & -> & Ha & Hb).
              exists u, (x ++ a ++ b). split; [reflexivity|]. split; [exact Hu|]. right.
              exists x, (a ++ b). split; [reflexivity|]. split; [exact Hx|]. exists a, b.
              split; [reflexivity|]. split; [exact Ha|]. exists (k - N.to_nat mn)%nat. split; [lia|exact Hb].
      * refine (implements_ext _ _ _ _ _ _ _
                (implements_chain _ _ _ (N.to_nat (mn - 1)) _ _ _ Hf
                   (implements_seq _ _ _ _ _ _ Hf implements_nop))).
        -- intros w. split.
           ++ intros (u & v & -> & Hu & [Hv|[]]). right. exists (N.to_nat (mn - 1)). split; [|lia]. exists u, v. auto.
           ++ intros [[H _]|(k & (u & v & -> & Hu & Hv) & [H|H])]; [lia| |lia].
              exists u, v. split; [reflexivity|]. replace (N.to_nat (mn - 1)) with k by lia.
              split; [exact Hu|]. left. exact Hv.
        -- intros w. unfold l_or, l_empty. tauto.
Qed.

Lemma in_interval root e a p l q :
  In (p, l, q) (add_interval root a e) <->
  p = root /\ q = e /\ fst a < cSizeOfByte /\ l = LByte (fst a) (N.min (snd a) (cSizeOfByte - 1)).
Proof.
  unfold add_interval. destruct (N.ltb_spec (fst a) cSizeOfByte) as [H|H].
  - split.
    + intros [[= <- <- <-]|[]]. auto.
    + intros (-> & -> & _ & ->). left. reflexivity.
  - split; [contradiction|]. intros (_ & _ & H' & _). lia.
Qed.

(** The automaton built for [r] behaves as [lead r] and [trail r]. *)
Theorem add_to_nfa_implements r : implements (add_to_nfa r) (lead r) (trail r).
Proof.
  induction r as [|c|ds|w neg rs|l IHl r IHr|l IHl r IHr|r IHr mn mx|r IHr t]; cbn [add_to_nfa lead trail].
  - apply implements_nop.
  - apply implements_direct. intros root e n. eexists. split; [reflexivity|]. split.
    + intros p l q H. apply in_interval in H as (-> & -> & _). auto.
    + intros x. split.
      * intros (-> & Hc). eexists. split; [apply in_interval; cbn; auto|]. cbn. exists c. split; auto.
        unfold cSizeOfByte in *. lia.
      * intros (l & H & Hl). apply in_interval in H as (_ & _ & Hc & ->). destruct Hl as (b & -> & Hb).
        cbn in *. unfold cSizeOfByte in *. split; [|lia]. do 2 f_equal. lia.
  - intros root e n n' es _ _ H. discriminate.
  - apply implements_direct. intros root e n. eexists. split; [reflexivity|]. split.
    + intros p l q H. apply in_flat_map in H as (a & _ & H). apply in_interval in H as (-> & -> & _). auto.
    + intros x. split.
      * intros (b & -> & Hc & lo & hi & Hi & Hb). eexists. split.
        -- apply in_flat_map. exists (lo, hi). split; [exact Hi|]. apply in_interval. cbn.
           repeat split; auto. unfold cSizeOfByte in *. lia.
        -- cbn. exists b. split; auto. unfold cSizeOfByte in *. lia.
      * intros (l & H & Hl). apply in_flat_map in H as ((lo, hi) & Hi & H).
        apply in_interval in H as (_ & _ & Hc & ->). destruct Hl as (b & -> & Hb). cbn in *.
        exists b. split; auto. unfold cSizeOfByte in *. split; [lia|]. exists lo, hi. split; [exact Hi|lia].
  - apply implements_seq; apply implements_neg; assumption.
  - apply implements_cat; assumption.
  - exact (implements_mult _ _ _ mn mx IHr).
  - apply implements_capture; assumption.
Qed.

(** add_to_nfa throws only at an integer node. *)
Fixpoint no_int (r : regex) : bool :=
  match r with
  | RInt _ => false
  | REmpty | RLit _ | RGroup _ _ _ => true
  | ROr l r | RCat l r => no_int l && no_int r
  | RMult r _ _ | RCapture r _ => no_int r
  end.
Definition total (f : builder) : Prop := forall root e n, exists n' es, f root e n = Ret (n', es).
Lemma total_seq f g : total f -> total g -> total (b_seq f g).
Proof.
  intros Hf Hg root e n. destruct (Hf root e n) as (n1 & e1 & H1). destruct (Hg root e n1) as (n2 & e2 & H2).
  unfold b_seq. rewrite H1. cbn. rewrite H2. cbn. eauto.
Qed.
Lemma total_cat f g : total f -> total g -> total (b_cat f g).
Proof.
  intros Hf Hg root e n. destruct (Hf root n (S n)) as (n1 & e1 & H1). destruct (Hg n e n1) as (n2 & e2 & H2).
  unfold b_cat. rewrite H1. cbn. rewrite H2. cbn. eauto.
Qed.
Lemma total_neg ts f : total f -> total (with_neg ts f).
Proof.
  intros Hf root e n. unfold with_neg. destruct ts; [apply Hf|]. destruct (Hf root n (S n)) as (n1 & e1 & H1).
  rewrite H1. cbn. eauto.
Qed.
Lemma total_chain f k g : total f -> total g -> total (b_chain f k g).
Proof. intros Hf Hg. induction k; cbn [b_chain]; auto using total_cat. Qed.
Lemma total_upto f k : total f -> total (b_upto f k).
Proof. intros Hf. induction k; cbn [b_upto]; auto using total_cat, total_seq. Qed.
Lemma total_atend f : total f -> total (b_atend f).
Proof. intros Hf root e n. apply Hf. Qed.
Lemma total_ret g : (forall root e n, exists n' es, g root e n = Ret (n', es)) -> total g.
Proof. auto. Qed.
Lemma add_to_nfa_total r : no_int r = true -> total (add_to_nfa r).
Proof.
  induction r as [|c|ds|w neg rs|l IHl r IHr|l IHl r IHr|r IHr mn mx|r IHr t]; cbn [add_to_nfa no_int]; intros H.
  - intros root e n. eexists _, _. reflexivity.
  - intros root e n. eexists _, _. reflexivity.
  - discriminate.
  - intros root e n. eexists _, _. reflexivity.
  - apply andb_prop in H as (Hl & Hr). apply total_seq; apply total_neg; auto.
  - apply andb_prop in H as (Hl & Hr). apply total_cat; auto.
  - specialize (IHr H). unfold b_mult.
    assert (total b_eps) by (intros root e n; eexists _, _; reflexivity).
    assert (total b_nop) by (intros root e n; eexists _, _; reflexivity).
    destruct (mn =? 0), (mx =? 0), (mn <? mx);
      repeat (apply total_seq || apply total_cat || apply total_chain || apply total_upto || apply total_atend); auto.
  - intros root e n. unfold b_capture. destruct (IHr H n (S n) (S (S n))) as (n1 & e1 & H1). rewrite H1. cbn. eauto.
Qed.

(** * All rules together *)
Definition rule_graph (er : nat * regex) : graph sym :=
  g_or (g_one n_root (lead (snd er)) (fst er)) (g_one (fst er) (trail (snd er)) (fst er)).
Definition rules_graph (ers : list (nat * regex)) : graph sym := fun p w q =>
  exists er, In er ers /\ rule_graph er p w q.

(** The accepting states of [add_rules rules n] with their rules. *)
Lemma add_rules_spec rules : forall n n' es acc, (0 < n)%nat -> add_rules rules n = Ret (n', es, acc) ->
  exists ers,
    map fst ers = map fst acc /\ map snd ers = map snd rules /\ map snd acc = map fst rules /\
    (n <= n')%nat /\ (forall er, In er ers -> inside n n' (fst er)) /\ NoDup (map fst ers) /\
    (forall p l q, In (p, l, q) es -> (p = n_root \/ inside n n' p) /\ inside n n' q) /\
    (forall E p w q, avoids E n n' ->
       (~ inside n n' p \/ In p (map fst ers)) -> (~ inside n n' q \/ In q (map fst ers)) ->
       path (g_or E (g_edges es)) p w q <-> path (g_or E (rules_graph ers)) p w q).
Proof.
  induction rules as [|[id r] rules IH]; cbn [add_rules]; intros n n' es acc Hn H.
  - injection H as <- <- <-. exists []. repeat split; auto; try contradiction; try constructor.
    + apply path_mono. intros p' w' q' [Hx|(l & [] & _)]; left; auto.
    + apply path_mono. intros p' w' q' [Hx|(l & [] & _)]; left; auto.
  - apply bind_Ret in H as ((n1 & e1) & H1 & H). apply bind_Ret in H as (((n2 & e2) & acc2) & H2 & H).
    injection H as <- <- <-.
    destruct (add_to_nfa_implements r n_root n (S n) n1 e1 ltac:(unfold n_root; lia) ltac:(lia) H1) as [L1 S1 D1 B1].
    destruct (IH n1 n2 e2 acc2 ltac:(lia) H2) as (ers & M1 & M2 & M3 & L2 & I2 & ND & Bd & B2).
    exists ((n, r) :: ers). cbn [map fst snd]. split; [congruence|]. split; [congruence|].
    split; [congruence|]. split; [lia|]. split; [|split; [|split]].
    + intros er [<-|Hi]; [unfold inside; cbn; lia|]. specialize (I2 er Hi). unfold inside in *. lia.
    + constructor; auto. intros Hi. apply in_map_iff in Hi as (er & <- & Hi). specialize (I2 er Hi). unfold inside in *. lia.
    + intros p l q Hi. apply in_app_iff in Hi as [Hi|Hi].
      * specialize (S1 _ _ _ Hi). specialize (D1 _ _ _ Hi). unfold inside in *. lia.
      * specialize (Bd _ _ _ Hi). unfold inside in *. lia.
    + intros E p w q HE Hp Hq.
      assert (Hin : forall x, In x (map fst ers) -> inside n1 n2 x).
      { intros x Hx. apply in_map_iff in Hx as (er & <- & Hx). auto. }
      assert (Hold : forall x, ~ inside n n2 x \/ n = x \/ In x (map fst ers) -> ~ inside (S n) n1 x).
      { intros x [Hx|[Hx|Hx]]; [|subst x|apply Hin in Hx]; unfold inside in *; lia. }
      assert (Hnew : forall x, ~ inside n n2 x \/ n = x \/ In x (map fst ers) -> ~ inside n1 n2 x \/ In x (map fst ers)).
      { intros x [Hx|[Hx|Hx]]; auto; left; unfold inside in *; lia. }
      rewrite (path_ext _ (g_or (g_or E (g_edges e2)) (g_edges e1)))
        by (intros; unfold g_or; rewrite g_edges_app; tauto).
      rewrite B1; [| |apply Hold; exact Hp|apply Hold; exact Hq].
      2:{ intros p' w' q' [Hi|(l & Hi & _)].
          - specialize (HE _ _ _ Hi). unfold inside in *; lia.
          - specialize (Bd _ _ _ Hi). unfold inside, n_root in *; lia. }
      rewrite (path_ext _ (g_or (g_or E (rule_graph (n, r))) (g_edges e2)))
        by (intros; unfold g_or, rule_graph, g_or; cbn [fst snd]; tauto).
      rewrite B2; [| |apply Hnew; exact Hp|apply Hnew; exact Hq].
      2:{ intros p' w' q' [Hi|[(-> & -> & _)|(-> & -> & _)]].
          - specialize (HE _ _ _ Hi). unfold inside in *; lia.
          - unfold inside, n_root; cbn [fst]; lia.
          - unfold inside; cbn [fst]; lia. }
      apply path_ext. intros p' w' q'. unfold g_or at 1 2 3, rules_graph. split.
      * intros [[Hx|Hx]|(er & Hi & Hx)]; auto; right; [exists (n, r)|exists er]; split; auto; [left; reflexivity|right; exact Hi].
      * intros [Hx|(er & [<-|Hi] & Hx)]; auto. right. exists er. auto.
Qed.

Lemma nodup_fst_inj {X Y} (l : list (X * Y)) a b b' : NoDup (map fst l) -> In (a, b) l -> In (a, b') l -> b = b'.
Proof.
  induction l as [|[x y] l IH]; cbn [map fst]; intros ND H H'; [contradiction|].
  apply NoDup_cons_iff in ND as (Hni & ND).
  assert (Hno : forall z, ~ In (x, z) l) by (intros z Hz; apply Hni; apply in_map_iff; exists (x, z); auto).
  destruct H as [E|H], H' as [E'|H'].
  - congruence.
  - injection E as -> _. destruct (Hno _ H').
  - injection E' as -> _. destruct (Hno _ H).
  - auto.
Qed.

(** Paths of the rules' graph from the root to an accepting state. *)
Lemma rules_graph_path ers e r w : NoDup (map fst ers) -> ~ In n_root (map fst ers) -> In (e, r) ers ->
  path (rules_graph ers) n_root w e <-> l_cat (lead r) (l_star (trail r)) w.
Proof.
  intros ND Hroot Hin. split.
  - intros H.
    assert (Huniq : forall r', In (e, r') ers -> r' = r).
    { intros r' Hi. eapply nodup_fst_inj; eauto. }
    assert (Hloop : forall w, path (rules_graph ers) e w e -> l_star (trail r) w).
    { clear w H. assert (Hg : forall p w q, path (rules_graph ers) p w q -> p = e -> q = e -> l_star (trail r) w).
      { induction 1 as [p|p u x v q ((e' & r') & Hi & [(Hp & -> & Hl)|(Hp & -> & Hl)]) Hpath IH]; intros -> Hq.
        - apply l_star_nil.
        - exfalso. apply Hroot. rewrite <- Hp. apply in_map_iff. exists (e, r). auto.
        - cbn [fst snd] in *. subst e'. rewrite (Huniq r' Hi) in Hl. apply l_star_cons; auto. }
      intros w H. eapply Hg; eauto. }
    assert (Hdest : forall p w q, path (rules_graph ers) p w q -> p <> n_root -> p = q).
    { induction 1 as [p|p u x v q ((e' & r') & Hi & [(Hp & -> & Hl)|(Hp & -> & Hl)]) Hpath IH]; intros Hne; auto.
      - congruence.
      - cbn [fst] in *. subst p. auto. }
    inversion H as [p Hp Hq|p u x v q ((e' & r') & Hi & [(Hp & -> & Hl)|(Hp & -> & Hl)]) Hpath]; subst.
    + exfalso. apply Hroot. apply in_map_iff. exists (n_root, r). auto.
    + cbn [fst snd] in *. assert (He' : e' = e).
      { eapply Hdest; eauto. intros ->. apply Hroot. apply in_map_iff. exists (n_root, r'). auto. }
      subst e'. rewrite (Huniq r' Hi) in Hl. exists u, v. auto.
    + exfalso. apply Hroot. cbn [fst] in Hp. rewrite Hp. apply in_map_iff. exists (e', r'). auto.
  - intros (u & v & -> & Hu & Hv). econstructor.
    + exists (e, r). split; [exact Hin|]. left. repeat split; auto.
    + revert v Hv. apply l_star_ind'; [constructor|]. intros x y Hx _ Hy. cbn [fst]. econstructor; [|exact Hy].
      exists (e, r). split; [exact Hin|]. right. repeat split; auto.
Qed.

Lemma map_fst_in {A B C} (l : list (A * B)) (l' : list (A * C)) :
  map fst l = map fst l' -> forall i a, (exists b, nth_error l i = Some (a, b)) <-> (exists c, nth_error l' i = Some (a, c)).
Proof.
  intros H i a. assert (Hi : nth_error (map fst l) i = nth_error (map fst l') i) by congruence.
  rewrite !nth_error_map in Hi. split.
  - intros (b & Hb). rewrite Hb in Hi. cbn in Hi. destruct (nth_error l' i) as [[a' c]|]; [|discriminate].
    injection Hi as ->. eauto.
  - intros (b & Hb). rewrite Hb in Hi. cbn in Hi. destruct (nth_error l i) as [[a' c]|]; [|discriminate].
    injection Hi as ->. eauto.
Qed.

(** The NFA of a list of rules accepts a tagged word with id [i] iff one of the rules with id [i] does. *)
Theorem nfa_of_rules_spec rules A : nfa_of_rules rules = Ret A ->
  forall i w, accepts_tagged A i w <-> exists r, In (i, r) rules /\ l_cat (lead r) (l_star (trail r)) w.
Proof.
  unfold nfa_of_rules. intros H i w. apply bind_Ret in H as (((n & es) & acc) & H & [= <-]).
  destruct (add_rules_spec rules 1 n es acc ltac:(lia) H) as (ers & M1 & M2 & M3 & L & I & ND & Bd & B).
  assert (Hroot : ~ In n_root (map fst ers)).
  { intros Hi. apply in_map_iff in Hi as (er & E & Hi). specialize (I er Hi). unfold inside, n_root in *. lia. }
  assert (Hpath : forall e r w, In (e, r) ers -> path (g_edges es) n_root w e <-> l_cat (lead r) (l_star (trail r)) w).
  { intros e r x Hi. rewrite <- (rules_graph_path ers e r x ND Hroot Hi).
    assert (Hin : In e (map fst ers)) by (apply in_map_iff; exists (e, r); auto).
    specialize (B g_none n_root x e ltac:(intros ? ? ? []) ltac:(left; unfold inside, n_root; lia) (or_intror Hin)).
    rewrite (path_ext (g_or g_none (g_edges es)) (g_edges es)) in B by (intros; unfold g_or, g_none; tauto).
    rewrite (path_ext (g_or g_none (rules_graph ers)) (rules_graph ers)) in B by (intros; unfold g_or, g_none; tauto).
    exact B. }
  unfold accepts_tagged. cbn [n_acc n_edges]. split.
  - intros (q & Hq & Hp). apply In_nth_error in Hq as (k & Hk).
    destruct (proj2 (map_fst_in ers acc M1 k q) (ex_intro _ i Hk)) as (r & Hr).
    exists r. split; [|apply (Hpath q r); [eapply nth_error_In; eauto|exact Hp]].
    assert (E1 : nth_error (map fst rules) k = Some i) by (rewrite <- M3, nth_error_map, Hk; reflexivity).
    assert (E2 : nth_error (map snd rules) k = Some r) by (rewrite <- M2, nth_error_map, Hr; reflexivity).
    rewrite nth_error_map in E1, E2. destruct (nth_error rules k) as [[i' r']|] eqn:E; [|discriminate].
    injection E1 as ->. injection E2 as ->. eapply nth_error_In; eauto.
  - intros (r & Hr & Hp). apply In_nth_error in Hr as (k & Hk).
    assert (E1 : nth_error (map snd acc) k = Some i) by (rewrite M3, nth_error_map, Hk; reflexivity).
    assert (E2 : nth_error (map snd ers) k = Some r) by (rewrite M2, nth_error_map, Hk; reflexivity).
    rewrite nth_error_map in E1, E2. destruct (nth_error ers k) as [[e r']|] eqn:E; [|discriminate].
    injection E2 as ->. destruct (proj1 (map_fst_in ers acc M1 k e) (ex_intro _ r E)) as (c & Hc).
    rewrite Hc in E1. injection E1 as ->. exists e. split; [eapply nth_error_In; eauto|].
    apply (Hpath e r); [eapply nth_error_In; eauto|exact Hp].
Qed.
