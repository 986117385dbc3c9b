(** PropertiesAst.v -- C61: copies of a pattern (RegexAST::clone) and its text (RegexAST::serialize). *)
From Verif Require Import Base RegexModel RegexSpec RegexProofs SerializeModel SerializeProofs AstModel AstProofs PropertiesSerialize.
From Coq Require Import String.
Open Scope N_scope.
Open Scope list_scope.

(** * Specification *)
(** [sane m]: addresses from [m_next m] on hold no object. [present m ts]: the tags [ts] exist. [nm m t]: the name of tag [t].
    [pos_tags r]: the tags of the capture groups of [r]. *)
(** LogParser.cpp 64-80 copies the timestamp patterns: cloning the patterns of some rules. *)
Fixpoint clone_all (rules : list (N * ast)) (m : mem) : out (list (N * ast) * mem) :=
  match rules with
  | [] => Ret ([], m)
  | (i, a) :: rest => do (c, m1) <- clone a m; do (cs, m2) <- clone_all rest m1; Ret ((i, c) :: cs, m2)
  end.
Definition objects (rules : list (N * regex)) : list (N * ast) := map (fun x => (fst x, build (snd x))) rules.

(** * Lemmas *)
Lemma same_label_sym f l l' : same_label f l l' -> same_label f l' l.
Proof. destruct l, l'; cbn; try tauto; try congruence. intros [-> ->]. auto. Qed.
Lemma same_edges_sym f es es' : Forall2 (same_edge f) es es' -> Forall2 (same_edge f) es' es.
Proof.
  induction 1 as [|[[p l] q] [[p' l'] q'] es es' H F IH]; constructor; auto. destruct H as (-> & -> & H). cbn. auto using same_label_sym.
Qed.
Lemma same_edges_step f es es' : Forall2 (same_edge f) es es' -> forall p w q, g_edges es p w q ->
  exists w', g_edges es' p w' q /\ map (named f) w = map (named f) w'.
Proof.
  intros F p w q (l & Hi & Hl). induction F as [|[[a k] b] [[a' k'] b'] es es' H F IH]; [destruct Hi|]. destruct Hi as [[= -> -> ->]|Hi].
  - destruct H as (<- & <- & H). destruct l as [lo hi| |t|t|ts], k' as [lo' hi'| |t'|t'|ts']; cbn in H; try contradiction; cbn in Hl.
    + destruct H as [-> ->]. exists w. split; [|reflexivity]. exists (LByte lo' hi'). split; [now left|exact Hl].
    + exists w. split; [|reflexivity]. exists LEps. split; [now left|exact Hl].
    + subst w. exists [SStart t']. split; [|cbn; congruence]. exists (LPosStart t'). split; [now left|reflexivity].
    + subst w. exists [SEnd t']. split; [|cbn; congruence]. exists (LPosEnd t'). split; [now left|reflexivity].
    + subst w ts'. exists [SNeg ts]. split; [|reflexivity]. exists (LNeg ts). split; [now left|reflexivity].
  - destruct (IH Hi) as (w' & (l' & Hi' & Hl') & E). exists w'. split; [|exact E]. exists l'. split; [now right|exact Hl'].
Qed.
Lemma same_edges_path f es es' : Forall2 (same_edge f) es es' -> forall p w q, path (g_edges es) p w q ->
  exists w', path (g_edges es') p w' q /\ map (named f) w = map (named f) w'.
Proof.
  intros F p w q H. induction H as [p|p u r v q Hs Hp (v' & Hp' & Ev)].
  - exists []. split; [constructor|reflexivity].
  - destruct (same_edges_step f es es' F p u r Hs) as (u' & Hs' & Eu). exists (u' ++ v'). split; [econstructor; eauto|]. rewrite !map_app. congruence.
Qed.
Lemma named_bytes f w : forall w', map (named f) w = map (named f) w' -> bytes_of w = bytes_of w'.
Proof.
  induction w as [|s w IH]; intros [|s' w'] E; try discriminate; [reflexivity|]. cbn [map] in E. injection E as E1 E2. specialize (IH _ E2).
  destruct s, s'; cbn in *; congruence.
Qed.
Lemma with_neg_ret ts f : (forall root e n, exists x, f root e n = Ret x) -> forall root e n, exists x, with_neg ts f root e n = Ret x.
Proof. intros H root e n. unfold with_neg. destruct ts; [apply H|]. destruct (H root n (S n)) as ([a b] & ->). cbn. eauto. Qed.

(** What copying rules gives. *)
Lemma clone_all_spec rules : forall m, sane m -> (forall i a, In (i, a) rules -> present m (owned a)) ->
  exists cs m', clone_all rules m = Ret (cs, m') /\ sane m' /\ ext m m' /\
    (forall M n, ext m' M -> match add_asts rules n, add_asts cs n with
       | Ret (n1, e1, a1), Ret (n2, e2, a2) => n1 = n2 /\ Forall2 (same_edge (nm M)) e1 e2 /\ a1 = a2
       | Ret _, _ | _, Ret _ => False | x, y => x = y end).
Proof.
  induction rules as [|[i a] rules IH]; intros m Sm Hp.
  - exists [], m. split; [reflexivity|]. split; [exact Sm|]. split; [apply ext_refl|]. intros M n _. cbn. split; [reflexivity|]. split; [constructor|reflexivity].
  - destruct (clone_spec a m Sm (Hp i a (or_introl eq_refl))) as (c & m1 & E1 & S1 & X1 & _ & B1 & _ & _ & _ & _ & R1 & _).
    destruct (IH m1 S1) as (cs & m2 & E2 & S2 & X2 & R2).
    { intros j b Hj. apply (ext_present m); auto. apply (Hp j b). now right. }
    exists ((i, c) :: cs), m2. cbn [clone_all]. rewrite E1. cbn [bind]. rewrite E2. cbn [bind]. split; [reflexivity|]. split; [exact S2|]. split; [exact (ext_trans _ _ _ X1 X2)|].
    intros M n XM. cbn [add_asts]. rewrite B1. pose proof (brel_neg _ (a_neg a) _ _ (R1 M (ext_trans _ _ _ X2 XM)) n_root n (S n)) as H.
    destruct (with_neg (a_neg a) (ast_nfa a) n_root n (S n)) as [[n1 e1]| | |], (with_neg (a_neg a) (ast_nfa c) n_root n (S n)) as [[n2 e2]| | |];
      cbn in H; try contradiction; try discriminate; cbn [bind]; try reflexivity.
    destruct H as [<- F1]. specialize (R2 M n1 XM).
    destruct (add_asts rules n1) as [[[n3 e3] a3]| | |], (add_asts cs n1) as [[[n4 e4] a4]| | |]; try contradiction; try discriminate; cbn [bind]; try reflexivity.
    destruct R2 as (<- & F2 & <-). split; [reflexivity|]. split; [apply Forall2_app; assumption|reflexivity].
Qed.

(** * Theorems *)
(** The automaton that the objects build with the tags they store is the automaton of the model of add_to_nfa used for the other
    properties (which computes the negative tags from the other branch). *)
Theorem C61_objects rules : nfa_of_asts (objects rules) = nfa_of_rules rules.
Proof. unfold nfa_of_asts, nfa_of_rules, objects. rewrite build_rules. reflexivity. Qed.

(** C61, the part that holds: copying never fails, leaves the original's tags alone, and the automaton of the copies accepts the same
    words for the same rules: the same bytes, and -- as long as the original exists -- the same names of captures entered, left and
    skipped; the text of the copy is that of the original. *)
Theorem C61_copy_partial rules m : sane m -> (forall i r, In (i, r) rules -> present m (pos_tags r)) ->
  exists cs m', clone_all (objects rules) m = Ret (cs, m') /\ (forall t, t < m_next m -> m_names m' t = m_names m t) /\
    forall A, nfa_of_rules rules = Ret A -> exists B, nfa_of_asts cs = Ret B /\
      (forall i bs, accepts B i bs <-> accepts A i bs) /\
      (forall i v, accepts_named (nm m') B i v <-> accepts_named (nm m') A i v).
Proof.
  intros Sm Hp. destruct (clone_all_spec (objects rules) m Sm) as (cs & m' & E & S' & X & R).
  { intros i a Hi. unfold objects in Hi. apply in_map_iff in Hi as ([j r] & [= <- <-] & Hi). cbn [snd]. rewrite build_owned. exact (Hp _ _ Hi). }
  exists cs, m'. split; [exact E|]. split; [exact (proj2 X)|]. intros A HA. specialize (R m' 1%nat (ext_refl _)).
  rewrite <- C61_objects in HA. unfold nfa_of_asts in *. destruct (add_asts (objects rules) 1) as [[[n1 e1] a1]| | |]; try discriminate.
  destruct (add_asts cs 1) as [[[n2 e2] a2]| | |]; try contradiction. destruct R as (<- & F & <-). cbn [bind] in *. injection HA as <-.
  exists (mkNfa n1 e2 a1). split; [reflexivity|].
  assert (N : forall i v, accepts_named (nm m') (mkNfa n1 e2 a1) i v <-> accepts_named (nm m') (mkNfa n1 e1 a1) i v).
  { intros i v. split; intros (w & Ew & q & Hq & Hpa); cbn [n_edges n_acc] in *.
    - destruct (same_edges_path _ _ _ (same_edges_sym _ _ _ F) _ _ _ Hpa) as (w' & Hpa' & Ew'). exists w'. split; [congruence|]. exists q. auto.
    - destruct (same_edges_path _ _ _ F _ _ _ Hpa) as (w' & Hpa' & Ew'). exists w'. split; [congruence|]. exists q. auto. }
  split; [|exact N]. intros i bs. split; intros (w & Ew & Ha).
  - destruct (proj1 (N i (map (named (nm m')) w))) as (w' & Ew' & Ha'); [exists w; auto|]. exists w'. split; [|exact Ha']. rewrite <- Ew. exact (named_bytes _ _ _ Ew').
  - destruct (proj2 (N i (map (named (nm m')) w))) as (w' & Ew' & Ha'); [exists w; auto|]. exists w'. split; [|exact Ha']. rewrite <- Ew. exact (named_bytes _ _ _ Ew').
Qed.
Theorem C61_copy_text r m c m' : sane m -> present m (pos_tags r) -> clone (build r) m = Ret (c, m') ->
  ast_text m' c = ast_text m' (build r) /\ exists text, ast_text m' c = Ret text.
Proof.
  intros Sm Hp E. rewrite <- build_owned in Hp. destruct (clone_spec (build r) m Sm Hp) as (c2 & m2 & E2 & S2 & X2 & _ & _ & _ & _ & _ & _ & _ & T).
  rewrite E2 in E. injection E as -> ->. rewrite T by apply ext_refl. split; [reflexivity|].
  assert (P' : present m' (pos_tags r)) by (rewrite build_owned in Hp; apply (ext_present m); auto).
  assert (G : forall a, present m' (owned a) -> present m' (negatives a) -> exists v, ast_text m' a = Ret v).
  { assert (Hneg : forall ts, present m' ts -> exists v, neg_text m' ts = Ret v).
    { intros ts H. unfold neg_text. rewrite (each_map (name_at m') (nm m')); [eexists; reflexivity|]. intros t Ht. apply H in Ht. unfold name_at, nm. now destruct (m_names m' t). }
    clear -Hneg. induction a as [p n k|p n l IHl r IHr|p n l IHl r IHr|p n o IHo mn mx|p n o IHo g]; cbn [owned negatives ast_text]; intros Ho Hn.
    - destruct (Hneg n Hn) as (v & ->). eexists; reflexivity.
    - destruct IHl as (v & ->); [intros t Ht; apply Ho, in_app_iff; auto|intros t Ht; apply Hn; rewrite !in_app_iff; auto|].
      destruct IHr as (v' & ->); [intros t Ht; apply Ho, in_app_iff; auto|intros t Ht; apply Hn; rewrite !in_app_iff; auto|].
      destruct (Hneg n) as (x & ->); [intros t Ht; apply Hn; rewrite !in_app_iff; auto|]. eexists; reflexivity.
    - destruct IHl as (v & ->); [intros t Ht; apply Ho, in_app_iff; auto|intros t Ht; apply Hn; rewrite !in_app_iff; auto|].
      destruct IHr as (v' & ->); [intros t Ht; apply Ho, in_app_iff; auto|intros t Ht; apply Hn; rewrite !in_app_iff; auto|].
      destruct (Hneg n) as (x & ->); [intros t Ht; apply Hn; rewrite !in_app_iff; auto|]. eexists; reflexivity.
    - destruct IHo as (v & ->); [exact Ho|intros t Ht; apply Hn; rewrite !in_app_iff; auto|].
      destruct (Hneg n) as (x & ->); [intros t Ht; apply Hn; rewrite !in_app_iff; auto|]. eexists; reflexivity.
    - destruct IHo as (v & ->); [intros t Ht; apply Ho, in_app_iff; auto|intros t Ht; apply Hn; rewrite !in_app_iff; auto|].
      assert (Hg : m_names m' g <> None) by (apply Ho, in_app_iff; right; now left). unfold name_at. destruct (m_names m' g); [|contradiction]. cbn [bind].
      destruct (Hneg n) as (x & ->); [intros t Ht; apply Hn; rewrite !in_app_iff; auto|]. eexists; reflexivity. }
  apply G; [rewrite build_owned; exact P'|]. intros t Ht. apply P'. exact (proj2 (negatives_build r) t Ht).
Qed.

(** C61 is refuted as stated: a copy is not independent of the original. After the original is destroyed, printing the copy reads
    destroyed tags if and only if some alternation of the pattern has a capture group in one of its branches (which R* and R{0,n} of a
    capture are, too: they are parsed as an alternation); otherwise the text is still that of the original. *)
Theorem C61_copy_dangles_refuted r m c m' : sane m -> present m (pos_tags r) -> clone (build r) m = Ret (c, m') ->
  (splits_captures r = true -> ast_text (destroy (build r) m') c = UB) /\
  (splits_captures r = false -> ast_text (destroy (build r) m') c = ast_text m (build r)).
Proof.
  intros Sm Hp E. pose proof Hp as Hp0. rewrite <- build_owned in Hp.
  destruct (clone_spec (build r) m Sm Hp) as (c2 & m2 & E2 & S2 & X2 & _ & _ & N2 & D2 & ND2 & M2 & _ & T).
  rewrite E2 in E. injection E as -> ->. destruct (negatives_build r) as [Hs Hn].
  assert (Hdead : forall t, In t (negatives c) -> m_names (destroy (build r) m') t = None).
  { intros t Ht. rewrite N2 in Ht. apply Hn in Ht. rewrite destroy_names. rewrite <- build_owned in Ht.
    assert (existsb (N.eqb t) (owned (build r)) = true) as -> by (apply existsb_exists; exists t; split; [exact Ht|apply N.eqb_refl]). reflexivity. }
  assert (Hown : forall t, In t (owned c) -> m_names (destroy (build r) m') t = m_names m' t).
  { intros t Ht. rewrite destroy_names. destruct (existsb (N.eqb t) (owned (build r))) eqn:Ex; [|reflexivity].
    apply existsb_exists in Ex as (t' & Ht' & Et). apply N.eqb_eq in Et as <-. specialize (D2 t Ht). pose proof (present_lt _ _ t Sm Hp Ht'). lia. }
  assert (Hlive : forall t, In t (owned c) -> m_names m' t <> None).
  { intros t Ht Hx. assert (Hin : In (m_names m' t) (map (m_names m') (owned c))) by now apply in_map. rewrite M2 in Hin. apply in_map_iff in Hin as (u & Eu & Hu).
    apply (Hp u Hu). congruence. }
  split; intros Hsp.
  - apply (text_own c (destroy (build r) m')); [intros t Ht; rewrite Hown by exact Ht; auto|exact Hdead|]. rewrite N2. intros Hnil. apply Hs in Hnil. congruence.
  - apply Hs in Hsp. rewrite (text_names c (destroy (build r) m') m') by (rewrite ?N2; auto). rewrite T by apply ext_refl.
    apply text_names; [exact Hsp|]. intros t Ht. apply (proj2 X2). exact (present_lt m (owned (build r)) t Sm Hp Ht).
Qed.

(** Even while the original exists, the automaton of the copy says that a capture was skipped with the original's tag: no capture of the
    copy has that tag. *)
Definition labels_within (P : list tag -> Prop) (f : builder) : Prop := forall root e n n' es, f root e n = Ret (n', es) ->
  forall p ts q, In (p, LNeg ts, q) es -> P ts.
Lemma lw_seq P f g : labels_within P f -> labels_within P g -> labels_within P (b_seq f g).
Proof.
  intros Hf Hg root e n n' es H p l q Hi. unfold b_seq in H. apply bind_Ret in H as ((n1 & e1) & H1 & H). apply bind_Ret in H as ((n2 & e2) & H2 & H).
  injection H as -> <-. apply in_app_iff in Hi as [Hi|Hi]; [exact (Hf _ _ _ _ _ H1 _ _ _ Hi)|exact (Hg _ _ _ _ _ H2 _ _ _ Hi)].
Qed.
Lemma lw_cat P f g : labels_within P f -> labels_within P g -> labels_within P (b_cat f g).
Proof.
  intros Hf Hg root e n n' es H p l q Hi. unfold b_cat in H. apply bind_Ret in H as ((n1 & e1) & H1 & H). apply bind_Ret in H as ((n2 & e2) & H2 & H).
  injection H as -> <-. apply in_app_iff in Hi as [Hi|Hi]; [exact (Hf _ _ _ _ _ H1 _ _ _ Hi)|exact (Hg _ _ _ _ _ H2 _ _ _ Hi)].
Qed.
Lemma lw_chain P f k g : labels_within P f -> labels_within P g -> labels_within P (b_chain f k g).
Proof. intros Hf Hg. induction k; cbn [b_chain]; auto using lw_cat. Qed.
Lemma lw_upto P f k : labels_within P f -> labels_within P (b_upto f k).
Proof. intros Hf. induction k; cbn [b_upto]; auto using lw_cat, lw_seq. Qed.
Lemma lw_nop P : labels_within P b_nop.
Proof. intros root e n n' es [= <- <-] p l q []. Qed.
Lemma lw_eps P : labels_within P b_eps.
Proof. intros root e n n' es [= <- <-] p l q [[=]|[]]. Qed.
Lemma lw_atend P f : labels_within P f -> labels_within P (b_atend f).
Proof. intros H root e n n' es He. exact (H _ _ _ _ _ He). Qed.
Lemma lw_mult P f mn mx : labels_within P f -> labels_within P (b_mult f mn mx).
Proof. intros Hf. unfold b_mult. destruct (mn =? 0), (mx =? 0), (mn <? mx); auto using lw_seq, lw_chain, lw_upto, lw_cat, lw_nop, lw_eps, lw_atend. Qed.
Lemma lw_neg (P : list tag -> Prop) ts f : (ts <> [] -> P ts) -> labels_within P f -> labels_within P (with_neg ts f).
Proof.
  intros Hts Hf root e n n' es H p l q Hi. unfold with_neg in H. destruct ts as [|t ts]; [exact (Hf _ _ _ _ _ H _ _ _ Hi)|].
  apply bind_Ret in H as ((n1 & e1) & H1 & H). injection H as -> <-. destruct Hi as [[= <- <- <-]|Hi]; [apply Hts; discriminate|exact (Hf _ _ _ _ _ H1 _ _ _ Hi)].
Qed.
Lemma lw_capture P t f : labels_within P f -> labels_within P (b_capture t f).
Proof.
  intros Hf root e n n' es H p l q Hi. unfold b_capture in H. apply bind_Ret in H as ((n1 & e1) & H1 & H). injection H as -> <-.
  destruct Hi as [[=]|[[=]|Hi]]. exact (Hf _ _ _ _ _ H1 _ _ _ Hi).
Qed.
Lemma lw_ast (Q : tag -> Prop) a : (forall t, In t (negatives a) -> Q t) -> labels_within (fun ts => Forall Q ts) (with_neg (a_neg a) (ast_nfa a)).
Proof.
  induction a as [p n k|p n l IHl r IHr|p n l IHl r IHr|p n o IHo mn mx|p n o IHo g]; cbn [negatives a_neg ast_nfa]; intros H;
    (apply lw_neg; [intros _; apply Forall_forall; intros t Ht; apply H; rewrite ?in_app_iff; auto|]).
  - destruct k; try apply lw_nop; intros root e m n' es E; try discriminate; injection E as <- <-; intros q ts d Hi.
    + apply in_interval in Hi as (_ & _ & _ & [=]).
    + apply in_flat_map in Hi as (x & _ & Hi). apply in_interval in Hi as (_ & _ & _ & [=]).
  - apply lw_seq; [apply IHl|apply IHr]; intros t Ht; apply H; rewrite !in_app_iff; auto.
  - apply lw_cat; [apply IHl|apply IHr]; intros t Ht; apply H; rewrite !in_app_iff; auto.
  - apply lw_mult, IHo. intros t Ht; apply H; rewrite !in_app_iff; auto.
  - apply lw_capture, IHo. intros t Ht; apply H; rewrite !in_app_iff; auto.
Qed.
Theorem C61_copy_skips_refuted i r m c m' B : sane m -> present m (pos_tags r) -> clone (build r) m = Ret (c, m') -> nfa_of_asts [(i, c)] = Ret B ->
  forall p ts q t, In (p, LNeg ts, q) (n_edges B) -> In t ts -> In t (pos_tags r) /\ ~ In t (owned c).
Proof.
  intros Sm Hp E HB p ts q t Hi Ht. rewrite <- build_owned in Hp.
  destruct (clone_spec (build r) m Sm Hp) as (c2 & m2 & E2 & S2 & X2 & _ & _ & N2 & D2 & _). rewrite E2 in E. injection E as -> ->.
  unfold nfa_of_asts in HB. apply bind_Ret in HB as (((n & es) & acc) & HB & [= <-]). cbn [add_asts] in HB. apply bind_Ret in HB as ((n1 & e1) & H1 & HB). cbn [bind] in HB.
  injection HB as <- <- <-. cbn [n_edges] in Hi. rewrite app_nil_r in Hi.
  assert (Hin : In t (pos_tags r)).
  { apply (proj2 (negatives_build r)). rewrite <- N2. pose proof (lw_ast (fun t => In t (negatives c)) c (fun t h => h) _ _ _ _ _ H1 _ _ _ Hi) as F. rewrite Forall_forall in F. exact (F t Ht). }
  split; [exact Hin|]. intros Ho. specialize (D2 t Ho). rewrite <- build_owned in Hin. pose proof (present_lt _ _ t Sm Hp Hin). lia.
Qed.

(** The text of a pattern is not faithful: literal characters are not escaped. (a)|(b) and the pattern of seven escaped characters
    \(a\)\|\(b\) print the same, but do not match the same strings. *)
Definition seven : regex := RCat (RCat (RCat (RCat (RCat (RCat (RLit 40) (RLit 97)) (RLit 41)) (RLit 124)) (RLit 40)) (RLit 98)) (RLit 41).
Theorem C61_text_ambiguous_refuted m : ast_text m (build (ROr (RLit 97) (RLit 98))) = ast_text m (build seven) /\
  matches (ROr (RLit 97) (RLit 98)) [97] /\ ~ matches seven [97].
Proof.
  split; [reflexivity|]. split; [left; split; [reflexivity|unfold cSizeOfByte; lia]|].
  unfold seven. cbn [matches]. intros H.
  assert (L : forall L M w, l_cat L M w -> (forall x, M x -> x = [41] /\ 41 < cSizeOfByte) -> exists u, w = u ++ [41]).
  { intros L M w (u & v & -> & _ & Hv) Hm. apply Hm in Hv as [-> _]. eauto. }
  destruct (L _ _ _ H (fun x h => h)) as (u & E). destruct u as [|a [|b u]]; discriminate.
Qed.

(** * Concrete cases: the pattern and the texts of tests/test-lexer.cpp 138-170. *)
Definition C61_mem : mem := mkMem 4 (fun t => if t <? 4 then Some (C60_names t) else None).
Definition C61_pattern : regex := match C60_rules with (_, r) :: _ => r | [] => REmpty end.
Example C61_example_text : ast_text C61_mem (build C61_pattern) =
  Ret (codes "(Z<~letter1><~letter2><~letter><~containerID>)|(A((((a)|(b))<letter1><~letter2>)|(((c)|(d))<letter2><~letter1>))<letter>B(([0-9]){1,inf})<containerID>C)").
Proof. reflexivity. Qed.
Example C61_example_texts :
  ast_text C61_mem (build (ROr REmpty (RMult (RLit 97) 1 10))) = Ret (codes "()|((a){1,10})") /\
  ast_text C61_mem (build (RMult (RLit 97) 5 10)) = Ret (codes "(a){5,10}") /\
  ast_text C61_mem (build (ROr REmpty (RMult (RCapture (RLit 97) 0) 1 0))) = Ret (codes "(<~letter>)|(((a)<letter>){1,inf})").
Proof. split; [reflexivity|]. split; reflexivity. Qed.
Example C61_example_hyps : sane C61_mem /\ present C61_mem (pos_tags C61_pattern) /\ splits_captures C61_pattern = true /\
  splits_captures (RCapture (RMult (RGroup false false [(48, 57)]) 1 0) 3) = false /\ (exists c m', clone (build C61_pattern) C61_mem = Ret (c, m') /\ owned c = [4; 5; 6; 7]).
Proof.
  split; [intros t H; cbn in *; destruct (N.ltb_spec t 4); [lia|reflexivity]|]. split; [intros t H; cbn in H; destruct H as [<-|[<-|[<-|[<-|[]]]]]; discriminate|].
  split; [reflexivity|]. split; [reflexivity|]. eexists _, _. split; reflexivity.
Qed.

Print Assumptions C61_objects.
Print Assumptions C61_copy_partial.
Print Assumptions C61_copy_text.
Print Assumptions C61_copy_dangles_refuted.
Print Assumptions C61_copy_skips_refuted.
Print Assumptions C61_text_ambiguous_refuted.
