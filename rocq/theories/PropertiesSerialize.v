(** PropertiesSerialize.v -- C60: the text of an automaton (RegexNFA::serialize). *)
From Verif Require Import Base RegexModel RegexSpec RegexProofs DfaModel SerializeModel SerializeProofs.
From Coq Require Import String Ascii.
Open Scope N_scope.
Open Scope list_scope.

(** * Specification *)
(** [plain_name u] (SerializeProofs.v): a non-empty name without comma and closing bracket -- every name the schema language allows
    (letters, digits and underscores).
    [reach es p]: the state [p] is reached from the root by transitions.
    [named name s]: a symbol read along a path, with the names of the tags in place of the tags. *)
Definition plainly_named (name : tag -> list N) (rules : list (N * regex)) : Prop :=
  forall i r t, In (i, r) rules -> In t (pos_tags r) -> plain_name (name t).
(** One transition from [p] to [q] that reads [v]. *)
Definition step (name : tag -> list N) (A : nfa) (p : nat) (v : list named_sym) (q : nat) : Prop :=
  exists w, map (named name) w = v /\ g_edges (n_edges A) p w q.
(** The reachable parts of two automata are the same up to the numbering of the states. *)
Definition same_shape (nm1 : tag -> list N) (A : nfa) (nm2 : tag -> list N) (B : nfa) : Prop :=
  exists R : nat -> nat -> Prop,
    R n_root n_root /\
    (forall p, reach (n_edges A) p -> exists p', R p p') /\ (forall p', reach (n_edges B) p' -> exists p, R p p') /\
    (forall p p' q q', R p p' -> R q q' -> (p = q <-> p' = q')) /\
    (forall p p' i, R p p' -> (In (p, i) (n_acc A) <-> In (p', i) (n_acc B))) /\
    (forall p p' q q' v, R p p' -> R q q' -> (step nm1 A p v q <-> step nm2 B p' v q')) /\
    (forall p p', R p p' -> reach (n_edges A) p /\ reach (n_edges B) p').

(** The tags on the transitions are tags of the patterns. *)
Definition tags_within (P : tag -> Prop) (f : builder) : Prop := forall root e n n' es, f root e n = Ret (n', es) ->
  forall p l q, In (p, l, q) es -> match l with LPosStart t | LPosEnd t => P t | LNeg ts => Forall P ts | _ => True end.
Lemma tw_seq P f g : tags_within P f -> tags_within P g -> tags_within P (b_seq f g).
Proof.
  intros Hf Hg root e n n' es H p l q Hi. unfold b_seq in H. apply bind_Ret in H as ((n1 & e1) & H1 & H). apply bind_Ret in H as ((n2 & e2) & H2 & H).
  injection H as -> <-. apply in_app_iff in Hi as [Hi|Hi]; [exact (Hf _ _ _ _ _ H1 _ _ _ Hi)|exact (Hg _ _ _ _ _ H2 _ _ _ Hi)].
Qed.
Lemma tw_cat P f g : tags_within P f -> tags_within P g -> tags_within P (b_cat f g).
Proof.
  intros Hf Hg root e n n' es H p l q Hi. unfold b_cat in H. apply bind_Ret in H as ((n1 & e1) & H1 & H). apply bind_Ret in H as ((n2 & e2) & H2 & H).
  injection H as -> <-. apply in_app_iff in Hi as [Hi|Hi]; [exact (Hf _ _ _ _ _ H1 _ _ _ Hi)|exact (Hg _ _ _ _ _ H2 _ _ _ Hi)].
Qed.
Lemma tw_chain P f k g : tags_within P f -> tags_within P g -> tags_within P (b_chain f k g).
Proof. intros Hf Hg. induction k; cbn [b_chain]; auto using tw_cat. Qed.
Lemma tw_upto P f k : tags_within P f -> tags_within P (b_upto f k).
Proof. intros Hf. induction k; cbn [b_upto]; auto using tw_cat, tw_seq. Qed.
Lemma tw_nop P : tags_within P b_nop.
Proof. intros root e n n' es [= <- <-] p l q []. Qed.
Lemma tw_mult P f mn mx : tags_within P f -> tags_within P (b_mult f mn mx).
Proof.
  intros Hf. unfold b_mult.
  assert (Hr : tags_within P (if mx =? 0 then b_atend f else if mn <? mx then
      (if mn =? 0 then b_upto f (N.to_nat (mx - 1 - mn)) else b_cat f (b_upto f (N.to_nat (mx - 1 - mn)))) else b_nop)).
  { destruct (mx =? 0); [intros root e n n' es H; exact (Hf _ _ _ _ _ H)|]. destruct (mn <? mx); [|apply tw_nop].
    destruct (mn =? 0); auto using tw_upto, tw_cat. }
  destruct (mn =? 0).
  - apply tw_seq; [|exact Hr]. intros root e n n' es [= <- <-] p l q [[= <- <- <-]|[]]. exact I.
  - apply tw_chain; [exact Hf|apply tw_seq; assumption].
Qed.
Lemma tw_neg P ts f : Forall P ts -> tags_within P f -> tags_within P (with_neg ts f).
Proof.
  intros Hts Hf root e n n' es H p l q Hi. unfold with_neg in H. destruct ts as [|t ts]; [exact (Hf _ _ _ _ _ H _ _ _ Hi)|].
  apply bind_Ret in H as ((n1 & e1) & H1 & H). injection H as -> <-. destruct Hi as [[= <- <- <-]|Hi]; [exact Hts|exact (Hf _ _ _ _ _ H1 _ _ _ Hi)].
Qed.
Lemma tw_add (P : tag -> Prop) r : (forall t, In t (pos_tags r) -> P t) -> tags_within P (add_to_nfa r).
Proof.
  induction r as [|c|ds|w neg rs|l IHl r IHr|l IHl r IHr|r IHr mn mx|r IHr t]; cbn [add_to_nfa pos_tags]; intros H.
  - apply tw_nop.
  - intros root e n n' es [= <- <-] p l q Hi. apply in_interval in Hi as (_ & _ & _ & ->). exact I.
  - intros root e n n' es [=].
  - intros root e n n' es [= <- <-] p l q Hi. apply in_flat_map in Hi as (a & _ & Hi). apply in_interval in Hi as (_ & _ & _ & ->). exact I.
  - apply tw_seq; apply tw_neg; [apply Forall_forall| |apply Forall_forall|]; try (intros t Ht; apply H; apply in_app_iff; auto; fail);
      [apply IHl|apply IHr]; intros t Ht; apply H; apply in_app_iff; auto.
  - apply tw_cat; [apply IHl|apply IHr]; intros t Ht; apply H; apply in_app_iff; auto.
  - apply tw_mult. auto.
  - intros root e n n' es Hb p l q Hi. unfold b_capture in Hb. apply bind_Ret in Hb as ((n1 & e1) & H1 & Hb). injection Hb as -> <-.
    assert (Ht : P t) by (apply H, in_app_iff; right; now left).
    destruct Hi as [[= <- <- <-]|[[= <- <- <-]|Hi]]; [exact Ht|exact Ht|]. revert Hi. apply (IHr ltac:(intros u Hu; apply H, in_app_iff; now left) _ _ _ _ _ H1).
Qed.
Lemma rules_plain name rules A : plainly_named name rules -> nfa_of_rules rules = Ret A -> plain_tags name (n_edges A).
Proof.
  intros Hn H. unfold nfa_of_rules in H. apply bind_Ret in H as (((n & es) & acc) & H & [= <-]). cbn [n_edges].
  assert (G : forall rs m m' es' acc', (forall i r t, In (i, r) rs -> In t (pos_tags r) -> plain_name (name t)) -> add_rules rs m = Ret (m', es', acc') -> plain_tags name es').
  { clear. induction rs as [|[i r] rs IH]; intros m m' es' acc' Hn H; cbn [add_rules] in H.
    - injection H as <- <- <-. intros p l q [].
    - apply bind_Ret in H as ((n1 & e1) & H1 & H). apply bind_Ret in H as (((n2 & e2) & acc2) & H2 & H). injection H as <- <- <-.
      intros p l q Hi. apply in_app_iff in Hi as [Hi|Hi].
      + exact (tw_add (fun t => plain_name (name t)) r (fun t Ht => Hn i r t (or_introl eq_refl) Ht) _ _ _ _ _ H1 _ _ _ Hi).
      + exact (IH _ _ _ _ (fun i' r' t Hr Ht => Hn i' r' t (or_intror Hr) Ht) H2 _ _ _ Hi). }
  exact (G _ _ _ _ _ Hn H).
Qed.

(** * Theorems *)
(** C60: the text of the automaton of any rules can be produced: no lookup of a state fails, whatever the patterns; the traversal ends
    (fuel: one more than the number of states); and the text describes exactly the states that can be reached, each once, the root
    first. *)
Theorem C60_total name rules A fuel : nfa_of_rules rules = Ret A -> (fuel > n_size A)%nat ->
  exists order text, serialize fuel name A = Ret text /\ bfs_order fuel A = Ret order /\
    NoDup order /\ (forall p, In p order <-> reach (n_edges A) p) /\ nth_error order 0 = Some n_root.
Proof.
  intros H Hf. pose proof (nfa_well_built _ _ H) as W. destruct (bfs_order_spec A fuel W Hf) as (o & Eo & ND & Hr & H0).
  destruct (serialize_rows name A fuel W Hf) as (o' & E & _). exists o. eauto 10.
Qed.

(** C60: the text determines the automaton: two automata with the same text have the same reachable states, transitions, tag names and
    accepting rules, up to renaming the states. *)
Theorem C60_faithful nm1 nm2 rules1 rules2 A B fuel1 fuel2 text :
  nfa_of_rules rules1 = Ret A -> nfa_of_rules rules2 = Ret B -> plainly_named nm1 rules1 -> plainly_named nm2 rules2 ->
  serialize fuel1 nm1 A = Ret text -> serialize fuel2 nm2 B = Ret text -> (fuel1 > n_size A)%nat -> (fuel2 > n_size B)%nat ->
  same_shape nm1 A nm2 B.
Proof.
  intros H1 H2 P1 P2 T1 T2 F1 F2. pose proof (nfa_well_built _ _ H1) as W1. pose proof (nfa_well_built _ _ H2) as W2.
  destruct (serialize_rows nm1 A fuel1 W1 F1) as (o1 & E1 & ND1 & R1 & Z1). destruct (serialize_rows nm2 B fuel2 W2 F2) as (o2 & E2 & ND2 & R2 & Z2).
  assert (E : map (row_of nm1 o1 A) o1 = map (row_of nm2 o2 B) o2).
  { apply rows_code; [| |congruence]; apply Forall_map, Forall_forall; intros p _; apply row_of_ok; auto; eapply rules_plain; eauto. }
  assert (U : forall p p' q q', twins o1 o2 p p' -> twins o1 o2 q q' -> (p = q <-> p' = q')).
  { intros p p' q q' (i & Ha & Hb) (j & Hc & Hd). split; intros <-.
    - assert (i = j) as <-; [|congruence]. apply (proj1 (NoDup_nth_error o1) ND1); [apply nth_error_Some; congruence|congruence].
    - assert (i = j) as <-; [|congruence]. apply (proj1 (NoDup_nth_error o2) ND2); [apply nth_error_Some; congruence|congruence]. }
  exists (twins o1 o2). split; [exists 0%nat; auto|]. split; [|split; [|split; [exact U|split; [|split]]]].
  - intros p Hp. apply (twins_left nm1 nm2 A B o1 o2 E). now apply R1.
  - intros p' Hp. destruct (twins_left nm2 nm1 B A o2 o1 (eq_sym E) p') as (p & Hp'); [now apply R2|]. exists p. now apply twins_sym.
  - intros p p' i Ht. split; intros Hi.
    + exact (twins_acc nm1 nm2 A B o1 o2 W1 W2 E p p' i Ht Hi).
    + exact (twins_acc nm2 nm1 B A o2 o1 W2 W1 (eq_sym E) p' p i (twins_sym _ _ _ _ Ht) Hi).
  - intros p p' q q' v Hp Hq. split; intros (w & Hw & Hs).
    + destruct (twins_step nm1 nm2 A B o1 o2 W1 W2 R1 R2 E p p' w q Hp Hs) as (w' & q2 & Hq2 & Hs' & Ew).
      apply (U _ _ _ _ Hq Hq2) in Hs' || assert (q' = q2) as -> by (apply (U _ _ _ _ Hq Hq2); reflexivity). exists w'. split; [congruence|exact Hs'].
    + destruct (twins_step nm2 nm1 B A o2 o1 W2 W1 R2 R1 (eq_sym E) p' p w q' (twins_sym _ _ _ _ Hp) Hs) as (w' & q2 & Hq2 & Hs' & Ew).
      assert (q = q2) as -> by (apply (U _ _ _ _ Hq (twins_sym _ _ _ _ Hq2)); reflexivity). exists w'. split; [congruence|exact Hs'].
  - intros p p' (i & Ha & Hb). split; [apply R1|apply R2]; eapply nth_error_In; eauto.
Qed.

(** ... and so they accept the same words for the same rules: bytes, and the names of the capture groups entered, left and skipped. *)
Definition accepts_named (name : tag -> list N) (A : nfa) (i : N) (v : list named_sym) : Prop :=
  exists w, map (named name) w = v /\ accepts_tagged A i w.
Lemma shape_path nm1 nm2 A B (R : nat -> nat -> Prop) :
  (forall p, reach (n_edges A) p -> exists p', R p p') ->
  (forall p p' q q' v, R p p' -> R q q' -> (step nm1 A p v q -> step nm2 B p' v q')) ->
  (forall p p', R p p' -> reach (n_edges A) p) ->
  forall p w q, path (g_edges (n_edges A)) p w q -> forall p', R p p' ->
  exists w' q', R q q' /\ path (g_edges (n_edges B)) p' w' q' /\ map (named nm1) w = map (named nm2) w'.
Proof.
  intros HT HS HR p w q H. induction H as [p|p u r v q Hs Hp IH]; intros p' Ht.
  - exists [], p'. split; [exact Ht|]. split; [constructor|reflexivity].
  - destruct (HT r) as (r' & Hr). { eapply reach_step; [exact (HR _ _ Ht)|]. exists u. exact Hs. }
    destruct (HS _ _ _ _ (map (named nm1) u) Ht Hr) as (u' & Eu & Hs'); [exists u; auto|].
    destruct (IH r' Hr) as (v' & q' & Hq & Hp' & Ev). exists (u' ++ v'), q'. split; [exact Hq|]. split; [econstructor; eauto|]. rewrite !map_app. congruence.
Qed.
Theorem C60_language nm1 nm2 rules1 rules2 A B fuel1 fuel2 text :
  nfa_of_rules rules1 = Ret A -> nfa_of_rules rules2 = Ret B -> plainly_named nm1 rules1 -> plainly_named nm2 rules2 ->
  serialize fuel1 nm1 A = Ret text -> serialize fuel2 nm2 B = Ret text -> (fuel1 > n_size A)%nat -> (fuel2 > n_size B)%nat ->
  forall i v, accepts_named nm1 A i v <-> accepts_named nm2 B i v.
Proof.
  intros H1 H2 P1 P2 T1 T2 F1 F2. destruct (C60_faithful _ _ _ _ _ _ _ _ _ H1 H2 P1 P2 T1 T2 F1 F2) as (R & R0 & RL & RR & _ & RA & RS & RB).
  intros i v. split.
  - intros (w & Ew & q & Hq & Hp).
    destruct (shape_path nm1 nm2 A B R RL (fun p p' q q' v a b => proj1 (RS p p' q q' v a b)) (fun p p' h => proj1 (RB p p' h)) _ _ _ Hp _ R0) as (w' & q' & Hq' & Hp' & E).
    exists w'. split; [congruence|]. exists q'. split; [exact (proj1 (RA _ _ _ Hq') Hq)|exact Hp'].
  - intros (w & Ew & q & Hq & Hp).
    destruct (shape_path nm2 nm1 B A (fun p' p => R p p') RR (fun p' p q' q v a b => proj2 (RS p p' q q' v a b)) (fun p' p h => proj2 (RB p p' h)) _ _ _ Hp _ R0) as (w' & q' & Hq' & Hp' & E).
    exists w'. split; [congruence|]. exists q'. split; [exact (proj2 (RA _ _ _ Hq') Hq)|exact Hp'].
Qed.

(** * A concrete case: the text that tests/test-NFA.cpp 49-143 expects for
    Z|(A(?<letter>((?<letter1>(a)|(b))|(?<letter2>(c)|(d))))B(?<containerID>\d+)C). *)
Fixpoint codes (s : string) : list N := match s with EmptyString => [] | String a r => N_of_ascii a :: codes r end.
Definition C60_test_lines : list string := [
  "0:byte_transitions={A-->1,Z-->2},epsilon_transitions={},positive_tagged_start_transitions={},positive_tagged_end_transitions={},negative_tagged_transition={}"%string;
  "1:byte_transitions={},epsilon_transitions={},positive_tagged_start_transitions={3[letter]},positive_tagged_end_transitions={},negative_tagged_transition={}"%string;
  "2:byte_transitions={},epsilon_transitions={},positive_tagged_start_transitions={},positive_tagged_end_transitions={},negative_tagged_transition={4[letter1,letter2,letter,containerID]}"%string;
  "3:byte_transitions={},epsilon_transitions={},positive_tagged_start_transitions={5[letter1],6[letter2]},positive_tagged_end_transitions={},negative_tagged_transition={}"%string;
  "4:accepting_tag=0,byte_transitions={},epsilon_transitions={},positive_tagged_start_transitions={},positive_tagged_end_transitions={},negative_tagged_transition={}"%string;
  "5:byte_transitions={a-->7,b-->7},epsilon_transitions={},positive_tagged_start_transitions={},positive_tagged_end_transitions={},negative_tagged_transition={}"%string;
  "6:byte_transitions={c-->8,d-->8},epsilon_transitions={},positive_tagged_start_transitions={},positive_tagged_end_transitions={},negative_tagged_transition={}"%string;
  "7:byte_transitions={},epsilon_transitions={},positive_tagged_start_transitions={},positive_tagged_end_transitions={9[letter1]},negative_tagged_transition={}"%string;
  "8:byte_transitions={},epsilon_transitions={},positive_tagged_start_transitions={},positive_tagged_end_transitions={10[letter2]},negative_tagged_transition={}"%string;
  "9:byte_transitions={},epsilon_transitions={},positive_tagged_start_transitions={},positive_tagged_end_transitions={},negative_tagged_transition={11[letter2]}"%string;
  "10:byte_transitions={},epsilon_transitions={},positive_tagged_start_transitions={},positive_tagged_end_transitions={},negative_tagged_transition={11[letter1]}"%string;
  "11:byte_transitions={},epsilon_transitions={},positive_tagged_start_transitions={},positive_tagged_end_transitions={12[letter]},negative_tagged_transition={}"%string;
  "12:byte_transitions={B-->13},epsilon_transitions={},positive_tagged_start_transitions={},positive_tagged_end_transitions={},negative_tagged_transition={}"%string;
  "13:byte_transitions={},epsilon_transitions={},positive_tagged_start_transitions={14[containerID]},positive_tagged_end_transitions={},negative_tagged_transition={}"%string;
  "14:byte_transitions={0-->15,1-->15,2-->15,3-->15,4-->15,5-->15,6-->15,7-->15,8-->15,9-->15},epsilon_transitions={},positive_tagged_start_transitions={},positive_tagged_end_transitions={},negative_tagged_transition={}"%string;
  "15:byte_transitions={0-->15,1-->15,2-->15,3-->15,4-->15,5-->15,6-->15,7-->15,8-->15,9-->15},epsilon_transitions={},positive_tagged_start_transitions={},positive_tagged_end_transitions={16[containerID]},negative_tagged_transition={}"%string;
  "16:byte_transitions={C-->4},epsilon_transitions={},positive_tagged_start_transitions={},positive_tagged_end_transitions={},negative_tagged_transition={}"%string].
Definition C60_names (t : tag) : list N :=
  match t with 0 => codes "letter" | 1 => codes "letter1" | 2 => codes "letter2" | _ => codes "containerID" end.
Definition C60_rules : list (N * regex) :=
  [(0, ROr (RLit 90) (RCat (RCat (RCat (RCat (RLit 65) (RCapture (ROr (RCapture (ROr (RLit 97) (RLit 98)) 1) (RCapture (ROr (RLit 99) (RLit 100)) 2)) 0))
     (RLit 66)) (RCapture (RMult (RGroup false false [(48, 57)]) 1 0) 3)) (RLit 67)))].
Example C60_example_text : exists A, nfa_of_rules C60_rules = Ret A /\
  serialize 100 C60_names A = Ret (flat_map (fun l => codes l ++ [10]) C60_test_lines).
Proof. eexists. split; [reflexivity|]. vm_compute. reflexivity. Qed.
Example C60_example_hyps : plainly_named C60_names C60_rules /\ exists A, nfa_of_rules C60_rules = Ret A /\ (100 > n_size A)%nat.
Proof.
  split.
  - intros i r t [[= <- <-]|[]] Ht. cbn in Ht. destruct Ht as [<-|[<-|[<-|[<-|[]]]]]; (split; [discriminate|]); cbn; split; intuition lia.
  - eexists. split; [reflexivity|]. vm_compute. lia.
Qed.

Print Assumptions C60_total.
Print Assumptions C60_faithful.
Print Assumptions C60_language.
