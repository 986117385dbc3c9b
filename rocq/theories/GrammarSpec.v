(** GrammarSpec.v -- context-free grammars, rewriting and parse trees (specification only). *)
From Verif Require Import Base.

(** LALR1Parser.hpp 109-124: struct Production. Its index is its position in m_productions; the
    semantic rule is kept apart. *)
Record prod : Type := mkProd { p_head : N; p_body : list N }.

(** LALR1Parser.hpp 251-260, 323: m_productions, m_terminals, the keys of m_non_terminals in the
    (unspecified) order in which the unordered_map is iterated, m_root_production_id and
    m_lexer.m_symbol_id.size(). *)
Record grammar : Type := mkGrammar {
  g_prods : list prod; g_terms : list N; g_nts : list N; g_root : N; g_nsym : N }.

(** One rewriting step: the head of a production is replaced by its body. *)
Inductive step (P : list prod) : list N -> list N -> Prop :=
| step_at : forall u p v, In p P -> step P (u ++ p_head p :: v) (u ++ p_body p ++ v).
Inductive derives (P : list prod) : list N -> list N -> Prop :=
| der_refl : forall u, derives P u u
| der_step : forall u v w, step P u v -> derives P v w -> derives P u w.

(** A symbol can vanish; a terminal can begin a sentential form derived from a symbol. *)
Definition vanishes (g : grammar) (X : N) : Prop := derives (g_prods g) [X] [].
Definition begins (g : grammar) (X t : N) : Prop :=
  In t (g_terms g) /\ exists w, derives (g_prods g) [X] (t :: w).

Lemma derives_trans P u v w : derives P u v -> derives P v w -> derives P u w.
Proof. intros H1 H2. induction H1; [easy|]. eapply der_step; eauto. Qed.
Lemma step_ctx P u v a b : step P u v -> step P (a ++ u ++ b) (a ++ v ++ b).
Proof.
  intros [x p y Hp]. replace (a ++ (x ++ p_head p :: y) ++ b) with ((a ++ x) ++ p_head p :: (y ++ b)).
  - replace (a ++ (x ++ p_body p ++ y) ++ b) with ((a ++ x) ++ p_body p ++ (y ++ b)).
    + now constructor.
    + now rewrite <- !app_assoc.
  - rewrite <- !app_assoc. reflexivity.
Qed.
Lemma derives_ctx P u v a b : derives P u v -> derives P (a ++ u ++ b) (a ++ v ++ b).
Proof. intros H. induction H; [constructor|]. eapply der_step; [apply step_ctx; eassumption|easy]. Qed.
Lemma derives_app P u1 v1 u2 v2 :
  derives P u1 v1 -> derives P u2 v2 -> derives P (u1 ++ u2) (v1 ++ v2).
Proof.
  intros H1 H2. eapply derives_trans.
  - pose proof (derives_ctx P _ _ [] u2 H1) as K. cbn in K. exact K.
  - pose proof (derives_ctx P _ _ v1 [] H2) as K. rewrite !app_nil_r in K. exact K.
Qed.
Lemma derives_prod P p v : In p P -> derives P (p_body p) v -> derives P [p_head p] v.
Proof.
  intros Hp H. eapply der_step; [|exact H].
  pose proof (step_at P [] p [] Hp) as K. cbn in K. rewrite app_nil_r in K. exact K.
Qed.
(** A derivation from a concatenation splits. *)
Lemma step_split P x y w : step P (x ++ y) w ->
  (exists x', step P x x' /\ w = x' ++ y) \/ (exists y', step P y y' /\ w = x ++ y').
Proof.
  intros H. inversion H as [u p v Hp Eu Ev]. clear H. symmetry in Ev. subst w.
  revert x Eu. induction u as [|a u IH]; intros x Eu.
  - destruct x as [|b x]; cbn in Eu.
    + right. exists (p_body p ++ v). split; [|easy]. rewrite <- Eu.
      apply (step_at P [] p v Hp).
    + injection Eu as <- E. left. exists (p_body p ++ x). split.
      * apply (step_at P [] p x Hp).
      * subst. cbn. now rewrite <- app_assoc.
  - destruct x as [|b x]; cbn in Eu.
    + right. eexists. split; [|reflexivity]. rewrite <- Eu. apply (step_at P (a :: u) p v Hp).
    + injection Eu as <- E.
      destruct (IH x E) as [(x' & Hx & E') | (y' & Hy & E')]; cbn [app]; rewrite E'.
      * left. exists (a :: x'). split; [|easy]. pose proof (step_ctx P _ _ [a] [] Hx) as K.
        cbn in K. now rewrite !app_nil_r in K.
      * right. exists y'. now split.
Qed.
Lemma derives_split P x y w : derives P (x ++ y) w ->
  exists x' y', w = x' ++ y' /\ derives P x x' /\ derives P y y'.
Proof.
  intros H. remember (x ++ y) as u eqn:E. revert x y E. induction H as [u|u v w Hs Hd IH]; intros x y ->.
  - exists x, y. split; [easy|]. split; constructor.
  - destruct (step_split P x y v Hs) as [(x' & Hx & ->) | (y' & Hy & ->)].
    + destruct (IH _ _ eq_refl) as (a & b & -> & Ha & Hb). exists a, b. split; [easy|].
      split; [eapply der_step; eauto|easy].
    + destruct (IH _ _ eq_refl) as (a & b & -> & Ha & Hb). exists a, b. split; [easy|].
      split; [easy|eapply der_step; eauto].
Qed.

(** What a grammar built with add_rule and add_production looks like: the root production is
    "$START_PRIME -> start", start is a non-terminal, the root production's head occurs in no body, the non-terminals are the heads of the
    productions and are not terminals, every symbol of a body is a terminal or a non-terminal but not the
    end token, and all symbol ids are below m_symbol_id.size() (and that is below cNullSymbol,
    Constants.hpp 12). *)
Record wf_grammar (g : grammar) (start : N) : Prop := {
  wg_root : exists h, nth_error (g_prods g) (N.to_nat (g_root g)) = Some (mkProd h [start]) /\
            forall p, In p (g_prods g) -> ~ In h (p_body p);
  wg_start : In start (g_nts g);
  wg_nts : forall X, In X (g_nts g) <-> exists p, In p (g_prods g) /\ p_head p = X;
  wg_sep : forall X, In X (g_nts g) -> ~ In X (g_terms g);
  wg_body : forall p X, In p (g_prods g) -> In X (p_body p) ->
            (In X (g_terms g) \/ In X (g_nts g)) /\ X <> TokenEnd;
  wg_end : In TokenEnd (g_terms g);
  wg_ids : forall X, In X (g_terms g) \/ In X (g_nts g) -> X < g_nsym g;
  wg_null : g_nsym g <= 10000000 }.

(** Every non-terminal derives some sequence of terminals. *)
Definition productive (g : grammar) : Prop :=
  forall X, In X (g_nts g) -> exists w, derives (g_prods g) [X] w /\ forall t, In t w -> In t (g_terms g).
