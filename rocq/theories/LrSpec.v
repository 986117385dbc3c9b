(** LrSpec.v -- LR(1) and LALR(1) grammars, in the usual terms: items valid for a viable prefix. A specification: nothing here
    models code, except that an item is the Item of LALR1Parser.hpp 90-140 (production, dot, lookahead). *)
From Verif Require Import Base GrammarSpec LrModel.

(** [b] begins a sequence of tokens derived from [beta], or [beta] vanishes and [b] is [la]. *)
Definition first_of (g : grammar) (beta : list N) (la b : N) : Prop :=
  (exists u X v, beta = u ++ X :: v /\ (forall Y, In Y u -> vanishes g Y) /\ begins g X b) \/
  ((forall Y, In Y beta -> vanishes g Y) /\ b = la).
(** The symbols behind the one after the dot. *)
Definition behind (g : grammar) (x : item) : list N := skipn (S (N.to_nat (i_dot x))) (body_at g (i_prod x)).

(** [valid g gamma x]: the LR(1) item [x] is valid for the viable prefix [gamma]. *)
Inductive valid (g : grammar) : list N -> item -> Prop :=
| v_root : valid g [] (mkItem (g_root g) 0 TokenEnd)
| v_closure : forall gamma x q p b, valid g gamma x -> at_end g x = false ->
    nth_error (g_prods g) (N.to_nat q) = Some p -> p_head p = next_symbol g x -> first_of g (behind g x) (i_la x) b ->
    valid g gamma (mkItem q 0 b)
| v_step : forall gamma x, valid g gamma x -> at_end g x = false ->
    valid g (gamma ++ [next_symbol g x]) (mkItem (i_prod x) (i_dot x + 1) (i_la x)).

(** With the parser in front of the symbol [X], [y] asks for a reduction (or acceptance), and [x] for something else. *)
Definition clash (g : grammar) (x y : item) (X : N) : Prop :=
  x <> y /\ (at_end g y = true /\ i_la y = X) /\
  ((at_end g x = false /\ next_symbol g x = X) \/ (at_end g x = true /\ i_la x = X)).

Definition lr1 (g : grammar) : Prop :=
  forall gamma x y X, valid g gamma x -> valid g gamma y -> ~ clash g x y X.

(** LALR(1): the items of viable prefixes with the same items, lookaheads aside, are taken together. *)
Definition same_core (g : grammar) (gamma gamma' : list N) : Prop :=
  forall p d, (exists l, valid g gamma (mkItem p d l)) <-> (exists l, valid g gamma' (mkItem p d l)).
Definition lalr_valid (g : grammar) (gamma : list N) (x : item) : Prop :=
  exists gamma', same_core g gamma gamma' /\ valid g gamma' x.
Definition lalr1 (g : grammar) : Prop :=
  forall gamma x y X, lalr_valid g gamma x -> lalr_valid g gamma y -> ~ clash g x y X.
Lemma lalr1_lr1 g : lalr1 g -> lr1 g.
Proof.
  intros H gamma x y X Hx Hy. apply (H gamma); exists gamma; (split; [intros p d; tauto|assumption]).
Qed.
