(** ParseSpec.v -- parse trees and their values (specification of C38 and C48). *)
From Verif Require Import Base GrammarSpec.

(** A parse tree over tokens: a leaf is a token read as one of its types; a node is a production, given
    by its position in the grammar, and the trees of its body. *)
Inductive tree (tok : Type) : Type := Leaf (t : tok) (X : N) | Node (p : N) (ts : list (tree tok)).
Arguments Leaf {tok}. Arguments Node {tok}.

Section TreeInd.
  Context {tok : Type} (Q : tree tok -> Prop).
  Hypothesis HL : forall t X, Q (Leaf t X).
  Hypothesis HN : forall p ts, Forall Q ts -> Q (Node p ts).
  Fixpoint tree_ind' (tr : tree tok) : Q tr :=
    match tr with
    | Leaf t X => HL t X
    | Node p ts =>
        HN p ts ((fix go l : Forall Q l :=
                    match l with
                    | [] => Forall_nil _
                    | x :: r => Forall_cons x (tree_ind' x) (go r)
                    end) ts)
    end.
End TreeInd.

Section Trees.
  Context {tok : Type}.
  Definition root_sym (P : list prod) (tr : tree tok) : N :=
    match tr with
    | Leaf _ X => X
    | Node p _ => p_head (nth (N.to_nat p) P (mkProd 0 []))
    end.
  (** The tokens at the leaves, with their types, from left to right. *)
  Fixpoint yield (tr : tree tok) : list (tok * N) :=
    match tr with
    | Leaf t X => [(t, X)]
    | Node _ ts => flat_map yield ts
    end.
  (** Every node is an instance of its production; every leaf is read as one of its token's types, and
      as a terminal. *)
  Inductive well_formed (types : tok -> list N) (g : grammar) : tree tok -> Prop :=
  | wf_leaf : forall t X, In X (types t) -> In X (g_terms g) -> well_formed types g (Leaf t X)
  | wf_node : forall p ts pr, nth_error (g_prods g) (N.to_nat p) = Some pr ->
      map (root_sym (g_prods g)) ts = p_body pr -> Forall (well_formed types g) ts ->
      well_formed types g (Node p ts).

  (** The number of child slots the nodes of a tree need, and the number of its nodes and leaves. *)
  Fixpoint slots (tr : tree tok) : N :=
    match tr with
    | Leaf _ _ => 0
    | Node _ ts => N.of_nat (length ts) + fold_right (fun x n => slots x + n) 0 ts
    end.
  Fixpoint size (tr : tree tok) : nat :=
    match tr with
    | Leaf _ _ => 1%nat
    | Node _ ts => S (fold_right (fun x n => size x + n)%nat 0%nat ts)
    end.
End Trees.

(** MatchedSymbol = variant<Token, NonTerminal> (LALR1Parser.hpp 24-100). Of a NonTerminal only the
    production and the AST are kept. *)
Inductive value (tok A : Type) : Type := VTok (t : tok) | VNt (p : N) (a : option A).
Arguments VTok {tok A}. Arguments VNt {tok A}.

(** The value of a tree: the semantic rule of each node applied to the values of its children, from the
    bottom up (None: the production has no rule, its AST is null). *)
Section Eval.
  Context {tok A : Type} (rule : N -> option (list (value tok A) -> out A)).
  Definition apply_rule (p : N) (vs : list (value tok A)) : out (value tok A) :=
    match rule p with
    | None => Ret (VNt p None)
    | Some f => do a <- f vs; Ret (VNt p (Some a))
    end.
  Fixpoint eval (tr : tree tok) : out (value tok A) :=
    match tr with
    | Leaf t _ => Ret (VTok t)
    | Node p ts =>
        do vs <- (fix go l := match l with
                              | [] => Ret []
                              | x :: r => do v <- eval x; do w <- go r; Ret (v :: w)
                              end) ts;
        apply_rule p vs
    end.
  Fixpoint evals (ts : list (tree tok)) : out (list (value tok A)) :=
    match ts with
    | [] => Ret []
    | x :: r => do v <- eval x; do w <- evals r; Ret (v :: w)
    end.
  Lemma eval_node p ts : eval (Node p ts) = do vs <- evals ts; apply_rule p vs.
  Proof. reflexivity. Qed.
End Eval.

(** A tree is a derivation, and a derivation of tokens is a tree. *)
Lemma tree_derives {tok} types g (tr : tree tok) : well_formed types g tr ->
  derives (g_prods g) [root_sym (g_prods g) tr] (map snd (yield tr)).
Proof.
  induction tr as [t X | p ts IH] using tree_ind'; intros H; cbn [root_sym yield]; [constructor|].
  inversion H as [|p' ts' pr Hp Hm Hts]; subst.
  rewrite (nth_error_nth _ _ _ Hp). apply derives_prod; [now apply nth_error_In in Hp|].
  rewrite <- Hm. clear Hp Hm p pr H. induction ts as [|x ts IHts]; cbn [map flat_map]; [constructor|].
  rewrite map_app. change (root_sym (g_prods g) x :: map (root_sym (g_prods g)) ts)
    with ([root_sym (g_prods g) x] ++ map (root_sym (g_prods g)) ts).
  inversion IH; inversion Hts; subst. apply derives_app; auto.
Qed.

(** The trees whose leaves read the tokens of [w] as the types [Xs]. *)
Section DerivesTree.
  Context {tok : Type} (types : tok -> list N) (g : grammar).
  Lemma derives_forest (u : list N) (w : list (tok * N)) :
    derives (g_prods g) u (map snd w) ->
    (forall t X, In (t, X) w -> In X (types t) /\ In X (g_terms g)) ->
    exists ts, map (root_sym (g_prods g)) ts = u /\ flat_map yield ts = w /\ Forall (well_formed types g) ts.
  Proof.
    intros H Hw. remember (map snd w) as v eqn:Ev. induction H as [u | u v1 v Hs Hd IH].
    - subst u. exists (map (fun tx => Leaf (fst tx) (snd tx)) w). rewrite map_map. cbn.
      split; [reflexivity|]. split.
      + clear Hw. induction w as [|[t X] w IHw]; cbn; [easy|]. now rewrite IHw.
      + apply Forall_forall. intros x Hx. apply in_map_iff in Hx. destruct Hx as ([t X] & <- & Hin).
        destruct (Hw t X Hin). now constructor.
    - destruct (IH Ev) as (ts & Er & Ey & Hf). inversion Hs as [a p b Hp Ea Eb]. clear Hs. rewrite <- Eb in Er. clear Eb Hd IH.
      apply map_eq_app in Er. destruct Er as (t1 & t23 & -> & E1 & Er).
      apply map_eq_app in Er. destruct Er as (t2 & t3 & -> & E2 & E3).
      apply In_nth_error in Hp. destruct Hp as (n & Hn).
      exists (t1 ++ Node (N.of_nat n) t2 :: t3). apply Forall_app in Hf. destruct Hf as [F1 F23].
      apply Forall_app in F23. destruct F23 as [F2 F3]. split; [|split].
      + rewrite map_app. cbn. rewrite Nnat.Nat2N.id, (nth_error_nth _ _ _ Hn). congruence.
      + rewrite <- Ey. rewrite !flat_map_app. cbn. reflexivity.
      + apply Forall_app. split; [easy|]. constructor; [|easy].
        econstructor; [rewrite Nnat.Nat2N.id; eassumption|easy|easy].
  Qed.
  Lemma derives_tree X w : derives (g_prods g) [X] (map snd w) ->
    (forall t Y, In (t, Y) w -> In Y (types t) /\ In Y (g_terms g)) ->
    exists tr, root_sym (g_prods g) tr = X /\ yield tr = w /\ well_formed types g tr.
  Proof.
    intros H Hw. destruct (derives_forest [X] w H Hw) as (ts & Er & Ey & Hf).
    destruct ts as [|tr [|? ?]]; try easy. injection Er as Er. cbn in Ey. rewrite app_nil_r in Ey.
    inversion Hf. exists tr. auto.
  Qed.
End DerivesTree.
