(** OrdSet.v -- std::set and the keys of std::map as sorted lists.
    [cmp] stands for the three-way version of the C++ operator<; the laws it must satisfy are
    hypotheses of the section and are proved for every instance used. *)
From Verif Require Import Base.

Section OrdSet.
  Context {A : Type}.
  Variable cmp : A -> A -> comparison.

  (** std::set::find / std::set::insert, including that an element already there is not added. *)
  Fixpoint omem (x : A) (l : list A) : bool :=
    match l with
    | [] => false
    | y :: r => match cmp x y with Lt => false | Eq => true | Gt => omem x r end
    end.
  Fixpoint oins (x : A) (l : list A) : list A :=
    match l with
    | [] => [x]
    | y :: r => match cmp x y with Lt => x :: l | Eq => l | Gt => y :: oins x r end
    end.
  (** set.insert(first, last). *)
  Definition ounion (xs l : list A) : list A := fold_left (fun acc x => oins x acc) xs l.
  Definition oset (xs : list A) : list A := ounion xs [].

  Hypothesis cmp_eq : forall x y, cmp x y = Eq <-> x = y.
  Hypothesis cmp_opp : forall x y, cmp y x = CompOpp (cmp x y).
  Hypothesis cmp_trans : forall x y z, cmp x y = Lt -> cmp y z = Lt -> cmp x z = Lt.

  Inductive osorted : list A -> Prop :=
  | os_nil : osorted []
  | os_cons : forall x l, osorted l -> (forall y, In y l -> cmp x y = Lt) -> osorted (x :: l).

  Lemma cmp_refl x : cmp x x = Eq. Proof. now apply cmp_eq. Qed.

  Lemma omem_iff x l : osorted l -> omem x l = true <-> In x l.
  Proof.
    intros H. induction H as [|y r Hs IH Hlt]; cbn; [easy|].
    destruct (cmp x y) eqn:E.
    - apply cmp_eq in E. subst. tauto.
    - split; [easy|]. intros [-> | Hin]; [rewrite cmp_refl in E; easy|].
      apply Hlt in Hin.
      exfalso. pose proof (cmp_trans _ _ _ E Hin) as K. rewrite cmp_refl in K. easy.
    - rewrite IH. split; [tauto|]. intros [-> | Hin]; [rewrite cmp_refl in E; easy|easy].
  Qed.
  Lemma omem_false x l : osorted l -> omem x l = false <-> ~ In x l.
  Proof.
    intros H. rewrite <- (omem_iff x l H). destruct (omem x l); split; intros; try easy; congruence.
  Qed.
  Lemma In_oins x y l : In y (oins x l) <-> y = x \/ In y l.
  Proof.
    induction l as [|z r IH]; cbn; [intuition|].
    destruct (cmp x z) eqn:E.
    - apply cmp_eq in E. subst. cbn. intuition.
    - cbn. intuition.
    - cbn. rewrite IH. intuition.
  Qed.
  Lemma sorted_oins x l : osorted l -> osorted (oins x l).
  Proof.
    intros H. induction H as [|y r Hs IH Hlt]; cbn.
    - constructor; [constructor|easy].
    - destruct (cmp x y) eqn:E.
      + constructor; auto.
      + constructor; [constructor; auto|]. intros z [-> | Hz]; [easy|]. eauto.
      + constructor; [easy|]. intros z Hz. apply In_oins in Hz. destruct Hz as [-> | Hz]; [|auto].
        rewrite cmp_opp, E. reflexivity.
  Qed.
  Lemma oins_length x l : length (oins x l) = if omem x l then length l else S (length l).
  Proof using.
    induction l as [|y r IH]; cbn; [easy|].
    destruct (cmp x y) eqn:E; cbn; [easy|easy|]. rewrite IH. destruct (omem x r); easy.
  Qed.
  Lemma oins_mem x l : omem x l = true -> oins x l = l.
  Proof using.
    induction l as [|y r IH]; cbn; [easy|].
    destruct (cmp x y) eqn:E; intros H; [easy|easy|]. now rewrite IH.
  Qed.
  Lemma In_ounion xs l y : In y (ounion xs l) <-> In y xs \/ In y l.
  Proof.
    unfold ounion. revert l. induction xs as [|x xs IH]; intros l; cbn; [tauto|].
    rewrite IH, In_oins. intuition.
  Qed.
  Lemma sorted_ounion xs l : osorted l -> osorted (ounion xs l).
  Proof.
    unfold ounion. revert l. induction xs as [|x xs IH]; intros l H; cbn; [easy|].
    apply IH, sorted_oins, H.
  Qed.
  Lemma ounion_length xs l : (length l <= length (ounion xs l))%nat.
  Proof using. clear cmp_eq cmp_opp cmp_trans.
    unfold ounion. revert l. induction xs as [|x xs IH]; intros l; cbn; [easy|].
    etransitivity; [|apply IH]. rewrite oins_length. destruct (omem x l); lia.
  Qed.
  Lemma ounion_same xs l : length (ounion xs l) = length l -> forall x, In x xs -> osorted l -> In x l.
  Proof.
    unfold ounion. revert l. induction xs as [|x xs IH]; intros l H y Hy Hs; cbn in *; [easy|].
    pose proof (ounion_length xs (oins x l)) as K. unfold ounion in K.
    rewrite oins_length in K. destruct (omem x l) eqn:E; [|lia].
    rewrite (oins_mem _ _ E) in H.
    destruct Hy as [-> | Hy]; [now apply omem_iff|eauto].
  Qed.
  Lemma In_oset xs y : In y (oset xs) <-> In y xs.
  Proof. unfold oset. rewrite In_ounion. cbn. tauto. Qed.
  Lemma sorted_oset xs : osorted (oset xs).
  Proof. apply sorted_ounion. constructor. Qed.
  Lemma osorted_NoDup l : osorted l -> NoDup l.
  Proof.
    intros H. induction H as [|x l Hs IH Hlt]; constructor; [|easy].
    intros Hin. apply Hlt in Hin. rewrite cmp_refl in Hin. easy.
  Qed.
  (** A set is determined by its elements: this is what makes std::set<Item> usable as a map key. *)
  Lemma osorted_ext l1 l2 : osorted l1 -> osorted l2 -> (forall x, In x l1 <-> In x l2) -> l1 = l2.
  Proof.
    intros H1. revert l2. induction H1 as [|x l Hs IH Hlt]; intros l2 H2 E.
    - destruct l2 as [|y l2]; [easy|]. exfalso. apply (E y). now left.
    - destruct H2 as [|y l2 Hs2 Hlt2]; [exfalso; apply (E x); now left|].
      assert (x = y) as ->.
      { destruct (proj1 (E x) (or_introl eq_refl)) as [-> | Hx]; [easy|].
        destruct (proj2 (E y) (or_introl eq_refl)) as [-> | Hy]; [easy|].
        apply Hlt2 in Hx. apply Hlt in Hy. pose proof (cmp_trans _ _ _ Hx Hy) as K.
        rewrite cmp_refl in K. easy. }
      f_equal. apply IH; [easy|]. intros z. split; intros Hz.
      + destruct (proj1 (E z) (or_intror Hz)) as [-> | H]; [|easy].
        apply Hlt in Hz. rewrite cmp_refl in Hz. easy.
      + destruct (proj2 (E z) (or_intror Hz)) as [-> | H]; [|easy].
        apply Hlt2 in Hz. rewrite cmp_refl in Hz. easy.
  Qed.
End OrdSet.

(** The instances: numbers, and lists under the lexicographic order (std::set's operator<). *)
Lemma Ncmp_eq x y : N.compare x y = Eq <-> x = y. Proof. apply N.compare_eq_iff. Qed.
Lemma Ncmp_opp x y : N.compare y x = CompOpp (N.compare x y). Proof. apply N.compare_antisym. Qed.
Lemma Ncmp_trans x y z : N.compare x y = Lt -> N.compare y z = Lt -> N.compare x z = Lt.
Proof. rewrite !N.compare_lt_iff. lia. Qed.

Section Lex.
  Context {A : Type}.
  Variable cmp : A -> A -> comparison.
  Fixpoint lexcmp (a b : list A) : comparison :=
    match a, b with
    | [], [] => Eq
    | [], _ :: _ => Lt
    | _ :: _, [] => Gt
    | x :: a', y :: b' => match cmp x y with Eq => lexcmp a' b' | c => c end
    end.
  Hypothesis cmp_eq : forall x y, cmp x y = Eq <-> x = y.
  Hypothesis cmp_opp : forall x y, cmp y x = CompOpp (cmp x y).
  Hypothesis cmp_trans : forall x y z, cmp x y = Lt -> cmp y z = Lt -> cmp x z = Lt.
  Lemma lexcmp_eq a b : lexcmp a b = Eq <-> a = b.
  Proof.
    revert b. induction a as [|x a IH]; intros [|y b]; cbn; try easy.
    destruct (cmp x y) eqn:E.
    - apply cmp_eq in E. subst. rewrite IH. split; [now intros ->|congruence].
    - split; [easy|]. intros H. injection H as -> ->. rewrite (proj2 (cmp_eq y y) eq_refl) in E. easy.
    - split; [easy|]. intros H. injection H as -> ->. rewrite (proj2 (cmp_eq y y) eq_refl) in E. easy.
  Qed.
  Lemma lexcmp_opp a b : lexcmp b a = CompOpp (lexcmp a b).
  Proof.
    revert b. induction a as [|x a IH]; intros [|y b]; cbn; try easy.
    rewrite cmp_opp. destruct (cmp x y); cbn; auto.
  Qed.
  Lemma lexcmp_trans a b c : lexcmp a b = Lt -> lexcmp b c = Lt -> lexcmp a c = Lt.
  Proof.
    revert b c. induction a as [|x a IH]; intros [|y b] [|z c]; cbn; try easy.
    destruct (cmp x y) eqn:E1; [| |easy].
    - apply cmp_eq in E1. subst. destruct (cmp y z); eauto.
    - destruct (cmp y z) eqn:E2; [| |easy].
      + apply cmp_eq in E2. subst. rewrite E1. easy.
      + rewrite (cmp_trans _ _ _ E1 E2). easy.
  Qed.
End Lex.
