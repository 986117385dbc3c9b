(** PropertiesContainers.v -- C32 (editing a schema), C42 and C46 (interval tree). *)
From Verif Require Import Base IntervalTreeModel IntervalTreeProofs SchemaEditModel.
From Coq Require Import Sorted Permutation.

(** * C32 *)
Lemma bind_ret {A B} (x : out A) (f : A -> out B) b : bind x f = Ret b -> exists a, x = Ret a /\ f a = Ret b.
Proof. destruct x; cbn; try discriminate. eauto. Qed.
(** [l] with some elements left out is [k]; the order is that of [l]. *)
Inductive subseq {A} : list A -> list A -> Prop :=
| sub_nil : subseq [] []
| sub_take : forall x k l, subseq k l -> subseq (x :: k) (x :: l)
| sub_skip : forall x k l, subseq k l -> subseq k (x :: l).
Lemma subseq_refl {A} (l : list A) : subseq l l.
Proof. induction l; constructor; auto. Qed.
Lemma subseq_trans {A} (b c : list A) : subseq b c -> forall a, subseq a b -> subseq a c.
Proof.
  induction 1 as [|x k l H IH|x k l H IH]; intros a Ha; [exact Ha| |constructor; auto].
  inversion Ha; subst; [apply sub_take|apply sub_skip]; auto.
Qed.
Lemma subseq_insert {A} (l1 l2 : list A) v : subseq (l1 ++ l2) (l1 ++ v :: l2).
Proof. induction l1; cbn; [apply sub_skip, subseq_refl|apply sub_take; auto]. Qed.

Section C32.
Context {var text : Type}.
Variable parse_text : text -> out (list var).
(** Adding the variable of a text at priority [p] puts it behind exactly [p] of the variables (behind all of
    them for -1), and leaves the others in their order. It is defined exactly if the text has a variable and
    -1 <= p <= number of variables. *)
Theorem C32_one_addition : forall vars t v rest p, parse_text t = Ret (v :: rest) ->
  ((-1 <= p <= Z.of_nat (length vars))%Z ->
   exists l1 l2, vars = l1 ++ l2 /\ add_variable parse_text vars t p = Ret (l1 ++ [v] ++ l2) /\
     (p = (-1)%Z -> l2 = []) /\ (p <> (-1)%Z -> Z.of_nat (length l1) = p)) /\
  (~ (-1 <= p <= Z.of_nat (length vars))%Z -> add_variable parse_text vars t p = UB).
Proof.
  intros vars t v rest p Ht. unfold add_variable. rewrite Ht. cbn [bind]. unfold add_schema_var. split.
  - intros Hp. destruct (Z.eqb_spec p (-1)) as [->|Hne].
    + exists vars, []. rewrite app_nil_r. repeat split; auto. congruence.
    + replace ((0 <=? p)%Z && (p <=? Z.of_nat (length vars))%Z) with true by (symmetry; apply andb_true_iff; split; apply Z.leb_le; lia).
      exists (firstn (Z.to_nat p) vars), (skipn (Z.to_nat p) vars). rewrite firstn_skipn. repeat split; auto; [congruence|].
      intros _. rewrite firstn_length. lia.
  - intros Hp. destruct (Z.eqb_spec p (-1)); [lia|].
    replace ((0 <=? p)%Z && (p <=? Z.of_nat (length vars))%Z) with false; [reflexivity|]. symmetry. apply andb_false_iff.
    destruct (Z.leb_spec 0 p); [right; apply Z.leb_gt; lia|left; reflexivity].
Qed.
(** After any sequence of additions, the variables that were there before, and every set of variables there at
    some moment in between, are still there in the same order, and there is nothing else than these and the
    added ones. *)
Theorem C32_history : forall ops1 ops2 vars mid fin,
  add_variables parse_text vars ops1 = Ret mid -> add_variables parse_text mid ops2 = Ret fin ->
  subseq vars mid /\ subseq mid fin /\
  exists added, Forall2 (fun op v => exists rest, parse_text (fst op) = Ret (v :: rest)) (ops1 ++ ops2) added /\ Permutation fin (vars ++ added).
Proof.
  assert (G : forall ops vars fin, add_variables parse_text vars ops = Ret fin -> subseq vars fin /\
    exists added, Forall2 (fun op v => exists rest, parse_text (fst op) = Ret (v :: rest)) ops added /\ Permutation fin (vars ++ added)).
  { induction ops as [|(t, p) ops IH]; intros vars fin H; cbn [add_variables] in H.
    - injection H as <-. split; [apply subseq_refl|]. exists []. rewrite app_nil_r. split; [constructor|apply Permutation_refl].
    - apply bind_ret in H as (v1 & H1 & H). apply IH in H as (Hs & added & HF & HP).
      assert (H1' := H1). unfold add_variable in H1'. apply bind_ret in H1' as ([|v rest] & Ht & H1'); [discriminate|]. clear H1'.
      destruct (C32_one_addition vars t v rest p Ht) as (A & B).
      destruct (Z_le_dec (-1) p) as [Hp1|Hp1]; [destruct (Z_le_dec p (Z.of_nat (length vars))) as [Hp2|Hp2]|]; try (rewrite B in H1 by lia; discriminate).
      destruct (A (conj Hp1 Hp2)) as (l1 & l2 & E & EA & _). rewrite EA in H1. injection H1 as <-. subst vars. split.
      + eapply subseq_trans; [exact Hs|]. apply subseq_insert.
      + exists (v :: added). split; [constructor; [exists rest; exact Ht|exact HF]|]. eapply Permutation_trans; [exact HP|].
        cbn. rewrite <- !app_assoc. cbn. apply Permutation_app_head. apply Permutation_cons_app, Permutation_refl. }
  intros ops1 ops2 vars mid fin H1 H2.
  destruct (G _ _ _ H1) as (S1 & a1 & F1 & P1). destruct (G _ _ _ H2) as (S2 & a2 & F2 & P2).
  split; [exact S1|]. split; [exact S2|]. exists (a1 ++ a2). split; [apply Forall2_app; assumption|].
  eapply Permutation_trans; [exact P2|]. rewrite app_assoc. apply Permutation_app_tail. exact P1.
Qed.
(** Taking the schema out leaves an empty one. *)
Theorem C32_release : forall vars : list var, release vars = (vars, []) /\ forall t v rest, parse_text t = Ret (v :: rest) -> add_variable parse_text (snd (release vars)) t 0 = Ret [v].
Proof. intros vars. split; [reflexivity|]. intros t v rest Ht. unfold add_variable, release. cbn. rewrite Ht. reflexivity. Qed.
End C32.
Print Assumptions C32_one_addition.
Print Assumptions C32_history.
Print Assumptions C32_release.
Example C32_example : let p (t : list nat) := Ret t in
  add_variables p [] [([1%nat], -1); ([2%nat], -1); ([3%nat], 0); ([4%nat], 2); ([5%nat], -1)]%Z = Ret [3; 1; 4; 2; 5]%nat.
Proof. reflexivity. Qed.
(** Refuted beyond that: a second variable in the text is silently dropped; a text without variable is undefined. *)
Theorem C32_refuted_extra_variables : forall (t : unit) (a b : nat), add_variable (fun _ => Ret [a; b]) [] t (-1) = Ret [a] /\
  add_variable (fun _ : unit => Ret (@nil nat)) [] t (-1) = UB.
Proof. split; reflexivity. Qed.
Print Assumptions C32_refuted_extra_variables.

(** * C42 *)
Section C42.
Context {V : Type}.
(** The value given to interval [i] last. *)
Fixpoint last_value (ops : list (interval * V * Z)) (i : interval) (acc : option V) : option V :=
  match ops with
  | [] => acc
  | (j, v, _) :: ops => last_value ops i (if (fst j =? fst i) && (snd j =? snd i) then Some v else acc)
  end.
Lemma ieqb j i : (fst j =? fst i) && (snd j =? snd i) = true <-> j = i.
Proof. destruct j as [a b], i as [c d]. cbn. rewrite andb_true_iff, !N.eqb_eq. split; [intros (-> & ->); reflexivity|intros [= -> ->]; auto]. Qed.
Lemma puts_in (ops : list (interval * V * Z)) : forall l, StronglySorted elt l -> forall i v,
  In (i, v) (fold_left (fun l x => put l (fst (fst x)) (snd (fst x))) ops l) <->
  last_value ops i None = Some v \/ (last_value ops i None = None /\ In (i, v) l).
Proof.
  assert (Lacc : forall (ops0 : list (interval * V * Z)) i (a : option V), last_value ops0 i a = match last_value ops0 i None with Some x => Some x | None => a end).
  { induction ops0 as [|((j, w), z) ops0 IH]; intros i a; [reflexivity|]. cbn. rewrite IH. destruct ((fst j =? fst i) && (snd j =? snd i)); [rewrite (IH i (Some w))|]; destruct (last_value ops0 i None); reflexivity. }
  induction ops as [|((j, w), z) ops IH]; intros l Hs i v; [cbn; split; [auto|intros [H|(_ & H)]; [discriminate|exact H]]|].
  cbn [fold_left fst snd last_value]. rewrite IH by (apply put_sorted; exact Hs). rewrite (Lacc ops i (if (fst j =? fst i) && (snd j =? snd i) then Some w else None)).
  rewrite (put_in l j w Hs). destruct (last_value ops i None) as [x|].
  - split; [intros [H|(H & _)]; [left; exact H|discriminate]|intros [H|(H & _)]; [left; exact H|discriminate]].
  - destruct ((fst j =? fst i) && (snd j =? snd i)) eqn:E.
    + apply ieqb in E. subst j. split.
      * intros [H|(_ & [(_ & ->)|(H & _)])]; [discriminate|left; reflexivity|congruence].
      * intros [[= ->]|(H & _)]; [right; auto|discriminate].
    + assert (j <> i) by (intros H; apply ieqb in H; congruence). split.
      * intros [H0|(_ & [(-> & _)|(_ & H0)])]; [discriminate|congruence|right; auto].
      * intros [H0|(_ & H0)]; [discriminate|]. right. split; [reflexivity|]. right. split; [congruence|exact H0].
Qed.

(** C42 (partial): whatever addresses the nodes get and whatever the difference of two pointers gives, if the
    insertions do not crash, then all() lists the intervals in strictly increasing order, each with its last
    value; and find(q) lists exactly those that overlap q. *)
Theorem C42_ordered_map_partial : forall bf (ops : list (interval * V * Z)) t,
  insert_all bf Null ops = Ret t ->
  StronglySorted (fun x y : interval * V => fst (fst x) < fst (fst y) \/ fst (fst x) = fst (fst y) /\ snd (fst x) < snd (fst y)) (all t) /\
  (forall i v, In (i, v) (all t) <-> last_value ops i None = Some v) /\
  (forall q, fst q <= snd q -> (forall i v a, In (i, v, a) ops -> fst i <= snd i) -> ops <> [] ->
     find t q = Ret (filter (fun x => (fst (fst x) <=? snd q) && (fst q <=? snd (fst x))) (all t))).
Proof.
  intros bf ops t H. apply insert_all_ok in H as (A & B & C); [|exact I|constructor].
  assert (D : forall i v, In (i, v) (all t) <-> last_value ops i None = Some v).
  { intros i v. rewrite A, (puts_in ops []) by constructor. cbn. intuition. }
  split; [exact C|]. split; [exact D|]. intros q Hq Hv Hne.
  assert (Hin : forall ops i x, last_value ops i None = Some x -> exists a, In (i, x, a) ops).
  { clear. intros ops i x. assert (G : forall acc, last_value ops i acc = Some x -> acc = Some x \/ exists a, In (i, x, a) ops).
    { induction ops as [|((j, w), z) ops IH]; intros acc H; [auto|]. cbn in H. apply IH in H as [H|(a & H)]; [|right; exists a; right; exact H].
      destruct ((fst j =? fst i) && (snd j =? snd i)) eqn:E; [|auto]. apply ieqb in E. injection H as ->. subst j. right. exists z. left. reflexivity. }
    intros H. apply G in H as [H|H]; [discriminate|exact H]. }
  unfold find. destruct t as [|l i v lo hi a r].
  - exfalso. destruct ops as [|((j, w), z) ops]; [congruence|].
    assert (S : exists x, last_value ((j, w, z) :: ops) j None = Some x).
    { cbn. replace ((fst j =? fst j) && (snd j =? snd j)) with true by (symmetry; apply ieqb; reflexivity). clear. generalize w. induction ops as [|((k, u), y) ops IH]; intros x; cbn; [eauto|].
      destruct ((fst k =? fst j) && (snd k =? snd j)); apply IH. }
    destruct S as (x & S). apply D in S. destruct S.
  - f_equal. apply find_ok; auto. intros j w Hj. apply D in Hj. apply Hin in Hj as (a' & Hj). eapply Hv; eauto.
Qed.
End C42.
Print Assumptions C42_ordered_map_partial.

(** Non-vacuity: with pointer differences that stand for addresses growing to the right. *)
Definition bf_diff (r l : option Z) : Z := (match r with Some a => a | None => 0 end - match l with Some a => a | None => 0 end)%Z.
Example C42_example : exists t, insert_all bf_diff Null [((5, 6), 1%nat, 1%Z); ((1, 2), 2%nat, 0%Z); ((8, 12), 3%nat, 2%Z); ((5, 6), 4%nat, 3%Z)] = Ret t /\
  all t = [((1, 2), 2%nat); ((5, 6), 4%nat); ((8, 12), 3%nat)] /\ find t (6, 9) = Ret [((5, 6), 4%nat); ((8, 12), 3%nat)].
Proof. eexists. repeat split. Qed.
(** Refuted in general: there are addresses for which inserting three intervals dereferences a null pointer; and
    find on an empty tree does. *)
Theorem C42_refuted_crash : exists (ops : list (interval * nat * Z)), insert_all bf_diff Null ops = UB /\ find (V := nat) Null (1, 1) = UB.
Proof. exists [((5, 6), 1%nat, 100%Z); ((1, 2), 2%nat, 50%Z); ((8, 12), 3%nat, 200%Z)]. split; [vm_compute|]; reflexivity. Qed.
Print Assumptions C42_refuted_crash.

(** C46 (partial): pop(q) removes and returns, in increasing order, exactly the intervals that overlap q and keeps the others, unless
    it crashes; it always ends. *)
Theorem C46_pop_partial : forall (V : Type) bf (ops : list (interval * V * Z)) t q,
  insert_all bf Null ops = Ret t -> fst q <= snd q -> (forall i v a, In (i, v, a) ops -> fst i <= snd i) ->
  forall fuel, (length (all t) < fuel)%nat -> pop bf fuel t q <> OutOfFuel /\
  forall t' ret, pop bf fuel t q = Ret (t', ret) ->
    all t' = filter (fun x => negb ((fst (fst x) <=? snd q) && (fst q <=? snd (fst x)))) (all t) /\
    ret = filter (fun x => (fst (fst x) <=? snd q) && (fst q <=? snd (fst x))) (all t).
Proof.
  intros V bf ops t q H Hq Hv fuel Hf.
  assert (Hval : forall j w, In (j, w) (all t) -> fst j <= snd j).
  { intros j w Hj. destruct (C42_ordered_map_partial bf ops t H) as (_ & D & _). apply D in Hj. clear - Hj Hv.
    assert (G : forall acc, last_value ops j acc = Some w -> acc = Some w \/ exists a, In (j, w, a) ops).
    { clear. induction ops as [|((k, u), z) ops IH]; intros acc H; [auto|]. cbn in H. apply IH in H as [H|(a & H)]; [|right; exists a; right; exact H].
      destruct ((fst k =? fst j) && (snd k =? snd j)) eqn:E; [|auto]. apply ieqb in E. injection H as ->. subst k. right. exists z. left. reflexivity. }
    apply G in Hj as [Hj|(a & Hj)]; [discriminate|eapply Hv; eauto]. }
  apply insert_all_ok in H as (_ & B & C); [|exact I|constructor]. clear Hv ops.
  destruct (pop_ok bf q fuel t B C Hq Hval Hf) as (G1 & G2). split; [exact G1|]. intros t' ret H. exact (proj2 (G2 t' ret H)).
Qed.
Print Assumptions C46_pop_partial.
Example C46_example : exists t t', insert_all bf_diff Null [((5, 5), 1%nat, 1%Z); ((1, 1), 2%nat, 0%Z); ((9, 9), 3%nat, 2%Z)] = Ret t /\
  pop bf_diff 10 t (1, 6) = Ret (t', [((1, 1), 2%nat); ((5, 5), 1%nat)]) /\ all t' = [((9, 9), 3%nat)].
Proof. do 2 eexists. repeat split. Qed.
(** C46 refuted in general: with [1,1] and, to its right,
    [5,5], pop of [5,5] runs into a failed assertion (or, with assertions compiled out, removes [1,1]). *)
Theorem C46_refuted : exists t, insert_all bf_diff Null [((5, 5), 1%nat, 100%Z); ((1, 1), 2%nat, 50%Z)] = Ret t /\
  all t = [((1, 1), 2%nat); ((5, 5), 1%nat)] /\ pop bf_diff 10 t (5, 5) = UB.
Proof. eexists. repeat split. Qed.
Print Assumptions C46_refuted.
