(** DfaOrder.v -- the order of the reported ids is the same for all strings. *)
From Coq Require Import Permutation Sorted.
From Verif Require Import Base LexerModel LexerSpec RegexModel RegexSpec RegexProofs RegexLang DfaModel DfaProofs DfaExact.

Section Keyed.
Variable key : nat -> N.
Hypothesis inj : forall a b, key a = key b -> a = b.
Let klt (a b : nat) : Prop := key a < key b.

Lemma sort_by_sorted l : NoDup l -> StronglySorted klt (sort_by key l).
Proof.
  unfold sort_by. induction l as [|x l IH]; intros H; cbn [fold_right]; [constructor|]. inversion H as [|? ? H1 H2]; subst. specialize (IH H2).
  assert (Hn : ~ In x (fold_right (insert_by key) [] l)).
  { intros Hi. apply H1. eapply Permutation_in; [symmetry; apply (sort_by_perm key)|exact Hi]. }
  clear H H1 H2. induction IH as [|y m Hs IHs Hf]; cbn [insert_by]; [repeat constructor|].
  destruct (N.leb_spec (key x) (key y)) as [Hle|Hgt].
  - constructor; [constructor; assumption|]. constructor.
    + unfold klt. destruct (N.eq_dec (key x) (key y)) as [E|]; [|lia]. apply inj in E. subst. exfalso. apply Hn. left. reflexivity.
    + rewrite Forall_forall in *. intros z Hz. specialize (Hf z Hz). unfold klt in *. lia.
  - constructor; [apply IHs; intros Hi; apply Hn; right; exact Hi|].
    rewrite Forall_forall in *. intros z Hz.
    assert (In z (x :: m)) as [<-|Hz'].
    { clear - Hz. revert Hz. induction m as [|w m IH]; cbn [insert_by]; [auto|]. destruct (key x <=? key w); [auto|]. cbn [In]. intros [<-|Hz]; [auto|]. destruct (IH Hz) as [->|]; auto. }
    + exact Hgt.
    + apply Hf. exact Hz'.
Qed.

(** Insertion sort of anything by the key of its state. *)
Section Pairs.
Context {X : Type} (st : X -> nat).
Fixpoint ins (x : X) (l : list X) : list X :=
  match l with [] => [x] | y :: l' => if key (st x) <=? key (st y) then x :: l else y :: ins x l' end.
Definition srt (l : list X) : list X := fold_right ins [] l.
Lemma ins_perm x l : Permutation (ins x l) (x :: l).
Proof. induction l as [|y l IH]; cbn [ins]; [reflexivity|]. destruct (key (st x) <=? key (st y)); [reflexivity|]. rewrite IH. apply perm_swap. Qed.
Lemma srt_perm l : Permutation (srt l) l.
Proof. induction l as [|x l IH]; cbn [srt fold_right]; [reflexivity|]. fold (srt l). rewrite ins_perm, IH. reflexivity. Qed.
Lemma ins_map x l : map st (ins x l) = insert_by key (st x) (map st l).
Proof. induction l as [|y l IH]; cbn [ins map insert_by]; [reflexivity|]. destruct (key (st x) <=? key (st y)); cbn [map]; [reflexivity|]. rewrite IH. reflexivity. Qed.
Lemma srt_map l : map st (srt l) = sort_by key (map st l).
Proof. induction l as [|x l IH]; cbn [srt fold_right map sort_by]; [reflexivity|]. fold (srt l). rewrite ins_map, IH. reflexivity. Qed.
End Pairs.

Lemma ksplit l m x : StronglySorted klt (l ++ x :: m) -> Forall (fun y => klt y x) l /\ Forall (fun y => klt x y) m.
Proof.
  induction l as [|a l IH]; cbn; intros H; inversion H as [|? ? Hs Hf]; subst.
  - split; [constructor|exact Hf].
  - destruct (IH Hs) as (H1 & H2). split; [|exact H2]. constructor; [|exact H1].
    rewrite Forall_forall in Hf. apply Hf. apply in_app_iff. right. left. reflexivity.
Qed.
Lemma klow acc k x : Forall (fun a => klt k a) (map fst acc) -> key x <= key k -> acc_ids acc x = [].
Proof.
  intros H Hx. destruct (acc_ids acc x) as [|i l] eqn:E; [reflexivity|].
  assert (Hi : In (x, i) acc) by (apply acc_ids_in; rewrite E; left; reflexivity).
  rewrite Forall_forall in H. specialize (H x ltac:(apply in_map_iff; exists (x, i); auto)). unfold klt in H. lia.
Qed.
Lemma ids_by_key acc s l : StronglySorted klt (map fst acc) -> StronglySorted klt l -> (forall x, In x l <-> In x s) ->
  flat_map (acc_ids acc) l = acc_in acc s.
Proof.
  intros Ha Hs Hls. unfold acc_in. induction acc as [|(k & i) acc IH]; cbn [map fst filter].
  - rewrite flat_map_nil; [reflexivity|]. intros x _. reflexivity.
  - cbn [map fst] in Ha. inversion Ha as [|? ? Ha' Hf]; subst. specialize (IH Ha').
    assert (Hcons : forall x, acc_ids ((k, i) :: acc) x = if Nat.eqb k x then i :: acc_ids acc x else acc_ids acc x).
    { intros x. unfold acc_ids. cbn [filter fst]. destruct (Nat.eqb k x); reflexivity. }
    destruct (st_mem k s) eqn:Em.
    + apply st_mem_in in Em. apply Hls in Em. apply in_split in Em as (l1 & m & ->). destruct (ksplit _ _ _ Hs) as (Hl & Hm).
      rewrite Forall_forall in Hl, Hm. unfold klt in Hl, Hm. cbn [map snd]. rewrite <- IH, !flat_map_app'. cbn [flat_map].
      rewrite (flat_map_nil _ l1), (flat_map_nil (acc_ids acc) l1).
      * rewrite Hcons, Nat.eqb_refl, (klow acc k k Hf ltac:(lia)). cbn. f_equal.
        apply flat_map_ext_in. intros x Hx. rewrite Hcons. specialize (Hm x Hx).
        destruct (Nat.eqb_spec k x); [subst; lia|reflexivity].
      * intros x Hx. apply (klow acc k); [exact Hf|]. specialize (Hl x Hx). lia.
      * intros x Hx. specialize (Hl x Hx). rewrite Hcons. destruct (Nat.eqb_spec k x); [subst; lia|].
        apply (klow acc k); [exact Hf|lia].
    + rewrite <- IH. apply flat_map_ext_in. intros x Hx. rewrite Hcons.
      destruct (Nat.eqb_spec k x) as [<-|]; [|reflexivity]. apply Hls in Hx. apply st_mem_in in Hx. congruence.
Qed.
Lemma acc_ids_perm acc acc' x : NoDup (map fst acc) -> Permutation acc acc' -> acc_ids acc x = acc_ids acc' x.
Proof.
  intros Hn Hp. assert (P : Permutation (acc_ids acc x) (acc_ids acc' x)).
  { unfold acc_ids. apply Permutation_map. clear Hn. induction Hp as [|a l l' Hp IH|a b l|l1 l2 l3 H1 IH1 H2 IH2]; cbn [filter].
    - reflexivity.
    - destruct (Nat.eqb (fst a) x); [constructor|]; exact IH.
    - destruct (Nat.eqb (fst a) x), (Nat.eqb (fst b) x); try reflexivity. apply perm_swap.
    - etransitivity; eassumption. }
  assert (L : (length (acc_ids acc x) <= 1)%nat).
  { clear - Hn. unfold acc_ids. rewrite map_length. induction acc as [|(q & i) acc IH]; cbn [filter fst length]; [lia|].
    cbn [map fst] in Hn. inversion Hn as [|? ? H1 H2]; subst. destruct (Nat.eqb_spec q x) as [->|]; [|apply IH; exact H2]. cbn [length].
    assert (E : filter (fun a : nat * N => Nat.eqb (fst a) x) acc = []); [|rewrite E; cbn; lia].
    clear - H1. induction acc as [|(p & j) acc IH]; [reflexivity|]. cbn [filter fst]. destruct (Nat.eqb_spec p x) as [->|]; [exfalso; apply H1; left; reflexivity|].
    apply IH. intros Hi. apply H1. right. exact Hi. }
  destruct (acc_ids acc x) as [|i [|j l]]; [symmetry; apply Permutation_nil; exact P|symmetry; apply Permutation_length_1_inv; exact P|cbn in L; lia].
Qed.
End Keyed.
Lemma inc_nodup s : inc s -> NoDup s.
Proof.
  unfold inc. induction 1 as [|x l H IH Hf]; constructor; [|exact IH]. rewrite Forall_forall in Hf. intros Hi. specialize (Hf x Hi). lia.
Qed.

Theorem nfa_to_dfa_order addr rules A : nfa_of_rules rules = Ret A -> (forall a b, addr a = addr b -> a = b) ->
  exists rules', Permutation rules rules' /\ exists F, forall fuel, (F <= fuel)%nat -> exists f, nfa_to_dfa fuel addr A = Ret f /\
    forall w, selected (fun r => img (full r) w) rules' (reported (dfa_of f) d_root w).
Proof.
  intros HA Hinj. destruct (nfa_of_rules_acc rules A HA) as (Hinc & H2).
  set (z := combine (n_acc A) rules). assert (Hlen : length (n_acc A) = length rules) by (clear - H2; induction H2; cbn; congruence).
  assert (Z1 : map fst z = n_acc A) by (unfold z; clear - Hlen; revert rules Hlen; induction (n_acc A) as [|a l IH]; intros [|r rules] H; cbn in *; try discriminate; [reflexivity|]; f_equal; apply IH; congruence).
  assert (Z2 : map snd z = rules) by (unfold z; clear - Hlen; revert rules Hlen; induction (n_acc A) as [|a l IH]; intros [|r rules] H; cbn in *; try discriminate; [reflexivity|]; f_equal; apply IH; congruence).
  assert (Z3 : Forall (fun p => acc_rule (n_edges A) (fst p) (snd p)) z).
  { unfold z. clear - H2. induction H2; cbn [combine]; [constructor|]. constructor; [exact H|exact IHForall2]. }
  set (z' := srt addr (fun p : (nat * N) * (N * regex) => fst (fst p)) z).
  assert (Pz : Permutation z' z) by apply srt_perm.
  exists (map snd z'). split; [rewrite <- Z2; apply Permutation_map; symmetry; exact Pz|].
  assert (F2 : Forall2 (acc_rule (n_edges A)) (map fst z') (map snd z')).
  { assert (Z4 : Forall (fun p => acc_rule (n_edges A) (fst p) (snd p)) z').
    { rewrite Forall_forall in *. intros p Hp. apply Z3. eapply Permutation_in; [exact Pz|exact Hp]. }
    clear - Z4. induction z' as [|p l IH]; cbn [map]; [constructor|]. inversion Z4; subst. constructor; auto. }
  assert (ND : NoDup (map fst (n_acc A))) by (apply inc_nodup; exact Hinc).
  assert (SS : StronglySorted (fun a b => addr a < addr b) (map fst (map fst z'))).
  { rewrite map_map. unfold z'. rewrite (srt_map addr (fun p : (nat * N) * (N * regex) => fst (fst p)) z). apply sort_by_sorted; [exact Hinj|].
    rewrite <- (map_map fst fst), Z1. exact ND. }
  assert (PA : Permutation (n_acc A) (map fst z')) by (rewrite <- Z1; apply Permutation_map; symmetry; exact Pz).
  destruct (nfa_to_dfa_run addr A (nfa_of_rules_bytes rules A HA)) as (F & H). exists F. intros fuel Hf.
  destruct (H fuel Hf) as (f & E & _ & Hr). exists f. split; [exact E|].
  intros w. specialize (Hr w). unfold reported. destruct (run (dfa_of f) d_root w) as [q|].
  - destruct Hr as (s & Hi & _ & Hx & ->). unfold ids_of.
    rewrite (flat_map_ext_in _ (acc_ids (map fst z'))) by (intros x _; apply (acc_ids_perm addr); assumption).
    rewrite (ids_by_key addr Hinj (map fst z') s); [eapply acc_in_selected; eauto|exact SS|apply sort_by_sorted; [exact Hinj|apply inc_nodup; exact Hi]|].
    intros x. split; intros Hin; (eapply Permutation_in; [|exact Hin]); [symmetry; apply sort_by_perm|apply sort_by_perm].
  - apply selected_none. intros i r Hi (v & Ev & Hv).
    assert (Hi' : In (i, r) rules) by (rewrite <- Z2; eapply Permutation_in; [apply Permutation_map; exact Pz|exact Hi]).
    clear -Hr H2 Hi' Ev Hv. induction H2 as [|a ir acc rules (H3 & H4) H2 IH]; [destruct Hi'|].
    destruct Hi' as [->|Hi']; [|auto]. apply (Hr (fst a)). exists v. split; [exact Ev|]. apply H4. exact Hv.
Qed.
