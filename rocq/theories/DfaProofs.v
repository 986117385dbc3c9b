(** DfaProofs.v -- the subset construction terminates and is exact. *)
From Verif Require Import Base LexerModel LexerSpec RegexModel RegexSpec RegexProofs RegexLang DfaModel.
From Coq Require Import Sorted.

(** * Sets of states *)
Definition inc (l : stset) : Prop := StronglySorted lt l.
Lemma st_mem_in x l : st_mem x l = true <-> In x l.
Proof.
  induction l as [|y l IH]; cbn [st_mem In]; [split; [discriminate|contradiction]|].
  rewrite orb_true_iff, IH, Nat.eqb_eq. intuition.
Qed.
Lemma st_insert_in x l y : In y (st_insert x l) <-> y = x \/ In y l.
Proof.
  induction l as [|z l IH]; cbn [st_insert In]; [intuition|].
  destruct (Nat.ltb_spec x z); [cbn; intuition|]. destruct (Nat.eqb_spec x z) as [->|]; cbn [In]; [intuition|].
  rewrite IH. intuition.
Qed.
Lemma st_insert_inc x l : inc l -> inc (st_insert x l).
Proof.
  unfold inc. induction l as [|z l IH]; intros H; cbn [st_insert]; [repeat constructor|].
  inversion H as [|? ? Hs Hf]; subst. destruct (Nat.ltb_spec x z) as [Hlt|Hge].
  - constructor; [exact H|]. constructor; [exact Hlt|]. eapply Forall_impl; [|exact Hf]. cbn. intros; lia.
  - destruct (Nat.eqb_spec x z) as [->|Hne]; [exact H|]. constructor; [auto|].
    apply Forall_forall. intros y Hy. apply st_insert_in in Hy as [->|Hy]; [lia|].
    rewrite Forall_forall in Hf. auto.
Qed.
Lemma st_union_in a b x : In x (st_union a b) <-> In x a \/ In x b.
Proof. induction a as [|y a IH]; cbn [st_union fold_right In]; [intuition|]. fold (st_union a b). rewrite st_insert_in, IH. intuition. Qed.
Lemma st_union_inc a b : inc b -> inc (st_union a b).
Proof. intros H. induction a; cbn; auto using st_insert_inc. Qed.
Lemma st_eqb_eq a b : st_eqb a b = true <-> a = b.
Proof.
  revert b; induction a as [|x a IH]; intros [|y b]; cbn [st_eqb]; try (split; congruence).
  rewrite andb_true_iff, Nat.eqb_eq, IH. split; [intros (-> & ->); auto|intros [= -> ->]; auto].
Qed.
Lemma inc_ext a b : inc a -> inc b -> (forall x, In x a <-> In x b) -> a = b.
Proof.
  unfold inc. revert b; induction a as [|x a IH]; intros [|y b] Ha Hb H; auto.
  - destruct (proj2 (H y)); left; auto.
  - destruct (proj1 (H x)); left; auto.
  - inversion Ha as [|? ? Ha' Fa]; inversion Hb as [|? ? Hb' Fb]; subst. rewrite Forall_forall in Fa, Fb.
    assert (x = y).
    { destruct (proj1 (H x) (or_introl eq_refl)) as [|Hx]; auto.
      destruct (proj2 (H y) (or_introl eq_refl)) as [|Hy]; auto.
      specialize (Fa _ Hy). specialize (Fb _ Hx). lia. }
    subst y. f_equal. apply IH; auto. intros z. split; intros Hz.
    + destruct (proj1 (H z) (or_intror Hz)) as [->|]; auto. specialize (Fa _ Hz). lia.
    + destruct (proj2 (H z) (or_intror Hz)) as [->|]; auto. specialize (Fb _ Hz). lia.
Qed.

(** * Reading bytes along a path *)
Definition reads (es : list edge) (p : nat) (bs : list N) (q : nat) : Prop :=
  exists w, bytes_of w = bs /\ path (g_edges es) p w q.
Definition silent_edge (es : list edge) (p q : nat) : Prop := exists l, In (p, l, q) es /\ is_silent l = true.
Definition byte_edge (es : list edge) (p : nat) (b : N) (q : nat) : Prop :=
  exists lo hi, In (p, LByte lo hi, q) es /\ lo <= b <= hi.

Lemma reads_refl es p : reads es p [] p.
Proof. exists []. split; [reflexivity|constructor]. Qed.
Lemma reads_app es p u r v q : reads es p u r -> reads es r v q -> reads es p (u ++ v) q.
Proof. intros (a & <- & Ha) (b & <- & Hb). exists (a ++ b). rewrite bytes_app. split; auto. eapply path_app; eauto. Qed.
Lemma reads_silent es p r v q : silent_edge es p r -> reads es r v q -> reads es p v q.
Proof.
  intros (l & Hi & Hl) H. change v with ([] ++ v). eapply reads_app; [|exact H].
  destruct l; try discriminate; eexists; (split; [|apply path_one; eexists; split; [exact Hi|cbn; reflexivity]]); reflexivity.
Qed.
Lemma reads_byte es p b r v q : byte_edge es p b r -> reads es r v q -> reads es p (b :: v) q.
Proof.
  intros (lo & hi & Hi & Hb) (w & <- & Hw). exists ([SByte b] ++ w). split; [reflexivity|].
  econstructor; [|exact Hw]. exists (LByte lo hi). split; [exact Hi|]. cbn. eauto.
Qed.
(** Induction on reading. *)
Lemma reads_ind' es (Q : nat -> list N -> nat -> Prop) :
  (forall p, Q p [] p) ->
  (forall p r v q, silent_edge es p r -> reads es r v q -> Q r v q -> Q p v q) ->
  (forall p b r v q, byte_edge es p b r -> reads es r v q -> Q r v q -> Q p (b :: v) q) ->
  forall p v q, reads es p v q -> Q p v q.
Proof.
  intros H0 Hs Hb p v q (w & <- & Hw). induction Hw as [p|p u r w q (l & Hi & Hl) Hw IH]; [apply H0|].
  assert (Hr : reads es r (bytes_of w) q) by (exists w; auto). rewrite bytes_app.
  destruct l; cbn in Hl; try (subst u; cbn; eapply Hs; eauto; eexists; split; [exact Hi|reflexivity]).
  destruct Hl as (b & -> & Hlh). cbn. eapply Hb; eauto. exists lo, hi. auto.
Qed.
Lemma reads_nil_ind es (Q : nat -> nat -> Prop) :
  (forall p, Q p p) -> (forall p r q, silent_edge es p r -> reads es r [] q -> Q r q -> Q p q) ->
  forall p q, reads es p [] q -> Q p q.
Proof.
  intros H0 Hs p q H.
  assert (G : forall p v q, reads es p v q -> v = [] -> Q p q).
  { intros p0 v0 q0 H1.
    refine (reads_ind' es (fun p v q => v = [] -> Q p q) _ _ _ p0 v0 q0 H1); [auto|intros; subst; eauto|discriminate]. }
  eapply G; eauto.
Qed.
Lemma reads_cons es p b v q :
  reads es p (b :: v) q <-> exists r r', reads es p [] r /\ byte_edge es r b r' /\ reads es r' v q.
Proof.
  split.
  - intros H. remember (b :: v) as bv eqn:E. revert b v E. revert p bv q H.
    apply (reads_ind' es (fun p bv q => forall b v, bv = b :: v ->
      exists r r', reads es p [] r /\ byte_edge es r b r' /\ reads es r' v q)).
    + discriminate.
    + intros p r w q Hs Hr IH b v ->. destruct (IH b v eq_refl) as (x & y & H1 & H2 & H3).
      exists x, y. split; [eapply reads_silent; eauto|auto].
    + intros p b' r w q He Hr _ b v [= -> ->]. exists p, r. split; [apply reads_refl|auto].
  - intros (r & r' & H1 & H2 & H3). change (b :: v) with ([] ++ b :: v). eapply reads_app; [exact H1|].
    eapply reads_byte; eauto.
Qed.

Lemma silent_succs_in es p q : In q (silent_succs es p) <-> silent_edge es p q.
Proof.
  unfold silent_succs, silent_edge. rewrite in_map_iff. split.
  - intros (((a & l) & b) & <- & H). apply filter_In in H as (Hi & H). cbn in H. apply andb_prop in H as (H1 & H2).
    apply Nat.eqb_eq in H2. subst a. exists l. auto.
  - intros (l & Hi & Hl). exists (p, l, q). split; [reflexivity|]. apply filter_In. split; [exact Hi|].
    cbn. rewrite Hl, Nat.eqb_refl. reflexivity.
Qed.
Lemma byte_succs_in es b p q : In q (byte_succs es b p) <-> byte_edge es p b q.
Proof.
  unfold byte_succs, byte_edge. rewrite in_map_iff. split.
  - intros (((a & l) & d) & <- & H). apply filter_In in H as (Hi & H). cbn in H. apply andb_prop in H as (H1 & H2).
    apply Nat.eqb_eq in H1. subst a. destruct l as [lo hi| | | |]; try discriminate.
    apply andb_prop in H2 as (H2 & H3). apply N.leb_le in H2, H3. exists lo, hi. auto.
  - intros (lo & hi & Hi & H1 & H2). exists (p, LByte lo hi, q). split; [reflexivity|]. apply filter_In. split; [exact Hi|].
    cbn. rewrite Nat.eqb_refl. apply N.leb_le in H1, H2. rewrite H1, H2. reflexivity.
Qed.

(** * epsilon_closure *)
Definition pending (es : list edge) (set : stset) : nat :=
  length (filter (fun e => is_silent (snd (fst e)) && negb (st_mem (fst (fst e)) set)) es).
Lemma st_mem_insert x s l : st_mem x (st_insert s l) = Nat.eqb x s || st_mem x l.
Proof.
  apply eq_true_iff_eq. rewrite orb_true_iff, Nat.eqb_eq, !st_mem_in, st_insert_in. tauto.
Qed.
Lemma pending_insert es s set : st_mem s set = false ->
  (pending es (st_insert s set) + length (silent_succs es s) = pending es set)%nat.
Proof.
  intros H. unfold pending, silent_succs. rewrite map_length. induction es as [|e es IH]; [reflexivity|].
  cbn [filter]. rewrite st_mem_insert. destruct (is_silent (snd (fst e))); cbn [andb]; [|exact IH].
  destruct (Nat.eqb_spec (fst (fst e)) s) as [->|Hne]; cbn [orb negb].
  - rewrite H. cbn [negb length]. lia.
  - destruct (st_mem (fst (fst e)) set); cbn [negb length]; lia.
Qed.
Lemma filter_length_le' {A} (f : A -> bool) l : (length (filter f l) <= length l)%nat.
Proof. induction l; cbn; [lia|]. destruct (f a); cbn; lia. Qed.

Lemma closure_loop_spec es p : forall fuel stack set,
  (length stack + pending es set < fuel)%nat -> inc set ->
  (forall x, In x set -> reads es p [] x) -> (forall x, In x stack -> reads es p [] x) ->
  (forall x y, In x set -> silent_edge es x y -> In y set \/ In y stack) ->
  (In p set \/ In p stack) ->
  exists c, closure_loop fuel es stack set = Ret c /\ inc c /\ forall x, In x c <-> reads es p [] x.
Proof.
  induction fuel as [|fuel IH]; intros stack set Hf Hi Hs Hst Hcl Hp; [lia|]. cbn [closure_loop].
  destruct stack as [|s st].
  - exists set. split; [reflexivity|]. split; [exact Hi|]. intros x. split; [apply Hs|].
    intros H. destruct Hp as [Hp|[]]. revert Hp. 
    apply (reads_nil_ind es (fun a b => In a set -> In b set)) with (p := p) (q := x); auto.
    intros a r q He _ IH' Ha. apply IH'. destruct (Hcl _ _ Ha He) as [|[]]; auto.
  - destruct (st_mem s set) eqn:Em.
    + apply st_mem_in in Em. apply IH; auto.
      * cbn [length] in Hf. lia.
      * intros x Hx. apply Hst. right. exact Hx.
      * intros x y Hx He. destruct (Hcl _ _ Hx He) as [|[<-|]]; auto.
      * destruct Hp as [|[<-|]]; auto.
    + pose proof (pending_insert es s set Em) as Hpend. cbn [length] in Hf. apply IH.
      * rewrite app_length. lia.
      * apply st_insert_inc. exact Hi.
      * intros x Hx. apply st_insert_in in Hx as [->|Hx]; auto. apply Hst. left. reflexivity.
      * intros x Hx. apply in_app_iff in Hx as [Hx|Hx].
        -- apply silent_succs_in in Hx. change (@nil N) with (@nil N ++ []).
           eapply reads_app; [apply Hst; left; reflexivity|]. eapply reads_silent; [exact Hx|apply reads_refl].
        -- apply Hst. right. exact Hx.
      * intros x y Hx He. apply st_insert_in in Hx as [->|Hx].
        -- right. apply in_app_iff. left. apply silent_succs_in. exact He.
        -- destruct (Hcl _ _ Hx He) as [|[<-|]].
           ++ left. apply st_insert_in. auto.
           ++ left. apply st_insert_in. auto.
           ++ right. apply in_app_iff. auto.
      * destruct Hp as [|[<-|]].
        -- left. apply st_insert_in. auto.
        -- left. apply st_insert_in. auto.
        -- right. apply in_app_iff. auto.
Qed.
Theorem epsilon_closure_spec es p :
  exists c, epsilon_closure es p = Ret c /\ inc c /\ forall x, In x c <-> reads es p [] x.
Proof.
  apply closure_loop_spec.
  - apply (Nat.le_lt_trans _ (1 + length es)); [|lia]. cbn [length]. apply le_n_S, filter_length_le'.
  - constructor.
  - contradiction.
  - intros x [<-|[]]. apply reads_refl.
  - contradiction.
  - right. left. reflexivity.
Qed.

Lemma closures_spec es l : forall acc, inc acc ->
  exists c, closures es l acc = Ret c /\ inc c /\
    forall x, In x c <-> In x acc \/ exists r, In r l /\ reads es r [] x.
Proof.
  induction l as [|s l IH]; intros acc Ha; cbn [closures].
  - exists acc. split; [reflexivity|]. split; [exact Ha|]. intros x. split; [auto|intros [|(r & [] & _)]; auto].
  - destruct (epsilon_closure_spec es s) as (c & -> & Hc & Hx). cbn [bind].
    destruct (IH (st_union c acc) (st_union_inc c acc Ha)) as (d & Hd & Hdi & Hdx).
    exists d. split; [exact Hd|]. split; [exact Hdi|]. intros x. rewrite Hdx, st_union_in, Hx. split.
    + intros [[H|H]|(r & Hr & H)]; eauto 6 using in_eq, in_cons.
    + intros [H|(r & [<-|Hr] & H)]; eauto 6.
Qed.
(** The states reached from a set by one byte. *)
Definition step_set (es : list edge) (S : stset) (b : N) (q : nat) : Prop :=
  exists p r, In p S /\ byte_edge es p b r /\ reads es r [] q.
Lemma move_spec es S b : exists c, move es S b = Ret c /\ inc c /\ forall x, In x c <-> step_set es S b x.
Proof.
  unfold move. destruct (closures_spec es (flat_map (byte_succs es b) S) []) as (c & Hc & Hi & Hx); [constructor|].
  exists c. split; [exact Hc|]. split; [exact Hi|]. intros x. rewrite Hx. split.
  - intros [[]|(r & Hr & H)]. apply in_flat_map in Hr as (p & Hp & Hr). apply byte_succs_in in Hr.
    exists p, r. auto.
  - intros (p & r & Hp & Hr & H). right. exists r. split; [|exact H]. apply in_flat_map. exists p.
    split; [exact Hp|]. apply byte_succs_in. exact Hr.
Qed.

(** * The main loop *)
Lemma find_set_some sets s i : find_set sets s = Some i -> nth_error sets i = Some s.
Proof.
  revert i; induction sets as [|x sets IH]; cbn [find_set]; intros i; [discriminate|].
  destruct (st_eqb x s) eqn:E.
  - intros [= <-]. apply st_eqb_eq in E. subst. reflexivity.
  - destruct (find_set sets s); [|discriminate]. intros [= <-]. cbn. auto.
Qed.
Lemma find_set_none sets s : find_set sets s = None -> ~ In s sets.
Proof.
  induction sets as [|x sets IH]; cbn [find_set In]; [tauto|]. destruct (st_eqb x s) eqn:E; [discriminate|].
  destruct (find_set sets s); [discriminate|]. intros _ [->|H]; [|tauto].
  rewrite (proj2 (st_eqb_eq s s) eq_refl) in E. discriminate.
Qed.
Lemma find_set_in sets s : In s sets -> exists i, find_set sets s = Some i.
Proof. intros H. destruct (find_set sets s) eqn:E; [eauto|]. apply find_set_none in E. tauto. Qed.

(** All the sets the construction can meet: increasing lists of states below a bound. *)
Fixpoint powerlist (l : list nat) : list (list nat) :=
  match l with [] => [[]] | x :: l' => map (cons x) (powerlist l') ++ powerlist l' end.
Lemma powerlist_length l : length (powerlist l) = (2 ^ length l)%nat.
Proof. induction l; cbn [powerlist length]; [reflexivity|]. rewrite app_length, map_length, IHl, Nat.pow_succ_r'. lia. Qed.
Lemma powerlist_in l : inc l -> forall s, inc s -> incl s l -> In s (powerlist l).
Proof.
  unfold inc. induction 1 as [|x l Hl IH Hx]; intros s Hs Hi.
  - destruct s as [|y s]; [left; reflexivity|]. destruct (Hi y); left; auto.
  - cbn [powerlist]. apply in_app_iff. rewrite Forall_forall in Hx. destruct s as [|y s].
    + right. apply IH; [constructor|]. intros z [].
    + inversion Hs as [|? ? Hs' Fs]; subst. rewrite Forall_forall in Fs.
      destruct (Nat.eq_dec x y) as [<-|Hne].
      * left. apply in_map. apply IH; auto. intros z Hz. destruct (Hi z (or_intror Hz)) as [<-|]; auto.
        specialize (Fs _ Hz). lia.
      * right. apply IH; auto. intros z Hz. destruct (Hi z Hz) as [<-|]; auto. exfalso.
        destruct (Hi y (or_introl eq_refl)) as [|Hy]; [auto|]. specialize (Hx _ Hy).
        destruct Hz as [->|Hz]; [lia|]. specialize (Fs _ Hz). lia.
Qed.
Lemma seq_inc a n : inc (seq a n).
Proof.
  unfold inc. revert a; induction n; intros a; cbn; constructor; auto.
  apply Forall_forall. intros x Hx. apply in_seq in Hx. lia.
Qed.

(** Every state met is a target of an edge or where we start. *)
Definition bound (es : list edge) : nat := S (list_max (map snd es)).
Lemma edge_bound es p l q : In (p, l, q) es -> (q < bound es)%nat.
Proof.
  intros H. unfold bound. pose proof (proj1 (list_max_le (map snd es) (list_max (map snd es))) (le_n _)) as F.
  rewrite Forall_forall in F. specialize (F q). rewrite in_map_iff in F.
  assert (q <= list_max (map snd es))%nat by (apply F; exists (p, l, q); auto). lia.
Qed.
Lemma reads_bound es p v q : reads es p v q -> (p < bound es)%nat -> (q < bound es)%nat.
Proof.
  apply (reads_ind' es (fun p v q => (p < bound es)%nat -> (q < bound es)%nat)); auto.
  - intros a r w b (l & Hi & _) _ IH _. apply IH. eapply edge_bound; eauto.
  - intros a x r w b (lo & hi & Hi & _) _ IH _. apply IH. eapply edge_bound; eauto.
Qed.

Section Construction.
Variable es : list edge.

Definition good (s : stset) : Prop := inc s /\ s <> [] /\ forall x, In x s -> (x < bound es)%nat.
Lemma move_good s b c : move es s b = Ret c -> c <> [] -> good c.
Proof.
  intros H Hne. destruct (move_spec es s b) as (c' & H' & Hi & Hx). rewrite H in H'. injection H' as <-.
  split; [exact Hi|]. split; [exact Hne|]. intros x Hc. apply Hx in Hc as (p & r & _ & (lo & hi & He & _) & Hr).
  eapply reads_bound; [exact Hr|]. eapply edge_bound; eauto.
Qed.
Lemma good_count sets : NoDup sets -> (forall s, In s sets -> good s) -> (length sets <= 2 ^ bound es)%nat.
Proof.
  intros ND H. rewrite <- (seq_length (bound es) 0), <- powerlist_length. apply NoDup_incl_length; [exact ND|].
  intros s Hs. destruct (H s Hs) as (Hi & _ & Hb). apply powerlist_in; [apply seq_inc|exact Hi|].
  intros x Hx. apply in_seq. specialize (Hb x Hx). lia.
Qed.

(** The transition of state [i] (with set [s]) on [b] is the one it must be. *)
Definition trans_ok (sets : list stset) (tr : list (nat * N * nat)) (i : nat) (s : stset) (b : N) : Prop :=
  forall c, move es s b = Ret c ->
    match find_tr tr i b with
    | None => c = []
    | Some d => c <> [] /\ nth_error sets d = Some c
    end.
Lemma find_tr_cons p x d tr i b :
  find_tr ((p, x, d) :: tr) i b = if Nat.eqb p i && (x =? b) then Some d else find_tr tr i b.
Proof. reflexivity. Qed.
Lemma nth_error_app_some {A} (l m : list A) i a : nth_error l i = Some a -> nth_error (l ++ m) i = Some a.
Proof. intros H. rewrite nth_error_app1; [exact H|]. apply nth_error_Some. congruence. Qed.
Lemma trans_ok_more sets tr i s b more : trans_ok sets tr i s b -> trans_ok (sets ++ more) tr i s b.
Proof.
  intros H c Hc. specialize (H c Hc). destruct (find_tr tr i b); [|exact H]. destruct H as (H1 & H2).
  split; [exact H1|]. apply nth_error_app_some. exact H2.
Qed.
Lemma trans_ok_cons sets tr i s b p x d :
  (p, x) <> (i, b) -> trans_ok sets tr i s b -> trans_ok sets ((p, x, d) :: tr) i s b.
Proof.
  intros Hne H c Hc. rewrite find_tr_cons.
  destruct (Nat.eqb_spec p i) as [->|]; cbn [andb]; [|apply H; exact Hc].
  destruct (N.eqb_spec x b) as [->|]; [congruence|apply H; exact Hc].
Qed.

(** The invariant while the transitions of state [src] are being added, for the bytes in [done]. *)
Record inv_at (set : stset) (src : nat) (done : list N) (sets : list stset) (tr : list (nat * N * nat))
    (stack : list stset) : Prop := {
  ia_nodup : NoDup sets;
  ia_good : forall s, In s sets -> good s;
  ia_stack : incl stack sets;
  ia_stack_nodup : NoDup stack;
  ia_set : ~ In set stack;
  ia_src : nth_error sets src = Some set;
  ia_done : forall i s b, nth_error sets i = Some s -> ~ In s stack -> i <> src -> In b all_bytes ->
              trans_ok sets tr i s b;
  ia_todo : forall i s b, nth_error sets i = Some s -> In s stack -> find_tr tr i b = None;
  ia_cur : forall b, In b done -> trans_ok sets tr src set b;
  ia_cur_todo : forall b, ~ In b done -> find_tr tr src b = None;
  ia_tr : forall p b d, In (p, b, d) tr -> (p < length sets)%nat /\ In b all_bytes
}.
Lemma find_tr_in tr i b d : find_tr tr i b = Some d -> In (i, b, d) tr.
Proof.
  induction tr as [|((p & x) & e) tr IH]; cbn [find_tr]; [discriminate|].
  destruct (Nat.eqb_spec p i) as [->|]; cbn [andb]; [|right; auto].
  destruct (N.eqb_spec x b) as [->|]; [|right; auto]. intros [= ->]. left. reflexivity.
Qed.
Lemma nth_error_app_inv {A} (l : list A) x i a :
  nth_error (l ++ [x]) i = Some a -> nth_error l i = Some a \/ (i = length l /\ a = x).
Proof.
  intros H. destruct (Nat.lt_ge_cases i (length l)) as [Hlt|Hge].
  - rewrite nth_error_app1 in H by exact Hlt. auto.
  - rewrite nth_error_app2 in H by exact Hge. destruct (i - length l)%nat as [|k] eqn:E; cbn in H.
    + injection H as ->. right. split; [lia|reflexivity].
    + destruct k; discriminate.
Qed.

Lemma add_transitions_spec set src : forall bs done sets tr stack,
  (forall b, In b bs -> In b all_bytes /\ ~ In b done) -> NoDup bs ->
  inv_at set src done sets tr stack ->
  exists new tr' , 
    add_transitions es set src bs sets tr stack = Ret (sets ++ new, tr', rev new ++ stack) /\
    inv_at set src (done ++ bs) (sets ++ new) tr' (rev new ++ stack).
Proof.
  induction bs as [|b bs IH]; intros done sets tr stack Hbs Hnd I; cbn [add_transitions].
  - exists [], tr. rewrite !app_nil_r. cbn. split; [reflexivity|exact I].
  - destruct (move_spec es set b) as (c & Hc & Hi & Hx). rewrite Hc. cbn [bind].
    inversion Hnd as [|? ? Hnb Hnd']; subst.
    destruct (Hbs b (or_introl eq_refl)) as (Hball & Hbd).
    assert (Hbs' : forall b0, In b0 bs -> In b0 all_bytes /\ ~ In b0 (done ++ [b])).
    { intros b0 H0. destruct (Hbs b0 (or_intror H0)) as (H1 & H2). split; [exact H1|].
      intros H3. apply in_app_iff in H3 as [H3|[<-|[]]]; auto. }
    assert (Hassoc : done ++ b :: bs = (done ++ [b]) ++ bs) by (rewrite <- app_assoc; reflexivity).
    destruct I as [I1 I2 I3 I4 I5 I6 I7 I8 I9 I10 I11].
    destruct c as [|c0 c'] eqn:Ec.
    + destruct (IH (done ++ [b]) sets tr stack Hbs' Hnd') as (new & tr' & E & I').
      * constructor; auto.
        -- intros b0 H0. apply in_app_iff in H0 as [H0|[<-|[]]]; [auto|]. intros x H. rewrite Hc in H.
           injection H as <-. rewrite (I10 b Hbd). reflexivity.
        -- intros b0 H0. apply I10. intros H1. apply H0. apply in_app_iff. auto.
      * exists new, tr'. split; [exact E|]. rewrite Hassoc. exact I'.
    + rewrite <- Ec in *. assert (Hne : c <> []) by (rewrite Ec; discriminate).
      destruct (find_set sets c) as [d|] eqn:Ef.
      * destruct (IH (done ++ [b]) sets ((src, b, d) :: tr) stack Hbs' Hnd') as (new & tr' & E & I').
        -- constructor; auto.
           ++ intros i s x H1 H2 H3 H4. apply trans_ok_cons; [congruence|]. auto.
           ++ intros i s x H1 H2. rewrite find_tr_cons. destruct (Nat.eqb_spec src i) as [<-|]; cbn [andb]; [|eauto].
              rewrite I6 in H1. injection H1 as <-. contradiction.
           ++ intros b0 H0. apply in_app_iff in H0 as [H0|[<-|[]]].
              ** apply trans_ok_cons; [intros [= ->]; contradiction|auto].
              ** intros x H. rewrite Hc in H. injection H as <-. rewrite find_tr_cons, Nat.eqb_refl, N.eqb_refl.
                 cbn [andb]. split; [exact Hne|]. apply find_set_some. exact Ef.
           ++ intros b0 H0. rewrite find_tr_cons. destruct (N.eqb_spec b b0) as [<-|].
              ** destruct H0. apply in_app_iff. right. left. reflexivity.
              ** rewrite andb_false_r. apply I10. intros H1. apply H0. apply in_app_iff. auto.
           ++ intros p x e [[= <- <- <-]|H]; [|eauto]. split; [|exact Hball]. apply nth_error_Some. congruence.
        -- exists new, tr'. split; [exact E|]. rewrite Hassoc. exact I'.
      * pose proof (find_set_none _ _ Ef) as Hnew.
        assert (Hlen : (src < length sets)%nat) by (apply nth_error_Some; congruence).
        destruct (IH (done ++ [b]) (sets ++ [c]) ((src, b, length sets) :: tr) (c :: stack) Hbs' Hnd')
          as (new & tr' & E & I').
        -- constructor.
           ++ 
              apply (Permutation.Permutation_NoDup (l := c :: sets)); [apply Permutation.Permutation_cons_append|].
              constructor; auto.
           ++ intros s Hs. apply in_app_iff in Hs as [Hs|[<-|[]]]; [auto|]. eapply move_good; eauto.
           ++ intros s [<-|Hs]; apply in_app_iff; [right; left; reflexivity|left; auto].
           ++ constructor; auto.
           ++ intros [<-|H]; [|auto]. apply Hnew. eapply nth_error_In. exact I6.
           ++ apply nth_error_app_some. exact I6.
           ++ intros i s x H1 H2 H3 H4. apply trans_ok_cons; [congruence|]. apply trans_ok_more.
              apply nth_error_app_inv in H1 as [H1|(-> & ->)].
              ** apply I7; auto. intros H5. apply H2. right. exact H5.
              ** destruct H2. left. reflexivity.
           ++ intros i s x H1 H2. rewrite find_tr_cons. apply nth_error_app_inv in H1 as [H1|(-> & ->)].
              ** destruct H2 as [<-|H2]; [apply nth_error_In in H1; contradiction|].
                 destruct (Nat.eqb_spec src i) as [<-|]; cbn [andb]; [|eauto].
                 rewrite I6 in H1. injection H1 as <-. contradiction.
              ** destruct (Nat.eqb_spec src (length sets)) as [|]; [lia|]. cbn [andb].
                 destruct (find_tr tr (length sets) x) eqn:E; [|reflexivity]. apply find_tr_in in E.
                 apply I11 in E. lia.
           ++ intros b0 H0. apply in_app_iff in H0 as [H0|[<-|[]]].
              ** apply trans_ok_cons; [intros [= ->]; contradiction|]. apply trans_ok_more. auto.
              ** intros x H. rewrite Hc in H. injection H as <-. rewrite find_tr_cons, Nat.eqb_refl, N.eqb_refl.
                 cbn [andb]. split; [exact Hne|]. rewrite nth_error_app2, Nat.sub_diag by lia. reflexivity.
           ++ intros b0 H0. rewrite find_tr_cons. destruct (N.eqb_spec b b0) as [<-|].
              ** destruct H0. apply in_app_iff. right. left. reflexivity.
              ** rewrite andb_false_r. apply I10. intros H1. apply H0. apply in_app_iff. auto.
           ++ rewrite app_length. intros p x e [[= <- <- <-]|H]; [split; [lia|exact Hball]|].
              apply I11 in H. split; [lia|tauto].
        -- exists (c :: new), tr'. cbn [rev]. rewrite <- !app_assoc in *. cbn [app] in *.
           split; [exact E|]. exact I'.
Qed.

(** The invariant of the main loop. *)
Record inv (sets : list stset) (tr : list (nat * N * nat)) (stack : list stset) : Prop := {
  iv_nodup : NoDup sets;
  iv_good : forall s, In s sets -> good s;
  iv_stack : incl stack sets;
  iv_stack_nodup : NoDup stack;
  iv_done : forall i s b, nth_error sets i = Some s -> ~ In s stack -> In b all_bytes -> trans_ok sets tr i s b;
  iv_todo : forall i s b, nth_error sets i = Some s -> In s stack -> find_tr tr i b = None;
  iv_tr : forall p b d, In (p, b, d) tr -> (p < length sets)%nat /\ In b all_bytes
}.
Lemma all_bytes_in b : In b all_bytes <-> b < cSizeOfByte.
Proof.
  unfold all_bytes, cSizeOfByte. rewrite in_map_iff. split.
  - intros (k & <- & H). apply in_seq in H. lia.
  - intros H. exists (N.to_nat b). split; [lia|]. apply in_seq. lia.
Qed.
Lemma all_bytes_nodup : NoDup all_bytes.
Proof. apply FinFun.Injective_map_NoDup; [|apply seq_NoDup]. intros a b H. lia. Qed.
Lemma nodup_nth {A} (l : list A) i j a :
  NoDup l -> nth_error l i = Some a -> nth_error l j = Some a -> i = j.
Proof.
  intros H Hi Hj. eapply NoDup_nth_error; [exact H| |congruence]. apply nth_error_Some. congruence.
Qed.

Lemma dfa_loop_spec : forall fuel sets tr stack,
  inv sets tr stack -> (length stack + (2 ^ bound es - length sets) < fuel)%nat ->
  exists new tr', dfa_loop fuel es sets tr stack = Ret (sets ++ new, tr') /\ inv (sets ++ new) tr' [].
Proof.
  induction fuel as [|fuel IH]; intros sets tr stack I Hf; [lia|]. cbn [dfa_loop].
  destruct stack as [|set st].
  - exists [], tr. rewrite app_nil_r. auto.
  - destruct I as [I1 I2 I3 I4 I5 I6 I7].
    destruct (find_set_in sets set) as (src & Es); [apply I3; left; reflexivity|]. rewrite Es.
    apply find_set_some in Es. inversion I4 as [|? ? Hn Hnd]; subst.
    destruct (add_transitions_spec set src all_bytes [] sets tr st) as (new & tr' & E & J).
    + auto.
    + apply all_bytes_nodup.
    + constructor; auto.
      * intros s Hs. apply I3. right. exact Hs.
      * intros i s b H1 H2 H3 H4. apply I5; auto. intros [->|H5]; [|auto]. exact (H3 (nodup_nth _ _ _ _ I1 H1 Es)).
      * intros i s b H1 H2. eapply I6; eauto. right. exact H2.
      * intros b [].
      * intros b _. eapply I6; [exact Es|]. left. reflexivity.
    + rewrite E. cbn [bind]. destruct J as [J1 J2 J3 J4 J5 J6 J7 J8 J9 J10 J11].
      destruct (IH (sets ++ new) tr' (rev new ++ st)) as (new' & tr'' & E' & K).
      * constructor; auto. intros i s b H1 H2 H3. destruct (Nat.eq_dec i src) as [->|]; [|auto].
        rewrite J6 in H1. injection H1 as <-. apply J9. exact H3.
      * pose proof (good_count _ J1 J2) as Hc. rewrite !app_length, rev_length in *. cbn [length] in Hf. lia.
      * exists (new ++ new'), tr''. rewrite app_assoc. auto.
Qed.
End Construction.

(** * The whole construction *)
(** [addr] may be anything. [sets] are the subsets the DFA's states stand for. *)
Theorem nfa_to_dfa_sets addr A : exists F sets tr, forall fuel, (F <= fuel)%nat ->
  nfa_to_dfa fuel addr A = Ret (mkFdfa (map (ids_of addr (n_acc A)) sets) tr) /\
  inv (n_edges A) sets tr [] /\
  exists s0, nth_error sets 0 = Some s0 /\ forall q, In q s0 <-> reads (n_edges A) n_root [] q.
Proof.
  set (es := n_edges A). destruct (epsilon_closure_spec es n_root) as (s0 & E0 & Hi & Hx).
  assert (I : inv es [s0] [] [s0]).
  { assert (G : good es s0).
    { split; [exact Hi|]. split.
      - intros ->. apply (proj2 (Hx n_root)). apply reads_refl.
      - intros x H. apply Hx in H. eapply reads_bound; [exact H|]. unfold bound, n_root. lia. }
    constructor.
    - repeat constructor. intros [].
    - intros s [<-|[]]. exact G.
    - apply incl_refl.
    - repeat constructor. intros [].
    - intros [|[|i]] s b H; try discriminate. injection H as <-. cbn. tauto.
    - reflexivity.
    - intros p b d []. }
  set (F := (2 + 2 ^ bound es)%nat).
  assert (HF : forall fuel, (F <= fuel)%nat -> (length [s0] + (2 ^ bound es - length [s0]) < fuel)%nat).
  { intros fuel Hf. unfold F in Hf. cbn [length]. lia. }
  destruct (dfa_loop_spec es F [s0] [] [s0] I (HF F (le_n _))) as (new & tr & E & K).
  exists F, ([s0] ++ new), tr. intros fuel Hf.
  split; [|split; [exact K|]].
  - unfold nfa_to_dfa. fold es. rewrite E0. cbn [bind].
    assert (E' : dfa_loop fuel es [s0] [] [s0] = dfa_loop F es [s0] [] [s0]); [|rewrite E', E; reflexivity].
    clear K. assert (M : forall f g sets tr st x, dfa_loop f es sets tr st = Ret x -> (f <= g)%nat -> dfa_loop g es sets tr st = Ret x).
    { induction f as [|f IHf]; intros [|g] sets t st x H Hle; cbn [dfa_loop] in H |- *; try discriminate; [lia|].
      destruct st as [|s st]; [exact H|]. destruct (find_set sets s); [|discriminate].
      apply bind_Ret in H as (((a & b) & c) & H1 & H2). rewrite H1. cbn [bind]. apply (IHf g); [exact H2|lia]. }
    rewrite (M F fuel _ _ _ _ E Hf), E. reflexivity.
  - exists s0. split; [reflexivity|exact Hx].
Qed.

(** Reading a string from a state of the DFA. *)
Lemma run_sets es sets tr ids : inv es sets tr [] ->
  (forall p l q, In (p, l, q) es -> match l with LByte _ hi => hi < cSizeOfByte | _ => True end) ->
  forall w i s, nth_error sets i = Some s ->
    (forall p q, In p s -> reads es p [] q -> In q s) ->
    match run (mkDfa (find_tr tr) ids) i w with
    | Some j => exists s', nth_error sets j = Some s' /\ (forall p q, In p s' -> reads es p [] q -> In q s') /\
                  s' <> [] /\ forall q, In q s' <-> exists p, In p s /\ reads es p w q
    | None => forall p q, In p s -> ~ reads es p w q
    end.
Proof.
  intros I Hhi. induction w as [|b w IH]; intros i s Hs Hcl; cbn [run d_next].
  - exists s. split; [exact Hs|]. split; [exact Hcl|]. split.
    + destruct I as [_ G _ _ _ _ _]. apply (G s). eapply nth_error_In; eauto.
    + intros q. split; [intros H; exists q; split; [exact H|apply reads_refl]|intros (p & H1 & H2); eauto].
  - destruct (move_spec es s b) as (c & Hc & Hi & Hx).
    assert (Hstep : forall q, (exists p, In p s /\ reads es p (b :: w) q) <-> exists p, In p c /\ reads es p w q).
    { intros q. split.
      - intros (p & Hp & H). apply reads_cons in H as (r & r' & H1 & H2 & H3). exists r'. split; [|exact H3].
        apply Hx. exists r, r'. split; [eauto|]. split; [exact H2|apply reads_refl].
      - intros (p & Hp & H). apply Hx in Hp as (r & r' & H1 & H2 & H3). exists r. split; [exact H1|].
        apply reads_cons. exists r, r'. split; [apply reads_refl|]. split; [exact H2|].
        change w with ([] ++ w). eapply reads_app; eauto. }
    assert (Ht : match find_tr tr i b with None => c = [] | Some d => c <> [] /\ nth_error sets d = Some c end).
    { destruct (N.lt_ge_cases b cSizeOfByte) as [Hlt|Hge].
      - apply (iv_done _ _ _ _ I i s b Hs); [intros []|apply all_bytes_in; exact Hlt|exact Hc].
      - destruct (find_tr tr i b) as [d|] eqn:Ef.
        + apply find_tr_in in Ef. apply (iv_tr _ _ _ _ I) in Ef. destruct Ef as (_ & Ef).
          apply all_bytes_in in Ef. lia.
        + destruct c as [|x c]; [reflexivity|]. destruct (proj1 (Hx x) (or_introl eq_refl)) as (p & r & _ & (lo & hi & He & Hb) & _).
          specialize (Hhi _ _ _ He). cbn in Hhi. lia. }
    destruct (find_tr tr i b) as [d|] eqn:Ef.
    + destruct Ht as (Hne & Hd). specialize (IH d c Hd).
      assert (Hccl : forall p q, In p c -> reads es p [] q -> In q c).
      { intros p q Hp Hr. apply Hx in Hp as (a & r & H1 & H2 & H3). apply Hx. exists a, r.
        split; [exact H1|]. split; [exact H2|]. change (@nil N) with (@nil N ++ []). eapply reads_app; eauto. }
      specialize (IH Hccl). destruct (run _ d w) as [j|] eqn:Er.
      * destruct IH as (s' & H1 & H2 & H3 & H4). exists s'. split; [exact H1|]. split; [exact H2|].
        split; [exact H3|]. intros q. rewrite H4, Hstep. reflexivity.
      * intros p q Hp Hr. destruct (proj1 (Hstep q) (ex_intro _ p (conj Hp Hr))) as (r & H1 & H2).
        exact (IH r q H1 H2).
    + intros p q Hp Hr. destruct (proj1 (Hstep q) (ex_intro _ p (conj Hp Hr))) as (r & H1 & H2).
      rewrite Ht in H1. destruct H1.
Qed.
