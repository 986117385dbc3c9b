(** LrTerm.v -- LALR1Parser::generate ends for every well-formed grammar. *)
From Verif Require Import Base OrdSet GrammarSpec FirstModel FirstProofs LrModel LrSets LrTable.

(** ** The keys of m_firsts. *)
Definition keyed (fs : fmap) (x : N) : Prop := fget fs x <> None.
Lemma keyed_fset m x v y : keyed (fset m x v) y <-> y = x \/ keyed m y.
Proof.
  unfold keyed. induction m as [|[z w] r IH]; cbn.
  - destruct (N.eqb_spec y x); intuition congruence.
  - destruct (N.eqb_spec x z) as [-> | Hxz]; cbn.
    + destruct (N.eqb_spec y z); intuition congruence.
    + destruct (N.eqb_spec y z) as [-> | Hyz]; [|exact IH]. intuition congruence.
Qed.
Lemma first_body_keys nul h body : forall fs y, keyed fs y -> keyed (fst (first_body nul h body fs)) y.
Proof.
  induction body as [|s r IH]; intros fs y H; cbn [first_body]; [exact H|]. cbv zeta.
  set (fs1 := fset fs s _). set (fs2 := fset fs1 h _).
  assert (K : keyed fs2 y) by (unfold fs2, fs1; rewrite !keyed_fset; auto).
  destruct (omem N.compare s nul); [now apply IH|exact K].
Qed.
Lemma first_step_keys st p : (forall y, keyed (f_firsts st) y -> keyed (f_firsts (first_step st p)) y) /\
  keyed (f_firsts (first_step st p)) (p_head p).
Proof.
  assert (Ho : forall h s, f_firsts (or_insert h s) = f_firsts s) by (intros h s; unfold or_insert; now destruct (f_changed s)).
  assert (G : forall y, y = p_head p \/ keyed (f_firsts st) y -> keyed (f_firsts (first_step st p)) y).
  { intros y Hy. unfold first_step. cbv zeta. destruct (p_body p) as [|s r].
    - rewrite Ho. cbn [f_firsts]. now apply keyed_fset.
    - destruct (first_body (f_null st) (p_head p) (s :: r) _) as [fs1 whole] eqn:E. cbn [f_firsts].
      change fs1 with (fst (fs1, whole)). rewrite <- E. apply first_body_keys. now apply keyed_fset. }
  split; [intros y Hy; apply G; now right|apply G; now left].
Qed.
Lemma first_fold_keys ps : forall st, (forall y, keyed (f_firsts st) y -> keyed (f_firsts (fold_left first_step ps st)) y) /\
  forall p, In p ps -> keyed (f_firsts (fold_left first_step ps st)) (p_head p).
Proof.
  induction ps as [|q ps IH]; intros st; cbn [fold_left]; [split; [easy|intros p []]|].
  destruct (first_step_keys st q) as (A & B). destruct (IH (first_step st q)) as (A' & B').
  split; [auto|]. intros p [<- | Hp]; auto.
Qed.
Lemma first_loop_keys ps fuel : forall nul fs nul' fs', first_loop fuel ps nul fs = Ret (nul', fs') ->
  (forall y, keyed fs y -> keyed fs' y) /\ forall p, In p ps -> keyed fs' (p_head p).
Proof.
  induction fuel as [|fuel IH]; intros nul fs nul' fs'; cbn [first_loop]; [easy|]. cbv zeta.
  destruct (first_fold_keys ps (mkF false nul fs)) as (A & B). cbn [f_firsts] in A.
  destruct (f_changed _).
  - intros H. apply IH in H. destruct H as (A' & B'). auto.
  - intros [= _ <-]. auto.
Qed.
Lemma first_init_keys T t : In t T -> keyed (first_init T) t.
Proof.
  unfold first_init.
  assert (G : forall T m t, keyed m t \/ In t T ->
    keyed (fold_left (fun m t => match fget m t with Some _ => m | None => fset m t [t] end) T m) t).
  { clear. induction T as [|x T IH]; intros m t H; cbn [fold_left]; [now destruct H|]. apply IH.
    destruct H as [H | [<- | H]]; auto.
    - left. destruct (fget m x); [easy|]. apply keyed_fset. now right.
    - left. destruct (fget m x) eqn:E; [unfold keyed; congruence|]. apply keyed_fset. now left. }
  intros H. apply G. now right.
Qed.

(** ** Closures over a finite universe. *)
Lemma sorted_len (l U : list item) : sortedI l -> incl l U -> (length l <= length U)%nat.
Proof. intros Hs Hi. apply NoDup_incl_length; [|easy]. exact (osorted_NoDup icmp icmp_eq l Hs). Qed.
Section CloseTotal.
  Variables (succ : item -> out (list item)) (U : list item).
  Hypothesis Hsucc : forall x, In x U -> exists l, succ x = Ret l /\ incl l U.
  Definition width : nat := list_max (map (fun x => match succ x with Ret l => length l | _ => O end) U).
  Lemma width_le x l : In x U -> succ x = Ret l -> (length l <= width)%nat.
  Proof.
    intros Hx E. unfold width. pose proof (proj1 (list_max_le (map (fun x => match succ x with Ret l => length l | _ => O end) U) _) (Nat.le_refl _)) as H.
    rewrite Forall_forall in H. apply H. apply in_map_iff. exists x. now rewrite E.
  Qed.
  Lemma close_total fuel : forall q acc, sortedI acc -> incl acc U -> incl q U ->
    (length q + (length U - length acc) * S width < fuel)%nat -> exists C, close fuel succ q acc = Ret C /\ incl C U.
  Proof.
    induction fuel as [|fuel IH]; intros q acc Hs Ha Hq Hf; [destruct (Nat.nlt_0_r _ Hf)|]. cbn [close].
    destruct q as [|it q]; [now exists acc|]. cbn [length] in Hf.
    assert (Hit : In it U) by (apply Hq; now left). assert (Hq' : incl q U) by (intros x Hx; apply Hq; now right).
    destruct (omem icmp it acc) eqn:E; [apply IH; auto; apply Nat.succ_lt_mono in Hf; exact Hf|].
    destruct (Hsucc it Hit) as (l & El & Hl). rewrite El. cbn [bind]. pose proof (width_le it l Hit El) as Hw.
    assert (Hs' : sortedI (oins icmp it acc)) by now apply sorted_oinsI.
    assert (Ha' : incl (oins icmp it acc) U) by (intros x Hx; apply In_oinsI in Hx; destruct Hx as [-> | Hx]; auto).
    apply IH; auto.
    - intros x Hx. rewrite rev_append_rev in Hx. apply in_app_or in Hx. destruct Hx as [Hx | Hx]; [|auto].
      apply Hl. now apply in_rev.
    - pose proof (sorted_len _ _ Hs' Ha') as L. rewrite oins_length, E in L |- *.
      rewrite rev_append_rev, app_length, rev_length.
      replace (length U - length acc)%nat with (S (length U - S (length acc)))%nat in Hf by lia.
      set (a := (length U - S (length acc))%nat) in *. set (w := S width) in *.
      assert (E2 : (S a * w = w + a * w)%nat) by reflexivity. rewrite E2 in Hf. assert (length l < w)%nat by (unfold w; lia).
      set (b := (a * w)%nat) in *. lia.
  Qed.
  Definition room : nat := S (length U + length U * S width).
  Lemma closure_total fuel K : (room <= fuel)%nat -> sortedI K -> incl K U ->
    exists C, close fuel succ (rev K) [] = Ret C /\ incl C U.
  Proof.
    intros Hf Hs Hi. apply close_total; [constructor|intros x []| |].
    - intros x Hx. apply Hi. now apply in_rev.
    - rewrite rev_length. cbn [length]. pose proof (sorted_len _ _ Hs Hi). unfold room in Hf. rewrite Nat.sub_0_r. set (b := (length U * S width)%nat) in *. lia.
  Qed.
End CloseTotal.

(** ** Sorted lists over a finite universe. *)
Fixpoint pow (l : list item) : list (list item) :=
  match l with [] => [[]] | x :: r => pow r ++ map (cons x) (pow r) end.
Lemma pow_in : forall U K, sortedI U -> sortedI K -> incl K U -> In K (pow U).
Proof.
  induction U as [|x U IH]; intros K HU HK Hi.
  - destruct K as [|y K]; [now left|]. destruct (Hi y). now left.
  - inversion HU as [|x' U' HU' Hx E1]; subst. cbn [pow]. apply in_or_app.
    destruct K as [|y K]; [left; apply IH; [easy|constructor|intros z []]|].
    inversion HK as [|y' K' HK' Hy E1]; subst.
    assert (Hlt : forall a b, icmp a b = Lt -> icmp b a = Lt -> False).
    { intros a b H1 H2. rewrite icmp_opp, H1 in H2. discriminate H2. }
    destruct (Hi y (or_introl eq_refl)) as [<- | HyU].
    + right. apply in_map. apply IH; [easy|easy|]. intros z Hz. destruct (Hi z (or_intror Hz)) as [<- | H]; [|easy].
      exfalso. apply Hy in Hz. exact (Hlt _ _ Hz Hz).
    + left. apply IH; [easy|easy|]. intros z Hz. destruct (Hi z Hz) as [<- | H]; [|easy]. exfalso.
      pose proof (Hx _ HyU) as L. destruct Hz as [-> | Hz]; [exact (Hlt _ _ L L)|]. apply Hy in Hz. exact (Hlt _ _ L Hz).
Qed.

(** ** The universe of items. *)
Definition uni (g : grammar) (L : list N) : list item :=
  flat_map (fun i => flat_map (fun d => map (mkItem (N.of_nat i) (N.of_nat d)) L)
                              (seq 0 (S (length (body_at g (N.of_nat i)))))) (seq 0 (length (g_prods g))).
Lemma uni_in g L it : In it (uni g L) <-> valid_item g it /\ In (i_la it) L.
Proof.
  unfold uni, valid_item. rewrite in_flat_map. split.
  - intros (i & Hi & H). apply in_flat_map in H. destruct H as (d & Hd & H). apply in_map_iff in H.
    destruct H as (l & <- & Hl). apply in_seq in Hi, Hd. cbn [i_prod i_dot i_la]. split; [split; lia|easy].
  - intros ((H1 & H2) & H3). exists (N.to_nat (i_prod it)). split; [apply in_seq; lia|].
    apply in_flat_map. exists (N.to_nat (i_dot it)). rewrite !N2Nat.id. split; [apply in_seq; lia|].
    apply in_map_iff. exists (i_la it). split; [now destruct it|easy].
Qed.

Section Ends.
  Variables (g : grammar) (start : N).
  Hypothesis Hwf : wf_grammar g start.
  Notation T := (g_terms g).
  Let U0 := uni g [cNullSymbol].
  Let U1 := uni g (cNullSymbol :: T).

  Lemma prod_in it : i_prod it < N.of_nat (length (g_prods g)) -> In (prod_at g (i_prod it)) (g_prods g).
  Proof. intros H. unfold prod_at. apply nth_In. lia. Qed.
  Lemma skip_in {B} n (l : list B) x : In x (skipn n l) -> In x l.
  Proof. intros H. rewrite <- (firstn_skipn n l). apply in_or_app. now right. Qed.
  Lemma next_known it : valid_item g it -> at_end g it = false -> In (next_symbol g it) T \/ In (next_symbol g it) (g_nts g).
  Proof.
    intros (H1 & H2) H3. unfold at_end in H3. apply N.eqb_neq in H3.
    refine (proj1 (wg_body _ _ Hwf (prod_at g (i_prod it)) (next_symbol g it) (prod_in it H1) _)).
    unfold next_symbol, body_at in *. apply nth_In. lia.
  Qed.
  Lemma prods_nonempty X : In X (g_nts g) -> exists p ps, prods_of g X = p :: ps.
  Proof.
    intros H. apply (wg_nts _ _ Hwf) in H. destruct H as (p & Hp & E). apply In_nth_error in Hp. destruct Hp as (k & Hk).
    assert (Hin : In (N.of_nat k) (prods_of g X)).
    { apply prods_of_spec. assert (k < length (g_prods g))%nat by (apply nth_error_Some; congruence). split; [lia|].
      unfold prod_at. rewrite Nat2N.id, (nth_error_nth _ _ _ Hk). exact E. }
    destruct (prods_of g X) as [|a l]; [destruct Hin|]. now exists a, l.
  Qed.
  Lemma token_in X : is_token g X = false -> ~ In X T.
  Proof. unfold is_token. intros H K. assert (existsb (N.eqb X) T = true); [|congruence]. apply existsb_exists. exists X. split; [easy|apply N.eqb_refl]. Qed.
  Lemma prods_valid it p : In p (prods_of g (next_symbol g it)) -> p < N.of_nat (length (g_prods g)).
  Proof. intros H. now apply prods_of_spec in H. Qed.

  Lemma lr0_succ_total it : In it U0 -> exists l, lr0_succ g it = Ret l /\ incl l U0.
  Proof.
    intros H. apply uni_in in H. destruct H as (Hv & Hl). unfold lr0_succ.
    destruct (at_end g it) eqn:E1; [exists []; split; [easy|intros x []]|].
    destruct (is_token g (next_symbol g it)) eqn:E2; [exists []; split; [easy|intros x []]|].
    destruct (next_known it Hv E1) as [K | K]; [now apply token_in in E2|].
    destruct (prods_nonempty _ K) as (p & ps & Ep). pose proof (prods_valid it) as Hpv. rewrite Ep in *.
    eexists. split; [reflexivity|]. intros x Hx. change (mkItem p 0 cNullSymbol :: map (fun p0 => mkItem p0 0 cNullSymbol) ps) with (map (fun p0 => mkItem p0 0 cNullSymbol) (p :: ps)) in Hx.
    apply in_map_iff in Hx. destruct Hx as (q & <- & Hq).
    apply uni_in. split; [|now left]. split; cbn [i_prod i_dot]; [now apply Hpv|lia].
  Qed.

  Variables (nul : list N) (fs : fmap).
  Hypothesis Hkeys : forall X, In X T \/ In X (g_nts g) -> keyed fs X.
  Hypothesis Hvals : forall X t, In t (fref fs X) -> In t T.
  Lemma lookaheads_total : forall rest la, (forall s, In s rest -> keyed fs s) ->
    exists l, lookaheads nul fs rest la = Ret l /\ forall x, In x l -> x = la \/ In x T.
  Proof.
    induction rest as [|s r IH]; intros la Hk; cbn [lookaheads].
    - exists [la]. split; [easy|]. intros x [<- | []]. now left.
    - assert (Hs : keyed fs s) by (apply Hk; now left). unfold keyed in Hs.
      destruct (fget fs s) as [f|] eqn:E; [|easy].
      assert (Hf : forall x, In x f -> In x T) by (intros x Hx; apply (Hvals s); unfold fref; now rewrite E).
      destruct (omem N.compare s nul).
      + destruct (IH la) as (l & -> & Hl); [intros y Hy; apply Hk; now right|]. cbn [bind].
        exists (f ++ l). split; [easy|]. intros x Hx. apply in_app_or in Hx. destruct Hx; auto.
      + exists f. auto.
  Qed.
  Lemma lr1_succ_total it : In it U1 -> exists l, lr1_succ g nul fs it = Ret l /\ incl l U1.
  Proof.
    intros H. apply uni_in in H. destruct H as (Hv & Hl). unfold lr1_succ.
    destruct (at_end g it) eqn:E1; [exists []; split; [easy|intros x []]|].
    destruct (is_token g (next_symbol g it)) eqn:E2; [exists []; split; [easy|intros x []]|].
    destruct (next_known it Hv E1) as [K | K]; [now apply token_in in E2|].
    destruct (prods_nonempty _ K) as (p & ps & Ep). pose proof (prods_valid it) as Hpv.
    destruct (lookaheads_total (skipn (S (N.to_nat (i_dot it))) (body_at g (i_prod it))) (i_la it)) as (las & -> & Hlas).
    { intros s Hs. apply Hkeys. apply (proj1 (wg_body _ _ Hwf (prod_at g (i_prod it)) s (prod_in it (proj1 Hv))
        (skip_in _ _ _ Hs))). }
    cbn [bind]. rewrite Ep in *. eexists. split; [reflexivity|]. intros x Hx. apply in_flat_map in Hx. destruct Hx as (q & Hq & Hx).
    apply in_map_iff in Hx. destruct Hx as (l & <- & Hla). apply uni_in. cbn [i_la]. split.
    - split; cbn [i_prod i_dot]; [now apply Hpv|lia].
    - destruct (Hlas l Hla) as [-> | HT]; [exact Hl|now right].
  Qed.

  (** *** The LR(0) kernels. *)
  Definition good (K : list item) : Prop := sortedI K /\ incl K U0.
  Definition bound : nat := length (pow (oset icmp U0)).
  Notation keys a := (map fst (k_sets a)).
  Record lr0_ok (a : lr0) (work : list (N * list item)) : Prop := {
    lo_sorted : osorted kcmp (keys a);
    lo_good : forall K, In K (keys a) -> good K;
    lo_work : forall i K, In (i, K) work -> good K }.
  Lemma lo_bound a w : lr0_ok a w -> (length (k_sets a) <= bound)%nat.
  Proof.
    intros H. rewrite <- (map_length fst). apply NoDup_incl_length.
    - exact (osorted_NoDup kcmp kcmp_eq _ (lo_sorted _ _ H)).
    - intros K HK. destruct (lo_good _ _ H K HK) as (Hs & Hi). apply pow_in; [apply sorted_osetI|exact Hs|].
      intros x Hx. apply In_osetI. now apply Hi.
  Qed.
  Lemma goto_good C X : incl C U0 -> good (goto_kernel g C X).
  Proof.
    intros HC. split; [apply sorted_osetI|]. intros x Hx. unfold goto_kernel in Hx. apply (proj1 (In_osetI _ _)) in Hx.
    apply in_map_iff in Hx. destruct Hx as (it & <- & Hf). apply filter_In in Hf. destruct Hf as (Hin & Hf).
    apply andb_true_iff in Hf. destruct Hf as (Hf & _). apply negb_true_iff in Hf. unfold at_end in Hf. apply N.eqb_neq in Hf.
    apply HC in Hin. apply uni_in in Hin. destruct Hin as ((V1 & V2) & V3). apply uni_in. split; [|exact V3].
    split; cbn [advance i_prod i_dot]; [exact V1|]. unfold body_at in *. cbn [i_prod]. lia.
  Qed.
  Lemma go_to_total i C X a w a' w' : incl C U0 -> lr0_ok a w -> go_to g i C (a, w) X = (a', w') ->
    lr0_ok a' w' /\ (length w' + length (k_sets a) = length w + length (k_sets a'))%nat.
  Proof.
    intros HC H. unfold go_to. pose proof (goto_good C X HC) as Hg.
    destruct (goto_kernel g C X) as [|it0 K0]; [intros [= <- <-]; split; [easy|lia]|].
    destruct (kfind (it0 :: K0) (k_sets a)) as [j|] eqn:Ef.
    - intros [= <- <-]. cbn [k_sets]. split; [|lia]. destruct H. constructor; auto.
    - intros [= <- <-]. cbn [k_sets length].
      pose proof (kfind_none _ _ (lo_sorted _ _ H) Ef) as Hn. rewrite kins_length by exact Hn. split; [|lia].
      destruct H. constructor; cbn [k_sets].
      + now apply kins_sorted.
      + intros K HK. rewrite kins_keys in HK. apply (In_oins kcmp kcmp_eq) in HK. destruct HK as [-> | HK]; auto.
      + intros i' K [[= <- <-] | HK]; [easy|]. eauto.
  Qed.
  Lemma go_to_fold_total i C : forall Xs a w a' w', incl C U0 -> lr0_ok a w -> fold_left (go_to g i C) Xs (a, w) = (a', w') ->
    lr0_ok a' w' /\ (length w' + length (k_sets a) = length w + length (k_sets a'))%nat.
  Proof.
    induction Xs as [|X Xs IH]; intros a w a' w' HC H; cbn [fold_left]; [intros [= <- <-]; split; [easy|lia]|].
    destruct (go_to g i C (a, w) X) as [a1 w1] eqn:E. destruct (go_to_total i C X a w a1 w1 HC H E) as (H1 & L1).
    intros Hf. destruct (IH a1 w1 a' w' HC H1 Hf) as (H2 & L2). split; [easy|lia].
  Qed.
  Definition room0 : nat := room (lr0_succ g) U0.
  Lemma lr0_loop_total cfuel (Hc : (room0 <= cfuel)%nat) fuel : forall w a, lr0_ok a w ->
    (length w + (bound - length (k_sets a)) < fuel)%nat ->
    exists a', lr0_loop fuel cfuel g w a = Ret a' /\ forall K i, In (K, i) (k_sets a') -> good K.
  Proof.
    induction fuel as [|fuel IH]; intros w a H Hf; [destruct (Nat.nlt_0_r _ Hf)|]. cbn [lr0_loop].
    destruct w as [|[i K] w].
    - exists a. split; [easy|]. intros K i HK. apply (lo_good _ _ H). apply in_map_iff. now exists (K, i).
    - destruct (lo_work _ _ H i K (or_introl eq_refl)) as (Ks & Ki).
      destruct (closure_total (lr0_succ g) U0 lr0_succ_total cfuel K Hc Ks Ki) as (C & HC & HCi).
      change (lr0_closure cfuel g K) with (close cfuel (lr0_succ g) (rev K) []). rewrite HC. cbn [bind].
      destruct (fold_left (go_to g i C) (T ++ g_nts g) (a, w)) as [a1 w1] eqn:E.
      assert (H' : lr0_ok a w) by (destruct H; constructor; auto; intros i' K' HK'; apply (lo_work0 i'); now right).
      destruct (go_to_fold_total i C _ a w a1 w1 HCi H' E) as (H1 & L1). apply IH; [easy|].
      pose proof (lo_bound _ _ H1). cbn [length] in Hf. lia.
  Qed.
  Lemma root_good : good [root_item g].
  Proof.
    split; [constructor; [constructor|intros y []]|]. intros x [<- | []]. apply uni_in. split; [|now left].
    destruct (wg_root _ _ Hwf) as (h & Hr & _). assert (N.to_nat (g_root g) < length (g_prods g))%nat by (apply nth_error_Some; congruence).
    split; cbn [root_item i_prod i_dot]; lia.
  Qed.
  Lemma lr0_kernels_total fuel cfuel : (room0 <= cfuel)%nat -> (1 + bound < fuel)%nat ->
    exists a, lr0_kernels fuel cfuel g = Ret a /\ forall K i, In (K, i) (k_sets a) -> good K.
  Proof.
    intros Hc Hf. apply lr0_loop_total; [exact Hc| |cbn [k_sets length]; lia]. constructor; cbn [k_sets map fst].
    - constructor; [constructor|intros ? []].
    - intros K [<- | []]. exact root_good.
    - intros i K [[= <- <-] | []]. exact root_good.
  Qed.

  (** *** Lookaheads. *)
  Definition room1 : nat := room (lr1_succ g nul fs) U1.
  Definition fvals (s : fmap) : Prop := forall X t, In t (fref s X) -> In t T.
  Lemma classify_vals l0 sp l1 : fvals (fst sp) -> In (i_la l1) (cNullSymbol :: T) -> fvals (fst (classify g l0 sp l1)).
  Proof.
    destruct sp as [s p]. intros Hv Hl. unfold classify. destruct (N.eqb_spec (i_la l1) cNullSymbol) as [e|n]; cbn [negb].
    - destruct (_ <? _); exact Hv.
    - cbn [fst] in *. intros X t. rewrite fref_fset. destruct (N.eqb_spec X (i_prod l1)) as [->|_]; [|apply Hv].
      intros H. apply In_oinsN in H. destruct H as [-> | H]; [|now apply Hv in H]. destruct Hl as [Hl | Hl]; [congruence|easy].
  Qed.
  Lemma classify_fold_vals l0 C : forall sp, fvals (fst sp) -> incl C U1 -> fvals (fst (fold_left (classify g l0) C sp)).
  Proof.
    induction C as [|x C IH]; intros sp Hv Hi; cbn [fold_left]; [easy|]. apply IH; [|intros y Hy; apply Hi; now right].
    apply classify_vals; [easy|]. assert (Hx : In x U1) by (apply Hi; now left). apply uni_in in Hx. tauto.
  Qed.
  Lemma U0_U1 it : In it U0 -> In it U1.
  Proof. intros H. apply uni_in in H. apply uni_in. destruct H as (H & [<- | []]). split; [easy|now left]. Qed.
  Lemma spread_total cfuel (Hc : (room1 <= cfuel)%nat) : forall its sp, incl its U0 -> fvals (fst sp) ->
    exists sp', spread cfuel g nul fs its sp = Ret sp' /\ fvals (fst sp').
  Proof.
    induction its as [|it its IH]; intros sp Hi Hv; cbn [spread]; [now exists sp|].
    destruct (closure_total (lr1_succ g nul fs) U1 lr1_succ_total cfuel [it] Hc) as (C & HC & HCi).
    - constructor; [constructor|intros y []].
    - intros x [<- | []]. apply U0_U1. apply Hi. now left.
    - change (lr1_closure cfuel g nul fs [it]) with (close cfuel (lr1_succ g nul fs) (rev [it]) []). rewrite HC. cbn [bind].
      apply IH; [intros x Hx; apply Hi; now right|]. now apply classify_fold_vals.
  Qed.
  Definition lvals (m : lmap) : Prop := forall it l, In l (aget m it) -> In l T.
  Lemma la_start_vals s its : fvals s -> lvals (la_start g s its).
  Proof.
    intros Hs. unfold la_start. assert (G : forall m, lvals m -> lvals (fold_left (fun m it =>
      let m1 := aset m it (ounion N.compare (fref s (i_prod it)) (aget m it)) in
      if i_prod it =? g_root g then aset m1 it (oins N.compare TokenEnd (aget m1 it)) else m1) its m)).
    { induction its as [|it its IH]; intros m Hm; cbn [fold_left]; [easy|]. apply IH. cbv zeta.
      set (m1 := aset m it _). assert (H1 : lvals m1).
      { intros x l. unfold m1. rewrite aget_aset. destruct (item_eqb x it); [|apply Hm].
        intros H. apply In_ounionN in H. destruct H as [H | H]; [now apply Hs in H|now apply Hm in H]. }
      destruct (i_prod it =? g_root g); [|exact H1]. intros x l. rewrite aget_aset. destruct (item_eqb x it); [|apply H1].
      intros H. apply In_oinsN in H. destruct H as [-> | H]; [exact (wg_end _ _ Hwf)|now apply H1 in H]. }
    apply G. intros it l [].
  Qed.
  Lemma la_edge_vals from st to : lvals (snd st) -> lvals (snd (la_edge from st to)).
  Proof.
    destruct st as [ch m]. cbn [la_edge snd]. intros Hm x l. rewrite aget_aset. destruct (item_eqb x to); [|apply Hm].
    intros H. apply In_ounionN in H. destruct H as [H | H]; now apply Hm in H.
  Qed.
  (** The sizes of the lookahead sets of a list of items. *)
  Definition weight (L : list item) (m : lmap) : nat := list_sum (map (fun x => length (aget m x)) L).
  Lemma aget_le m m' : lsorted m -> lle m m' -> forall x, (length (aget m x) <= length (aget m' x))%nat.
  Proof. intros Hs Hl x. apply NoDup_incl_length; [apply NoDupN, Hs|]. intros l. apply Hl. Qed.
  Lemma weight_le L m m' : lsorted m -> lle m m' -> (weight L m <= weight L m')%nat.
  Proof.
    intros Hs Hl. unfold weight. induction L as [|x L IH]; cbn [map list_sum fold_right]; [lia|].
    pose proof (aget_le m m' Hs Hl x). unfold list_sum in IH. lia.
  Qed.
  Lemma weight_lt L m m' x : lsorted m -> lle m m' -> In x L -> (length (aget m x) < length (aget m' x))%nat ->
    (weight L m < weight L m')%nat.
  Proof.
    intros Hs Hl. unfold weight. induction L as [|y L IH]; cbn [map list_sum fold_right]; [intros []|].
    intros [-> | Hx] H; pose proof (weight_le L m m' Hs Hl) as W; unfold weight, list_sum in *.
    - lia.
    - pose proof (aget_le m m' Hs Hl y). specialize (IH Hx H). lia.
  Qed.
  Lemma weight_bound L m : lsorted m -> lvals m -> (weight L m <= length L * length T)%nat.
  Proof.
    intros Hs Hv. unfold weight. induction L as [|y L IH]; cbn [map list_sum fold_right length]; [lia|].
    assert (length (aget m y) <= length T)%nat; [|unfold list_sum in IH; lia].
    apply NoDup_incl_length; [apply NoDupN, Hs|]. intros l. apply Hv.
  Qed.
  Definition grows (L : list item) (st st' : bool * lmap) : Prop :=
    lsorted (snd st') /\ lle (snd st) (snd st') /\ (lvals (snd st) -> lvals (snd st')) /\
    (fst st' = true -> fst st = true \/ (weight L (snd st) < weight L (snd st'))%nat).
  Lemma la_edge_grows L from to st : lsorted (snd st) -> In to L -> grows L st (la_edge from st to).
  Proof.
    intros Hs Hin. destruct (la_edge_spec from st to Hs) as (A & B & _). split; [easy|]. split; [easy|].
    split; [apply la_edge_vals|]. destruct st as [ch m]. cbn [la_edge fst snd] in *. intros H.
    apply orb_true_iff in H. destruct H as [H | H]; [now left|right]. apply Nat.ltb_lt in H.
    apply (weight_lt L m _ to Hs B Hin). rewrite aget_aset, item_eqb_refl. exact H.
  Qed.
  Lemma grows_trans L a b c : lsorted (snd a) -> grows L a b -> grows L b c -> grows L a c.
  Proof.
    intros Hs (A1 & A2 & A3 & A4) (B1 & B2 & B3 & B4). split; [easy|]. split; [intros x l Hl; apply B2; now apply A2|].
    split; [auto|]. intros H. destruct (B4 H) as [K | K].
    - destruct (A4 K) as [K2 | K2]; [now left|right]. pose proof (weight_le L _ _ A1 B2). lia.
    - right. pose proof (weight_le L _ _ Hs A2). lia.
  Qed.
  Lemma la_edges_grows L from tos : forall st, lsorted (snd st) -> incl tos L -> grows L st (fold_left (la_edge from) tos st).
  Proof.
    induction tos as [|to tos IH]; intros st Hs Hi; cbn [fold_left].
    - split; [easy|]. split; [intros x l; easy|]. split; [easy|now left].
    - assert (G : grows L st (la_edge from st to)) by (apply la_edge_grows; [easy|apply Hi; now left]).
      apply (grows_trans L st _ _ Hs G). apply IH; [exact (proj1 G)|]. intros x Hx. apply Hi. now right.
  Qed.
  Lemma la_pass_grows L p : forall st, lsorted (snd st) -> incl (flat_map snd p) L ->
    grows L st (fold_left (fun st (kv : item * list item) => fold_left (la_edge (fst kv)) (snd kv) st) p st).
  Proof.
    induction p as [|[from tos] p IH]; intros st Hs Hi; cbn [fold_left fst snd].
    - split; [easy|]. split; [intros x l; easy|]. split; [easy|now left].
    - assert (G : grows L st (fold_left (la_edge from) tos st)) by (apply la_edges_grows; [easy|intros x Hx; apply Hi; cbn; apply in_or_app; now left]).
      apply (grows_trans L st _ _ Hs G). apply IH; [exact (proj1 G)|]. intros x Hx. apply Hi. cbn. apply in_or_app. now right.
  Qed.
  Lemma la_loop_total p fuel : forall m, lsorted m -> lvals m ->
    (length (flat_map snd p) * length T - weight (flat_map snd p) m < fuel)%nat ->
    exists m', la_loop fuel p m = Ret m' /\ lvals m'.
  Proof.
    induction fuel as [|fuel IH]; intros m Hs Hv Hf; [destruct (Nat.nlt_0_r _ Hf)|]. cbn [la_loop].
    pose proof (la_pass_grows (flat_map snd p) p (false, m) Hs (fun x Hx => Hx)) as G. unfold la_pass.
    destruct (fold_left _ p (false, m)) as [ch m1]. destruct G as (G1 & G2 & G3 & G4). cbn [fst snd] in *.
    destruct ch; [|exists m1; auto]. apply IH; auto. destruct (G4 eq_refl) as [K | K]; [discriminate K|].
    pose proof (weight_bound (flat_map snd p) m1 G1 (G3 Hv)).
    set (b := (length (flat_map snd p) * length T)%nat) in *. lia.
  Qed.

  (** *** The LR(1) sets. *)
  Lemma lr1_sets_total cfuel (Hc : (room1 <= cfuel)%nat) m (Hm : lvals m) : forall sets acc root,
    (forall K i, In (K, i) sets -> good K) -> exists r, lr1_sets cfuel g nul fs m sets acc root = Ret r.
  Proof.
    induction sets as [|[K i] sets IH]; intros acc root Hg; cbn [lr1_sets]; [now exists (acc, root)|]. cbv zeta.
    destruct (closure_total (lr1_succ g nul fs) U1 lr1_succ_total cfuel (lr1_kernel m K) Hc) as (C & HC & _).
    - apply sorted_osetI.
    - intros x Hx. apply lr1_kernel_in in Hx. destruct Hx as (y & Hy & E1 & E2 & Hl).
      destruct (Hg K i (or_introl eq_refl)) as (_ & Ki). apply Ki in Hy. apply uni_in in Hy. destruct Hy as ((V1 & V2) & _).
      apply uni_in. split; [|right; now apply Hm in Hl]. unfold valid_item. rewrite E1, E2. auto.
    - change (lr1_closure cfuel g nul fs (lr1_kernel m K)) with (close cfuel (lr1_succ g nul fs) (rev (lr1_kernel m K)) []).
      rewrite HC. cbn [bind]. apply IH. intros K' i' HK. apply (Hg K' i'). now right.
  Qed.
End Ends.

(** ** More fuel changes nothing. *)
Lemma close_mono succ f : forall f' q acc C, (f <= f')%nat -> close f succ q acc = Ret C -> close f' succ q acc = Ret C.
Proof.
  induction f as [|f IH]; intros f' q acc C Hle; [discriminate|]. destruct f' as [|f']; [lia|]. cbn [close].
  destruct q as [|it q]; [easy|]. destruct (omem icmp it acc); [apply IH; lia|].
  destruct (succ it) as [l| | |]; cbn [bind]; try discriminate. apply IH. lia.
Qed.
Lemma lr0_loop_mono g f : forall f' c c' w a r, (f <= f')%nat -> (c <= c')%nat -> lr0_loop f c g w a = Ret r -> lr0_loop f' c' g w a = Ret r.
Proof.
  induction f as [|f IH]; intros f' c c' w a r Hle Hc; [discriminate|]. destruct f' as [|f']; [lia|]. cbn [lr0_loop].
  destruct w as [|[i K] w]; [easy|]. destruct (lr0_closure c g K) as [C| | |] eqn:E; cbn [bind]; try discriminate.
  unfold lr0_closure in *. rewrite (close_mono _ _ _ _ _ _ Hc E). cbn [bind].
  destruct (fold_left _ _ (a, w)) as [a1 w1]. apply IH; lia.
Qed.
Lemma spread_mono g nul fs c c' its : forall sp r, (c <= c')%nat -> spread c g nul fs its sp = Ret r -> spread c' g nul fs its sp = Ret r.
Proof.
  induction its as [|it its IH]; intros sp r Hc; cbn [spread]; [easy|].
  destruct (lr1_closure c g nul fs [it]) as [C| | |] eqn:E; cbn [bind]; try discriminate.
  unfold lr1_closure in *. rewrite (close_mono _ _ _ _ _ _ Hc E). cbn [bind]. now apply IH.
Qed.
Lemma la_loop_mono p f : forall f' m r, (f <= f')%nat -> la_loop f p m = Ret r -> la_loop f' p m = Ret r.
Proof.
  induction f as [|f IH]; intros f' m r Hle; [discriminate|]. destruct f' as [|f']; [lia|]. cbn [la_loop].
  destruct (la_pass p m) as [ch m1]. destruct ch; [|easy]. apply IH. lia.
Qed.
Lemma lr1_sets_mono g nul fs c c' m sets : forall acc root r, (c <= c')%nat ->
  lr1_sets c g nul fs m sets acc root = Ret r -> lr1_sets c' g nul fs m sets acc root = Ret r.
Proof.
  induction sets as [|[K i] sets IH]; intros acc root r Hc; cbn [lr1_sets]; [easy|]. cbv zeta.
  destruct (lr1_closure c g nul fs (lr1_kernel m K)) as [C| | |] eqn:E; cbn [bind]; try discriminate.
  unfold lr1_closure in *. rewrite (close_mono _ _ _ _ _ _ Hc E). cbn [bind]. now apply IH.
Qed.
Lemma first_loop_mono ps f : forall f' nul fs r, (f <= f')%nat -> first_loop f ps nul fs = Ret r -> first_loop f' ps nul fs = Ret r.
Proof.
  induction f as [|f IH]; intros f' nul fs r Hle; [discriminate|]. destruct f' as [|f']; [lia|]. cbn [first_loop]. cbv zeta.
  destruct (f_changed _); [|easy]. apply IH. lia.
Qed.

(** ** generate ends. *)
Section Generate.
  Variables (g : grammar) (start : N).
  Hypothesis Hwf : wf_grammar g start.
  Theorem item_sets_total : exists F s, forall fuel cfuel, (F <= fuel)%nat -> (F <= cfuel)%nat -> item_sets fuel cfuel g = Ret s.
  Proof.
    set (F0 := S (length (g_prods g) * S (length (g_terms g)))).
    destruct (first_sets_exact g F0 (Nat.lt_succ_diag_r _)) as (nul & fs & Hfs & _ & _ & Hb).
    assert (Hvals : forall X t, In t (fref fs X) -> In t (g_terms g)) by (intros X t H; apply Hb in H; now destruct H).
    assert (Hkeys : forall X, In X (g_terms g) \/ In X (g_nts g) -> keyed fs X).
    { pose proof Hfs as Hk. unfold first_sets in Hk. apply first_loop_keys in Hk. destruct Hk as (A & B). intros X [H | H].
      - apply A. now apply first_init_keys.
      - apply (wg_nts _ _ Hwf) in H. destruct H as (p & Hp & <-). auto. }
    set (C := Nat.max (room0 g) (room1 g nul fs)). set (F1 := S (1 + bound g)).
    destruct (lr0_kernels_total g start Hwf fs Hkeys Hvals F1 C (Nat.le_max_l _ _) (Nat.lt_succ_diag_r _)) as (a & Ha & Hgood).
    assert (Hits : incl (flat_map fst (k_sets a)) (uni g [cNullSymbol])).
    { intros x Hx. apply in_flat_map in Hx. destruct Hx as ([K i] & HK & Hx). exact (proj2 (Hgood K i HK) x Hx). }
    destruct (spread_total g start Hwf nul fs Hkeys Hvals C (Nat.le_max_r _ _) (flat_map fst (k_sets a)) ([], []) Hits)
      as (sp & Hsp & Hspv); [intros X t []|].
    pose proof (la_start_vals g start Hwf (fst sp) (flat_map fst (k_sets a)) Hspv) as Hlv.
    pose proof (proj1 (la_start_spec g (fst sp) (flat_map fst (k_sets a)))) as Hls.
    set (F2 := S (length (flat_map snd (snd sp)) * length (g_terms g))).
    destruct (la_loop_total g start fs Hkeys Hvals (snd sp) F2 _ Hls Hlv) as (m & Hm & Hmv).
    { unfold F2. set (b := (length (flat_map snd (snd sp)) * length (g_terms g))%nat). lia. }
    destruct (lr1_sets_total g start Hwf nul fs Hkeys Hvals C (Nat.le_max_r _ _) m Hmv (k_sets a) [] None Hgood) as (sr & Hsr).
    exists (F0 + F1 + F2 + C)%nat, (fst sr, k_goto a, snd sr). intros fuel cfuel Hf Hc. unfold item_sets, lr0_kernels, first_sets.
    assert (HcC : (C <= cfuel)%nat) by (clear - Hc; lia).
    rewrite (lr0_loop_mono g F1 fuel C cfuel _ _ a ltac:(clear - Hf; lia) HcC Ha). cbn [bind].
    rewrite (first_loop_mono (g_prods g) F0 fuel _ _ (nul, fs) ltac:(clear - Hf; lia) Hfs). cbn [bind].
    rewrite (spread_mono g nul fs C cfuel _ _ sp HcC Hsp). cbn [bind].
    rewrite (la_loop_mono (snd sp) F2 fuel _ m ltac:(clear - Hf; lia) Hm). cbn [bind].
    rewrite (lr1_sets_mono g nul fs C cfuel m _ _ _ sr HcC Hsr). reflexivity.
  Qed.
  (** The table itself is built without loops that could run forever. *)
  Lemma all_actions_ends all gt : forall sets, all_actions g all gt sets <> OutOfFuel.
  Proof.
    assert (H1 : forall i a it, add_action g all gt i a it <> OutOfFuel).
    { intros i a it. unfold add_action. destruct (negb (at_end g it)).
      - destruct (_ && _); [discriminate|]. destruct (_ <=? _); [discriminate|]. destruct (next_of _ _ _ _); [|discriminate].
        destruct (act_at _ _); [discriminate| |discriminate]. destruct (_ =? _); discriminate.
      - destruct (_ =? _); [discriminate|]. destruct (_ <=? _); [discriminate|]. destruct (act_at _ _); discriminate. }
    assert (H2 : forall i its a, set_actions g all gt i its a <> OutOfFuel).
    { intros i. induction its as [|it its IH]; intros a; cbn [set_actions]; [discriminate|]. specialize (H1 i a it).
      destruct (add_action g all gt i a it); cbn [bind]; try discriminate; [apply IH|congruence]. }
    induction sets as [|[K s] sets IH]; cbn [all_actions]; [discriminate|]. specialize (H2 (s_index s) (s_closure s) []).
    destruct (set_actions _ _ _ _ _ _); cbn [bind]; try discriminate; [|congruence].
    destruct (all_actions g all gt sets); cbn [bind]; try discriminate. congruence.
  Qed.
  Theorem generate_ends : exists F r, r <> OutOfFuel /\ forall fuel cfuel, (F <= fuel)%nat -> (F <= cfuel)%nat -> generate fuel cfuel g = r.
  Proof.
    destruct item_sets_total as (F & [[sets gt] root] & H).
    exists F, (do t <- all_actions g sets gt sets; Ret (t, root)). split.
    - pose proof (all_actions_ends sets gt sets). destruct (all_actions g sets gt sets); cbn [bind]; try discriminate. congruence.
    - intros fuel cfuel Hf Hc. unfold generate. now rewrite (H fuel cfuel Hf Hc).
  Qed.
End Generate.
