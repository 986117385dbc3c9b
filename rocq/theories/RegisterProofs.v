(** RegisterProofs.v -- the prefix tree implements registers as lists of cells. *)
From Verif Require Import Base RegisterModel RegisterSpec.
Local Open Scope nat_scope.

Lemma upd_length {A} (l : list A) i f : length (upd l i f) = length l.
Proof. revert i; induction l as [|x l IH]; intros [|i]; cbn; auto. Qed.
Lemma upd_nth_error {A} (l : list A) i f j :
  nth_error (upd l i f) j = if Nat.eqb i j then option_map f (nth_error l j) else nth_error l j.
Proof.
  revert i j; induction l as [|x l IH]; intros i j.
  - destruct i; cbn; destruct j; cbn; try reflexivity. destruct (Nat.eqb i j); reflexivity.
  - destruct i as [|i], j as [|j]; cbn; try reflexivity. apply IH.
Qed.
Lemma upd_app_l {A} (l r : list A) i f : i < length l -> upd (l ++ r) i f = upd l i f ++ r.
Proof. revert i; induction l as [|x l IH]; intros [|i] H; cbn in *; try lia; auto. f_equal. apply IH. lia. Qed.
Lemma upd_map {A B} (g : A -> B) l i f f' : (forall x, nth_error l i = Some x -> g (f x) = f' (g x)) -> map g (upd l i f) = upd (map g l) i f'.
Proof.
  revert i; induction l as [|x l IH]; intros [|i] H; cbn; auto.
  - rewrite (H x); reflexivity.
  - f_equal. apply IH. intros y Hy. apply H. exact Hy.
Qed.
Lemma upd_ext {A} (l : list A) i f g : (forall x, nth_error l i = Some x -> f x = g x) -> upd l i f = upd l i g.
Proof.
  revert i; induction l as [|x l IH]; intros [|i] H; cbn; auto.
  - rewrite (H x); reflexivity.
  - f_equal. apply IH. intros y Hy. apply H. exact Hy.
Qed.
Lemma Forall2_upd {A B} (R : A -> B -> Prop) l r i x y : Forall2 R l r -> R x y -> Forall2 R (upd l i (fun _ => x)) (upd r i (fun _ => y)).
Proof. intros H Hxy. revert i; induction H; intros [|i]; cbn; constructor; auto. Qed.
Lemma Forall2_nth {A B} (R : A -> B -> Prop) l r i : Forall2 R l r ->
  match nth_error l i, nth_error r i with Some x, Some y => R x y | None, None => True | _, _ => False end.
Proof. intros H; revert i; induction H; intros [|i]; cbn; auto. apply IHForall2. Qed.
Lemma nth_error_lt {A} (l : list A) i x : nth_error l i = Some x -> i < length l.
Proof. intros H. apply nth_error_Some. congruence. Qed.
Lemma nth_error_app_l {A} (l r : list A) i x : nth_error l i = Some x -> nth_error (l ++ r) i = Some x.
Proof. intros H. rewrite nth_error_app1; [exact H|eapply nth_error_lt; eauto]. Qed.
Lemma nth_error_app_end {A} (l : list A) x : nth_error (l ++ [x]) (length l) = Some x.
Proof. rewrite nth_error_app2 by lia. rewrite Nat.sub_diag. reflexivity. Qed.
Lemma Forall2_imp {A B} (R S : A -> B -> Prop) l r : (forall x y, R x y -> S x y) -> Forall2 R l r -> Forall2 S l r.
Proof. intros H; induction 1; constructor; auto. Qed.

Lemma list_ext {A} (l r : list A) : (forall i, nth_error l i = nth_error r i) -> l = r.
Proof.
  revert r; induction l as [|x l IH]; intros [|y r] H; auto; try (specialize (H 0); discriminate).
  f_equal; [specialize (H 0); cbn in H; congruence|]. apply IH. intros i. apply (H (S i)).
Qed.

Record reg_inv (h : handler) (s : cells) : Prop := {
  ri_len : length (h_tree h) = length (c_made s);
  ri_val : length (c_made s) = S (length (c_val s));
  ri_root : nth_error (h_tree h) 0 = Some (mkNode None (-1)%Z);
  ri_root' : nth_error (c_made s) 0 = Some [];
  ri_node : forall k, k < length (c_val s) -> exists p hp,
    nth_error (h_tree h) (S k) = Some (mkNode (Some p) (nth k (c_val s) 0%Z)) /\ p <= k /\
    nth_error (c_made s) p = Some hp /\ nth_error (c_made s) (S k) = Some (hp ++ [k]);
  ri_regs : Forall2 (fun id hist => id <> 0 /\ nth_error (c_made s) id = Some hist) (h_regs h) (c_regs s) }.

Lemma reg_inv_init : reg_inv handler_init cells_init.
Proof. constructor; cbn; auto. intros k Hk. lia. Qed.

Lemma climb_path h s : reg_inv h s -> forall id n hist fuel, nth_error (h_tree h) id = Some n -> nth_error (c_made s) id = Some hist ->
  id < fuel -> climb fuel (h_tree h) n = Ret (rev (map (fun i => nth i (c_val s) 0%Z) hist)).
Proof.
  intros I. induction id as [id IH] using (well_founded_induction lt_wf). intros n hist fuel Hn Hh Hf.
  destruct fuel as [|fuel]; [lia|]. destruct id as [|k].
  - rewrite (ri_root _ _ I) in Hn. rewrite (ri_root' _ _ I) in Hh. injection Hn as <-. injection Hh as <-. reflexivity.
  - assert (Hk : k < length (c_val s)). { apply nth_error_lt in Hh. rewrite (ri_val _ _ I) in Hh. lia. }
    destruct (ri_node _ _ I k Hk) as (p & hp & E1 & Hp & E2 & E3). rewrite E1 in Hn. injection Hn as <-. rewrite E3 in Hh. injection Hh as <-.
    cbn [climb nd_parent nd_pos].
    destruct (nth_error (h_tree h) p) as [m|] eqn:Em.
    2:{ apply nth_error_None in Em. apply nth_error_lt in E2. rewrite (ri_len _ _ I) in Em. lia. }
    rewrite (IH p ltac:(lia) m hp fuel Em E2 ltac:(lia)). cbn [bind]. rewrite map_app, rev_app_distr. reflexivity.
Qed.

Lemma reg_inv_positions h s r : reg_inv h s ->
  reg_positions h r = match cell_positions s r with Some l => Ret l | None => Throw end.
Proof.
  intros I. unfold reg_positions, reg_at, cell_positions. generalize (Forall2_nth _ _ _ r (ri_regs _ _ I)).
  destruct (nth_error (h_regs h) r) as [id|], (nth_error (c_regs s) r) as [hist|]; try contradiction; [|reflexivity].
  intros (Hid & Hm). cbn [bind option_map]. unfold get_reversed. assert (Hlt := nth_error_lt _ _ _ Hm).
  rewrite <- (ri_len _ _ I) in Hlt. destruct (length (h_tree h) <=? id) eqn:E; [apply Nat.leb_le in E; lia|].
  destruct (nth_error (h_tree h) id) as [n|] eqn:En; [|apply nth_error_None in En; lia].
  apply (climb_path h s I id); auto.
Qed.

Lemma reg_inv_insert t v m regs cregs parent hp pos (h := mkHandler t regs) (s := mkCells v cregs m) : reg_inv h s -> nth_error m parent = Some hp ->
  forall regs' cregs', Forall2 (fun id hist => id <> 0 /\ nth_error (m ++ [hp ++ [length v]]) id = Some hist) regs' cregs' ->
  reg_inv (mkHandler (t ++ [mkNode (Some parent) pos]) regs') (mkCells (v ++ [pos]) cregs' (m ++ [hp ++ [length v]])).
Proof.
  intros [I1 I2 I3 I4 I5 I6] Hp regs' cregs' HF. cbn [h s h_tree h_regs c_val c_regs c_made] in *. constructor; cbn [h_tree h_regs c_val c_regs c_made].
  - rewrite !app_length. cbn. lia.
  - rewrite !app_length. cbn. lia.
  - apply nth_error_app_l. exact I3.
  - apply nth_error_app_l. exact I4.
  - intros k Hk. rewrite app_length in Hk. cbn in Hk. destruct (Nat.eq_dec k (length v)) as [->|Hne].
    + exists parent, hp. split; [|split; [|split]].
      * replace (S (length v)) with (length t) by lia. rewrite nth_error_app_end. rewrite app_nth2 by lia. rewrite Nat.sub_diag. reflexivity.
      * apply nth_error_lt in Hp. lia.
      * apply nth_error_app_l. exact Hp.
      * replace (S (length v)) with (length m) by lia. apply nth_error_app_end.
    + destruct (I5 k ltac:(lia)) as (p & h' & E1 & E2 & E3 & E4). exists p, h'. split; [|split; [exact E2|split]].
      * rewrite app_nth1 by lia. apply nth_error_app_l. exact E1.
      * apply nth_error_app_l. exact E3.
      * apply nth_error_app_l. exact E4.
  - exact HF.
Qed.

Lemma reg_step_ok h s o : reg_inv h s ->
  match cell_step s o with
  | Some s' => exists h', reg_step h o = Ret h' /\ reg_inv h' s'
  | None => reg_step h o = Throw
  end.
Proof.
  intros I. destruct h as [t regs], s as [v cregs m]. destruct o as [parent pos|r pos|d s0|r pos]; cbn [cell_step reg_step h_tree h_regs c_val c_regs c_made].
  - assert (L : length t = length m) by exact (ri_len _ _ I). unfold tree_insert.
    destruct (nth_error m parent) as [hp|] eqn:E.
    + assert (Hlt := nth_error_lt _ _ _ E). destruct (length t <=? parent) eqn:El; [apply Nat.leb_le in El; lia|]. cbn [bind].
      eexists; split; [reflexivity|]. apply (reg_inv_insert t v m regs cregs parent hp pos I E). apply Forall2_app.
      * eapply Forall2_imp; [|exact (ri_regs _ _ I)]. cbn. intros x y (A & B). split; [exact A|]. apply nth_error_app_l. exact B.
      * constructor; [|constructor]. split; [destruct t; [cbn in L; destruct m; [apply nth_error_lt in E; cbn in E; lia|discriminate]|cbn; lia]|].
        rewrite L. apply nth_error_app_end.
    + apply nth_error_None in E. destruct (length t <=? parent) eqn:El; [reflexivity|apply Nat.leb_gt in El; lia].
  - unfold reg_at. cbn [h_regs]. generalize (Forall2_nth _ _ _ r (ri_regs _ _ I)). cbn [h_regs c_regs c_made].
    destruct (nth_error regs r) as [id|], (nth_error cregs r) as [hist|]; try contradiction; [|reflexivity].
    intros (Hid & Hm). cbn [bind]. destruct I as [I1 I2 I3 I4 I5 I6]. cbn [h_tree h_regs c_val c_regs c_made] in *.
    assert (Hlt := nth_error_lt _ _ _ Hm). unfold tree_set. destruct (length t <=? id) eqn:E; [apply Nat.leb_le in E; lia|]. cbn [bind].
    eexists; split; [reflexivity|]. destruct id as [|k]; [congruence|].
    assert (Hk : k < length v) by lia. destruct (I5 k Hk) as (p & hp & E1 & E2 & E3 & E4). rewrite E4 in Hm. injection Hm as <-.
    rewrite last_last. constructor; cbn [h_tree h_regs c_val c_regs c_made]; rewrite ?upd_length; auto.
    + rewrite upd_nth_error. cbn. exact I3.
    + intros j Hj. destruct (I5 j Hj) as (p' & hp' & F1 & F2 & F3 & F4). exists p', hp'. split; [|auto].
      rewrite upd_nth_error. change (Nat.eqb (S k) (S j)) with (Nat.eqb k j). destruct (Nat.eqb_spec k j) as [->|Hne].
      * rewrite F1. cbn [option_map nd_parent]. f_equal. f_equal. symmetry. apply nth_error_nth. rewrite upd_nth_error, Nat.eqb_refl.
        rewrite (nth_error_nth' v 0%Z Hj). reflexivity.
      * rewrite F1. f_equal. f_equal.
        symmetry. apply nth_error_nth. rewrite upd_nth_error. apply Nat.eqb_neq in Hne. rewrite Hne. apply nth_error_nth'. exact Hj.
  - unfold reg_at. cbn [h_regs]. generalize (Forall2_nth _ _ _ s0 (ri_regs _ _ I)) (Forall2_nth _ _ _ d (ri_regs _ _ I)). cbn [h_regs c_regs c_made].
    destruct (nth_error regs s0) as [y|], (nth_error cregs s0) as [hist|]; try contradiction; [|reflexivity].
    destruct (nth_error regs d) as [z|], (nth_error cregs d) as [hd|]; try contradiction; [|reflexivity].
    intros A _. cbn [bind]. eexists; split; [reflexivity|]. destruct I as [I1 I2 I3 I4 I5 I6]. constructor; auto. cbn [h_regs c_regs c_made].
    apply Forall2_upd; [exact I6|exact A].
  - unfold reg_at. cbn [h_regs]. generalize (Forall2_nth _ _ _ r (ri_regs _ _ I)). cbn [h_regs c_regs c_made].
    destruct (nth_error regs r) as [id|], (nth_error cregs r) as [hist|]; try contradiction; [|reflexivity].
    intros (Hid & Hm). cbn [bind]. assert (L : length t = length m) by exact (ri_len _ _ I). assert (Hlt := nth_error_lt _ _ _ Hm).
    unfold tree_insert. destruct (length t <=? id) eqn:El; [apply Nat.leb_le in El; lia|]. cbn [bind].
    eexists; split; [reflexivity|]. apply (reg_inv_insert t v m regs cregs id hist pos I Hm). apply Forall2_upd.
    + eapply Forall2_imp; [|exact (ri_regs _ _ I)]. cbn. intros x y (A & B). split; [exact A|]. apply nth_error_app_l. exact B.
    + split; [lia|]. rewrite L. apply nth_error_app_end.
Qed.

Lemma reg_run_ok ops : forall h s, reg_inv h s ->
  exists h', reg_run h ops = Ret (h', snd (cell_run s ops)) /\ reg_inv h' (fst (cell_run s ops)).
Proof.
  induction ops as [|o ops IH]; intros h s I.
  - exists h. auto.
  - cbn [reg_run cell_run]. assert (H := reg_step_ok h s o I). destruct (cell_step s o) as [s'|].
    + destruct H as (h1 & -> & I1). destruct (IH h1 s' I1) as (hf & -> & I2). cbn [bind]. destruct (cell_run s' ops) as [f bs]. exists hf. auto.
    + rewrite H. destruct (IH h s I) as (hf & -> & I2). cbn [bind]. destruct (cell_run s ops) as [f bs]. exists hf. auto.
Qed.

(** *** The simple view. *)
Definition is_set (o : reg_op) : bool := match o with OpSet _ _ => true | _ => false end.
Definition val_of (v : list Z) (hist : list nat) : list Z := map (fun i => nth i v 0%Z) hist.
Definition bounded (v : list Z) (hist : list nat) : Prop := forall i, In i hist -> i < length v.
Lemma val_of_grow v x hist : bounded v hist -> val_of (v ++ [x]) hist = val_of v hist.
Proof. intros H. apply map_ext_in. intros i Hi. apply app_nth1. apply H. exact Hi. Qed.
Lemma val_of_new v x hist : bounded v hist -> val_of (v ++ [x]) (hist ++ [length v]) = val_of v hist ++ [x].
Proof. intros H. unfold val_of. rewrite map_app. f_equal; [apply val_of_grow; exact H|]. cbn. rewrite app_nth2, Nat.sub_diag by lia. reflexivity. Qed.
Definition all_bounded (s : cells) : Prop := (forall h, In h (c_regs s) -> bounded (c_val s) h) /\ (forall h, In h (c_made s) -> bounded (c_val s) h).
Lemma bounded_grow v x h : bounded v h -> bounded (v ++ [x]) h.
Proof. intros H i Hi. rewrite app_length. apply H in Hi. lia. Qed.
Lemma bounded_new v x h : bounded v h -> bounded (v ++ [x]) (h ++ [length v]).
Proof. intros H i Hi. rewrite app_length. cbn. apply in_app_or in Hi as [Hi|[<-|[]]]; [apply H in Hi|]; lia. Qed.
Lemma in_upd {A} (l : list A) i y x : In x (upd l i (fun _ => y)) -> In x l \/ x = y.
Proof. revert i; induction l as [|z l IH]; intros [|i]; cbn; auto; intros [H|H]; auto. apply IH in H as [H|H]; auto. Qed.
Lemma all_bounded_step s o s' : all_bounded s -> cell_step s o = Some s' -> all_bounded s'.
Proof.
  intros (B1 & B2). destruct o as [parent pos|r pos|d s0|r pos]; cbn [cell_step].
  - destruct (nth_error (c_made s) parent) as [h|] eqn:E; [|discriminate]. intros H; injection H as <-. apply nth_error_In in E.
    split; cbn; intros h' Hh; apply in_app_or in Hh as [Hh|[<-|[]]]; [apply bounded_grow; auto|apply bounded_new; auto|apply bounded_grow; auto|apply bounded_new; auto].
  - destruct (nth_error (c_regs s) r) as [h|] eqn:E; [|discriminate]. intros H; injection H as <-. split; cbn; intros h' Hh i Hi; rewrite upd_length; [apply (B1 h')|apply (B2 h')]; auto.
  - destruct (nth_error (c_regs s) s0) as [h|] eqn:E; [|discriminate]. destruct (nth_error (c_regs s) d); [|discriminate]. intros H; injection H as <-.
    apply nth_error_In in E. split; cbn; auto. intros h' Hh. apply in_upd in Hh as [Hh| ->]; auto.
  - destruct (nth_error (c_regs s) r) as [h|] eqn:E; [|discriminate]. intros H; injection H as <-. apply nth_error_In in E.
    split; cbn; intros h' Hh.
    + apply in_upd in Hh as [Hh| ->]; [apply bounded_grow; auto|apply bounded_new; auto].
    + apply in_app_or in Hh as [Hh|[<-|[]]]; [apply bounded_grow; auto|apply bounded_new; auto].
Qed.
Definition simple_of (s : cells) : simple := mkSimple (map (val_of (c_val s)) (c_regs s)) (map (val_of (c_val s)) (c_made s)).
Lemma map_grow v x l : (forall h, In h l -> bounded v h) -> map (val_of (v ++ [x])) l = map (val_of v) l.
Proof. intros H. apply map_ext_in. intros h Hh. apply val_of_grow. auto. Qed.
Lemma simple_step_ok s o : all_bounded s -> is_set o = false ->
  simple_step (simple_of s) o = simple_of (match cell_step s o with Some s' => s' | None => s end).
Proof.
  intros (B1 & B2). destruct o as [parent pos|r pos|d s0|r pos]; cbn [is_set]; intros E; try discriminate; clear E;
    cbn [simple_step cell_step simple_of s_regs s_made]; rewrite ?nth_error_map.
  - destruct (nth_error (c_made s) parent) as [h|] eqn:E; cbn [option_map]; [|reflexivity]. apply nth_error_In in E.
    unfold simple_of; cbn. rewrite !map_app, (map_grow _ _ (c_regs s)), (map_grow _ _ (c_made s)) by auto. cbn [map]. rewrite val_of_new by auto. reflexivity.
  - destruct (nth_error (c_regs s) s0) as [h|] eqn:E; cbn [option_map]; [|reflexivity]. destruct (nth_error (c_regs s) d); cbn [option_map]; [|reflexivity].
    unfold simple_of; cbn. rewrite (upd_map _ _ _ _ (fun _ => val_of (c_val s) h)) by reflexivity. reflexivity.
  - destruct (nth_error (c_regs s) r) as [h|] eqn:E; cbn [option_map]; [|reflexivity]. apply nth_error_In in E.
    unfold simple_of; cbn. rewrite map_app, (map_grow _ _ (c_made s)) by auto. cbn [map]. rewrite val_of_new by auto.
    rewrite (upd_map _ _ _ _ (fun _ => val_of (c_val s) h ++ [pos])) by (intros; apply val_of_new; auto). rewrite map_grow by auto. reflexivity.
Qed.
Lemma simple_run_ok ops : forall s, all_bounded s -> forallb (fun o => negb (is_set o)) ops = true ->
  fold_left simple_step ops (simple_of s) = simple_of (fst (cell_run s ops)).
Proof.
  induction ops as [|o ops IH]; intros s B H; [reflexivity|]. cbn in H. apply andb_true_iff in H as (H1 & H2). apply negb_true_iff in H1.
  cbn [fold_left cell_run]. rewrite (simple_step_ok s o B H1). destruct (cell_step s o) as [s'|] eqn:E.
  - rewrite IH; [destruct (cell_run s' ops); reflexivity|eapply all_bounded_step; eauto|exact H2].
  - rewrite IH; [destruct (cell_run s ops); reflexivity|exact B|exact H2].
Qed.

(** *** Independent registers. *)
Definition disjoint_regs (l : list (list nat)) : Prop :=
  forall i j a b x, nth_error l i = Some a -> nth_error l j = Some b -> In x a -> In x b -> i = j.
Definition independent (o : reg_op) : bool := match o with OpAdd p _ => Nat.eqb p 0 | OpCopy _ _ => false | _ => true end.
Record indep_inv (s : cells) : Prop := {
  ii_b : all_bounded s;
  ii_d : disjoint_regs (c_regs s);
  ii_n : forall h, In h (c_regs s) -> h <> [] /\ NoDup h;
  ii_r : nth_error (c_made s) 0 = Some [] }.
Lemma nth_error_app_inv {A} (l : list A) x i y : nth_error (l ++ [x]) i = Some y -> nth_error l i = Some y \/ i = length l /\ y = x.
Proof.
  intros H. destruct (lt_eq_lt_dec i (length l)) as [[Hl| ->]|Hl].
  - rewrite nth_error_app1 in H by exact Hl. auto.
  - rewrite nth_error_app_end in H. injection H as <-. auto.
  - apply nth_error_lt in H. rewrite app_length in H. cbn in H. lia.
Qed.
Lemma indep_step_ok s o : indep_inv s -> independent o = true ->
  indep_step (map (val_of (c_val s)) (c_regs s)) o = map (val_of (c_val (match cell_step s o with Some s' => s' | None => s end)))
    (c_regs (match cell_step s o with Some s' => s' | None => s end)) /\
  indep_inv (match cell_step s o with Some s' => s' | None => s end).
Proof.
  intros [(B1 & B2) D Nn Rr] Ho. destruct o as [parent pos|r pos|d s0|r pos]; cbn [independent] in Ho; try discriminate.
  - apply Nat.eqb_eq in Ho. subst parent. cbn [indep_step cell_step]. rewrite Rr. cbn [c_val c_regs c_made app]. split.
    + rewrite map_app, map_grow by auto. f_equal. cbn. rewrite app_nth2, Nat.sub_diag by lia. reflexivity.
    + constructor; cbn [c_val c_regs c_made].
      * apply (all_bounded_step s (OpAdd 0 pos)); [split; auto|]. cbn [cell_step]. rewrite Rr. reflexivity.
      * intros i j a b x Ha Hb Xa Xb. apply nth_error_app_inv in Ha as [Ha|(-> & ->)]; apply nth_error_app_inv in Hb as [Hb|(-> & ->)].
        -- eapply D; eauto.
        -- destruct Xb as [<-|[]]. apply nth_error_In in Ha. apply (B1 a Ha) in Xa. lia.
        -- destruct Xa as [<-|[]]. apply nth_error_In in Hb. apply (B1 b Hb) in Xb. lia.
        -- reflexivity.
      * intros h Hh. apply in_app_or in Hh as [Hh|[<-|[]]]; [auto|]. split; [discriminate|]. repeat constructor; auto.
      * apply nth_error_app_l. exact Rr.
  - cbn [indep_step cell_step]. destruct (nth_error (c_regs s) r) as [h|] eqn:E.
    2:{ split; [|constructor; [split|..]; assumption]. rewrite (upd_ext _ r _ (fun x => x)).
        - clear. generalize (map (val_of (c_val s)) (c_regs s)) as l. intros l. revert r. induction l as [|x l IH]; intros [|r]; cbn; auto. f_equal. apply IH.
        - intros x Hx. rewrite nth_error_map, E in Hx. discriminate. }
    cbn [c_val c_regs c_made]. destruct (Nn h (nth_error_In _ _ E)) as (Hne & Hnd).
    destruct (exists_last Hne) as (h0 & k & ->). rewrite last_last.
    assert (Hk : k < length (c_val s)) by (apply (B1 _ (nth_error_In _ _ E)); apply in_or_app; right; left; reflexivity).
    assert (Hother : forall g, ~ In k g -> val_of (upd (c_val s) k (fun _ => pos)) g = val_of (c_val s) g).
    { intros g Hg. apply map_ext_in. intros i Hi. assert (i <> k) by (intros ->; contradiction).
      destruct (Nat.lt_ge_cases i (length (c_val s))) as [Hl|Hl].
      - apply nth_error_nth. rewrite upd_nth_error. destruct (Nat.eqb_spec k i); [congruence|]. apply nth_error_nth'. exact Hl.
      - rewrite !nth_overflow; auto. rewrite upd_length. exact Hl. }
    split.
    + apply list_ext. intros i. rewrite upd_nth_error, !nth_error_map. destruct (Nat.eqb_spec r i) as [<-|Hri].
      * rewrite E. cbn [option_map]. f_equal. unfold val_of at 1. rewrite map_app. cbn [map]. rewrite removelast_last.
        unfold val_of at 1. rewrite map_app. f_equal.
        -- symmetry. apply Hother. apply NoDup_remove_2 in Hnd. rewrite app_nil_r in Hnd. exact Hnd.
        -- cbn. f_equal. symmetry. apply nth_error_nth. rewrite upd_nth_error, Nat.eqb_refl. rewrite (nth_error_nth' _ 0%Z Hk). reflexivity.
      * destruct (nth_error (c_regs s) i) as [g|] eqn:Eg; [|reflexivity]. cbn [option_map]. f_equal. symmetry. apply Hother. intros Hg. apply Hri.
        eapply D; [exact E|exact Eg| |exact Hg]. apply in_or_app. right. left. reflexivity.
    + constructor; cbn [c_val c_regs c_made]; auto. split; intros g Hg i Hi; cbn in *; rewrite upd_length; [apply (B1 g)|apply (B2 g)]; auto.
  - cbn [indep_step cell_step]. destruct (nth_error (c_regs s) r) as [h|] eqn:E.
    2:{ split; [|constructor; [split|..]; assumption]. rewrite (upd_ext _ r _ (fun x => x)).
        - clear. generalize (map (val_of (c_val s)) (c_regs s)) as l. intros l. revert r. induction l as [|x l IH]; intros [|r]; cbn; auto. f_equal. apply IH.
        - intros x Hx. rewrite nth_error_map, E in Hx. discriminate. }
    cbn [c_val c_regs c_made]. assert (Hin := nth_error_In _ _ E). split.
    + rewrite (upd_map _ _ _ _ (fun _ => val_of (c_val s) h ++ [pos])) by (intros; apply val_of_new; auto). rewrite map_grow by auto.
      apply upd_ext. intros x Hx. rewrite nth_error_map, E in Hx. injection Hx as <-. reflexivity.
    + constructor; cbn [c_val c_regs c_made].
      * apply (all_bounded_step s (OpAppend r pos)); [split; auto|]. cbn [cell_step]. rewrite E. reflexivity.
      * assert (G : forall i a x, nth_error (upd (c_regs s) r (fun _ => h ++ [length (c_val s)])) i = Some a -> In x a ->
            exists a', nth_error (c_regs s) i = Some a' /\ (In x a' \/ i = r /\ x = length (c_val s))).
        { intros i a x Ha Hx. rewrite upd_nth_error in Ha. destruct (Nat.eqb_spec r i) as [<-|Hri].
          - rewrite E in Ha. injection Ha as <-. exists h. split; [exact E|]. apply in_app_or in Hx as [Hx|[<-|[]]]; auto.
          - exists a. auto. }
        intros i j a b x Ha Hb Xa Xb. destruct (G i a x Ha Xa) as (a' & Ha' & Ca). destruct (G j b x Hb Xb) as (b' & Hb' & Cb).
        destruct Ca as [Ca|(Ei & Ex)], Cb as [Cb|(Ej & Ex')]; subst; auto.
        -- eapply D; eauto.
        -- apply nth_error_In in Ha'. apply (B1 _ Ha') in Ca. lia.
        -- apply nth_error_In in Hb'. apply (B1 _ Hb') in Cb. lia.
      * intros g Hg. apply in_upd in Hg as [Hg| ->]; [auto|]. split; [destruct h; discriminate|].
        apply NoDup_Add with (a := length (c_val s)) (l := h).
        -- rewrite <- (app_nil_r h) at 1. apply Add_app.
        -- split; [apply Nn; exact Hin|]. intros Hl. apply (B1 h Hin) in Hl. lia.
      * apply nth_error_app_l. exact Rr.
Qed.
Lemma indep_run_ok ops : forall s, indep_inv s -> forallb independent ops = true ->
  fold_left indep_step ops (map (val_of (c_val s)) (c_regs s)) = map (val_of (c_val (fst (cell_run s ops)))) (c_regs (fst (cell_run s ops))).
Proof.
  induction ops as [|o ops IH]; intros s B H; [reflexivity|]. cbn in H. apply andb_true_iff in H as (H1 & H2).
  cbn [fold_left cell_run]. destruct (indep_step_ok s o B H1) as (-> & B'). destruct (cell_step s o) as [s'|] eqn:E.
  - rewrite IH by assumption. destruct (cell_run s' ops); reflexivity.
  - rewrite IH by assumption. destruct (cell_run s ops); reflexivity.
Qed.
Lemma indep_init : indep_inv cells_init.
Proof. constructor; cbn; auto; [split; cbn; [tauto|intros h [<-|[]] i []]|intros i j a b x Ha; destruct i; discriminate|tauto]. Qed.
