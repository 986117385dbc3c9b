(** FirstProofs.v -- generate_first_sets terminates and is exact. *)
From Verif Require Import Base OrdSet GrammarSpec FirstModel.

Notation sortedN := (osorted N.compare).
Definition In_oinsN := @In_oins N N.compare Ncmp_eq.
Definition omemN := @omem_iff N N.compare Ncmp_eq Ncmp_trans.
Definition omemNf := @omem_false N N.compare Ncmp_eq Ncmp_trans.
Definition sorted_oinsN := @sorted_oins N N.compare Ncmp_eq Ncmp_opp Ncmp_trans.
Definition In_ounionN := @In_ounion N N.compare Ncmp_eq.
Definition sorted_ounionN := @sorted_ounion N N.compare Ncmp_eq Ncmp_opp Ncmp_trans.
Definition ounion_sameN := @ounion_same N N.compare Ncmp_eq Ncmp_opp Ncmp_trans.
Definition NoDupN := @osorted_NoDup N N.compare Ncmp_eq.

Lemma fref_fset m x v y : fref (fset m x v) y = if y =? x then v else fref m y.
Proof.
  unfold fref. induction m as [|[z w] r IH]; cbn.
  - destruct (y =? x); easy.
  - destruct (N.eqb_spec x z) as [-> | Hxz]; cbn.
    + destruct (y =? z); easy.
    + destruct (N.eqb_spec y z) as [-> | Hyz].
      * destruct (N.eqb_spec z x); [congruence|easy].
      * exact IH.
Qed.
Lemma fref_touch m x y : fref (fset m x (fref m x)) y = fref m y.
Proof. rewrite fref_fset. destruct (N.eqb_spec y x); congruence. Qed.

Lemma fref_init terms x : fref (first_init terms) x = if existsb (N.eqb x) terms then [x] else [].
Proof.
  unfold first_init.
  assert (G : forall m, (forall y, fget m y = None \/ fget m y = Some [y]) ->
    fref (fold_left (fun m t => match fget m t with Some _ => m | None => fset m t [t] end) terms m) x
    = if existsb (N.eqb x) terms then [x] else fref m x).
  { induction terms as [|t r IH]; intros m Hm; cbn; [easy|]. rewrite IH.
    - destruct (N.eqb_spec x t) as [-> | Hxt]; cbn.
      + destruct (existsb (N.eqb t) r) eqn:E; [easy|].
        destruct (Hm t) as [Ht | Ht]; rewrite Ht.
        * rewrite fref_fset, N.eqb_refl. easy.
        * unfold fref. now rewrite Ht.
      + destruct (existsb (N.eqb x) r) eqn:E; [easy|].
        destruct (fget m t); [easy|]. rewrite fref_fset.
        destruct (N.eqb_spec x t); [congruence|easy].
    - intros y. destruct (fget m t) eqn:Et; [apply Hm|].
      destruct (Hm y) as [Hy | Hy].
      + destruct (N.eqb_spec y t) as [-> | Hyt].
        * right. pose proof (fref_fset m t [t] t) as K. unfold fref in K. rewrite N.eqb_refl in K.
          destruct (fget (fset m t [t]) t); [now subst|easy].
        * left. clear - Hy Hyt. induction m as [|[z w] r IH]; cbn in *.
          -- destruct (N.eqb_spec y t); [congruence|easy].
          -- destruct (N.eqb_spec y z) as [Eyz | Hyz]; [easy|].
             destruct (N.eqb_spec t z) as [Etz | Htz]; cbn.
             ++ rewrite (proj2 (N.eqb_neq y z)) by congruence. exact Hy.
             ++ rewrite (proj2 (N.eqb_neq y z)) by congruence. auto.
      + right. clear - Hy Et. induction m as [|[z w] r IH]; cbn in *; [easy|].
        destruct (t =? z); [easy|]. cbn. destruct (y =? z); [easy|auto]. }
  rewrite G; [easy|]. intros y. now left.
Qed.

Lemma ounion_same_eq xs l : length (ounion N.compare xs l) = length l -> ounion N.compare xs l = l.
Proof.
  unfold ounion. revert l. induction xs as [|x xs IH]; intros l H; cbn in *; [easy|].
  pose proof (ounion_length N.compare xs (oins N.compare x l)) as K. unfold ounion in K.
  rewrite oins_length in K. destruct (omem N.compare x l) eqn:E; [|lia].
  rewrite (oins_mem _ _ _ E) in *. auto.
Qed.

Section First.
  Variable g : grammar.
  Notation P := (g_prods g).
  Notation T := (g_terms g).

  (** ** Soundness. *)
  Definition fsound (nul : list N) (fs : fmap) : Prop :=
    sortedN nul /\ (forall X, In X nul -> vanishes g X) /\
    (forall X, sortedN (fref fs X)) /\ (forall X t, In t (fref fs X) -> begins g X t).

  Lemma vanish_list u : (forall s, In s u -> vanishes g s) -> derives P u [].
  Proof.
    induction u as [|s u IH]; intros H; [constructor|].
    change (s :: u) with ([s] ++ u). change (@nil N) with (@nil N ++ []).
    apply derives_app; [apply H; now left|apply IH; intros; apply H; now right].
  Qed.

  Lemma first_body_sound p nul : In p P -> sortedN nul -> (forall X, In X nul -> vanishes g X) ->
    forall body u fs fs' w, p_body p = u ++ body -> (forall s, In s u -> vanishes g s) ->
    fsound nul fs -> first_body nul (p_head p) body fs = (fs', w) ->
    fsound nul fs' /\ (w = true -> forall s, In s body -> In s nul).
  Proof.
    intros Hp Hs Hn. induction body as [|s r IH]; intros u fs fs' w Hb Hu Hfs; cbn.
    - intros [= <- <-]. easy.
    - set (fs1 := fset fs s (fref fs s)).
      set (fs2 := fset fs1 (p_head p) _).
      assert (Hfs2 : fsound nul fs2).
      { destruct Hfs as (A1 & A2 & A3 & A4). repeat split; auto.
        - intros X. unfold fs2, fs1. rewrite fref_fset, !fref_touch.
          destruct (X =? p_head p); [|auto]. apply sorted_ounionN. auto.
        - unfold fs2, fs1 in H. rewrite fref_fset, !fref_touch in H.
          destruct (N.eqb_spec X (p_head p)) as [-> | HX]; [|apply A4 in H; apply H].
          apply In_ounionN in H. destruct H as [H | H]; [|apply A4 in H; apply H].
          apply A4 in H. destruct H as [Ht (y & Hy)]. exact Ht.
        - unfold fs2, fs1 in H. rewrite fref_fset, !fref_touch in H.
          destruct (N.eqb_spec X (p_head p)) as [-> | HX]; [|apply A4 in H; apply H].
          apply In_ounionN in H. destruct H as [H | H]; [|apply A4 in H; apply H].
          apply A4 in H. destruct H as [Ht (y & Hy)].
          exists (y ++ r). apply derives_prod; [easy|]. rewrite Hb.
          change (t :: y ++ r) with ([] ++ (t :: y) ++ r). change (s :: r) with ([s] ++ r).
          apply derives_app; [now apply vanish_list|]. apply derives_app; [easy|constructor]. }
      destruct (omem N.compare s nul) eqn:E.
      + intros H. apply (omemN _ _ Hs) in E.
        destruct (IH (u ++ [s]) fs2 fs' w) as [H1 H2]; auto.
        * rewrite Hb, <- app_assoc. easy.
        * intros x Hx. apply in_app_or in Hx. destruct Hx as [Hx | [<- | []]]; auto.
        * split; [easy|]. intros Hw x [<- | Hx]; auto.
      + intros [= <- <-]. split; [easy|]. easy.
  Qed.

  Lemma or_insert_sound h st : fsound (f_null st) (f_firsts st) -> vanishes g h ->
    fsound (f_null (or_insert h st)) (f_firsts (or_insert h st)).
  Proof.
    intros (A1 & A2 & A3 & A4) Hv. unfold or_insert. destruct (f_changed st); [easy|]. cbn.
    repeat split; auto.
    - now apply sorted_oinsN.
    - intros X HX. apply In_oinsN in HX. destruct HX as [-> | HX]; auto.
    - apply A4 in H. apply H.
    - apply A4 in H. apply H.
  Qed.

  Lemma first_step_sound st p : In p P -> fsound (f_null st) (f_firsts st) ->
    fsound (f_null (first_step st p)) (f_firsts (first_step st p)).
  Proof.
    intros Hp Hst. unfold first_step.
    set (fs0 := fset (f_firsts st) (p_head p) (fref (f_firsts st) (p_head p))).
    assert (H0 : fsound (f_null st) fs0).
    { destruct Hst as (A1 & A2 & A3 & A4). split; [easy|]. split; [easy|]. split.
      - intros X. unfold fs0. rewrite fref_touch. auto.
      - intros X t. unfold fs0. rewrite fref_touch. auto. }
    destruct (p_body p) as [|s r] eqn:Eb.
    - apply or_insert_sound; [easy|]. unfold vanishes. apply derives_prod; [easy|]. rewrite Eb. constructor.
    - destruct (first_body (f_null st) (p_head p) (s :: r) fs0) as [fs1 w] eqn:E.
      destruct (first_body_sound p (f_null st) Hp (proj1 Hst) (proj1 (proj2 Hst)) (s :: r) [] fs0 fs1 w)
        as [H1 H2]; auto; [easy|].
      cbn [f_null f_firsts].
      destruct w; [|exact H1].
      pose proof (or_insert_sound (p_head p) (mkF (f_changed st) (f_null st) fs1) H1) as K.
      unfold or_insert in K |- *. cbn [f_changed] in K |- *.
      destruct (f_changed st); [exact H1|]. cbn [f_null f_firsts] in K |- *. apply K.
      apply derives_prod; [easy|]. rewrite Eb. apply vanish_list. intros x Hx.
      apply (proj1 (proj2 Hst)). auto.
  Qed.

  Lemma fold_sound ps st : (forall p, In p ps -> In p P) -> fsound (f_null st) (f_firsts st) ->
    fsound (f_null (fold_left first_step ps st)) (f_firsts (fold_left first_step ps st)).
  Proof.
    revert st. induction ps as [|p ps IH]; intros st Hp Hst; cbn; [easy|].
    apply IH; [intros; apply Hp; now right|]. apply first_step_sound; [apply Hp; now left|easy].
  Qed.

  (** ** A round that changes nothing leaves a closed pair. *)
  Definition fclosed (nul : list N) (fs : fmap) (p : prod) : Prop :=
    ((forall s, In s (p_body p) -> In s nul) -> In (p_head p) nul) /\
    (forall u s v, p_body p = u ++ s :: v -> (forall x, In x u -> In x nul) ->
       forall t, In t (fref fs s) -> In t (fref fs (p_head p))).

  Lemma first_body_len nul h : forall body fs fs' w, first_body nul h body fs = (fs', w) ->
    (length (fref fs h) <= length (fref fs' h))%nat /\ (forall x, x <> h -> fref fs' x = fref fs x).
  Proof.
    induction body as [|s r IH]; intros fs fs' w; cbn; [intros [= <- <-]; split; [lia|easy]|].
    set (fs1 := fset fs s (fref fs s)). set (fs2 := fset fs1 h _).
    assert (H2 : (length (fref fs h) <= length (fref fs2 h))%nat).
    { unfold fs2, fs1. rewrite fref_fset, N.eqb_refl, !fref_touch. apply ounion_length. }
    assert (H3 : forall x, x <> h -> fref fs2 x = fref fs x).
    { intros x Hx. unfold fs2, fs1. rewrite fref_fset. destruct (N.eqb_spec x h); [easy|].
      apply fref_touch. }
    destruct (omem N.compare s nul).
    - intros H. apply IH in H. destruct H as [Ha Hb]. split; [lia|]. intros x Hx. rewrite Hb; auto.
    - intros [= <- <-]. auto.
  Qed.

  Lemma first_body_same nul h : sortedN nul -> forall body fs fs' w,
    (forall X, sortedN (fref fs X)) ->
    first_body nul h body fs = (fs', w) -> length (fref fs' h) = length (fref fs h) ->
    (forall x, fref fs' x = fref fs x) /\
    (forall u s v, body = u ++ s :: v -> (forall x, In x u -> In x nul) ->
       forall t, In t (fref fs s) -> In t (fref fs h)) /\
    ((forall s, In s body -> In s nul) -> w = true).
  Proof.
    intros Hs. induction body as [|s r IH]; intros fs fs' w Hsort; cbn.
    - intros [= <- <-] _. split; [easy|]. split; [|easy]. intros [|? ?] ? ? E; easy.
    - set (fs1 := fset fs s (fref fs s)). set (fs2 := fset fs1 h _).
      intros H Hl.
      assert (H2 : (length (fref fs h) <= length (fref fs2 h))%nat).
      { unfold fs2, fs1. rewrite fref_fset, N.eqb_refl, !fref_touch. apply ounion_length. }
      assert (H4 : length (fref fs2 h) = length (fref fs h)).
      { destruct (omem N.compare s nul).
        - apply first_body_len in H. lia.
        - injection H as <- <-. exact Hl. }
      assert (E2 : fref fs2 h = fref fs h).
      { revert H4. unfold fs2, fs1. rewrite fref_fset, N.eqb_refl, !fref_touch.
        apply ounion_same_eq. }
      assert (H3 : forall x, fref fs2 x = fref fs x).
      { intros x. destruct (N.eqb_spec x h) as [-> | Hx]; [easy|].
        unfold fs2, fs1. rewrite fref_fset. destruct (N.eqb_spec x h); [easy|]. apply fref_touch. }
      assert (Hin : forall t, In t (fref fs s) -> In t (fref fs h)).
      { intros t Ht. rewrite <- E2. unfold fs2, fs1. rewrite fref_fset, N.eqb_refl, !fref_touch.
        apply In_ounionN. now left. }
      destruct (omem N.compare s nul) eqn:E.
      + destruct (IH fs2 fs' w) as (A & B & C); auto.
        * intros X. rewrite H3. auto.
        * now rewrite Hl, E2.
        * split; [intros x; rewrite A; auto|]. split.
          -- intros [|a u] s' v Eb Hu t Ht; injection Eb as <- Eb; [auto|].
             rewrite <- E2. apply (B u s' v Eb); [intros; apply Hu; now right|]. now rewrite H3.
          -- intros Hall. apply C. intros; apply Hall. now right.
      + injection H as <- <-. split; [easy|]. split.
        * intros [|a u] s' v Eb Hu t Ht; injection Eb as <- Eb; [auto|].
          exfalso. apply (omemNf _ _ Hs) in E. apply E, Hu. now left.
        * intros Hall. exfalso. apply (omemNf _ _ Hs) in E. apply E, Hall. now left.
  Qed.

  Lemma first_step_true st p : f_changed st = true -> f_changed (first_step st p) = true.
  Proof.
    intros H. unfold first_step. destruct (p_body p).
    - unfold or_insert. cbn. rewrite H. easy.
    - destruct (first_body _ _ _ _) as [fs1 w]. cbn. destruct w; unfold or_insert; cbn; rewrite H; cbn; rewrite ?H; easy.
  Qed.

  Lemma first_step_false st p : sortedN (f_null st) -> (forall X, sortedN (fref (f_firsts st) X)) ->
    f_changed (first_step st p) = false ->
    f_changed st = false /\ f_null (first_step st p) = f_null st /\
    (forall x, fref (f_firsts (first_step st p)) x = fref (f_firsts st) x) /\
    fclosed (f_null st) (f_firsts st) p.
  Proof.
    intros Hs Hf H.
    destruct (f_changed st) eqn:Ec; [rewrite first_step_true in H; easy|]. split; [easy|].
    revert H. unfold first_step. rewrite Ec.
    set (h := p_head p). set (fs0 := fset (f_firsts st) h (fref (f_firsts st) h)).
    assert (H0 : forall x, fref fs0 x = fref (f_firsts st) x) by (intros; apply fref_touch).
    destruct (p_body p) as [|s r] eqn:Eb.
    - unfold or_insert. cbn. intros H. apply negb_false_iff in H.
      rewrite (oins_mem _ _ _ H). split; [easy|]. split; [exact H0|]. split.
      + intros _. now apply omemN.
      + rewrite Eb. intros [|? ?] ? ? E; easy.
    - destruct (first_body (f_null st) h (s :: r) fs0) as [fs1 w] eqn:E.
      intros H. cbn [f_changed f_null f_firsts] in *. apply orb_false_iff in H. destruct H as [Hc Hl].
      apply negb_false_iff, Nat.eqb_eq in Hl.
      destruct (first_body_same (f_null st) h Hs (s :: r) fs0 fs1 w) as (A & B & C); auto.
      { intros X. rewrite H0. auto. }
      assert (Hw : w = true -> omem N.compare h (f_null st) = true).
      { intros ->. unfold or_insert in Hc. cbn in Hc. now apply negb_false_iff in Hc. }
      split; [|split].
      + destruct w; [|easy]. unfold or_insert. cbn. apply oins_mem. auto.
      + intros x. rewrite A, H0. easy.
      + split.
        * intros Hall. rewrite Eb in Hall. apply omemN; [easy|]. auto.
        * intros u s' v Eu Hu t Ht. rewrite <- H0. rewrite Eb in Eu.
          apply (B u s' v Eu Hu). now rewrite H0.
  Qed.

  Lemma fold_false ps st : sortedN (f_null st) -> (forall X, sortedN (fref (f_firsts st) X)) ->
    f_changed (fold_left first_step ps st) = false ->
    f_changed st = false /\ f_null (fold_left first_step ps st) = f_null st /\
    (forall x, fref (f_firsts (fold_left first_step ps st)) x = fref (f_firsts st) x) /\
    (forall p, In p ps -> fclosed (f_null st) (f_firsts st) p).
  Proof.
    revert st. induction ps as [|p ps IH]; intros st Hs Hf H; cbn in *; [easy|].
    destruct (f_changed (first_step st p)) eqn:E.
    { exfalso. clear - H E. revert H E. generalize (first_step st p).
      induction ps as [|q ps IH]; intros s H E; cbn in *; [congruence|].
      eapply IH; [exact H|]. now apply first_step_true. }
    destruct (first_step_false st p Hs Hf E) as (A & B & C & D).
    destruct (IH (first_step st p)) as (A' & B' & C' & D'); [now rewrite B|intros; now rewrite C|easy|].
    split; [easy|]. split; [congruence|]. split; [intros; now rewrite C', C|].
    intros q [<- | Hq]; [easy|]. destruct (D' q Hq) as [D1 D2]. rewrite B in D1, D2. split; [exact D1|].
    intros u s v Eq Hu t Ht. rewrite <- C. apply (D2 u s v Eq Hu). now rewrite C.
  Qed.

  (** ** Closed pairs contain everything derivable. *)
  Section Closed.
    Variables (nul : list N) (fs : fmap).
    Hypothesis Hcl : forall p, In p P -> fclosed nul fs p.
    Hypothesis Hterm : forall t, In t T -> In t (fref fs t).

    (** [u] can vanish, or can begin with [t], according to the tables. *)
    Definition tnull (u : list N) : Prop := forall s, In s u -> In s nul.
    Definition tfirst (u : list N) (t : N) : Prop :=
      exists a s b, u = a ++ s :: b /\ tnull a /\ In t (fref fs s).

    Lemma step_null u v : step P u v -> tnull v -> tnull u.
    Proof.
      intros [a p b Hp] H s Hs. apply in_app_or in Hs. destruct Hs as [Hs | [<- | Hs]].
      - apply H. apply in_or_app. now left.
      - apply (proj1 (Hcl p Hp)). intros x Hx. apply H. apply in_or_app. right. apply in_or_app. now left.
      - apply H. apply in_or_app. right. apply in_or_app. now right.
    Qed.
    Lemma app_cons_split (x y a b : list N) s : x ++ y = a ++ s :: b ->
      (exists c, x = a ++ s :: c /\ b = c ++ y) \/ (exists d, y = d ++ s :: b /\ a = x ++ d).
    Proof.
      revert a. induction x as [|z x IH]; intros a E; cbn in E.
      - right. exists a. easy.
      - destruct a as [|z' a]; cbn in E; injection E as <- E.
        + left. exists x. easy.
        + destruct (IH a E) as [(c & -> & ->) | (d & -> & ->)]; [left; now exists c|right; now exists d].
    Qed.
    Lemma step_first u v t : step P u v -> tfirst v t -> tfirst u t.
    Proof.
      intros [x p y Hp] (a & s & b & E & Ha & Hs). apply app_cons_split in E.
      destruct E as [(c & -> & ->) | (d & E & ->)].
      - exists a, s, (c ++ p_head p :: y). rewrite <- app_assoc. easy.
      - apply app_cons_split in E. destruct E as [(c & E & ->) | (d' & -> & ->)].
        + exists x, (p_head p), y. split; [easy|]. split.
          * intros z Hz. apply Ha. apply in_or_app. now left.
          * apply (proj2 (Hcl p Hp) d s c E); [|easy].
            intros z Hz. apply Ha. apply in_or_app. now right.
        + exists (x ++ p_head p :: d'), s, b. split; [now rewrite <- app_assoc|]. split; [|easy].
          intros z Hz. apply in_app_or in Hz. destruct Hz as [Hz | [<- | Hz]].
          * apply Ha. apply in_or_app. now left.
          * apply (proj1 (Hcl p Hp)). intros w Hw. apply Ha. apply in_or_app. right.
            apply in_or_app. now left.
          * apply Ha. apply in_or_app. right. apply in_or_app. now right.
    Qed.
    Lemma derives_null u v : derives P u v -> tnull v -> tnull u.
    Proof. intros H. induction H; [easy|]. intros. eapply step_null; eauto. Qed.
    Lemma derives_first u v t : derives P u v -> tfirst v t -> tfirst u t.
    Proof. intros H. induction H; [easy|]. intros. eapply step_first; eauto. Qed.
    Lemma closed_null X : vanishes g X -> In X nul.
    Proof. intros H. apply (derives_null _ _ H); [intros ? []|now left]. Qed.
    Lemma closed_first X t : begins g X t -> In t (fref fs X).
    Proof.
      intros [Ht (w & H)]. destruct (derives_first _ _ t H) as (a & s & b & E & Ha & Hs).
      - exists [], t, w. split; [easy|]. split; [intros ? []|auto].
      - destruct a as [|? [|? ?]]; cbn in E; try discriminate. injection E as <- <-. exact Hs.
    Qed.
  End Closed.

  (** ** Termination. *)
  Definition weight (ps : list prod) (nul : list N) (fs : fmap) : nat :=
    (length nul + list_sum (map (fun p => length (fref fs (p_head p))) ps))%nat.

  Lemma sum_le (f f' : prod -> nat) ps : (forall p, (f p <= f' p)%nat) ->
    (list_sum (map f ps) <= list_sum (map f' ps))%nat.
  Proof. intros H. unfold list_sum. induction ps as [|p ps IH]; cbn [map fold_right]; [lia|]. specialize (H p). lia. Qed.
  Lemma sum_lt (f f' : prod -> nat) ps q : (forall p, (f p <= f' p)%nat) -> In q ps -> (f q < f' q)%nat ->
    (list_sum (map f ps) < list_sum (map f' ps))%nat.
  Proof.
    intros H. unfold list_sum. induction ps as [|p ps IH]; cbn [map fold_right In]; [easy|]. intros [-> | Hq] Hlt.
    - pose proof (sum_le f f' ps H) as K. unfold list_sum in K. lia.
    - specialize (IH Hq Hlt). specialize (H p). lia.
  Qed.

  Lemma first_step_weight st p : In p P ->
    (weight P (f_null st) (f_firsts st) <= weight P (f_null (first_step st p)) (f_firsts (first_step st p)))%nat
    /\ (f_changed st = false -> f_changed (first_step st p) = true ->
        (weight P (f_null st) (f_firsts st) < weight P (f_null (first_step st p)) (f_firsts (first_step st p)))%nat).
  Proof.
    intros Hp. unfold first_step.
    set (h := p_head p). set (fs0 := fset (f_firsts st) h (fref (f_firsts st) h)).
    assert (H0 : forall x, fref fs0 x = fref (f_firsts st) x) by (intros; apply fref_touch).
    assert (W0 : forall nul, weight P nul fs0 = weight P nul (f_firsts st)).
    { intros nul. unfold weight. f_equal. f_equal. apply map_ext. intros a. now rewrite H0. }
    destruct (p_body p) as [|s r] eqn:Eb.
    - unfold or_insert. cbn [f_changed f_null f_firsts].
      destruct (f_changed st) eqn:Ec; cbn [f_changed f_null f_firsts].
      + rewrite W0. split; [lia|]. congruence.
      + rewrite W0. unfold weight. rewrite oins_length.
        destruct (omem N.compare h (f_null st)); cbn [negb]; split; try lia; congruence.
    - destruct (first_body (f_null st) h (s :: r) fs0) as [fs1 w] eqn:E.
      apply first_body_len in E. destruct E as [L Lx].
      assert (Hle : forall q, (length (fref fs0 (p_head q)) <= length (fref fs1 (p_head q)))%nat).
      { intros q. destruct (N.eqb_spec (p_head q) h) as [-> | Hq]; [exact L|rewrite Lx; auto]. }
      assert (Hw : forall nul, (weight P nul (f_firsts st) <= weight P nul fs1)%nat).
      { intros nul. rewrite <- W0. unfold weight.
        pose proof (sum_le (fun p => length (fref fs0 (p_head p)))
                           (fun p => length (fref fs1 (p_head p))) P Hle). lia. }
      assert (Hlt : length (fref fs1 h) <> length (fref fs0 h) ->
                    forall nul, (weight P nul (f_firsts st) < weight P nul fs1)%nat).
      { intros Hne nul. rewrite <- W0. unfold weight.
        pose proof (sum_lt (fun p => length (fref fs0 (p_head p)))
                           (fun p => length (fref fs1 (p_head p))) P p Hle Hp).
        cbn beta in H. fold h in H. lia. }
      set (st1 := mkF (f_changed st) (f_null st) fs1).
      assert (K : exists nul', f_null (if w then or_insert h st1 else st1) = nul' /\
                 (length (f_null st) <= length nul')%nat /\
                 (f_changed st = false -> f_changed (if w then or_insert h st1 else st1) = true ->
                  (length (f_null st) < length nul')%nat)).
      { eexists. split; [reflexivity|]. destruct w; [|cbn; split; [lia|congruence]].
        unfold or_insert, st1. cbn [f_changed]. destruct (f_changed st) eqn:Ec; cbn.
        - split; [lia|congruence].
        - rewrite oins_length. destruct (omem N.compare h (f_null st)); cbn; split; try lia; congruence. }
      destruct K as (nul' & En & K1 & K2). cbn [f_changed f_null f_firsts]. rewrite En.
      split.
      + specialize (Hw (f_null st)). unfold weight in *. lia.
      + intros Hc Hor. apply orb_true_iff in Hor. destruct Hor as [Hor | Hor].
        * specialize (K2 Hc Hor). specialize (Hw (f_null st)). unfold weight in *. lia.
        * apply negb_true_iff, Nat.eqb_neq in Hor. specialize (Hlt Hor (f_null st)).
          unfold weight in *. lia.
  Qed.

  Lemma fold_weight ps st : (forall p, In p ps -> In p P) ->
    (weight P (f_null st) (f_firsts st)
     <= weight P (f_null (fold_left first_step ps st)) (f_firsts (fold_left first_step ps st)))%nat
    /\ (f_changed st = false -> f_changed (fold_left first_step ps st) = true ->
        (weight P (f_null st) (f_firsts st)
         < weight P (f_null (fold_left first_step ps st)) (f_firsts (fold_left first_step ps st)))%nat).
  Proof.
    revert st. induction ps as [|p ps IH]; intros st Hp; cbn; [split; [lia|congruence]|].
    destruct (IH (first_step st p)) as [A B]; [intros; apply Hp; now right|].
    destruct (first_step_weight st p) as [C D]; [apply Hp; now left|].
    split; [lia|]. intros Hc Hf. destruct (f_changed (first_step st p)) eqn:E.
    - specialize (D Hc eq_refl). lia.
    - specialize (B eq_refl Hf). lia.
  Qed.

  Lemma vanish_head X : vanishes g X -> In X (map p_head P).
  Proof.
    intros H. unfold vanishes in H. inversion H as [|u v w Hs Hd E1 E2].
    inversion Hs as [a p b Hp Ea Eb]. destruct a as [|? [|? ?]]; cbn in Ea; try discriminate.
    injection Ea as <- _. now apply in_map.
  Qed.
  Lemma weight_bound nul fs : fsound nul fs ->
    (weight P nul fs <= length P * S (length T))%nat.
  Proof.
    intros (A1 & A2 & A3 & A4). unfold weight.
    assert (length nul <= length P)%nat.
    { rewrite <- (map_length p_head P). apply NoDup_incl_length.
      - now apply NoDupN.
      - intros x Hx. apply vanish_head. auto. }
    assert (list_sum (map (fun p => length (fref fs (p_head p))) P) <= length P * length T)%nat.
    { assert (L : forall x, (length (fref fs x) <= length T)%nat).
      { intros x. apply NoDup_incl_length; [apply NoDupN, A3|]. intros t Ht. apply A4 in Ht. apply Ht. }
      clear - L. unfold list_sum. induction P as [|p ps IH]; cbn [map fold_right length]; [lia|]. specialize (L (p_head p)). nia. }
    nia.
  Qed.

  Lemma first_loop_spec fuel : forall nul fs, fsound nul fs ->
    (forall t, In t T -> In t (fref fs t)) ->
    (length P * S (length T) < fuel + weight P nul fs)%nat ->
    exists nul' fs', first_loop fuel P nul fs = Ret (nul', fs') /\ fsound nul' fs' /\
      (forall X, In X nul' <-> vanishes g X) /\ (forall X t, In t (fref fs' X) <-> begins g X t).
  Proof.
    induction fuel as [|fuel IH]; intros nul fs Hs Ht Hw.
    - pose proof (weight_bound nul fs Hs). lia.
    - cbn [first_loop].
      set (st0 := mkF false nul fs).
      pose proof (fold_sound P st0 (fun p H => H) Hs) as Hs'.
      destruct (fold_weight P st0 (fun p H => H)) as [W1 W2].
      destruct (f_changed (fold_left first_step P st0)) eqn:E.
      + apply IH; [easy| |].
        * intros t Hin.
          assert (G : forall ps st, In t (fref (f_firsts st) t) ->
                      In t (fref (f_firsts (fold_left first_step ps st)) t)).
          { induction ps as [|p ps IHp]; intros st H; cbn; [easy|]. apply IHp.
            unfold first_step.
            set (h := p_head p). set (fs0 := fset (f_firsts st) h (fref (f_firsts st) h)).
            assert (H0 : In t (fref fs0 t)) by (unfold fs0; now rewrite fref_touch).
            destruct (p_body p) as [|s r].
            - unfold or_insert. cbn. destruct (f_changed st); easy.
            - destruct (first_body (f_null st) h (s :: r) fs0) as [fs1 w] eqn:Eb. cbn [f_firsts].
              clearbody fs0. clear - H0 Eb. revert fs0 H0 Eb. generalize (s :: r) as body.
              induction body as [|x body IHb]; intros fs0 H0 Eb; cbn in Eb; [injection Eb as <- <-; easy|].
              set (fs2 := fset _ h _) in Eb.
              assert (H2 : In t (fref fs2 t)).
              { unfold fs2. rewrite fref_fset, !fref_touch.
                destruct (N.eqb_spec t h) as [-> | ]; [|easy]. apply In_ounionN. now right. }
              destruct (omem N.compare x (f_null st)); [exact (IHb fs2 H2 Eb)|injection Eb as <- <-; easy]. }
          apply G. cbn. auto.
        * specialize (W2 eq_refl eq_refl). unfold st0 in W2 at 1 2. cbn [f_null f_firsts] in W2. lia.
      + destruct (fold_false P st0) as (_ & B & C & D); [apply Hs|apply Hs|easy|].
        cbn [f_null f_firsts] in B, C, D.
        eexists _, _. split; [reflexivity|]. split; [exact Hs'|].
        split.
        * intros X. split; [apply Hs'|]. rewrite B. intros HX.
          now apply (closed_null nul fs D).
        * intros X t. split; [apply Hs'|]. rewrite C. intros HX.
          now apply (closed_first nul fs D Ht).
  Qed.

  Theorem first_sets_exact fuel : (length P * S (length T) < fuel)%nat ->
    exists nul fs, first_sets fuel g = Ret (nul, fs) /\ fsound nul fs /\
      (forall X, In X nul <-> vanishes g X) /\ (forall X t, In t (fref fs X) <-> begins g X t).
  Proof.
    intros Hf. unfold first_sets. apply first_loop_spec; [| |lia].
    - split; [constructor|]. split; [intros ? []|].
      split.
      + intros X. rewrite fref_init. destruct (existsb _ _); [apply os_cons; [apply os_nil|intros ? []]|apply os_nil].
      + intros X t. rewrite fref_init. destruct (existsb (N.eqb X) T) eqn:E; [|intros []].
        intros [<- | []]. apply existsb_exists in E. destruct E as (y & Hy & E).
        apply N.eqb_eq in E. subst. split; [easy|]. exists []. constructor.
    - intros t Ht. rewrite fref_init.
      replace (existsb (N.eqb t) T) with true; [now left|].
      symmetry. apply existsb_exists. exists t. split; [easy|]. apply N.eqb_refl.
  Qed.
End First.
