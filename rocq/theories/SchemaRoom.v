(** SchemaRoom.v -- schemas of any length: existing_schema_rule sets the index of the static array back, so that the array is
    large enough if variable lines are frequent enough. *)
From Verif Require Import Base OrdSet GrammarSpec FirstModel FirstProofs LrModel LrSets LrTable ParseSpec LrDriver LrSound
  LrParse LrLookahead LrComplete LrMain LrSafe LrRoom SchemaModel SchemaGrammar SchemaTable SchemaSafe SchemaRules SchemaSyntax SchemaReads
  SchemaMeaning.
From Coq Require Import String.
Local Open Scope list_scope.
Local Open Scope N_scope.

(** ** Lines. *)
Notation nl := [10].
(** A stretch of the schema that contains a whole line that is neither empty nor a comment nor a delimiters line. *)
Definition has_variable_line (m : toks) : Prop :=
  exists a c v b, m = a ++ nl :: (c :: v) ++ nl :: b /\ c <> nl /\ c <> [13] /\ c <> [47] /\ c <> keyword /\ ~ In nl v.
(** Every stretch of more than [k] tokens has one. *)
Definition often (k : N) (inp : toks) : Prop :=
  forall a m b, inp = a ++ m ++ b -> k < N.of_nat (List.length m) -> has_variable_line m.

Definition dull (l : toks) : Prop :=
  ~ In nl l /\ match l with [] => True | c :: _ => c = [47] \/ c = keyword \/ c = [13] end.
Fixpoint flat (ls : list toks) : toks := match ls with [] => [] | l :: r => nl :: l ++ flat r end.
Lemma flat_app a b : flat (a ++ b) = flat a ++ flat b.
Proof. induction a as [|l a IH]; cbn; [easy|]. rewrite IH, app_assoc. reflexivity. Qed.
Lemma at_nl (u : toks) : forall x a y, ~ In nl u -> u ++ nl :: x = a ++ nl :: y ->
  (a = u /\ x = y) \/ exists a', a = u ++ nl :: a' /\ x = a' ++ nl :: y.
Proof.
  induction u as [|z u IH]; intros x a y Hu E; destruct a as [|z' a]; cbn in E.
  - injection E as ->. auto.
  - injection E as <- ->. right. exists a. auto.
  - injection E as -> E. elim Hu. now left.
  - injection E as -> E. destruct (IH x a y ltac:(intros H; apply Hu; now right) E) as [[-> ->] | (a' & -> & ->)]; [auto|].
    right. exists a'. auto.
Qed.
Lemma dull_lines : forall ls u q, ~ In nl u -> Forall dull ls -> ~ In nl q -> ~ has_variable_line (u ++ flat ls ++ nl :: q).
Proof.
  induction ls as [|l ls IH]; intros u q Hu Hls Hq (a & c & v & b & E & C1 & C2 & C3 & C4 & C5); cbn [flat app] in E.
  - destruct (at_nl u q a _ Hu E) as [[-> ->] | (a' & _ & ->)]; apply Hq; [right|]; apply in_or_app; right; now left.
  - inversion Hls as [|? ? Hl Hls']; subst. rewrite <- app_assoc in E.
    destruct (at_nl u _ a _ Hu E) as [[-> E2] | (a' & -> & E2)].
    + assert (exists z, flat ls ++ nl :: q = nl :: z) as (z & Ez) by (destruct ls; cbn; eauto).
      rewrite Ez in E2. destruct Hl as [Hl1 Hl2].
      destruct (at_nl l z (c :: v) b Hl1 E2) as [[<- _] | (a' & E3 & _)].
      * destruct Hl2 as [-> | [-> | ->]]; congruence.
      * destruct l as [|c' l]; cbn in E3.
        -- injection E3 as -> ->. congruence.
        -- injection E3 as _ ->. apply C5. apply in_or_app. right. now left.
    + apply (IH l q (proj1 Hl) Hls' Hq). exists a', c, v, b. auto 10.
Qed.
Lemma no_nl_plain u : ~ In nl u -> ~ has_variable_line u.
Proof.
  intros Hu (a & c & v & b & -> & _). apply Hu. apply in_or_app. right. now left.
Qed.
(** What is at most open. *)
Definition open_stretch (m : toks) : Prop :=
  exists u, ~ In nl u /\ (m = u \/ exists ls q, m = u ++ flat ls ++ nl :: q /\ Forall dull ls /\ ~ In nl q).
Lemma open_none m : open_stretch m -> ~ has_variable_line m.
Proof.
  intros (u & Hu & [-> | (ls & q & -> & Hls & Hq)]); [now apply no_nl_plain|]. now apply dull_lines.
Qed.

(** ** The states of the parser between lines. *)
Definition odd_state (s : N) : bool := memb s [3; 104; 105; 114].
Definition link_ok (s X j : N) : bool :=
  negb (j =? 0) && negb (X =? 59) &&
  (if X =? 57 then (s =? 0) && (j =? 3)
   else if X =? 62 then (s =? 3) && (j =? 106)
   else if X =? 25 then ((s =? 3) && (j =? 104)) || ((s =? 105) && (j =? 114))
   else if X =? 28 then (s =? 3) && (j =? 105)
   else negb (odd_state s) && negb (odd_state j)).
Definition links_check (ok : N -> N -> N -> bool) (t : table) : bool :=
  forallb (fun ia => forallb (fun e => match snd e with AShift j => ok (fst ia) (fst e) j | _ => true end) (snd ia)) t.
Lemma links_check_ok ok g t s X j : links_check ok t = true -> action_at g t s X = Ret (AShift j) -> ok s X j = true.
Proof.
  intros H Ha. unfold action_at in Ha. destruct (row_of t s) as [row|] eqn:Er; [|easy]. destruct (g_nsym g <=? X); [easy|].
  injection Ha as Ha. apply row_of_in in Er. unfold links_check in H. rewrite forallb_forall in H. specialize (H _ Er). cbn [snd fst] in H.
  rewrite forallb_forall in H.
  assert (G : In (X, AShift j) row).
  { clear -Ha. unfold act_at in Ha. induction row as [|[Y b] row IH]; cbn in *; [easy|].
    destruct (N.eqb_spec X Y) as [-> |]; [left; congruence|]. auto. }
  exact (H _ G).
Qed.
Lemma schema_links : links_check link_ok schema_table = true.
Proof. vm_cast_no_check (eq_refl true). Qed.
Lemma link s X j : action_at schema_grammar schema_table s X = Ret (AShift j) -> link_ok s X j = true.
Proof. exact (links_check_ok link_ok schema_grammar schema_table s X j schema_links). Qed.
Definition inner_sym (X : N) : bool := negb (memb X [57; 62; 25; 28; 59]).

(** ** The productions concerned. *)
Lemma nth_combine {A} (l : list A) : forall n k x, nth_error l n = Some x -> In ((k + n)%nat, x) (combine (seq k (List.length l)) l).
Proof.
  induction l as [|y l IH]; intros [|n] k x H; cbn in *; try discriminate.
  - injection H as ->. left. f_equal. lia.
  - right. replace (k + S n)%nat with (S k + n)%nat by lia. now apply IH.
Qed.
Definition heads_check (h : N) (known : list (nat * list N)) (l : list prod) : bool :=
  forallb (fun e => negb (p_head (snd e) =? h) ||
             existsb (fun k => Nat.eqb (fst k) (fst e) && (if list_eq_dec N.eq_dec (snd k) (p_body (snd e)) then true else false)) known)
          (combine (seq 0 (List.length l)) l).
Lemma heads_check_ok h known l n pr : heads_check h known l = true -> nth_error l n = Some pr -> p_head pr = h -> In (n, p_body pr) known.
Proof.
  intros H Hn Hh. unfold heads_check in H. rewrite forallb_forall in H. specialize (H _ (nth_combine l n 0 pr Hn)). cbn [snd fst Nat.add] in H.
  apply orb_true_iff in H as [H | H].
  - apply negb_true_iff, N.eqb_neq in H. congruence.
  - apply existsb_exists in H as ((m & b) & Hi & E). apply andb_true_iff in E as [E1 E2]. cbn [fst snd] in *.
    apply Nat.eqb_eq in E1. destruct (list_eq_dec _ _ _) in E2; [|easy]. now subst.
Qed.
Definition known57 : list (nat * list N) :=
  [(0%nat, [58]); (2%nat, [60]); (3%nat, [55; 40; 61]); (4%nat, [57; 62]); (5%nat, [57; 62; 58]); (6%nat, [57; 62; 60]);
   (7%nat, [57; 62; 55; 40; 61])].
Definition known62 : list (nat * list N) := [(10%nat, [28; 25]); (11%nat, [25])].
Definition known58 : list (nat * list N) := [(12%nat, [38; 38; 64])].
Lemma heads57 n pr : nth_error (g_prods schema_grammar) n = Some pr -> p_head pr = 57 -> In (n, p_body pr) known57.
Proof. apply (heads_check_ok 57 known57). vm_cast_no_check (eq_refl true). Qed.
Lemma heads62 n pr : nth_error (g_prods schema_grammar) n = Some pr -> p_head pr = 62 -> In (n, p_body pr) known62.
Proof. apply (heads_check_ok 62 known62). vm_cast_no_check (eq_refl true). Qed.
Lemma heads58 n pr : nth_error (g_prods schema_grammar) n = Some pr -> p_head pr = 58 -> In (n, p_body pr) known58.
Proof. apply (heads_check_ok 58 known58). vm_cast_no_check (eq_refl true). Qed.
Definition inner_check (l : list prod) : bool :=
  forallb (fun pr => negb (inner_sym (p_head pr)) || forallb inner_sym (p_body pr)) l.
Lemma inner_check_ok l n pr X : inner_check l = true -> nth_error l n = Some pr -> inner_sym (p_head pr) = true -> In X (p_body pr) ->
  inner_sym X = true.
Proof.
  intros H Hn Hh HX. unfold inner_check in H. rewrite forallb_forall in H. specialize (H pr (nth_error_In _ _ Hn)). rewrite Hh in H.
  cbn [negb orb] in H. rewrite forallb_forall in H. now apply H.
Qed.
Lemma inner_body n pr X : nth_error (g_prods schema_grammar) n = Some pr -> inner_sym (p_head pr) = true -> In X (p_body pr) ->
  inner_sym X = true.
Proof. apply inner_check_ok. vm_cast_no_check (eq_refl true). Qed.
Lemma types_nl X : In X (schema_matches nl) -> X = 25.
Proof. intros H. assert (E : schema_matches nl = [25]) by (vm_compute; reflexivity). rewrite E in H. now destruct H as [<- | []]. Qed.

Section Shape.
  Variable types : stok -> list N.
  Hypothesis Htypes : forall w X, In X (types (STok w)) -> In X (schema_matches w).
  Hypothesis Heof : types SEof = [TokenEnd].
  Notation sym := (root_sym (g_prods schema_grammar)).
  Notation linked := (linked types schema_grammar schema_table).
  Notation wfd := (well_formed types schema_grammar).

  (** The trees on the stack, top first. *)
  Inductive stack_shape : N -> list (tree stok) -> Prop :=
  | sh_inner : forall s ts, odd_state s = false -> Forall (fun tr => inner_sym (sym tr) = true) ts -> stack_shape s ts
  | sh_schema : forall S, sym S = 57 -> stack_shape 3 [S]
  | sh_cr : forall S c, sym S = 57 -> sym c = 28 -> stack_shape 105 [c; S]
  | sh_nl : forall S c, sym S = 57 -> sym c = 25 -> stack_shape 104 [c; S]
  | sh_crnl : forall S c d, sym S = 57 -> sym c = 28 -> sym d = 25 -> stack_shape 114 [d; c; S]
  | sh_line : forall s S b ts, odd_state s = false -> sym S = 57 -> sym b = 62 ->
      Forall (fun tr => inner_sym (sym tr) = true) ts -> stack_shape s (ts ++ [b; S]).
  Lemma linked_shape ss ts : linked ss ts -> exists s r, ss = s :: r /\ stack_shape s ts /\ (s = 0 -> ts = []).
  Proof.
    induction 1 as [|s ss ts tr j Hl IH Hact Hw]; [exists 0, []; split; [easy|]; split; [now constructor|easy]|].
    destruct IH as (s0 & r0 & [= <- <-] & Hsh & Hz). exists j, (s :: ss). split; [easy|].
    pose proof (link _ _ _ Hact) as L. unfold link_ok in L. apply andb_true_iff in L as [L0 L]. apply andb_true_iff in L0 as [L0 L1].
    apply negb_true_iff, N.eqb_neq in L0. apply negb_true_iff, N.eqb_neq in L1. split; [|lia].
    assert (D : (sym tr = 57 \/ sym tr = 62 \/ sym tr = 25 \/ sym tr = 28) \/ inner_sym (sym tr) = true).
    { unfold inner_sym, memb. cbn [existsb].
      destruct (N.eqb_spec (sym tr) 57); [auto|]. destruct (N.eqb_spec (sym tr) 62); [auto|].
      destruct (N.eqb_spec (sym tr) 25); [auto|]. destruct (N.eqb_spec (sym tr) 28); [auto|].
      destruct (N.eqb_spec (sym tr) 59); [easy|]. auto. }
    destruct D as [[E | [E | [E | E]]] | D].
    - rewrite E in L. cbn in L. apply andb_true_iff in L as [A C]. apply N.eqb_eq in A, C. subst s j. rewrite (Hz eq_refl).
      now constructor.
    - rewrite E in L. cbn in L. apply andb_true_iff in L as [A C]. apply N.eqb_eq in A, C. subst s j.
      inversion Hsh as [? ? O|S E1| | | |? ? ? ? O]; subst; try discriminate O. apply (sh_line 106 S tr []); auto.
    - rewrite E in L. cbn in L. apply orb_true_iff in L as [L | L]; apply andb_true_iff in L as [A C]; apply N.eqb_eq in A, C; subst s j.
      + inversion Hsh as [? ? O|S E1| | | |? ? ? ? O]; subst; try discriminate O. now constructor.
      + inversion Hsh as [? ? O| |S c E1 E2| | |? ? ? ? O]; subst; try discriminate O. now constructor.
    - rewrite E in L. cbn in L. apply andb_true_iff in L as [A C]. apply N.eqb_eq in A, C. subst s j.
      inversion Hsh as [? ? O|S E1| | | |? ? ? ? O]; subst; try discriminate O. now constructor.
    - assert (L' : negb (odd_state s) && negb (odd_state j) = true).
      { clear -L D. unfold inner_sym, memb in D. cbn [existsb] in D.
        destruct (sym tr =? 57); [easy|]. destruct (sym tr =? 62); [easy|]. destruct (sym tr =? 25); [easy|].
        destruct (sym tr =? 28); [easy|]. exact L. }
      apply andb_true_iff in L' as [A C]. apply negb_true_iff in A, C.
      inversion Hsh as [? ? O F|S E1|S c E1|S c E1|S c d E1|? S b ts' O E1 E2 F]; subst; try discriminate A.
      + constructor; [exact C|]. constructor; assumption.
      + apply (sh_line j S b (tr :: ts')); auto.
  Qed.

  (** Texts of the trees. *)
  Lemma inner_no_nl tr : wfd tr -> inner_sym (sym tr) = true -> ~ In (STok nl) (map fst (yield tr)).
  Proof.
    induction tr as [tk X|p ts IH] using tree_ind'; intros Hw Hi.
    - inversion Hw as [? ? HX _|]; subst. cbn. intros [E | []]. subst tk. apply Htypes, types_nl in HX. subst X. discriminate Hi.
    - inversion Hw as [|? ? pr Hn Hb Hts]; subst. cbn [yield]. rewrite in_map_iff. intros ((tk & X) & E & Hin). cbn [fst] in E. subst tk.
      apply in_flat_map in Hin as (tr & Htr & Hin). rewrite Forall_forall in IH, Hts.
      apply (IH tr Htr (Hts tr Htr)); [|apply in_map_iff; exists (STok nl, X); auto].
      apply (inner_body _ pr (sym tr) Hn).
      + cbn [root_sym] in Hi. now rewrite (nth_error_nth _ _ _ Hn) in Hi.
      + rewrite <- Hb. now apply in_map.
  Qed.
  Lemma leaf_text tr X w : wfd tr -> sym tr = X -> X <? 57 = true -> map fst (yield tr) = map STok w -> exists u, w = [u] /\ lexes X u.
  Proof.
    intros Hw Hs HX Hy. inversion Hw as [tk Y HY HT|p ts pr Hn Hb Hts]; subst.
    - destruct w as [|u [|? ?]]; try discriminate Hy. injection Hy as ->. exists u. split; [easy|].
      apply (proj1 (lexes_iff _ u)). now apply Htypes.
    - exfalso. cbn [root_sym] in HX. rewrite (nth_error_nth _ _ _ Hn) in HX.
      assert (C : forallb (fun pr => negb (p_head pr <? 57)) (g_prods schema_grammar) = true) by (vm_compute; reflexivity).
      rewrite forallb_forall in C. specialize (C _ (nth_error_In _ _ Hn)). now rewrite HX in C.
  Qed.
  Lemma fresh_yield resets (tr : tree stok) : fresh resets tr <= N.of_nat (List.length (yield tr)).
  Proof.
    induction tr as [tk X|p ts IH] using tree_ind'; [cbn; lia|]. cbn [fresh yield]. destruct (resets p); [lia|].
    induction IH as [|x ts Hx _ IHt]; [cbn; lia|]. cbn [fold_right flat_map]. rewrite app_length. lia.
  Qed.
  Lemma break_text tr w : wfd tr -> sym tr = 62 -> map fst (yield tr) = map STok w -> w = [nl] \/ w = [[13]; nl].
  Proof.
    intros Hw Hs Hy. inversion Hw as [tk Y HY HT|p ts pr Hn Hb Hts]; subst.
    - exfalso. cbn [root_sym] in Hs. subst Y.
      assert (C : memb 62 (g_terms schema_grammar) = false) by (vm_compute; reflexivity). apply memb_iff in HT. congruence.
    - cbn [root_sym] in Hs. rewrite (nth_error_nth _ _ _ Hn) in Hs. pose proof (heads62 _ _ Hn Hs) as K. cbn [known62 In] in K.
      destruct K as [[= _ K] | [[= _ K] | []]]; rewrite <- K in Hb.
      + destruct ts as [|t1 [|t2 [|? ?]]]; try discriminate Hb. injection Hb as B1 B2. inversion Hts as [|? ? W1 Hts']; subst.
        inversion Hts' as [|? ? W2 _]; subst. cbn [yield flat_map] in Hy. rewrite app_nil_r, map_app in Hy.
        apply map_STok_app in Hy. destruct Hy as (w1 & w2 & -> & Y1 & Y2). 
        destruct (leaf_text t1 28 w1 W1 B1 eq_refl Y1) as (u1 & -> & L1). destruct (leaf_text t2 25 w2 W2 B2 eq_refl Y2) as (u2 & -> & L2).
        apply (lex_char 13) in L1. apply (lex_char 10) in L2. subst. now right.
      + destruct ts as [|t1 [|? ?]]; try discriminate Hb. injection Hb as B1. inversion Hts as [|? ? W1 _]; subst.
        cbn [yield flat_map] in Hy. rewrite app_nil_r in Hy. destruct (leaf_text t1 25 w W1 B1 eq_refl Hy) as (u1 & -> & L1).
        apply (lex_char 10) in L1. subst. now left.
  Qed.
  Lemma no_nl_text l w : l = map STok w -> ~ In (STok nl) l -> ~ In nl w.
  Proof. intros -> H Hin. apply H. now apply in_map. Qed.
  Lemma inner_text tr w : wfd tr -> inner_sym (sym tr) = true -> map fst (yield tr) = map STok w -> ~ In nl w.
  Proof. intros Hw Hi Hy. apply (no_nl_text _ _ Hy). now apply inner_no_nl. Qed.
  Lemma close_line u ls wb (l : toks) : ~ In nl u -> Forall dull ls -> wb = [nl] \/ wb = [[13]; nl] ->
    exists u' ls', ~ In nl u' /\ Forall dull ls' /\ (u ++ flat ls) ++ wb ++ l = u' ++ flat ls' ++ nl :: l.
  Proof.
    intros Hu Hls [-> | ->].
    - exists u, ls. split; [easy|]. split; [easy|]. now rewrite <- app_assoc.
    - destruct (List.rev ls) as [|x r] eqn:E.
      + assert (ls = []) as -> by (rewrite <- (rev_involutive ls), E; reflexivity). exists (u ++ [[13]]), []. split.
        * intros H. apply in_app_or in H as [H | [H | []]]; [easy|discriminate H].
        * split; [constructor|]. cbn [flat app]. rewrite app_nil_r, <- app_assoc. reflexivity.
      + assert (ls = rev r ++ [x]) as -> by (rewrite <- (rev_involutive ls), E; reflexivity).
        apply Forall_app in Hls as [H1 H2]. inversion H2 as [|? ? [D1 D2] _]; subst. exists u, (rev r ++ [x ++ [[13]]]). split; [easy|]. split.
        * apply Forall_app. split; [easy|]. constructor; [|constructor]. split.
          -- intros H. apply in_app_or in H as [H | [H | []]]; [easy|discriminate H].
          -- destruct x as [|c x]; cbn; auto.
        * rewrite !flat_app. cbn [flat]. rewrite !app_nil_r, <- !app_assoc. cbn [app]. rewrite <- !app_assoc. reflexivity.
  Qed.
  Lemma comment_head tr w : wfd tr -> sym tr = 58 -> map fst (yield tr) = map STok w -> dull w.
  Proof.
    intros Hw Hs Hy. split; [apply (inner_text tr w Hw); [now rewrite Hs|exact Hy]|].
    inversion Hw as [tk Y HY HT|p ts pr Hn Hb Hts]; subst.
    - exfalso. cbn [root_sym] in Hs. subst Y.
      assert (C : memb 58 (g_terms schema_grammar) = false) by (vm_compute; reflexivity). apply memb_iff in HT. congruence.
    - cbn [root_sym] in Hs. rewrite (nth_error_nth _ _ _ Hn) in Hs. pose proof (heads58 _ _ Hn Hs) as K. cbn [known58 In] in K.
      destruct K as [[= _ K] | []]. rewrite <- K in Hb. destruct ts as [|t1 ts]; [discriminate Hb|]. injection Hb as B1 _.
      inversion Hts as [|? ? W1 _]; subst. cbn [yield flat_map] in Hy. rewrite map_app in Hy. apply map_STok_app in Hy.
      destruct Hy as (w1 & w2 & -> & Y1 & _). destruct (leaf_text t1 38 w1 W1 B1 eq_refl Y1) as (u1 & -> & L1).
      apply (lex_char 47) in L1. subst. cbn. auto.
  Qed.
  Lemma delims_head t1 t2 t3 w : wfd t1 -> wfd t2 -> wfd t3 -> sym t1 = 55 -> sym t2 = 40 -> sym t3 = 61 ->
    map fst (yield t1) ++ map fst (yield t2) ++ map fst (yield t3) = map STok w -> dull w.
  Proof.
    intros W1 W2 W3 S1 S2 S3 Hy. apply map_STok_app in Hy. destruct Hy as (w1 & w23 & -> & Y1 & Hy). symmetry in Hy.
    apply map_eq_app in Hy. destruct Hy as (w2 & w3 & -> & Y2 & Y3). symmetry in Y2, Y3. split.
    - intros H. apply in_app_or in H as [H | H]; [|apply in_app_or in H as [H | H]]; revert H.
      + apply (inner_text t1); auto. now rewrite S1.
      + apply (inner_text t2); auto. now rewrite S2.
      + apply (inner_text t3); auto. now rewrite S3.
    - destruct (leaf_text t1 55 w1 W1 S1 eq_refl Y1) as (u1 & -> & L1). apply (lex_chain keyword) in L1. subst. cbn. auto.
  Qed.
  Definition tail_of (tr : tree stok) (w : toks) : Prop :=
    exists a u ls, w = a ++ u ++ flat ls /\ ~ In nl u /\ Forall dull ls /\
      fresh schema_resets tr <= N.of_nat (List.length (u ++ flat ls)).
  Lemma fresh_text tr w : map fst (yield tr) = map STok w -> fresh schema_resets tr <= N.of_nat (List.length w).
  Proof.
    intros Hy. pose proof (fresh_yield schema_resets tr) as H.
    assert (E : List.length (yield tr) = List.length w) by (rewrite <- (map_length fst), Hy; apply map_length).
    now rewrite E in H.
  Qed.
  (** A schema and one more line. *)
  Lemma tail_more tr w (k : N) wb (l : toks) : tail_of tr w -> wb = [nl] \/ wb = [[13]; nl] -> dull l ->
    k <= N.of_nat (List.length (wb ++ l)) ->
    exists a u ls, w ++ wb ++ l = a ++ u ++ flat ls /\ ~ In nl u /\ Forall dull ls /\
      fresh schema_resets tr + k <= N.of_nat (List.length (u ++ flat ls)).
  Proof.
    intros (a & u & ls & -> & Hu & Hls & Hf) Hwb Hl Hb.
    destruct (close_line u ls wb l Hu Hls Hwb) as (u' & ls' & Hu' & Hls' & E).
    exists a, u', (ls' ++ [l]). split.
    - rewrite <- !app_assoc. f_equal. rewrite app_assoc. rewrite E, flat_app. cbn [flat]. now rewrite app_nil_r.
    - split; [easy|]. split; [apply Forall_app; auto|]. rewrite flat_app. cbn [flat]. rewrite app_nil_r, <- E.
      rewrite app_length. lia.
  Qed.
  Lemma schema_tail tr : forall w, wfd tr -> sym tr = 57 -> map fst (yield tr) = map STok w -> tail_of tr w.
  Proof.
    induction tr as [tk X|p ts IH] using tree_ind'; intros w Hw Hs Hy.
    - exfalso. inversion Hw as [? ? _ HT|]; subst. cbn [root_sym] in Hs. subst X.
      assert (C : memb 57 (g_terms schema_grammar) = false) by (vm_compute; reflexivity). apply memb_iff in HT. congruence.
    - inversion Hw as [|? ? pr Hn Hb Hts]; subst. cbn [root_sym] in Hs. rewrite (nth_error_nth _ _ _ Hn) in Hs.
      pose proof (fresh_text _ _ Hy) as Hfr.
      assert (Simple : (forall tr, In tr ts -> inner_sym (sym tr) = true) -> tail_of (Node p ts) w).
      { intros Hin. exists [], w, []. cbn [app flat]. rewrite app_nil_r. split; [easy|]. split; [|split; [constructor|exact Hfr]].
        apply (no_nl_text _ _ Hy). cbn [yield]. rewrite in_map_iff. intros ((tk & X) & E & Hi). cbn [fst] in E. subst tk.
        apply in_flat_map in Hi as (tr & Htr & Hi). rewrite Forall_forall in Hts.
        apply (inner_no_nl tr (Hts tr Htr) (Hin tr Htr)). apply in_map_iff. exists (STok nl, X). auto. }
      pose proof (heads57 _ _ Hn Hs) as K. cbn [known57 In] in K.
      assert (Inner : forall b, p_body pr = b -> forallb inner_sym b = true -> tail_of (Node p ts) w).
      { intros b Eb Hall. apply Simple. intros tr Htr. rewrite forallb_forall in Hall. apply Hall. rewrite <- Eb, <- Hb. now apply in_map. }
      destruct K as [[= _ K] | [[= _ K] | [[= _ K] | K]]]; try (now apply (Inner _ (eq_sym K))).
      (* Schema PortableNewLine ... *)
      assert (Parts : exists t1 t2 r br, ts = t1 :: t2 :: r /\ p_body pr = 57 :: 62 :: br /\ map sym r = br).
      { destruct K as [[= _ K] | [[= _ K] | [[= _ K] | [[= _ K] | []]]]]; rewrite <- K in Hb;
          (destruct ts as [|t1 [|t2 r]]; [discriminate Hb|discriminate Hb|]); injection Hb as _ _ Hb;
          exists t1, t2, r; eexists; (split; [reflexivity|]); (split; [now rewrite <- K|exact Hb]). }
      destruct Parts as (t1 & t2 & r & br & -> & Ebody & Hr). rewrite Ebody in Hb. cbn [map] in Hb. injection Hb as S1 S2 _.
      inversion Hts as [|? ? W1 Hts1]; subst. inversion Hts1 as [|? ? W2 Wr]; subst. inversion IH as [|? ? IH1 _]; subst.
      cbn [yield flat_map] in Hy. rewrite !map_app in Hy. apply map_STok_app in Hy. destruct Hy as (w1 & w23 & -> & Y1 & Hy).
      symmetry in Hy. apply map_eq_app in Hy. destruct Hy as (wb & l & -> & Y2 & Y3). symmetry in Y2, Y3.
      pose proof (break_text t2 wb W2 S2 Y2) as Hwb. specialize (IH1 w1 W1 S1 Y1).
      assert (Hk : fold_right (fun x n => fresh schema_resets x + n) 0 (t2 :: r) <= N.of_nat (List.length (wb ++ l))).
      { assert (G : forall us v, map fst (flat_map yield us) = map STok v ->
                    fold_right (fun x n => fresh schema_resets x + n) 0 us <= N.of_nat (List.length v)).
        { induction us as [|x us IHu]; intros v Hv; [cbn; lia|]. cbn [flat_map] in Hv. rewrite map_app in Hv.
          apply map_STok_app in Hv. destruct Hv as (v1 & v2 & -> & V1 & V2). cbn [fold_right]. rewrite app_length.
          pose proof (fresh_text _ _ V1). pose proof (IHu _ V2). lia. }
        apply G. cbn [flat_map]. now rewrite map_app, Y2, Y3, map_app. }
      assert (Hd : forall Hres : schema_resets p = false, dull l -> tail_of (Node p (t1 :: t2 :: r)) (w1 ++ wb ++ l)).
      { intros Hres Hl. destruct (tail_more t1 w1 _ wb l IH1 Hwb Hl Hk) as (a & u & ls & E & Hu & Hls & Hf).
        exists a, u, ls. split; [exact E|]. split; [easy|]. split; [easy|]. cbn [fresh]. rewrite Hres. exact Hf. }
      destruct K as [[= Kp K] | [[= Kp K] | [[= Kp K] | [[= Kp K] | []]]]]; rewrite Ebody in K; injection K as K;
        (assert (Ep : p = N.of_nat (N.to_nat p)) by lia); rewrite <- Kp in Ep.
      + apply Hd; [now rewrite Ep|]. destruct r; [|discriminate K]. cbn in Y3. destruct l; [|discriminate Y3]. split; [easy|exact Logic.I].
      + apply Hd; [now rewrite Ep|]. destruct r as [|t3 [|? ?]]; try discriminate K. injection K as K. cbn [flat_map] in Y3.
        rewrite app_nil_r in Y3. inversion Wr as [|? ? W3 _]; subst. now apply (comment_head t3).
      + exists (w1 ++ wb ++ l), [], []. cbn [flat app]. rewrite !app_nil_r. split; [easy|]. split; [easy|]. split; [constructor|].
        cbn [fresh]. rewrite Ep. change (schema_resets (N.of_nat 6)) with true. cbn. lia.
      + apply Hd; [now rewrite Ep|]. destruct r as [|t3 [|t4 [|t5 [|? ?]]]]; try discriminate K. injection K as K1 K2 K3. cbn [flat_map] in Y3.
        rewrite app_nil_r, !map_app in Y3. inversion Wr as [|? ? W3 Wr']; subst. inversion Wr' as [|? ? W4 Wr'']; subst.
        inversion Wr'' as [|? ? W5 _]; subst. now apply (delims_head t3 t4 t5).
  Qed.
  (** The whole stack. *)
  Lemma fresh_both a b : fresh_all schema_resets (a ++ b : list (tree stok)) = fresh_all schema_resets a + fresh_all schema_resets b.
  Proof. induction a as [|x a IHa]; cbn; [easy|]. fold (fresh_all schema_resets a) (fresh_all schema_resets (a ++ b)). rewrite IHa. lia. Qed.
  Lemma fresh_back (a : list (tree stok)) : fresh_all schema_resets (rev a) = fresh_all schema_resets a.
  Proof. induction a as [|x a IHa]; [easy|]. cbn [rev]. rewrite fresh_both, IHa. unfold fresh_all. cbn [fold_right]. lia. Qed.
  Lemma open_more m z : open_stretch m -> ~ In nl z -> open_stretch (m ++ z).
  Proof.
    intros (u & Hu & [-> | (ls & q & -> & Hls & Hq)]) Hz.
    - exists (u ++ z). split; [|auto]. intros H. apply in_app_or in H as [H | H]; auto.
    - exists u. split; [easy|]. right. exists ls, (q ++ z). split; [now rewrite <- !app_assoc|]. split; [easy|].
      intros H. apply in_app_or in H as [H | H]; auto.
  Qed.
  Lemma open_tail u ls : ~ In nl u -> Forall dull ls -> open_stretch (u ++ flat ls).
  Proof.
    intros Hu Hls. exists u. split; [easy|]. destruct (rev ls) as [|x r] eqn:E.
    - assert (ls = []) as -> by (rewrite <- (rev_involutive ls), E; reflexivity). left. apply app_nil_r.
    - assert (ls = rev r ++ [x]) as -> by (rewrite <- (rev_involutive ls), E; reflexivity).
      apply Forall_app in Hls as [H1 H2]. inversion H2 as [|? ? [D1 _] _]; subst. right. exists (rev r), x.
      rewrite flat_app. cbn [flat]. now rewrite app_nil_r.
  Qed.
  Lemma forest_text us : forall w, Forall wfd us -> map fst (flat_map yield us) = map STok w ->
    Forall (fun tr => inner_sym (sym tr) = true) us -> ~ In nl w.
  Proof.
    induction us as [|x us IH]; intros w Hw Hy Hi; cbn [flat_map] in Hy; [now destruct w|].
    rewrite map_app in Hy. apply map_STok_app in Hy. destruct Hy as (w1 & w2 & -> & Y1 & Y2).
    inversion Hw; inversion Hi; subst. intros H. apply in_app_or in H as [H | H]; revert H; [now apply (inner_text x)|now apply IH].
  Qed.
  Lemma fresh_all_text us : forall w, map fst (flat_map yield us) = map STok w -> fresh_all schema_resets us <= N.of_nat (List.length w).
  Proof.
    induction us as [|x us IH]; intros w Hy; [cbn; lia|]. cbn [flat_map] in Hy. rewrite map_app in Hy.
    apply map_STok_app in Hy. destruct Hy as (v1 & v2 & -> & V1 & V2). cbn [fresh_all fold_right]. rewrite app_length.
    pose proof (fresh_text _ _ V1). pose proof (IH _ V2). unfold fresh_all in *. lia.
  Qed.
  Lemma linked_wf ss ts : linked ss ts -> Forall wfd ts.
  Proof. induction 1; constructor; auto. Qed.
  Lemma stack_stretch ss ts w : linked ss ts -> consumed ts = map STok w ->
    exists a m, w = a ++ m /\ open_stretch m /\ fresh_all schema_resets ts <= N.of_nat (List.length m).
  Proof.
    intros Hl Hc. pose proof (linked_wf _ _ Hl) as Hw. destruct (linked_shape _ _ Hl) as (s & r & _ & Hsh & _).
    (* a schema and what follows it *)
    assert (Gen : forall r S, ts = r ++ [S] -> sym S = 57 ->
              (forall z, Forall wfd r -> map fst (flat_map yield (rev r)) = map STok z ->
                ~ In nl z \/ exists wb q, z = wb ++ q /\ (wb = [nl] \/ wb = [[13]; nl]) /\ ~ In nl q) ->
              exists a m, w = a ++ m /\ open_stretch m /\ fresh_all schema_resets ts <= N.of_nat (List.length m)).
    { clear Hsh r s. intros r S -> HS Hr. apply Forall_app in Hw as [Hwr HwS]. inversion HwS as [|? ? WS _]; subst.
      unfold consumed in Hc. rewrite rev_app_distr in Hc. cbn [rev app flat_map] in Hc. rewrite map_app in Hc.
      apply map_STok_app in Hc. destruct Hc as (w1 & z & -> & Y1 & Y2). specialize (Hr z Hwr Y2).
      destruct (schema_tail S w1 WS HS Y1) as (a & u & ls & -> & Hu & Hls & Hf).
      pose proof (fresh_all_text _ _ Y2) as Hz. rewrite fresh_back in Hz.
      assert (Hlen : fresh_all schema_resets (r ++ [S]) <= N.of_nat (List.length ((u ++ flat ls) ++ z))).
      { rewrite fresh_both, app_length. cbn [fresh_all fold_right]. lia. }
      exists a, ((u ++ flat ls) ++ z). split; [now rewrite <- !app_assoc|]. split; [|exact Hlen].
      destruct Hr as [Hr | (wb & q & -> & Hwb & Hq)].
      - apply open_more; [now apply open_tail|easy].
      - destruct (close_line u ls wb q Hu Hls Hwb) as (u' & ls' & Hu' & Hls' & E). rewrite E. exists u'. split; [easy|].
        right. exists ls', q. auto. }
    assert (T28 : forall c z, wfd c -> sym c = 28 -> map fst (yield c) = map STok z -> z = [[13]]).
    { intros c z W E Y. destruct (leaf_text c 28 z W E eq_refl Y) as (u1 & -> & L1). apply (lex_char 13) in L1. now subst. }
    assert (T25 : forall c z, wfd c -> sym c = 25 -> map fst (yield c) = map STok z -> z = [nl]).
    { intros c z W E Y. destruct (leaf_text c 25 z W E eq_refl Y) as (u1 & -> & L1). apply (lex_char 10) in L1. now subst. }
    inversion Hsh as [? ? _ F|S E1|S c E1 E2|S c E1 E2|S c d E1 E2 E3|? S b us O E1 E2 F]; subst.
    - exists [], w. split; [easy|]. split.
      + exists w. split; [|auto]. apply (forest_text (rev ts)); [now apply Forall_rev|exact Hc|now apply Forall_rev].
      + rewrite <- fresh_back. now apply fresh_all_text.
    - apply (Gen [] S eq_refl E1). intros z _ Hz. left. now destruct z.
    - apply (Gen [c] S eq_refl E1). intros z Wz Hz. left. inversion Wz as [|? ? W1 _]; subst. cbn [rev app flat_map] in Hz.
      rewrite app_nil_r in Hz. rewrite (T28 c z W1 E2 Hz). intros [H | []]. discriminate H.
    - apply (Gen [c] S eq_refl E1). intros z Wz Hz. right. inversion Wz as [|? ? W1 _]; subst. cbn [rev app flat_map] in Hz.
      rewrite app_nil_r in Hz. exists [nl], []. rewrite (T25 c z W1 E2 Hz). auto.
    - apply (Gen [d; c] S eq_refl E1). intros z Wz Hz. right. inversion Wz as [|? ? W1 Wz1]; subst. inversion Wz1 as [|? ? W2 _]; subst.
      cbn [rev app flat_map] in Hz. rewrite app_nil_r, map_app in Hz. apply map_STok_app in Hz.
      destruct Hz as (z1 & z2 & -> & Y1 & Y2). exists [[13]; nl], []. rewrite (T28 c z1 W2 E2 Y1), (T25 d z2 W1 E3 Y2). auto.
    - apply (Gen (us ++ [b]) S); [now rewrite <- app_assoc|exact E1|]. intros z Wz Hz. right. apply Forall_app in Wz as [Wu Wb].
      inversion Wb as [|? ? W1 _]; subst. rewrite rev_app_distr in Hz. cbn [rev app flat_map] in Hz. rewrite map_app in Hz.
      apply map_STok_app in Hz. destruct Hz as (z1 & z2 & -> & Y1 & Y2). exists z1, z2. split; [easy|].
      split; [exact (break_text b z1 W1 E2 Y1)|]. apply (forest_text (rev us)); [now apply Forall_rev|exact Y2|now apply Forall_rev].
  Qed.
  Lemma schema_fresh k inp ss ts l : often k inp -> linked ss ts -> map STok inp = consumed ts ++ l -> fresh_all schema_resets ts <= k.
  Proof.
    intros Ho Hl E. symmetry in E. apply map_STok_app in E. destruct E as (w & w2 & -> & E & _).
    destruct (stack_stretch _ _ _ Hl E) as (a & m & -> & Hm & Hf).
    destruct (N.ltb_spec k (N.of_nat (List.length m))) as [H | H]; [|lia]. exfalso.
    apply (open_none m Hm). apply (Ho a m w2); [now rewrite <- app_assoc|exact H].
  Qed.
End Shape.

(** Only the production for one more variable resets. *)
Lemma resets_6 p : schema_resets p = true -> p = 6.
Proof.
  unfold schema_resets. destruct (nth_error schema_rules (N.to_nat p)) as [k|] eqn:E; [|easy]. intros H.
  pose proof (nth_combine schema_rules (N.to_nat p) 0 k E) as G. cbn [Nat.add] in G.
  assert (C : forallb (fun e => match snd e with existing_schema_rule => Nat.eqb (fst e) 6 | _ => true end)
                (combine (seq 0 (List.length schema_rules)) schema_rules) = true) by (vm_compute; reflexivity).
  rewrite forallb_forall in C. specialize (C _ G). cbn [snd fst] in C. destruct k; try discriminate H. apply Nat.eqb_eq in C. lia.
Qed.

(** ** The parser. *)
Section Long.
  Variable types : stok -> list N.
  Hypothesis Heof : types SEof = [TokenEnd].
  Hypothesis Htypes : forall w X, In X (types (STok w)) <-> In X (schema_matches w).
  Notation parser fuel inp alloc :=
    (parse types SEof schema_rule schema_resets cSizeOfAllChildren schema_grammar schema_table fuel (Some 0) (map STok inp) alloc).

  Theorem long_meaning fuel inp alloc :
    often 713 inp -> alloc <= cSizeOfAllChildren / 2 -> 7 * N.of_nat (List.length inp) + 1 < N.of_nat fuel ->
    (forall vars delims, (exists p al, parser fuel inp alloc = Ret (VNt p (Some (VSchema vars delims)), al)) <-> schema_text inp vars delims) /\
    match parser fuel inp alloc with
    | Ret (v, al) => exists p vars delims, v = VNt p (Some (VSchema vars delims))
    | UB => exists m, infix m inp /\ bad m
    | Throw => True
    | OutOfFuel => False
    end.
  Proof.
    intros Ho Hal Hf.
    pose proof (schema_meaning types Heof Htypes (fun _ => false) (7 * N.of_nat (List.length inp) + 1) fuel inp 0 ltac:(lia) Hf) as [M1 M2].
    assert (E : same_out (parser fuel inp alloc)
                  (parse types SEof schema_rule (fun _ => false) (7 * N.of_nat (List.length inp) + 1) schema_grammar schema_table fuel
                     (Some 0) (map STok inp) 0)).
    { destruct (generate_rows sfuel scfuel schema_grammar schema_start schema_table (Some 0) schema_wf schema_productive
                  (proj1 schema_generated)) as (sets & T1 & T2 & _ & T3).
      assert (H1 : forall w X, In X (types (STok w)) -> In X (schema_matches w)) by (intros w X; apply (proj1 (Htypes w X))).
      apply (parse_same types SEof schema_rule schema_resets cSizeOfAllChildren scfuel schema_grammar schema_start schema_table sets
               schema_wf T1 T2 (types_terms types Heof H1) Heof schema_weight 5 1 schema_weights) with (K := 713) (B := 5005).
      - intros s X j Hact Ej. apply link in Hact. unfold link_ok in Hact. subst j. discriminate Hact.
      - intros p s j Hp Hact. assert (p = 6) as -> by now apply resets_6.
        change (p_head (prod_at schema_grammar 6)) with 57 in Hact. apply link in Hact. unfold link_ok in Hact.
        apply andb_true_iff in Hact as [_ Hact]. cbn in Hact. apply andb_true_iff in Hact as [Hact _]. now apply N.eqb_eq in Hact.
      - intros ss ts l. now apply schema_fresh.
      - easy.
      - intros p Hp. assert (p = 6) as -> by now apply resets_6.
        vm_compute. discriminate.
      - apply Forall_forall. exact (texts_plain types H1 inp).
      - change (cSizeOfAllChildren / 2) with 5000 in Hal. lia.
      - rewrite map_length. lia. }
    split.
    - intros vars delims. rewrite <- M1. split; intros (p & al & Hp).
      + rewrite Hp in E. destruct (parse _ _ _ (fun _ => false) _ _ _ _ _ _ _) as [[v al']| | |]; try contradiction.
        cbn [same_out] in E. subst v. eauto.
      + rewrite Hp in E. destruct (parser fuel inp alloc) as [[v al']| | |]; try contradiction.
        cbn [same_out] in E. subst v. eauto.
    - destruct (parser fuel inp alloc) as [[v al']| | |], (parse _ _ _ (fun _ => false) _ _ _ _ _ _ _) as [[v2 al2]| | |];
        cbn [same_out] in E; try contradiction; auto. now subst v2.
  Qed.
End Long.
