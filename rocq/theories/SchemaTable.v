(** SchemaTable.v -- the table that generate builds for SchemaParser's grammar, and what it satisfies. *)
From Verif Require Import Base OrdSet GrammarSpec FirstModel LrModel LrSets LrTable ParseSpec LrDriver LrSound
  LrComplete LrMain SchemaGrammar.
From Coq Require Import String.
Local Open Scope list_scope.
Local Open Scope N_scope.

(** ** The table. *)
Definition gen_all (fuel cfuel : nat) (g : grammar) : out (bool * table * option N) :=
  do s <- item_sets fuel cfuel g;
  let '(sets, gt, root) := s in
  do t <- all_actions g sets gt sets;
  Ret (end_conflict g sets, t, root).
Lemma gen_all_inv fuel cfuel g c t r : gen_all fuel cfuel g = Ret (c, t, r) ->
  generate fuel cfuel g = Ret (t, r) /\
  exists sets gt, item_sets fuel cfuel g = Ret (sets, gt, r) /\ end_conflict g sets = c.
Proof.
  unfold gen_all, generate. intros H.
  destruct (item_sets fuel cfuel g) as [[[sets gt] root]| | |]; cbn [bind] in *; try discriminate H.
  destruct (all_actions g sets gt sets) as [t'| | |]; cbn [bind] in *; try discriminate H.
  injection H as H1 H2 H3. subst. split; [reflexivity|]. exists sets, gt. split; reflexivity.
Qed.
Definition sfuel : nat := N.to_nat 300.
Definition scfuel : nat := N.to_nat 20000.
Definition table_in (o : out (bool * table * option N)) : table :=
  match o with Ret (_, t, _) => t | _ => [] end.
Definition schema_table : table := Eval vm_compute in table_in (gen_all sfuel scfuel schema_grammar).
Lemma schema_all_eq : gen_all sfuel scfuel schema_grammar = Ret (false, schema_table, Some 0).
Proof. vm_cast_no_check (eq_refl (Ret (false, schema_table, Some 0))). Qed.

Theorem schema_generated : generate sfuel scfuel schema_grammar = Ret (schema_table, Some 0) /\
  exists sets gt, item_sets sfuel scfuel schema_grammar = Ret (sets, gt, Some 0) /\
                  end_conflict schema_grammar sets = false.
Proof. exact (gen_all_inv sfuel scfuel schema_grammar false schema_table (Some 0) schema_all_eq). Qed.

(** ** Checking that a grammar is well formed and productive. *)
Definition memb (x : N) (l : list N) : bool := existsb (N.eqb x) l.
Lemma memb_iff x l : memb x l = true <-> In x l.
Proof.
  unfold memb. rewrite existsb_exists. split.
  - intros (y & Hy & E). apply N.eqb_eq in E. now subst.
  - intros H. exists x. split; [easy|apply N.eqb_refl].
Qed.
Definition wf_check (g : grammar) (start : N) : bool :=
  match nth_error (g_prods g) (N.to_nat (g_root g)) with
  | Some (mkProd h [s]) => (s =? start) && forallb (fun p => negb (memb h (p_body p))) (g_prods g)
  | _ => false
  end
  && memb start (g_nts g)
  && forallb (fun X => memb X (map p_head (g_prods g))) (g_nts g)
  && forallb (fun p => memb (p_head p) (g_nts g)) (g_prods g)
  && forallb (fun X => negb (memb X (g_terms g))) (g_nts g)
  && forallb (fun p => forallb (fun X => (memb X (g_terms g) || memb X (g_nts g)) && negb (X =? TokenEnd)) (p_body p)) (g_prods g)
  && memb TokenEnd (g_terms g)
  && forallb (fun X => X <? g_nsym g) (g_terms g ++ g_nts g)
  && (g_nsym g <=? 10000000).
Lemma wf_check_ok g start : wf_check g start = true -> wf_grammar g start.
Proof.
  unfold wf_check. rewrite !andb_true_iff. intros ((((((((H1 & H2) & H3) & H4) & H5) & H6) & H7) & H8) & H9).
  rewrite forallb_forall in *. constructor.
  - destruct (nth_error _ _) as [[h [|s [|? ?]]]|]; try easy. apply andb_true_iff in H1. destruct H1 as [E H1].
    apply N.eqb_eq in E. subst s. exists h. split; [easy|]. rewrite forallb_forall in H1. intros p Hp Hin.
    apply H1 in Hp. apply negb_true_iff in Hp. apply memb_iff in Hin. congruence.
  - now apply memb_iff.
  - intros X. split.
    + intros H. apply H3 in H. apply memb_iff in H. apply in_map_iff in H. destruct H as (p & E & Hp). eauto.
    + intros (p & Hp & <-). apply H4 in Hp. now apply memb_iff.
  - intros X HX Ht. apply H5 in HX. apply negb_true_iff in HX. apply memb_iff in Ht. congruence.
  - intros p X Hp HX. apply H6 in Hp. rewrite forallb_forall in Hp. apply Hp in HX.
    apply andb_true_iff in HX. destruct HX as [A B]. apply orb_true_iff in A. rewrite !memb_iff in A.
    split; [easy|]. apply negb_true_iff in B. now apply N.eqb_neq in B.
  - now apply memb_iff.
  - intros X HX. apply N.ltb_lt. apply H8. apply in_or_app. exact HX.
  - now apply N.leb_le.
Qed.

(** The non-terminals that derive a sequence of terminals, in rounds. *)
Fixpoint live (n : nat) (g : grammar) (acc : list N) : list N :=
  match n with
  | O => acc
  | S k => live k g (fold_left (fun l p =>
             if forallb (fun X => memb X (g_terms g) || memb X l) (p_body p) then p_head p :: l else l)
             (g_prods g) acc)
  end.
Definition derives_terms (g : grammar) (X : N) : Prop :=
  exists w, derives (g_prods g) [X] w /\ forall t, In t w -> In t (g_terms g).
Lemma derives_body g body : (forall X, In X body -> In X (g_terms g) \/ derives_terms g X) ->
  exists w, derives (g_prods g) body w /\ forall t, In t w -> In t (g_terms g).
Proof.
  induction body as [|X body IH]; intros H; [exists []; split; [constructor|easy]|].
  destruct IH as (w & D & T); [intros; apply H; now right|].
  destruct (H X ltac:(now left)) as [HX | (w' & D' & T')].
  - exists (X :: w). split; [|intros t [<- | Ht]; auto]. change (X :: body) with ([X] ++ body).
    change (X :: w) with ([X] ++ w). apply derives_app; [constructor|easy].
  - exists (w' ++ w). split; [|intros t Ht; apply in_app_or in Ht; destruct Ht; auto].
    change (X :: body) with ([X] ++ body). now apply derives_app.
Qed.
Lemma live_ok g n : forall acc, (forall X, In X acc -> derives_terms g X) ->
  forall X, In X (live n g acc) -> derives_terms g X.
Proof.
  induction n as [|n IH]; intros acc Hacc X; cbn [live]; [apply Hacc|]. apply IH. clear X.
  set (f := fun l p => _).
  assert (G : forall ps l, (forall p, In p ps -> In p (g_prods g)) -> (forall X, In X l -> derives_terms g X) ->
              forall X, In X (fold_left f ps l) -> derives_terms g X).
  { induction ps as [|p ps IHp]; intros l Hps Hl; cbn [fold_left]; [exact Hl|].
    apply IHp; [intros; apply Hps; now right|]. unfold f.
    destruct (forallb _ (p_body p)) eqn:E; [|exact Hl]. intros X [<- | HX]; [|auto].
    destruct (derives_body g (p_body p)) as (w & D & T).
    - intros X HX. rewrite forallb_forall in E. apply E in HX. apply orb_true_iff in HX. rewrite !memb_iff in HX.
      destruct HX; auto.
    - exists w. split; [|easy]. apply derives_prod; [apply Hps; now left|easy]. }
  apply G; auto.
Qed.
Lemma live_productive g n : forallb (fun X => memb X (live n g [])) (g_nts g) = true -> productive g.
Proof.
  intros H X HX. rewrite forallb_forall in H. apply H, memb_iff in HX.
  apply (live_ok g n [] ltac:(intros ? []) X HX).
Qed.

(** ** Names and tokens. *)
Definition sid (name : string) : N :=
  match SchemaModel.id_of schema_names name with Some i => i | None => 10000000 end.
(** The texts a lexical rule matches (SchemaParser.cpp 419-482, with the patterns' meaning). *)
Definition lex_match (r : lexrule) (w : list N) : bool :=
  match r, w with
  | LexChar c, [b] => b =? c
  | LexRange lo hi, [b] => (lo <=? b) && (b <=? hi)
  | LexChain l, _ => if list_eq_dec N.eq_dec l w then true else false
  | LexNotIn cs, [b] => (b <? 256) && negb (memb b cs)
  | _, _ => false
  end.
(** The tokens: a text, or the end. *)
Inductive stok : Type := SEof | STok (w : list N).
Definition schema_matches (w : list N) : list N :=
  map (fun e => sid (fst e)) (filter (fun e => lex_match (snd e) w) schema_tokens).

Definition schema_start : N := sid "Schema".
Lemma schema_wf : wf_grammar schema_grammar schema_start.
Proof. apply wf_check_ok. vm_compute. reflexivity. Qed.
Lemma schema_productive : productive schema_grammar.
Proof. apply (live_productive _ 7). vm_compute. reflexivity. Qed.

(** ** Whatever types the lexer reports for a text, they never ask for different actions. *)
Definition action_eqb (a b : action) : bool :=
  match a, b with
  | ABool x, ABool y => Bool.eqb x y
  | AShift i, AShift j => i =? j
  | AReduce p, AReduce q => p =? q
  | _, _ => false
  end.
Lemma action_eqb_eq a b : action_eqb a b = true -> a = b.
Proof.
  destruct a, b; cbn; try easy; intros H; f_equal; try (now apply N.eqb_eq).
  now apply Bool.eqb_prop.
Qed.
Definition row_agrees (row : acts) (Xs : list N) : bool :=
  match filter (fun a => negb (action_eqb a (ABool false))) (map (act_at row) Xs) with
  | [] => true
  | a :: r => forallb (action_eqb a) r
  end.
Lemma row_agrees_ok row Xs X Y : row_agrees row Xs = true -> In X Xs -> In Y Xs ->
  act_at row X <> ABool false -> act_at row Y <> ABool false -> act_at row X = act_at row Y.
Proof.
  unfold row_agrees. intros H HX HY NX NY.
  assert (G : forall Z, In Z Xs -> act_at row Z <> ABool false ->
     In (act_at row Z) (filter (fun a => negb (action_eqb a (ABool false))) (map (act_at row) Xs))).
  { intros Z HZ N. apply filter_In. split; [now apply in_map|]. apply negb_true_iff.
    destruct (action_eqb _ _) eqn:E; [|easy]. now apply action_eqb_eq in E. }
  apply G in HX; auto. apply G in HY; auto.
  destruct (filter _ _) as [|a r]; [easy|]. rewrite forallb_forall in H.
  assert (forall b, In b (a :: r) -> b = a).
  { intros b [<- | Hb]; [easy|]. apply H, action_eqb_eq in Hb. easy. }
  rewrite (H0 _ HX), (H0 _ HY). easy.
Qed.
Definition bytes7 : list N := map N.of_nat (seq 0 128).
Definition kw_delims : list N := [100; 101; 108; 105; 109; 105; 116; 101; 114; 115].
Definition agree_check (ms : list N -> list N) (t : table) : bool :=
  forallb (fun ia => forallb (fun b => row_agrees (snd ia) (ms [b])) bytes7 && row_agrees (snd ia) (ms kw_delims)) t.
Lemma agree_check_eq : agree_check schema_matches schema_table = true.
Proof. vm_cast_no_check (eq_refl true). Qed.

Lemma row_of_in t i row : row_of t i = Some row -> In (i, row) t.
Proof.
  induction t as [|[j a] t IH]; cbn; [easy|]. destruct (N.eqb_spec i j) as [-> |]; [|auto].
  intros [= ->]. now left.
Qed.
Definition low_rule (r : lexrule) : bool :=
  match r with
  | LexChar c => c <? 128
  | LexRange _ hi => hi <? 128
  | LexChain l => negb (Nat.eqb (List.length l) 1)
  | LexNotIn cs => forallb (fun c => c <? 128) cs
  end.
Definition not_in_rule (r : lexrule) : bool := match r with LexNotIn _ => true | _ => false end.
Lemma low_rule_high r b : 128 <= b < 256 -> low_rule r = true -> lex_match r [b] = not_in_rule r.
Proof.
  intros Hb. destruct r as [c|lo hi|l|cs]; cbn [low_rule lex_match not_in_rule].
  - intros H. apply N.ltb_lt in H. apply N.eqb_neq. lia.
  - intros H. apply N.ltb_lt in H. apply andb_false_intro2. apply N.leb_gt. lia.
  - intros H. destruct (list_eq_dec N.eq_dec l [b]) as [-> |]; easy.
  - intros H. rewrite forallb_forall in H. rewrite (proj2 (N.ltb_lt b 256)) by lia. destruct (memb b cs) eqn:E; [|easy]. apply memb_iff, H, N.ltb_lt in E. lia.
Qed.
Lemma matches_huge b : 256 <= b -> schema_matches [b] = [].
Proof.
  intros H. unfold schema_matches. rewrite (filter_ext_in (fun e => lex_match (snd e) [b]) (fun e => false)).
  - vm_compute. reflexivity.
  - assert (G : forallb (fun e => low_rule (snd e)) schema_tokens = true) by (vm_compute; reflexivity).
    rewrite forallb_forall in G. intros e He. specialize (G e He).
    destruct (snd e) as [c|lo hi|l|cs]; cbn [low_rule lex_match] in *.
    + apply N.ltb_lt in G. apply N.eqb_neq. lia.
    + apply N.ltb_lt in G. apply andb_false_intro2. apply N.leb_gt. lia.
    + destruct (list_eq_dec N.eq_dec l [b]) as [-> |]; easy.
    + apply andb_false_intro1. apply N.ltb_ge. lia.
Qed.
Lemma matches_high b : 128 <= b < 256 -> schema_matches [b] = [sid "CommentCharacters"].
Proof.
  intros H. unfold schema_matches.
  rewrite (filter_ext_in (fun e => lex_match (snd e) [b]) (fun e => not_in_rule (snd e))).
  - vm_compute. reflexivity.
  - assert (G : forallb (fun e => low_rule (snd e)) schema_tokens = true) by (vm_compute; reflexivity).
    rewrite forallb_forall in G. intros e He. apply low_rule_high; [exact H|exact (G e He)].
Qed.
Lemma matches_other w : List.length w <> 1%nat -> w <> kw_delims ->
  schema_matches w = [].
Proof.
  intros H1 H2. unfold schema_matches.
  rewrite (filter_ext_in (fun e => lex_match (snd e) w) (fun _ => false)).
  - vm_compute. reflexivity.
  - intros e He.
    assert (G : forallb (fun e => match snd e with
        | LexChain l => if list_eq_dec N.eq_dec l kw_delims then true else false
        | _ => true end) schema_tokens = true) by (vm_compute; reflexivity).
    rewrite forallb_forall in G. apply G in He.
    destruct (snd e) as [c|lo hi|l|cs]; cbn [lex_match].
    + destruct w as [|? [|? ?]]; easy.
    + destruct w as [|? [|? ?]]; easy.
    + destruct (list_eq_dec N.eq_dec l _) as [-> |] in He; [|easy].
      destruct (list_eq_dec _ _ _) as [E|]; [congruence|easy].
    + destruct w as [|? [|? ?]]; easy.
Qed.

Lemma agree_of_check (ms : list N -> list N) (tp : stok -> list N) (g : grammar) (t : table) :
  (forall b, 128 <= b -> (exists X, ms [b] = [X]) \/ ms [b] = []) ->
  (forall w, List.length w <> 1%nat -> w <> kw_delims -> ms w = []) ->
  agree_check ms t = true -> tp SEof = [TokenEnd] ->
  (forall w X, In X (tp (STok w)) -> In X (ms w)) -> agree tp g t.
Proof.
  intros High Other Hc He Ht s tk X Y a b HX HY Ha Hb Na Nb. destruct tk as [|w].
  - rewrite He in HX, HY. destruct HX as [<- | []], HY as [<- | []]. congruence.
  - apply Ht in HX, HY. unfold action_at in Ha, Hb.
    destruct (row_of t s) as [row|] eqn:Er; [|easy]. apply row_of_in in Er.
    destruct (g_nsym g <=? X); [easy|]. destruct (g_nsym g <=? Y); [easy|].
    injection Ha as <-. injection Hb as <-.
    unfold agree_check in Hc. rewrite forallb_forall in Hc.
    apply Hc in Er. cbn [snd] in Er. apply andb_true_iff in Er. destruct Er as [E1 E2]. rewrite forallb_forall in E1.
    destruct (list_eq_dec N.eq_dec w kw_delims) as [-> | Hw].
    + exact (row_agrees_ok row _ X Y E2 HX HY Na Nb).
    + destruct w as [|c [|c2 w]].
      * rewrite Other in HX by easy. easy.
      * destruct (N.lt_ge_cases c 128) as [L | L].
        -- apply (row_agrees_ok row (ms [c])); auto. apply E1. apply in_map_iff. exists (N.to_nat c).
           split; [lia|]. apply in_seq. lia.
        -- destruct (High c L) as [(Z & EZ) | EZ]; rewrite EZ in HX, HY; [|easy]. destruct HX as [<- | []], HY as [<- | []]. easy.
      * rewrite Other in HX by easy. easy.
Qed.
Theorem schema_agree (types : stok -> list N) : types SEof = [TokenEnd] ->
  (forall w X, In X (types (STok w)) -> In X (schema_matches w)) -> agree types schema_grammar schema_table.
Proof.
  apply agree_of_check.
  - intros b Hb. destruct (N.lt_ge_cases b 256) as [L | L].
    + left. eexists. apply (matches_high b). lia.
    + right. exact (matches_huge b L).
  - exact matches_other.
  - exact agree_check_eq.
Qed.
Lemma names_of_rules (toks : list (string * lexrule)) (f : string -> N) (ts : list N) (eof : N) w X :
  forallb (fun e => memb (f (fst e)) ts && negb (f (fst e) =? eof)) toks = true ->
  In X (map (fun e => f (fst e)) (filter (fun e => lex_match (snd e) w) toks)) -> In X ts /\ X <> eof.
Proof.
  intros G H. apply in_map_iff in H. destruct H as (e & <- & He).
  apply filter_In in He. destruct He as [He _].
  rewrite forallb_forall in G. apply G in He. apply andb_true_iff in He. destruct He as [A B].
  split; [now apply memb_iff|]. apply negb_true_iff in B. now apply N.eqb_neq in B.
Qed.
Lemma schema_match_terms w X : In X (schema_matches w) -> In X (g_terms schema_grammar) /\ X <> TokenEnd.
Proof.
  apply (names_of_rules schema_tokens sid (g_terms schema_grammar) TokenEnd w X).
  vm_cast_no_check (eq_refl true).
Qed.
