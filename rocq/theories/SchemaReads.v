(** SchemaReads.v -- the values of the parse trees of SchemaParser's grammar are what SchemaSyntax.v says. *)
From Verif Require Import Base GrammarSpec ParseSpec RegexModel SchemaModel SchemaActions SchemaGrammar SchemaTable LrSound
  SchemaRules SchemaSyntax.
From Coq Require Import String.
Local Open Scope list_scope.
Local Open Scope N_scope.

(** ** Tokens. *)
Definition rules_of (X : N) : list lexrule :=
  map snd (filter (fun e => sid (fst e) =? X) schema_tokens).
Definition lexes (X : N) (u : list N) : Prop := existsb (fun r => lex_match r u) (rules_of X) = true.
Lemma rules_gen (f : string -> N) (l : list (string * lexrule)) X u :
  In X (map (fun e => f (fst e)) (filter (fun e => lex_match (snd e) u) l)) <->
  existsb (fun r => lex_match r u) (map snd (filter (fun e => f (fst e) =? X) l)) = true.
Proof.
  rewrite in_map_iff, existsb_exists. split.
  - intros (e & E & H). apply filter_In in H. destruct H as [H1 H2]. exists (snd e). split; [|easy].
    apply in_map. apply filter_In. split; [easy|]. now apply N.eqb_eq.
  - intros (r & H & M). apply in_map_iff in H. destruct H as (e & <- & H). apply filter_In in H.
    destruct H as [H1 H2]. apply N.eqb_eq in H2. exists e. split; [easy|]. apply filter_In. auto.
Qed.
Lemma lexes_iff X u : In X (schema_matches u) <-> lexes X u.
Proof. exact (rules_gen sid schema_tokens X u). Qed.

Lemma lex_char c u : existsb (fun r => lex_match r u) [LexChar c] = true <-> u = [c].
Proof.
  cbn [existsb lex_match]. rewrite orb_false_r. split.
  - destruct u as [|b [|? ?]]; try easy. intros H. apply N.eqb_eq in H. now subst.
  - intros ->. apply N.eqb_refl.
Qed.
Lemma lex_chain c u : existsb (fun r => lex_match r u) [LexChain c] = true <-> u = c.
Proof.
  cbn [existsb lex_match]. rewrite orb_false_r. destruct (list_eq_dec N.eq_dec c u); split; congruence.
Qed.
Lemma lex_range lo hi u : existsb (fun r => lex_match r u) [LexRange lo hi] = true <-> exists b, u = [b] /\ lo <= b <= hi.
Proof.
  cbn [existsb lex_match]. rewrite orb_false_r. split.
  - destruct u as [|b [|? ?]]; try easy. intros H. apply andb_true_iff in H. rewrite !N.leb_le in H. now exists b.
  - intros (b & -> & H). apply andb_true_iff. rewrite !N.leb_le. easy.
Qed.
Lemma lex_alnum u : existsb (fun r => lex_match r u) [LexRange 97 122; LexRange 65 90; LexRange 48 57] = true <->
  exists b, u = [b] /\ alnum b.
Proof.
  cbn [existsb lex_match]. rewrite orb_false_r. unfold alnum, digit. split.
  - destruct u as [|b [|? ?]]; try easy. rewrite !orb_true_iff, !andb_true_iff, !N.leb_le. intros H. exists b.
    split; [easy|]. lia.
  - intros (b & -> & H). rewrite !orb_true_iff, !andb_true_iff, !N.leb_le. lia.
Qed.
Lemma lex_comment u : existsb (fun r => lex_match r u) [LexNotIn [13; 10]] = true <->
  exists b, u = [b] /\ b < 256 /\ b <> 10 /\ b <> 13.
Proof.
  cbn [existsb lex_match]. rewrite orb_false_r. split.
  - destruct u as [|b [|? ?]]; try easy. intros H. exists b. split; [easy|]. apply andb_true_iff in H. destruct H as [H1 H].
    apply N.ltb_lt in H1. apply negb_true_iff in H. split; [easy|].
    split; intros ->; easy.
  - intros (b & -> & H & H1 & H2). apply andb_true_iff. split; [now apply N.ltb_lt|]. apply negb_true_iff. unfold memb. cbn [existsb].
    apply N.eqb_neq in H1, H2. now rewrite H1, H2.
Qed.

(** ** What the values of the non-terminals mean. *)
Definition sem (X : N) (w : toks) (a : option sval) : Prop :=
  match X with
  | 57 => exists vs ds, a = Some (VSchema vs ds) /\ schema_text w vs ds
  | 58 => a = None /\ exists c, w = [47] :: [47] :: c /\ comment_text c
  | 59 => True
  | 60 => exists n r, a = Some (VVar n r) /\ variable w n r
  | 61 => exists ds, a = Some (VDelims ds) /\ delimiters w ds
  | 62 => a = None /\ line_break w
  | 63 => exists r, a = Some (VRegex r) /\ literal w r
  | 64 => a = None /\ comment_text w
  | 65 => a = None /\ exists k, w = repeat [32] k
  | 66 => exists n, a = Some (VIdent n) /\ name w n
  | 67 | 68 => exists r, a = Some (VRegex r) /\ pattern w r
  | 69 => exists r, a = Some (VRegex r) /\ alt w r
  | 70 | 71 | 72 | 73 => exists r, a = Some (VRegex r) /\ repeated w r
  | 74 => exists r, a = Some (VRegex r) /\ prim w r
  | 75 => exists cs, a = Some (VRegex (RInt (digits_of cs))) /\ cs <> [] /\ Forall digit cs /\ w = chars cs
  | 76 => exists neg rs, a = Some (VRegex (RGroup false neg rs)) /\ bracket w neg rs
  | 77 => a = Some (VRegex (RGroup false false [(48, 57)])) /\ w = [[92]; [100]]
  | 78 => a = Some (VRegex (RGroup true false [(0, cUnicodeMax)])) /\ w = [[46]]
  | 79 => a = Some (VRegex (group_of cWhitespace)) /\ w = [[92]; [115]]
  | 80 => exists x, a = Some (VRegex (RGroup false false [x])) /\ element w x
  | _ => False
  end.
Definition cm (X : N) (w : toks) (v : child) : Prop :=
  if X <? 57 then exists u, w = [u] /\ v = VTok (STok u) /\ lexes X u
  else exists p a, v = VNt p a /\ sem X w a.
Inductive kids : list N -> toks -> list child -> Prop :=
| kids_nil : kids [] [] []
| kids_cons : forall X b w ws v vs, cm X w v -> kids b ws vs -> kids (X :: b) (w ++ ws) (v :: vs).
Lemma kids_t X b w vs : (X <? 57) = true -> kids (X :: b) w vs ->
  exists (u : list N) (ws : toks) (vs' : list child), w = u :: ws /\ vs = VTok (STok u) :: vs' /\
    existsb (fun r => lex_match r u) (rules_of X) = true /\ kids b ws vs'.
Proof.
  intros HX H. inversion H as [|X' b' w1 ws v vs' Hc Hk]; subst. unfold cm in Hc. rewrite HX in Hc.
  destruct Hc as (u & -> & -> & Hl). exists u, ws, vs'. auto.
Qed.
Lemma kids_n X b w vs : (X <? 57) = false -> kids (X :: b) w vs ->
  exists w1 ws p a vs', w = w1 ++ ws /\ vs = VNt p a :: vs' /\ sem X w1 a /\ kids b ws vs'.
Proof.
  intros HX H. inversion H as [|X' b' w1 ws v vs' Hc Hk]; subst. unfold cm in Hc. rewrite HX in Hc.
  destruct Hc as (p & a & -> & Hl). exists w1, ws, p, a, vs'. auto.
Qed.
Lemma kids_0 w vs : kids [] w vs -> w = [] /\ vs = [].
Proof. intros H. now inversion H. Qed.

(** The productions with their numbers and rules. *)
Definition numbered : list (N * (prod * srule)) :=
  Eval vm_compute in combine (map N.of_nat (seq 0 96)) (combine (g_prods schema_grammar) schema_rules).
Definition run (p : N) (k : srule) (vs : list child) : out child :=
  match k with
  | nullptr => Ret (VNt p None)
  | _ => do a <- act k vs; Ret (VNt p (Some a))
  end.
Lemma numbered_gen (P : list prod) (R : list srule) : List.length P = List.length R ->
  forall n k pr, nth_error P n = Some pr ->
  exists r, nth_error R n = Some r /\
    In (N.of_nat (k + n), (pr, r)) (combine (map N.of_nat (seq k (List.length P))) (combine P R)).
Proof.
  revert R. induction P as [|q P IH]; intros [|r R] HL n k pr; try easy; [destruct n; easy|].
  injection HL as HL. destruct n as [|n]; cbn [nth_error List.length seq map combine].
  - intros [= ->]. exists r. split; [easy|]. left. now rewrite Nat.add_0_r.
  - intros H. destruct (IH R HL n (S k) pr H) as (r' & H1 & H2). exists r'. split; [easy|]. right.
    now replace (k + S n)%nat with (S k + n)%nat by lia.
Qed.
Lemma numbered_eq : numbered = combine (map N.of_nat (seq 0 (List.length (g_prods schema_grammar)))) (combine (g_prods schema_grammar) schema_rules).
Proof. vm_compute. reflexivity. Qed.
Lemma numbered_at p pr : nth_error (g_prods schema_grammar) (N.to_nat p) = Some pr ->
  exists k, In (p, (pr, k)) numbered /\ forall vs, apply_rule schema_rule p vs = run p k vs.
Proof.
  intros H.
  assert (HL : List.length (g_prods schema_grammar) = List.length schema_rules) by (vm_compute; reflexivity).
  destruct (numbered_gen _ schema_rules HL _ 0%nat _ H) as (k & H1 & H2).
  exists k. split.
  - rewrite numbered_eq. cbn [Nat.add] in H2. now rewrite N2Nat.id in H2.
  - intros vs. unfold apply_rule, schema_rule. rewrite H1. destruct k; reflexivity.
Qed.

(** Phrases on which the rules are undefined: a delimiter that is not a single character, and a count of
    more than ten digits. *)
Definition bad_delimiter (w : toks) : Prop :=
  exists w1 w2 r, w = w1 ++ w2 /\ (w1 = [] \/ exists ds, delimiters w1 ds) /\ literal w2 r /\ forall c, r <> RLit c.
Definition bad_count (w : toks) : Prop :=
  exists ds, w = chars ds /\ Forall digit ds /\ (10 < List.length ds)%nat.
Definition digits (w : toks) : Prop := exists ds, ds <> [] /\ w = chars ds /\ Forall digit ds.
Definition bad_repetition (w : toks) : Prop :=
  exists w1 r, prim w1 r /\
  ((exists w2, w = w1 ++ [123] :: w2 ++ [[125]] /\ bad_count w2) \/
   (exists w2 w3, w = w1 ++ [123] :: w2 ++ [44] :: w3 ++ [[125]] /\ digits w2 /\ digits w3 /\
      (bad_count w2 \/ bad_count w3))).
(** What makes the parser undefined: a delimiters line with a literal that is no single character, or a repetition count of more than ten
    digits. *)
Definition bad (m : toks) : Prop := (exists w, m = keyword :: [58] :: w /\ bad_delimiter w) \/ bad_repetition m.
Definition bad_for (X : N) (w : toks) : Prop := if X =? 61 then bad_delimiter w else bad_repetition w.

Lemma rep_loop_cases ds : forall n, (exists m, rep_loop n ds = Ret m) \/ (rep_loop n ds = UB /\ (10 < List.length ds)%nat).
Proof.
  induction ds as [|d ds IH]; intros n; cbn [rep_loop]; [left; eauto|]. unfold pow10_u32.
  destruct (Nat.leb_spec (List.length ds) 9); cbn [bind].
  - destruct (IH (uint32 (n + uint32 (d * 10 ^ N.of_nat (List.length ds))))) as [H1 | [H1 H2]]; [now left|lia].
  - right. split; [easy|]. cbn. lia.
Qed.

Lemma chars_app a b : chars (a ++ b) = chars a ++ chars b.
Proof. apply map_app. Qed.
Lemma digits_app a b : digits_of (a ++ b) = digits_of a ++ digits_of b.
Proof. apply map_app. Qed.
Lemma digits_length a : List.length (digits_of a) = List.length a.
Proof. apply map_length. Qed.

Definition step_prop (p : N) (pr : prod) (k : srule) : Prop :=
  forall w vs, kids (p_body pr) w vs ->
    match run p k vs with
    | Ret v => cm (p_head pr) w v
    | Throw => True
    | UB => bad_for (p_head pr) w
    | OutOfFuel => False
    end.

(** ** Every rule. *)
Ltac kids_inv :=
  repeat match goal with
  | H : kids (_ :: _) _ _ |- _ =>
      first
        [ apply kids_t in H; [|reflexivity];
          let u := fresh "u" in let ws := fresh "ws" in let vs' := fresh "vs" in let Hl := fresh "L" in
          destruct H as (u & ws & vs' & -> & -> & Hl & H)
        | apply kids_n in H; [|reflexivity];
          let w1 := fresh "w" in let ws := fresh "ws" in let q := fresh "q" in let a := fresh "a" in
          let vs' := fresh "vs" in let Hs := fresh "M" in
          destruct H as (w1 & ws & q & a & vs' & -> & -> & Hs & H); cbn [sem] in Hs ]
  | H : kids [] _ _ |- _ => apply kids_0 in H; destruct H as [-> ->]
  end.
Ltac lex_inv :=
  repeat match goal with
  | H : existsb _ (rules_of ?X) = true |- _ =>
      let l := eval vm_compute in (rules_of X) in
      let E := fresh in assert (E : rules_of X = l) by (vm_compute; reflexivity); rewrite E in H; clear E;
      first [ apply lex_char in H; subst
            | apply lex_chain in H; subst
            | apply lex_alnum in H; destruct H as (? & -> & ?)
            | apply lex_comment in H; destruct H as (? & -> & ? & ? & ?)
            | apply lex_range in H; destruct H as (? & -> & ?) ]
  end.
Ltac ex_inv :=
  repeat match goal with
  | H : exists _, _ |- _ => destruct H as [? H]
  | H : _ /\ _ |- _ => destruct H
  end; subst.
Ltac prep := intros w vs H; cbn [p_body p_head] in *; kids_inv; lex_inv; ex_inv;
  cbn [run act bind tok_at ast_at regex_at ident_at schema_at delims_at char_at int_at group_at nth_error app].
Ltac out2 := unfold cm; cbn [N.ltb N.compare Pos.compare Pos.compare_cont sem]; eexists; eexists; split; [reflexivity|].


Lemma rep_count_cases ds : (exists m, rep_count ds = Ret m) \/ (rep_count ds = UB /\ (10 < List.length ds)%nat).
Proof. apply rep_loop_cases. Qed.

Ltac lits := out2; eexists; (split; [reflexivity|]);
  first [ apply lit_plain; unfold plain; cbn [In]; tauto
        | apply lit_escaped; unfold special; cbn [In]; tauto
        | apply lit_control; unfold control; cbn [In]; tauto ].
Ltac one t := rewrite ?app_nil_r; out2;
  first [ split; [reflexivity|] | eexists; split; [reflexivity|] | eexists; eexists; split; [reflexivity|] ]; t.

Lemma steps : Forall (fun e => step_prop (fst e) (fst (snd e)) (snd (snd e))) numbered.
Proof.
  unfold numbered.
  repeat (apply Forall_cons; cbn [fst snd]; [prep |]); [..|apply Forall_nil];
    try lits.
  - one ltac:(now apply sch_comment).
  - one ltac:(now apply sch_variable).
  - one ltac:(now apply sch_delimiters).
  - one ltac:(now apply sch_empty_line).
  - one ltac:(now apply sch_more_comment).
  - one ltac:(now apply sch_more_variable).
  - one ltac:(now apply sch_more_delimiters).
  - rewrite app_nil_r.
    destruct x; cbn [bind]; try (exists w0, w; eexists; split; [reflexivity|]; split; [right; eauto|]; now split; [eassumption|]).
    one ltac:(now apply del_more).
  - rewrite app_nil_r.
    destruct x; cbn [bind]; try (exists [], w0; eexists; split; [reflexivity|]; split; [now left|]; now split; [eassumption|]).
    one ltac:(now apply del_one).
  - out2. split; [easy|now right].
  - out2. split; [easy|now left].
  - rewrite app_nil_r. out2. split; [easy|]. now exists w.
  - out2. split; [easy|]. match goal with K : comment_text _ |- _ => destruct K as [A B] end. split; [now destruct w0|]. apply Forall_app. split; [easy|].
    constructor; [|easy]. right. eauto.
  - out2. split; [easy|]. split; [easy|]. constructor; [|easy]. right. eauto.
  - out2. split; [easy|]. match goal with K : comment_text _ |- _ => destruct K as [A B] end. split; [now destruct w0|]. apply Forall_app. split; [easy|].
    constructor; [|easy]. now left.
  - out2. split; [easy|]. split; [easy|]. constructor; [|easy]. now left.
  - one ltac:(now apply var_line).
  - out2. eexists. split; [reflexivity|]. match goal with K : name _ _ |- _ => destruct K as (A & B & ->) end. split; [now destruct x0|]. split.
    + apply Forall_app. split; [easy|]. constructor; easy.
    + now rewrite chars_app.
  - out2. eexists. split; [reflexivity|]. split; [easy|]. split; [constructor; easy|easy].
  - out2. split; [easy|]. exists (S x). now rewrite <- repeat_cons.
  - out2. split; [easy|]. now exists 0%nat.
  - one ltac:(easy).
  - one ltac:(now apply pat_cat).
  - one ltac:(now apply pat_one).
  - one ltac:(now apply alt_or).
  - one ltac:(now apply alt_one).
  - one ltac:(now apply alt_one).
  - one ltac:(now apply alt_one).
  - one ltac:(now apply alt_one).
  - one ltac:(now apply alt_one, rep_once).
  - one ltac:(now apply rep_star).
  - one ltac:(now apply rep_plus).
  - unfold act_exactly. destruct (rep_count_cases (digits_of x)) as [(m & E) | (E & HL)]; rewrite E; cbn [bind].
    + one ltac:(apply rep_exactly; [easy|]). now exists x.
    + exists w0, x0. split; [easy|]. left. exists (chars x). split; [easy|]. exists x.
      rewrite digits_length in HL. easy.
  - unfold act_range. destruct (rep_count_cases (digits_of x0)) as [(m & E) | (E & HL)]; rewrite E; cbn [bind].
    + destruct (rep_count_cases (digits_of x)) as [(m' & E') | (E' & HL)]; rewrite E'; cbn [bind].
      * assert (K : repeated (w0 ++ [123] :: chars x0 ++ [44] :: chars x ++ [[125]])
                      (if m =? 0 then ROr REmpty (RMult x1 1 m') else RMult x1 m m')).
        { apply rep_between; [easy|now exists x0|now exists x]. }
        destruct (m =? 0); cbn [bind]; one ltac:(exact K).
      * exists w0, x1. split; [easy|]. right. exists (chars x0), (chars x). split; [easy|].
        rewrite digits_length in HL. split; [now exists x0|]. split; [now exists x|]. right. now exists x.
    + exists w0, x1. split; [easy|]. right. exists (chars x0), (chars x). split; [easy|].
      rewrite digits_length in HL. split; [now exists x0|]. split; [now exists x|]. left. now exists x0.
  - one ltac:(now apply prim_group).
  - one ltac:(now apply prim_literal).
  - one ltac:(apply prim_digit).
  - one ltac:(apply prim_any).
  - one ltac:(apply prim_space).
  - cbn [group_range bind]. one ltac:(now apply br_next).
  - cbn [group_range bind]. one ltac:(apply br_next; [easy|apply el_digit]).
  - rewrite app_nil_r. destruct x; cbn [group_lit bind]; try easy. one ltac:(apply br_next; [easy|now apply el_char]).
  - easy.
  - cbn [group_range bind]. one ltac:(now apply br_first).
  - cbn [group_range bind]. one ltac:(apply (br_first [[92]; [100]]), el_digit).
  - rewrite app_nil_r. destruct x; cbn [group_lit bind]; try easy. one ltac:(now apply br_first, el_char).
  - easy.
  - one ltac:(apply br_negated).
  - rewrite app_nil_r. destruct x0; cbn [bind]; try easy. destruct x; cbn [bind]; try easy.
    one ltac:(now apply el_range).
  - one ltac:(now apply lit_capture).
  - one ltac:(now apply lit_parens).
  - out2. exists (x0 ++ [x]). rewrite digits_app, chars_app. split; [easy|]. split; [now destruct x0|].
    split; [|easy]. apply Forall_app. split; [easy|]. constructor; easy.
  - out2. exists [x]. split; [easy|]. split; [easy|]. split; [constructor; easy|easy].
  - one ltac:(easy).
  - one ltac:(easy).
  - one ltac:(easy).
Qed.
