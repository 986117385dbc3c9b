(** PropertiesSchemaHistory.v -- C55: several schema texts, one after the other, in one process; C32 with the real parser. The index of the
    static array of children (NonTerminal::m_next_children_start) outlives a parser. *)
From Verif Require Import Base LexerModel LexerSpec LogParserModel RingModel RegexModel GrammarSpec LrModel ParseSpec LrDriver SchemaModel
  SchemaActions SchemaGrammar SchemaTable SchemaSafe SchemaRules SchemaSyntax SchemaReads SchemaMeaning SchemaLexer SchemaSplit SchemaRoom
  SchemaEditModel SchemaHistory OrdSet LrSound PropertiesSchema PropertiesSchemaText.
From Coq Require Import Ascii String.
Local Open Scope list_scope.
Local Open Scope N_scope.

(** ** The history. What a call finds by chance: where the heap puts the NFA's states, the reader's chunk sizes, the buffer's old contents. *)
Record env : Type := mkEnv { e_addr : nat -> N; e_cons : nat -> N; e_buf : ibuf }.
(** Calls of try_schema_string, one after the other; the first exception ends the history. *)
Section History.
Variable parse_one : env -> N -> list N -> out (option schema * N).
Fixpoint parse_history (es : nat -> env) (alloc : N) (texts : list (list N)) : out (list schema * N) :=
  match texts with
  | [] => Ret ([], alloc)
  | s :: r =>
      do (x, al) <- parse_one (es 0%nat) alloc s;
      do (l, al') <- parse_history (fun i => es (S i)) al r;
      match x with Some sch => Ret (sch :: l, al') | None => UB end
  end.
(** Schema::add_variable (Schema.cpp 13-16): the text is parsed, its first variable is moved into the schema. A null pointer or a text without
    variables is undefined. *)
Definition add_variable_call (e : env) (sch : schema) (alloc : N) (s : list N) (priority : Z) : out (schema * N) :=
  do (x, al) <- parse_one e alloc s;
  match x with
  | None => UB
  | Some a => match sc_vars a with
              | [] => UB
              | v :: _ => do vs <- add_schema_var (sc_vars sch) v priority; Ret (mkSchema (sc_delims sch) vs, al)
              end
  end.
Fixpoint add_history (es : nat -> env) (sch : schema) (alloc : N) (ops : list (list N * Z)) : out (schema * N) :=
  match ops with
  | [] => Ret (sch, alloc)
  | (s, p) :: r => do (sch', al) <- add_variable_call (es 0%nat) sch alloc s p; add_history (fun i => es (S i)) sch' al r
  end.
End History.
Definition parse_one (dfuel calls fuel pfuel : nat) (e : env) (alloc : N) (s : list N) : out (option schema * N) :=
  try_schema_string dfuel calls fuel pfuel (e_addr e) (e_cons e) (e_buf e) alloc s.
Definition schema_history (dfuel calls fuel pfuel : nat) : (nat -> env) -> N -> list (list N) -> out (list schema * N) :=
  parse_history (parse_one dfuel calls fuel pfuel).
Definition add_calls (dfuel calls fuel pfuel : nat) : (nat -> env) -> schema -> N -> list (list N * Z) -> out (schema * N) :=
  add_history (parse_one dfuel calls fuel pfuel).
(** ** Specification. A text of one line that is a schema. *)
Definition one_line_schema (s : list N) (sch : schema) : Prop :=
  Forall (fun x => x < 256) s /\ len s < cStaticByteBuffSize / 2 /\ ~ In 10 s /\ schema_string s sch.
Fixpoint sum (l : list N) : N := match l with [] => 0 | x :: r => x + sum r end.
Definition enough_fuel (calls fuel pfuel : nat) (s : list N) : Prop :=
  len s + 1 <= N.of_nat fuel /\ len s < N.of_nat calls /\ 7 * len s + 1 < N.of_nat pfuel.

Lemma splits_lengths s ws : splits s ws -> len s <= 10 * N.of_nat (List.length ws) /\ N.of_nat (List.length ws) <= len s.
Proof.
  induction 1 as [|s ws _ IH|b s ws _ _ IH]; unfold len in *; cbn [List.length]; [easy| |lia]. rewrite app_length.
  assert (List.length keyword = 10%nat) by reflexivity. lia.
Qed.
Lemma splits_no_nl s ws : splits s ws -> ~ In 10 s -> ~ In nl ws.
Proof.
  intros H. apply splits_concat in H. subst s. intros H Hi. apply H. apply in_concat. exists nl. split; [exact Hi|]. now left.
Qed.

(** ** One text. Its cost [c] only depends on the text; with less room than that the call is undefined. *)
Lemma one_text s sch : one_line_schema s sch -> exists c, len s <= 10 * c /\ c <= 5 * len s /\
  forall addr, exists F, forall dfuel, (F <= dfuel)%nat -> forall calls fuel pfuel cons b alloc, enough_fuel calls fuel pfuel s ->
    alloc <= cSizeOfAllChildren ->
    try_schema_string dfuel calls fuel pfuel addr cons b alloc s =
    if alloc + c <=? cSizeOfAllChildren then Ret (Some sch, alloc + c) else UB.
Proof.
  intros (Hb & Hl & Hnl & (ws & vars & delims & Hs & Ht & ->)).
  pose proof (splits_lengths s ws Hs) as [L1 L2].
  destruct (one_line_meaning ws vars delims (splits_no_nl s ws Hs Hnl) Ht) as (p & c & [C1 C2] & M).
  exists c. split; [lia|]. split; [lia|]. intros addr. destruct (schema_lexer_exists addr) as (F & HF). exists F. intros dfuel Hd.
  destruct (HF dfuel Hd) as (cf & Ec & Hok).
  intros calls fuel pfuel cons b alloc (F1 & F2 & F3) Hal. unfold try_schema_string. rewrite Ec. cbn [bind].
  rewrite (proj1 schema_generated). cbn [bind]. unfold generate_schema_ast.
  destruct (texts_splits cf s Hok Hb calls fuel cons b Hl F1 F2) as (ws' & E & Hs').
  rewrite (splits_unique _ _ _ Hs' Hs) in E. rewrite E. cbn [bind].
  rewrite (M (lexer_types cf) eq_refl (lexer_types_ok cf Hok) pfuel alloc ltac:(lia) Hal).
  destruct (alloc + c <=? cSizeOfAllChildren); reflexivity.
Qed.
Theorem C55_one_text : forall s sch, one_line_schema s sch -> exists c, len s <= 10 * c /\ c <= 5 * len s /\
  forall addr, exists F, forall dfuel, (F <= dfuel)%nat -> forall calls fuel pfuel cons b alloc, enough_fuel calls fuel pfuel s ->
    alloc <= cSizeOfAllChildren ->
    try_schema_string dfuel calls fuel pfuel addr cons b alloc s =
    if alloc + c <=? cSizeOfAllChildren then Ret (Some sch, alloc + c) else UB.
Proof. exact one_text. Qed.
Print Assumptions C55_one_text.

(** ** Any number of one-line texts: every text has its fixed cost, and the calls return the texts' schemas as long as the sum of all costs since
    the process started fits into the array; as soon as it does not, they are undefined. *)
Theorem C55_history : forall texts schs, Forall2 one_line_schema texts schs ->
  exists costs, Forall2 (fun s c => len s <= 10 * c /\ c <= 5 * len s) texts costs /\
  forall es, exists F, forall dfuel, (F <= dfuel)%nat -> forall calls fuel pfuel alloc, Forall (enough_fuel calls fuel pfuel) texts ->
    alloc <= cSizeOfAllChildren ->
    schema_history dfuel calls fuel pfuel es alloc texts =
    if alloc + sum costs <=? cSizeOfAllChildren then Ret (schs, alloc + sum costs) else UB.
Proof.
  induction 1 as [|s sch texts schs Hs _ (costs & Hc & IH)].
  - exists []. split; [constructor|]. intros es. exists 0%nat. intros dfuel _ calls fuel pfuel alloc _ Hal. unfold schema_history. cbn [parse_history sum].
    rewrite N.add_0_r. apply N.leb_le in Hal. now rewrite Hal.
  - destruct (one_text s sch Hs) as (c & C1 & C2 & M). exists (c :: costs). split; [constructor; auto|]. intros es.
    destruct (M (e_addr (es 0%nat))) as (F1 & HF1). destruct (IH (fun i => es (S i))) as (F2 & HF2). exists (Nat.max F1 F2).
    intros dfuel Hd calls fuel pfuel alloc Hf Hal. inversion Hf as [|? ? Hf1 Hf2]; subst. unfold schema_history. cbn [parse_history sum].
    unfold parse_one at 1. rewrite (HF1 dfuel ltac:(lia) _ _ _ _ _ _ Hf1 Hal).
    destruct (N.leb_spec (alloc + c) cSizeOfAllChildren) as [H1 | H1]; cbn [bind].
    + pose proof (HF2 dfuel ltac:(lia) _ _ _ _ Hf2 H1) as E2. unfold schema_history in E2. rewrite E2. clear E2. rewrite <- N.add_assoc.
      destruct (alloc + (c + sum costs) <=? cSizeOfAllChildren); reflexivity.
    + destruct (N.leb_spec (alloc + (c + sum costs)) cSizeOfAllChildren); [lia|reflexivity].
Qed.
Print Assumptions C55_history.

(** ** Refuted: what a schema text means does not depend on the texts before. The same one-line schema, parsed again and again, is undefined. *)
Theorem C55_refuted : forall s sch, one_line_schema s sch -> forall k, 10 * cSizeOfAllChildren < N.of_nat k * len s ->
  forall es, exists F, forall dfuel, (F <= dfuel)%nat -> forall calls fuel pfuel, enough_fuel calls fuel pfuel s ->
    schema_history dfuel calls fuel pfuel es 0 (repeat s k) = UB.
Proof.
  intros s sch Hs k Hk es.
  assert (H2 : Forall2 one_line_schema (repeat s k) (repeat sch k)) by (clear -Hs; induction k; constructor; auto).
  destruct (C55_history _ _ H2) as (costs & Hc & H). destruct (H es) as (F & HF). exists F. intros dfuel Hd calls fuel pfuel Hf.
  rewrite (HF dfuel Hd calls fuel pfuel 0); [|clear -Hf; induction k; constructor; auto|easy].
  assert (E : N.of_nat k * len s <= 10 * sum costs).
  { clear -Hc. revert costs Hc. induction k as [|k IH]; intros costs Hc; inversion Hc as [|? c ? r [Hx _] Hr]; subst; [cbn; lia|].
    specialize (IH _ Hr). cbn [sum]. lia. }
  destruct (N.leb_spec (0 + sum costs) cSizeOfAllChildren); [lia|reflexivity].
Qed.
Print Assumptions C55_refuted.

(** ** Any texts, of any number of lines: with room for five times their total length, every call returns its text's schema. *)
Theorem C55_short_histories : forall texts schs,
  Forall2 (fun s sch => Forall (fun x => x < 256) s /\ len s < cStaticByteBuffSize / 2 /\ schema_string s sch) texts schs ->
  forall es, exists F, forall dfuel, (F <= dfuel)%nat -> forall calls fuel pfuel alloc, Forall (enough_fuel calls fuel pfuel) texts ->
    alloc + 5 * sum (map len texts) <= cSizeOfAllChildren ->
    exists al, schema_history dfuel calls fuel pfuel es alloc texts = Ret (schs, al) /\ al <= alloc + 5 * sum (map len texts).
Proof.
  induction 1 as [|s sch texts schs (Hb & Hl & (ws & vars & delims & Hs & Ht & ->)) _ IH]; intros es.
  - exists 0%nat. intros dfuel _ calls fuel pfuel alloc _ Hal. exists alloc. split; [reflexivity|]. cbn. lia.
  - destruct (schema_lexer_exists (e_addr (es 0%nat))) as (F1 & HF1). destruct (IH (fun i => es (S i))) as (F2 & HF2).
    exists (Nat.max F1 F2). intros dfuel Hd calls fuel pfuel alloc Hf Hal. inversion Hf as [|? ? (G1 & G2 & G3) Hf2]; subst.
    cbn [map sum] in *. pose proof (splits_lengths s ws Hs) as [L1 L2].
    destruct (HF1 dfuel ltac:(lia)) as (cf & Ec & Hok). destruct (any_text_meaning ws vars delims Ht) as (p & M).
    destruct (M (lexer_types cf) eq_refl (lexer_types_ok cf Hok) pfuel alloc ltac:(lia) ltac:(lia)) as (al & Hle & Ep).
    destruct (HF2 dfuel ltac:(lia) calls fuel pfuel al Hf2 ltac:(lia)) as (al2 & E2 & Hle2).
    exists al2. split; [|lia]. unfold schema_history. cbn [parse_history]. unfold parse_one at 1. unfold try_schema_string. rewrite Ec. cbn [bind].
    rewrite (proj1 schema_generated). cbn [bind]. unfold generate_schema_ast.
    destruct (texts_splits cf s Hok Hb calls fuel (e_cons (es 0%nat)) (e_buf (es 0%nat)) Hl G1 G2) as (ws' & E & Hs').
    rewrite (splits_unique _ _ _ Hs' Hs) in E. rewrite E. cbn [bind]. rewrite Ep. cbn [bind]. unfold schema_history in E2. rewrite E2. reflexivity.
Qed.
Print Assumptions C55_short_histories.

(** ** Schema::add_variable. *)
(** Specification: each variable, in turn, is put behind as many variables as its priority says; -1: behind all. *)
Inductive edited {V : Type} : list V -> list (V * Z) -> list V -> Prop :=
| ed_done : forall l, edited l [] l
| ed_add : forall l1 l2 v p ops fin, (p = (-1)%Z /\ l2 = []) \/ Z.of_nat (List.length l1) = p ->
    edited (l1 ++ v :: l2) ops fin -> edited (l1 ++ l2) ((v, p) :: ops) fin.
Lemma add_spec {V} (l1 l2 : list V) v p : (p = (-1)%Z /\ l2 = []) \/ Z.of_nat (List.length l1) = p ->
  add_schema_var (l1 ++ l2) v p = Ret (l1 ++ v :: l2).
Proof.
  intros H. unfold add_schema_var. destruct (Z.eqb_spec p (-1)) as [E | E].
  - destruct H as [[_ ->] | H]; [now rewrite app_nil_r|lia].
  - destruct H as [[H _] | <-]; [lia|]. rewrite app_length.
    replace ((0 <=? Z.of_nat (List.length l1))%Z && (Z.of_nat (List.length l1) <=? Z.of_nat (List.length l1 + List.length l2))%Z) with true
      by (symmetry; apply andb_true_iff; split; apply Z.leb_le; lia).
    now rewrite Nat2Z.id, firstn_app, skipn_app, firstn_all, skipn_all, Nat.sub_diag, app_nil_r.
Qed.
(** A line with one variable. *)
Definition one_variable (s : list N) (v : string * regex) : Prop :=
  exists sch, one_line_schema s sch /\ sc_vars sch = [v].
Theorem C32_add_variable_texts : forall ops vs, Forall2 (fun op v => one_variable (fst op) v) ops vs ->
  exists costs, Forall2 (fun op c => len (fst op) <= 10 * c /\ c <= 5 * len (fst op)) ops costs /\
  forall es, exists F, forall dfuel, (F <= dfuel)%nat -> forall calls fuel pfuel alloc sch fin,
    Forall (fun op => enough_fuel calls fuel pfuel (fst op)) ops ->
    alloc <= cSizeOfAllChildren -> edited (sc_vars sch) (combine vs (map snd ops)) fin ->
    add_calls dfuel calls fuel pfuel es sch alloc ops =
    if alloc + sum costs <=? cSizeOfAllChildren then Ret (mkSchema (sc_delims sch) fin, alloc + sum costs) else UB.
Proof.
  induction 1 as [|[s p] v ops vs (a & Hs & Hv) _ (costs & Hc & IH)].
  - exists []. split; [constructor|]. intros es. exists 0%nat. intros dfuel _ calls fuel pfuel alloc sch fin _ Hal Hed. unfold add_calls. cbn [add_history sum].
    rewrite N.add_0_r. pose proof Hal as Hal'. apply N.leb_le in Hal. rewrite Hal. inversion Hed; subst. now destruct sch.
  - cbn [fst] in *. destruct (one_text s a Hs) as (c & C1 & C2 & M). exists (c :: costs). split; [constructor; auto|]. intros es.
    destruct (M (e_addr (es 0%nat))) as (F1 & HF1). destruct (IH (fun i => es (S i))) as (F2 & HF2). exists (Nat.max F1 F2).
    intros dfuel Hd calls fuel pfuel alloc sch fin Hf Hal Hed. inversion Hf as [|? ? Hf1 Hf2]; subst. unfold add_calls. cbn [add_history sum fst snd map combine] in *.
    unfold add_variable_call. unfold parse_one at 1. rewrite (HF1 dfuel ltac:(lia) _ _ _ _ _ _ Hf1 Hal).
    remember (sc_vars sch) as old eqn:Eold. inversion Hed as [|l1 l2 v' p' ops' fin' Hp Hed']; subst v' p' ops' fin' old.
    destruct (N.leb_spec (alloc + c) cSizeOfAllChildren) as [H1 | H1]; cbn [bind].
    + rewrite Hv, (add_spec l1 l2 v p Hp). cbn [bind].
      pose proof (HF2 dfuel ltac:(lia) calls fuel pfuel (alloc + c) (mkSchema (sc_delims sch) (l1 ++ v :: l2)) fin Hf2 H1 Hed') as E2.
      unfold add_calls in E2. rewrite E2. clear E2.
      cbn [sc_delims]. rewrite <- N.add_assoc. destruct (alloc + (c + sum costs) <=? cSizeOfAllChildren); reflexivity.
    + destruct (N.leb_spec (alloc + (c + sum costs)) cSizeOfAllChildren); [lia|reflexivity].
Qed.
Print Assumptions C32_add_variable_texts.
(** No history of add_variable can give a schema delimiters: from Schema() no parser can be built, even if a text has a delimiters line. *)
Theorem C32_no_delimiters : forall ops dfuel calls fuel pfuel es sch alloc sch' al,
  add_calls dfuel calls fuel pfuel es sch alloc ops = Ret (sch', al) ->
  sc_delims sch' = sc_delims sch /\ (sc_delims sch = [] -> forall f addr, make_parser f addr sch' = Throw).
Proof.
  assert (G : forall ops dfuel calls fuel pfuel es sch alloc sch' al,
    add_calls dfuel calls fuel pfuel es sch alloc ops = Ret (sch', al) -> sc_delims sch' = sc_delims sch).
  { induction ops as [|[s p] ops IH]; intros dfuel calls fuel pfuel es sch alloc sch' al H; unfold add_calls in H; cbn [add_history] in H; [now injection H as <- _|].
    apply bind_inv in H. destruct H as ((sch1 & al1) & H1 & H). rewrite (IH _ _ _ _ _ _ _ _ _ H).
    unfold add_variable_call in H1. apply bind_inv in H1. destruct H1 as ((x & al2) & _ & H1). destruct x as [a|]; [|easy].
    destruct (sc_vars a); [easy|]. apply bind_inv in H1. destruct H1 as (vs1 & _ & H1). now injection H1 as <- _. }
  intros ops dfuel calls fuel pfuel es sch alloc sch' al H. pose proof (G _ _ _ _ _ _ _ _ _ _ H) as E. split; [exact E|]. intros E0 f addr.
  destruct sch' as [d v]. cbn [sc_delims] in *. rewrite E0 in E. subst d. apply C15_no_delimiters_throws.
Qed.
Print Assumptions C32_no_delimiters.

(** ** Examples. Non-vacuity: the line "int:\d" is a schema with one variable. *)
Example C55_one_line_example : one_variable (codes "int:\d"%string) ("int"%string, RGroup false false [(48, 57)]).
Proof.
  set (ws := (repeat [32] 0 ++ chars [105;110;116] ++ [58] :: [[92]; [100]]) : toks).
  exists (mkSchema [] [("int"%string, RGroup false false [(48, 57)])]). split; [|reflexivity].
  split; [vm_compute; repeat (apply Forall_cons; [reflexivity|]); constructor|]. split; [reflexivity|].
  split; [cbn; intuition discriminate|].
  exists ws, [([105;110;116], RGroup false false [(48, 57)])], []. split; [|split; [|reflexivity]].
  - unfold ws. vm_compute. repeat (apply spl_byte; [intros r; discriminate|]). constructor.
  - apply sch_variable. apply var_line; [|apply pat_one, alt_one, rep_once, prim_digit]. split; [discriminate|]. split; [|reflexivity].
    repeat (apply Forall_cons; [unfold alnum, digit; lia|]). apply Forall_nil.
Qed.
(** The history with one lexer, run: add_variable with this text -- a timestamp pattern of the schema that comes with the code -- works 86 times,
    and is undefined the 87th time. *)
Definition env0 : env := mkEnv N.of_nat (fun _ => 0) buffer0.
Definition run_additions (ops : list (list N * Z)) : out (schema * N) :=
  do c <- schema_lexer 300 N.of_nat;
  add_history (fun e al s => generate_schema_ast 1000 1000 9000 c schema_table (Some 0) (e_cons e) (e_buf e) al s) (fun _ => env0)
    (mkSchema [] []) 0 ops.
Definition timestamp_text : list N := codes "timestamp:\d{4}\-\d{2}\-\d{2} \d{2}:\d{2}:\d{2}"%string.
Example C55_example : match run_additions (repeat (timestamp_text, (-1)%Z) 86) with Ret (sch, al) => (List.length (sc_vars sch), al) | _ => (0%nat, 0) end
    = (86%nat, 9890) /\
  match run_additions (repeat (timestamp_text, (-1)%Z) 87) with UB => true | _ => false end = true.
Proof. split; vm_compute; reflexivity. Qed.
