(** PropertiesSchemaText.v -- C50 and C51: what SchemaParser makes of the text of a schema. The specification is SchemaSyntax.v
    (the language: schema_text), the relation splits of SchemaSplit.v (texts and tokens), bad of SchemaReads.v (what is undefined) and often
    of SchemaRoom.v. *)
From Verif Require Import Base LexerModel LexerSpec LogParserModel RingModel RegexModel GrammarSpec LrModel ParseSpec LrDriver SchemaModel
  SchemaActions SchemaGrammar SchemaTable SchemaSafe SchemaRules SchemaSyntax SchemaReads SchemaMeaning SchemaLexer SchemaSplit SchemaRoom.
From Coq Require Import Ascii String.
Local Open Scope list_scope.
Local Open Scope N_scope.

(** SchemaParser::generate_schema_ast (SchemaParser.cpp 53-59) with LALR1Parser::parse (LALR1Parser.tpp 631-650): lexer and parser, then the
    AST of the matched nonterminal is cast to SchemaAST. [alloc] is the value of the static index before the call; the returned number is its
    value afterwards. *)
Definition generate_schema_ast (calls fuel pfuel : nat) (c : lexcfg) (t : table) (root : option N) (cons : nat -> N) (b : ibuf) (alloc : N)
  (s : list N) : out (option schema * N) :=
  do ws <- schema_texts calls fuel c cons s b;
  do (v, al) <- parse (lexer_types c) SEof schema_rule schema_resets cSizeOfAllChildren schema_grammar t pfuel root (map STok ws) alloc;
  match v with
  | VNt _ (Some (VSchema vars delims)) => Ret (Some (schema_of vars delims), al)
  | _ => Ret (None, al)
  end.
(** SchemaParser::try_schema_string (SchemaParser.cpp 87-102): the parser is built (SchemaParser.cpp 46-51) -- its lexer (Lexer.tpp 376-389) and
    its table (LALR1Parser.tpp 149-160) --, then it parses. *)
Definition try_schema_string (dfuel calls fuel pfuel : nat) (addr : nat -> N) (cons : nat -> N) (b : ibuf) (alloc : N) (s : list N)
  : out (option schema * N) :=
  do c <- schema_lexer dfuel addr;
  do (t, root) <- generate sfuel scfuel schema_grammar;
  generate_schema_ast calls fuel pfuel c t root cons b alloc s.

(** ** C50: sequences of tokens. For any types that the tokens may have, in any order, the parser returns the schema that the specification says, and
    only that; it is undefined only if the sequence has a forbidden part. Room in the static array: either the sequence is short, or every stretch
    of more than 713 tokens has a whole variable line. *)
Definition room_for (ws : toks) (alloc : N) : Prop :=
  alloc + (7 * N.of_nat (List.length ws) + 1) <= cSizeOfAllChildren \/ (often 713 ws /\ alloc <= cSizeOfAllChildren / 2).
Theorem C50_schema_tokens : forall types : stok -> list N, types SEof = [TokenEnd] ->
    (forall w X, In X (types (STok w)) <-> In X (schema_matches w)) ->
  forall fuel (ws : toks) alloc, room_for ws alloc -> 7 * N.of_nat (List.length ws) + 1 < N.of_nat fuel ->
  let result := parse types SEof schema_rule schema_resets cSizeOfAllChildren schema_grammar schema_table fuel (Some 0) (map STok ws) alloc in
  (forall vars delims, (exists p al, result = Ret (VNt p (Some (VSchema vars delims)), al)) <-> schema_text ws vars delims) /\
  match result with
  | Ret (v, al) => exists p vars delims, v = VNt p (Some (VSchema vars delims))
  | UB => exists m, infix m ws /\ bad m
  | Throw => True
  | OutOfFuel => False
  end.
Proof.
  intros types Heof Hty fuel ws alloc [Hr | [Ho Ha]] Hf result.
  - exact (schema_meaning types Heof Hty schema_resets cSizeOfAllChildren fuel ws alloc Hr Hf).
  - exact (long_meaning types Heof Hty fuel ws alloc Ho Ha Hf).
Qed.
Print Assumptions C50_schema_tokens.
(** A sequence of tokens is at most one schema. *)
Definition stypes (tk : stok) : list N := match tk with SEof => [TokenEnd] | STok w => schema_matches w end.
Theorem C50_schema_unambiguous : forall ws vars delims vars' delims',
  schema_text ws vars delims -> schema_text ws vars' delims' -> vars = vars' /\ delims = delims'.
Proof. intros. eapply (schema_text_unique stypes); eauto; reflexivity. Qed.
Print Assumptions C50_schema_unambiguous.

(** ** C51: texts. *)
(** What a text means. *)
Definition schema_string (s : list N) (sch : schema) : Prop :=
  exists ws vars delims, splits s ws /\ schema_text ws vars delims /\ sch = schema_of vars delims.
Lemma splits_length s ws : splits s ws -> (List.length ws <= List.length s)%nat.
Proof.
  induction 1 as [|s ws _ IH|b s ws _ _ IH]; cbn [List.length]; [easy| |lia]. rewrite app_length. cbn. lia.
Qed.
Lemma lexer_types_ok c : lexer_ok c -> forall w X, In X (lexer_types c (STok w)) <-> In X (schema_matches w).
Proof. intros H w X. exact (lo_reports c H w X). Qed.
Lemma ast_meaning c : lexer_ok c -> forall calls fuel pfuel cons b alloc s ws,
    Forall (fun x => x < 256) s -> len s < cStaticByteBuffSize / 2 -> splits s ws -> room_for ws alloc ->
    len s + 1 <= N.of_nat fuel -> len s < N.of_nat calls -> 7 * len s + 1 < N.of_nat pfuel ->
  let result := generate_schema_ast calls fuel pfuel c schema_table (Some 0) cons b alloc s in
  (forall sch, (exists al, result = Ret (Some sch, al)) <-> schema_string s sch) /\
  match result with
  | Ret (Some _, _) => True
  | Ret (None, _) => False
  | Throw => True
  | UB => exists m, infix m ws /\ bad m
  | OutOfFuel => False
  end.
Proof.
  intros Hok calls fuel pfuel cons b alloc s ws Hb Hl Hs Hr H1 H2 H3 result.
  destruct (texts_splits c s Hok Hb calls fuel cons b Hl H1 H2) as (ws' & E & Hs').
  rewrite (splits_unique _ _ _ Hs' Hs) in E. clear ws' Hs'.
  assert (Hn : (7 * N.of_nat (List.length ws) + 1 < N.of_nat pfuel)) by (pose proof (splits_length _ _ Hs); unfold len in *; lia).
  destruct (C50_schema_tokens (lexer_types c) eq_refl (lexer_types_ok c Hok) pfuel ws alloc Hr Hn) as [M1 M2].
  unfold result, generate_schema_ast. rewrite E. cbn [bind]. clear E result.
  destruct (parse (lexer_types c) SEof schema_rule schema_resets cSizeOfAllChildren schema_grammar schema_table pfuel (Some 0) (map STok ws) alloc)
    as [[v al]| | |]; cbn [bind].
  - destruct M2 as (p & vars & delims & ->). split; [|exact Logic.I]. intros sch. split.
    + intros (al' & [= <- <-]). exists ws, vars, delims. split; [easy|]. split; [|easy]. apply M1. eauto.
    + intros (ws2 & vars2 & delims2 & S1 & S2 & ->). rewrite (splits_unique _ _ _ S1 Hs) in S2. apply M1 in S2.
      destruct S2 as (p2 & al2 & [= _ <- <- _]). eauto.
  - split; [|exact M2]. intros sch. split; [intros (al & [=])|].
    intros (ws2 & vars2 & delims2 & S1 & S2 & ->). rewrite (splits_unique _ _ _ S1 Hs) in S2. apply M1 in S2.
    destruct S2 as (p2 & al2 & [=]).
  - split; [|exact Logic.I]. intros sch. split; [intros (al & [=])|].
    intros (ws2 & vars2 & delims2 & S1 & S2 & ->). rewrite (splits_unique _ _ _ S1 Hs) in S2. apply M1 in S2.
    destruct S2 as (p2 & al2 & [=]).
  - contradiction.
Qed.
(** try_schema_string on a text of less than 24000 bytes, whatever the buffer held before and in whatever order the heap allocates the NFA's
    states ([addr]). *)
Theorem C51_schema_string : forall addr, exists F, forall dfuel, (F <= dfuel)%nat ->
  forall calls fuel pfuel cons b alloc s ws,
    Forall (fun x => x < 256) s -> len s < cStaticByteBuffSize / 2 -> splits s ws -> room_for ws alloc ->
    len s + 1 <= N.of_nat fuel -> len s < N.of_nat calls -> 7 * len s + 1 < N.of_nat pfuel ->
  let result := try_schema_string dfuel calls fuel pfuel addr cons b alloc s in
  (forall sch, (exists al, result = Ret (Some sch, al)) <-> schema_string s sch) /\
  match result with
  | Ret (Some _, _) => True
  | Ret (None, _) => False
  | Throw => True
  | UB => exists m, infix m ws /\ bad m
  | OutOfFuel => False
  end.
Proof.
  intros addr. destruct (schema_lexer_exists addr) as (F & HF). exists F. intros dfuel Hd. destruct (HF dfuel Hd) as (c & Ec & Hok).
  intros calls fuel pfuel cons b alloc s ws Hb Hl Hs Hr H1 H2 H3. unfold try_schema_string. rewrite Ec. cbn [bind].
  rewrite (proj1 schema_generated). cbn [bind]. now apply ast_meaning.
Qed.
Print Assumptions C51_schema_string.
(** Every text has exactly one sequence of tokens, and their texts concatenated are the text. *)
Theorem C51_splits : forall s, exists ws, splits s ws /\ List.concat ws = s /\ forall ws', splits s ws' -> ws' = ws.
Proof.
  intros s. destruct (splits_exists s) as (ws & H). exists ws. split; [easy|]. split; [now apply splits_concat|]. intros ws' H'.
  now apply (splits_unique s).
Qed.
Print Assumptions C51_splits.

(** ** Examples: the whole pipeline, run. *)
Definition codes (s : string) : list N := map N_of_ascii (list_ascii_of_string s).
Definition lines (l : list string) : list N := List.concat (map (fun s => codes s ++ [10]) l).
Definition buffer0 : ibuf := mkIbuf (fun _ _ => None) Static 0 cStaticByteBuffSize 0 0 false false false 0.
Definition run (s : list N) : out (option schema * N) :=
  do c <- schema_lexer 300 N.of_nat; generate_schema_ast 1000 1000 9000 c schema_table (Some 0) (fun _ => 0) buffer0 0 s.
Lemma run_is s : try_schema_string 300 1000 1000 9000 N.of_nat (fun _ => 0) buffer0 0 s = run s.
Proof. unfold try_schema_string, run. now rewrite (proj1 schema_generated). Qed.
(** Non-vacuity: a schema of four lines. *)
Example C51_example : exists al, run (lines ["// c"; "delimiters: \n\r,"; ""; " t:(?<n>a|b)[0-9\d]{2,3}"]%string) =
  Ret (Some (mkSchema [[32; 10; 13; 44]]
               [("t"%string, RCat (RCapture (ROr (RLit 97) (RLit 98)) (tag_of [110])) (RMult (RGroup false false [(48, 57); (48, 57)]) 2 3))]), al).
Proof. eexists. vm_compute. reflexivity. Qed.
(** Surprises, all of them consequences of C51: alternatives bind tighter than concatenation and their right operand is a single character; a
    repeated operand on the right of | is a syntax error; a parenthesised character in brackets is that character; \s in brackets, an empty
    comment, an empty first line and a name that contains "delimiters" are rejected. *)
Example C51_surprises : map (fun s => match run (codes s) with Ret (Some sch, _) => Some (map snd (sc_vars sch)) | _ => None end)
    ["a:ab|cd"; "a:a|b*"; "a:[(b)]"; "a:[\s]"; "//"; "xdelimiters:b"]%string =
  [Some [RCat (RCat (RLit 97) (ROr (RLit 98) (RLit 99))) (RLit 100)]; None; Some [RGroup false false [(98, 98)]]; None; None; None].
Proof. vm_compute. reflexivity. Qed.
(** Undefined: a parenthesised pattern among the delimiters, a repetition count of eleven digits. *)
Example C51_undefined : map run [codes "delimiters:(ab)"; codes "a:b{12345678901}"]%string = [UB; UB].
Proof. vm_compute. reflexivity. Qed.

(** ** A checker for often, and the schema that comes with the code. *)
Definition teq (a b : list N) : bool := if list_eq_dec N.eq_dec a b then true else false.
Lemma teq_iff a b : teq a b = true <-> a = b.
Proof. unfold teq. destruct (list_eq_dec N.eq_dec a b); split; easy. Qed.
Definition starts_variable (c : list N) : bool := negb (teq c [10] || teq c [13] || teq c [47] || teq c keyword).
Fixpoint variable_line_check (m : toks) : bool :=
  match m with
  | x :: m' => (if teq x [10] then match m' with c :: v => starts_variable c && existsb (teq [10]) v | [] => false end else false)
               || variable_line_check m'
  | [] => false
  end.
Lemma first_nl v : existsb (teq [10]) v = true -> exists v1 v2, v = v1 ++ [10] :: v2 /\ ~ In [10] v1.
Proof.
  induction v as [|x v IH]; cbn [existsb]; [easy|]. destruct (teq [10] x) eqn:E.
  - intros _. apply teq_iff in E. subst x. exists [], v. auto.
  - intros H. destruct (IH H) as (v1 & v2 & -> & Hv). exists (x :: v1), v2. split; [easy|]. intros [-> | G]; [|easy].
    assert (teq [10] [10] = true) by now apply teq_iff. congruence.
Qed.
Lemma variable_line_check_ok m : variable_line_check m = true -> has_variable_line m.
Proof.
  induction m as [|x m IH]; cbn [variable_line_check]; [easy|]. intros H. apply orb_true_iff in H as [H | H].
  - destruct (teq x [10]) eqn:E; [|easy]. apply teq_iff in E. subst x. destruct m as [|c v]; [easy|].
    apply andb_true_iff in H as [H1 H2]. destruct (first_nl v H2) as (v1 & v2 & -> & Hv). exists [], c, v1, v2. split; [easy|].
    unfold starts_variable in H1. apply negb_true_iff in H1. apply orb_false_iff in H1 as [H1 D]. apply orb_false_iff in H1 as [H1 C].
    apply orb_false_iff in H1 as [A B].
    assert (K : forall b, teq c b = false -> c <> b) by (intros b Hb ->; assert (teq b b = true) by (now apply teq_iff); congruence).
    repeat split; auto.
  - destruct (IH H) as (a & c & v & b & -> & G). exists (x :: a), c, v, b. auto.
Qed.
Lemma has_more m b : has_variable_line m -> has_variable_line (m ++ b).
Proof.
  intros (a & c & v & r & -> & G). exists a, c, v, (r ++ b). split; [|exact G]. rewrite <- !app_assoc. cbn [app]. rewrite <- !app_assoc. reflexivity.
Qed.
Fixpoint often_check (k : nat) (inp : toks) : bool :=
  ((List.length inp <=? k)%nat || variable_line_check (firstn (S k) inp)) && match inp with [] => true | _ :: r => often_check k r end.
Lemma often_check_ok k inp : often_check k inp = true -> often (N.of_nat k) inp.
Proof.
  intros H a. revert inp H. induction a as [|x a IH]; intros inp H m b E Hm; cbn [app] in E.
  - subst inp. destruct m as [|y m]; [cbn in Hm; lia|]. cbn [app often_check] in H. apply andb_true_iff in H as [H _].
    apply orb_true_iff in H as [H | H]; [apply Nat.leb_le in H; cbn in H, Hm; rewrite app_length in H; lia|].
    apply variable_line_check_ok in H. change (y :: m ++ b) with ((y :: m) ++ b) in H.
    rewrite firstn_app in H. replace (S k - List.length (y :: m))%nat with 0%nat in H by lia. cbn [firstn] in H. rewrite app_nil_r in H.
    rewrite <- (firstn_skipn (S k) (y :: m)). now apply has_more.
  - subst inp. cbn [often_check] in H. apply andb_true_iff in H as [_ H]. exact (IH _ H m b eq_refl Hm).
Qed.

(** /repo/examples/schema.txt. *)
Definition example_lines : list string :=
  ["// Timestamps (using the `timestamp` keyword)";
   "// E.g. 2015-01-31T15:50:45.392";
   "timestamp:\d{4}\-\d{2}\-\d{2}T\d{2}:\d{2}:\d{2}.\d{3}";
   "// E.g. 2015-01-31T15:50:45,392";
   "timestamp:\d{4}\-\d{2}\-\d{2}T\d{2}:\d{2}:\d{2},\d{3}";
   "// E.g. [2015-01-31T15:50:45";
   "timestamp:\[\d{4}\-\d{2}\-\d{2}T\d{2}:\d{2}:\d{2}";
   "// E.g. [20170106-16:56:41]";
   "timestamp:\[\d{4}\d{2}\d{2}\-\d{2}:\d{2}:\d{2}\]";
   "// E.g. 2015-01-31 15:50:45,392";
   "// E.g. INFO [main] 2015-01-31 15:50:45,085";
   "timestamp:\d{4}\-\d{2}\-\d{2} \d{2}:\d{2}:\d{2},\d{3}";
   "// E.g. 2015-01-31 15:50:45.392";
   "timestamp:\d{4}\-\d{2}\-\d{2} \d{2}:\d{2}:\d{2}.\d{3}";
   "// E.g. [2015-01-31 15:50:45,085]";
   "timestamp:\[\d{4}\-\d{2}\-\d{2} \d{2}:\d{2}:\d{2},\d{3}\]";
   "// E.g. 2015-01-31 15:50:45";
   "// E.g. Started POST /api/v3/internal/allowed for 127.0.0.1 at 2017-06-18 00:20:44";
   "// E.g. update-alternatives 2015-01-31 15:50:45";
   "timestamp:\d{4}\-\d{2}\-\d{2} \d{2}:\d{2}:\d{2}";
   "// E.g. Start-Date: 2015-01-31  15:50:45";
   "timestamp:\d{4}\-\d{2}\-\d{2}  \d{2}:\d{2}:\d{2}";
   "// E.g. 2015/01/31 15:50:45";
   "timestamp:\d{4}/\d{2}/\d{2} \d{2}:\d{2}:\d{2}";
   "// E.g. 15/01/31 15:50:45";
   "timestamp:\d{2}/\d{2}/\d{2} \d{2}:\d{2}:\d{2}";
   "// E.g. 150131  9:50:45";
   "timestamp:\d{2}\d{2}\d{2} [ 0-9]{2}:\d{2}:\d{2}";
   "// E.g. 01 Jan 2016 15:50:17,085";
   "timestamp:\d{2} [A-Z][a-z]{2} \d{4} \d{2}:\d{2}:\d{2},\d{3}";
   "// E.g. Jan 01, 2016 3:50:17 PM";
   "timestamp:[A-Z][a-z]{2} \d{2}, \d{4} [ 0-9]{2}:\d{2}:\d{2} [AP]M";
   "// E.g. January 31, 2015 15:50";
   "timestamp:[A-Z][a-z]+ \d{2}, \d{4} \d{2}:\d{2}";
   "// E.g. E [31/Jan/2015:15:50:45";
   "// E.g. localhost - - [01/Jan/2016:15:50:17";
   "// E.g. 192.168.4.5 - - [01/Jan/2016:15:50:17";
   "timestamp:\[\d{2}/[A-Z][a-z]{2}/\d{4}:\d{2}:\d{2}:\d{2}";
   "// E.g. 192.168.4.5 - - [01/01/2016:15:50:17";
   "timestamp:\[\d{2}/\d{2}/\d{4}:\d{2}:\d{2}:\d{2}";
   "// E.g. ERROR: apport (pid 4557) Sun Jan  1 15:50:45 2015";
   "timestamp:[A-Z][a-z]{2} [A-Z][a-z]{2} [ 0-9]{2} \d{2}:\d{2}:\d{2} \d{4}";
   "// E.g. <<<2016-11-10 03:02:29:936";
   "timestamp:\<\<\<\d{4}\-\d{2}\-\d{2} \d{2}:\d{2}:\d{2}:\d{3}";
   "// E.g. Jan 21 11:56:42";
   "timestamp:[A-Z][a-z]{2} \d{2} \d{2}:\d{2}:\d{2}";
   "// E.g. 01-21 11:56:42.392";
   "timestamp:\d{2}\-\d{2} \d{2}:\d{2}:\d{2}.\d{3}";
   "// E.g. 2016-05-08 11:34:04.083464";
   "timestamp:\d{4}\-\d{2}\-\d{2} \d{2}:\d{2}:\d{2}.\d{6}";
   "";
   "// Delimiters";
   "delimiters: \t\r\n:,!;%";
   "";
   "// Capture";
   "capture:user_(?<userID>[0-9]+)";
   "";
   "// First set of variables";
   "int:\-{0,1}[0-9]+";
   "float:\-{0,1}[0-9]+\.[0-9]+";
   "";
   "// Second set of variables";
   "hex:[a-fA-F]+";
   "hasNumber:.*\d.*";
   "equals:.*=.*[a-zA-Z0-9].*";
   "";
   "// Log Level";
   "loglevel:(INFO)|(DEBUG)|(WARN)|(ERROR)|(TRACE)|(FATAL)"]%string.
Definition run_long (s : list N) : out (option schema * N) :=
  do c <- schema_lexer 300 N.of_nat;
  generate_schema_ast (N.to_nat 3000) (N.to_nat 3000) (N.to_nat 20000) c schema_table (Some 0) (fun _ => 0) buffer0 0 s.
Example C51_example_file :
  match run_long (lines example_lines) with
  | Ret (Some sch, _) => Some (sc_delims sch, map fst (skipn 22 (sc_vars sch)), map snd (firstn 2 (skipn 22 (sc_vars sch))))
  | _ => None
  end = Some ([[32; 9; 13; 10; 58; 44; 33; 59; 37]], ["capture"; "int"; "float"; "hex"; "hasNumber"; "equals"; "loglevel"]%string,
    [RCat (fold_left RCat (map RLit (codes "ser_")) (RLit 117)) (RCapture (RMult (RGroup false false [(48, 57)]) 1 0) (tag_of (codes "userID")));
     RCat (ROr REmpty (RMult (RLit 45) 1 1)) (RMult (RGroup false false [(48, 57)]) 1 0)]).
Proof. vm_compute. reflexivity. Qed.
(** It meets the hypotheses of C51 by its variable lines: it is too long for the other alternative of room_for. *)
Fixpoint tokenize (fuel : nat) (s : list N) : toks :=
  match fuel, s with
  | S fuel', b :: r => if teq (firstn 10 s) keyword then keyword :: tokenize fuel' (skipn 10 s) else [b] :: tokenize fuel' r
  | _, _ => []
  end.
Lemma tokenize_splits fuel : forall s, (List.length s <= fuel)%nat -> splits s (tokenize fuel s).
Proof.
  induction fuel as [|fuel IH]; intros s Hs; [destruct s; [constructor|cbn in Hs; lia]|].
  destruct s as [|b s]; [constructor|]. cbn [tokenize]. destruct (teq (firstn 10 (b :: s)) keyword) eqn:E.
  - apply teq_iff in E. rewrite <- (firstn_skipn 10 (b :: s)) at 1. rewrite E. constructor. apply IH.
    rewrite skipn_length. cbn in *. lia.
  - constructor; [|apply IH; cbn in Hs; lia]. intros r F. rewrite F in E.
    assert (teq (firstn 10 (keyword ++ r)) keyword = true) by now apply teq_iff. congruence.
Qed.
Example C51_example_room : exists ws, splits (lines example_lines) ws /\ room_for ws 5000 /\ cSizeOfAllChildren < 7 * N.of_nat (List.length ws) + 1.
Proof.
  exists (tokenize (List.length (lines example_lines)) (lines example_lines)). split; [now apply tokenize_splits|]. split; [right; split; [|easy]|].
  - change 713 with (N.of_nat (N.to_nat 713)). apply often_check_ok. vm_cast_no_check (eq_refl true).
  - vm_compute. reflexivity.
Qed.
