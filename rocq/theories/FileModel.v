(** FileModel.v -- SchemaParser::try_schema_file: FileReader, the ring buffer, the lexer and the LALR(1) parser running together. *)
From Verif Require Import Base LexerModel LexerSpec LogParserModel LexerProofs RingModel RegexModel GrammarSpec LrModel ParseSpec LrDriver SchemaModel
  SchemaGrammar SchemaTable SchemaSafe SchemaRules SchemaSyntax SchemaLexer.

(** ** FileReader (FileReader.cpp). An open FILE: the bytes that can still be read from it, and what comes after them: the end of the file or
    an I/O error. *)
Record file := mkFile { fl_rest : list N; fl_broken : bool }.
Inductive file_code := FSuccess | FEndOfFile | FErrno.
(** FileReader.cpp 18-37: read. fread delivers as many bytes as it can get. *)
Definition file_read (f : file) (count : N) : file_code * list N * file :=
  let bytes := firstn (N.to_nat count) (fl_rest f) in
  let f' := mkFile (skipn (N.to_nat count) (fl_rest f)) (fl_broken f) in
  (if N.of_nat (length bytes) <? count
   then if fl_broken f then FErrno else if N.of_nat (length bytes) =? 0 then FEndOfFile else FSuccess
   else FSuccess, bytes, f').
(** SchemaParser.cpp 75-81: the Reader that try_schema_file makes of it: the code that read returns is not looked at. None: EndOfFile. *)
Definition file_answer (f : file) (count : N) : option (list N) * file :=
  let '(_, bytes, f') := file_read f count in
  (if N.of_nat (length bytes) =? 0 then None else Some bytes, f').
(** ParserInputBuffer.hpp 41-46 and ParserInputBuffer.cpp 35-62 with that Reader. *)
Definition file_fill (b : ibuf) (f : file) : ibuf * file :=
  if read_is_safe b then let (res, f') := file_answer f (ib_size b / 2) in (ib_fill b res, f') else (b, f).

(** ** LALR1Parser::parse with its input buffer and lexer. *)
Section FileParser.
  Context {A : Type}.
  Variable rule : N -> option (list (value stok A) -> out A).
  Variable resets : N -> bool.
  Variable limit : N.
  Variables (g : grammar) (t : table).
  Variable c : lexcfg.
  Notation dstate := (LrDriver.dstate (tok := token) (A := A)).

  (** What a semantic rule sees of a child at the time it runs: the text that the token's bytes of the buffer hold now (Token.cpp 8-17). [SEof]
      stands for a text that cannot be read: for the rules this is undefined. *)
  Definition see (h : heap) (v : value token A) : value stok A :=
    match v with
    | VTok tk => VTok (match tok_text h tk with Ret w => STok w | _ => SEof end)
    | VNt p a => VNt p a
    end.
  Definition file_rule (h : heap) (p : N) : option (list (value token A) -> out A) :=
    match rule p with None => None | Some f => Some (fun vs => f (map (see h) vs)) end.
  (** LALR1Parser.tpp 735-741. *)
  Definition consume (tk : token) (b : ibuf) : ibuf :=
    ib_set_cons b (if t_start tk =? 0 then ib_size b - 1 else t_start tk - 1).
  (** LALR1Parser.tpp 721-752: a reduction; only those with a semantic rule set the consumed position. *)
  Definition file_reduce (p : N) (tk : token) (st : dstate) (b : ibuf) : out (dstate * ibuf) :=
    let b' := match rule p with None => b | Some _ => consume tk b end in
    do st' <- reduce (file_rule (ib_heap b')) resets limit g t p tk st; Ret (st', b').
  (** LALR1Parser.tpp 694-758. *)
  Definition file_symbol (X : N) (tk : token) (st : dstate) (b : ibuf) : out (option (bool * dstate * ibuf)) :=
    match d_states st with
    | [] => UB
    | s :: ss =>
        do act <- action_at g t s X;
        match act with
        | ABool false => Ret None
        | ABool true => Ret (Some (true, st, b))
        | AShift j => Ret (Some (false, mkD (j :: s :: ss) (VTok tk :: d_matches st) (d_next st) (d_alloc st), b))
        | AReduce p => do (st', b') <- file_reduce p tk st b; Ret (Some (false, st', b'))
        end
    end.
  (** LALR1Parser.tpp 680-692. *)
  Fixpoint file_advance (Xs : list N) (tk : token) (st : dstate) (b : ibuf) : out (option (bool * dstate * ibuf)) :=
    match Xs with
    | [] => Ret None
    | X :: r =>
        do res <- file_symbol X tk st b;
        match res with
        | Some x => Ret (Some x)
        | None => file_advance r tk st b
        end
    end.
  (** LALR1Parser.tpp 663-678: m_next_token, or a new token from the lexer; an error of scan is thrown. *)
  Definition file_next (sfuel : nat) (st : dstate) (l : lex) (b : ibuf) : out (token * dstate * lex * ibuf) :=
    match d_next st with
    | Some tk => Ret (tk, mkD (d_states st) (d_matches st) None (d_alloc st), l, b)
    | None =>
        do (ot, l', b') <- scan sfuel c l b;
        match ot with
        | None => Throw
        | Some tk => Ret (tk, st, l', b')
        end
    end.
  (** read_if_safe for some kind of source. *)
  Context {R : Type}.
  Variable fill : ibuf -> R -> ibuf * R.
  (** LALR1Parser.tpp 634-649. A null m_type_ids_ptr is dereferenced by parse_advance. *)
  Fixpoint file_loop (fuel sfuel : nat) (st : dstate) (l : lex) (b : ibuf) (r : R) : out (value token A * N) :=
    match fuel with
    | O => OutOfFuel
    | S f =>
        let (b1, r1) := fill b r in
        do (tk, st1, l1, b2) <- file_next sfuel st l b1;
        do res <- match t_ids tk with None => UB | Some Xs => file_advance Xs tk st1 b2 end;
        match res with
        | None => Throw
        | Some (true, st2, _) =>
            match d_matches st2 with
            | [] => UB
            | VTok _ :: _ => Throw
            | v :: _ => Ret (v, d_alloc st2)
            end
        | Some (false, st2, b3) => file_loop f sfuel st2 l1 b3 r1
        end
    end.
  (** LALR1Parser.tpp 630-632, 652-661. *)
  Definition file_parse (fuel sfuel : nat) (root : option N) (b : ibuf) (r : R) (alloc : N) : out (value token A * N) :=
    match root with
    | None => UB
    | Some s => file_loop fuel sfuel (mkD [s] [] None alloc) lex_reset (ib_reset b) r
    end.
End FileParser.
(** Sources that answer alike. *)
Lemma gnc_frame b ch b' : get_next_character b = Ret (Some (ch, b')) -> same_frame b b'.
Proof.
  unfold get_next_character. destruct (_ && _); [intros [= _ <-]; apply same_frame_set_full|]. destruct (_ || _); [discriminate|].
  destruct (ib_heap b _ _); [|discriminate]. intros [= _ <-]. apply same_frame_set_pos.
Qed.
Lemma skip_frame c : forall fuel ch prev b o b', skip_loop fuel c ch prev b = Ret (o, b') -> same_frame b b'.
Proof.
  induction fuel as [|fuel IH]; intros ch prev b o b'; cbn [skip_loop]; [discriminate|]. destruct (_ && _).
  - destruct (get_next_character b) as [[(ch' & b1)|]| | |] eqn:E; try discriminate.
    + intros H. apply IH in H. eapply same_frame_trans; [exact (gnc_frame _ _ _ E)|exact H].
    + intros [= _ <-]. apply same_frame_refl.
  - intros [= _ <-]. apply same_frame_refl.
Qed.
Lemma scan_loop_frame c : forall fuel q l b o l' b', scan_loop fuel c q l b = Ret (o, l', b') -> same_frame b b'.
Proof.
  induction fuel as [|fuel IH]; intros q l b o l' b'; cbn [scan_loop]; [discriminate|].
  destruct (get_next_character b) as [[(ch & b1)|]| | |] eqn:E; try discriminate; [|intros [= _ _ <-]; apply same_frame_refl].
  pose proof (gnc_frame _ _ _ E) as F1. clear E.
  match goal with |- bind ?x _ = _ -> _ => destruct x as [(next2 & l3)| | |]; cbn [bind]; try discriminate end.
  intros H. assert (G : (exists z, next2 = Some z /\ ib_full b1 = false) \/ same_frame b b').
  { destruct (ib_full b1); [right|destruct next2 as [z|]; [left; eauto|right]].
    - destruct (l_match l3).
      + cbn zeta in H. assert (same_frame b1 (ib_set_pos (ib_set_full b1 false) (l_match_pos l3))).
        { eapply same_frame_trans; [apply same_frame_set_full|apply same_frame_set_pos]. }
        destruct (negb _); injection H as _ _ <-; eapply same_frame_trans; eassumption.
      + destruct (true && _).
        * destruct (negb _); injection H as _ _ <-; exact F1.
        * destruct (skip_loop fuel c ch (ib_pos b) b1) as [([prev'|] & b2)| | |] eqn:Es; try discriminate; apply skip_frame in Es.
          -- apply IH in H. eapply same_frame_trans; [exact F1|]. eapply same_frame_trans; [exact Es|]. eapply same_frame_trans; [apply same_frame_set_pos|exact H].
          -- injection H as _ _ <-. eapply same_frame_trans; eassumption.
    - destruct (l_match l3).
      + cbn zeta in H. assert (same_frame b1 (ib_set_pos (ib_set_full b1 false) (l_match_pos l3))).
        { eapply same_frame_trans; [apply same_frame_set_full|apply same_frame_set_pos]. }
        destruct (negb _); injection H as _ _ <-; eapply same_frame_trans; eassumption.
      + cbn [andb] in H. destruct (skip_loop fuel c ch (ib_pos b) b1) as [([prev'|] & b2)| | |] eqn:Es; try discriminate; apply skip_frame in Es.
        -- apply IH in H. eapply same_frame_trans; [exact F1|]. eapply same_frame_trans; [exact Es|]. eapply same_frame_trans; [apply same_frame_set_pos|exact H].
        -- injection H as _ _ <-. eapply same_frame_trans; eassumption. }
  destruct G as [(z & -> & Ef)|G]; [|exact G]. rewrite Ef in H. apply IH in H. eapply same_frame_trans; eassumption.
Qed.
Lemma scan_frame c fuel l b o l' b' : scan fuel c l b = Ret (o, l', b') -> same_frame b b'.
Proof.
  unfold scan. destruct (l_asked l).
  - destruct (l_prev l) as [q|]; [apply scan_loop_frame|]. destruct (get_next_character b) as [[?|]| | |]; try discriminate.
    intros [= _ _ <-]. apply same_frame_refl.
  - destruct (l_match l); [intros [= _ _ <-]; apply same_frame_refl|apply scan_loop_frame].
Qed.
Lemma advance_size {A} rule resets limit g t tk (st : LrDriver.dstate (tok := token) (A := A)) b : forall Xs x st' b',
  file_advance rule resets limit g t Xs tk st b = Ret (Some (x, st', b')) -> ib_size b' = ib_size b.
Proof.
  induction Xs as [|X Xs IH]; intros x st' b'; cbn [file_advance]; [discriminate|].
  destruct (file_symbol rule resets limit g t X tk st b) as [[[[x1 s1] b1]|]| | |] eqn:E; cbn [bind]; try discriminate; [|apply IH].
  intros [= <- <- <-]. unfold file_symbol in E. destruct (d_states st) as [|s ss]; [discriminate|].
  destruct (action_at g t s X) as [[[|]|j|p]| | |]; cbn [bind] in E; try discriminate; try (injection E as _ _ <-; reflexivity).
  unfold file_reduce in E. destruct (reduce _ _ _ _ _ _ _ _) as [s2| | |]; cbn [bind] in E; try discriminate. injection E as _ _ <-.
  destruct (rule p); reflexivity.
Qed.
Lemma loop_sources {A R1 R2} rule resets limit g t c (f1 : ibuf -> R1 -> ibuf * R1) (f2 : ibuf -> R2 -> ibuf * R2) (Q : R1 -> R2 -> Prop) :
  (forall b r1 r2, ib_size b / 2 <> 0 -> Q r1 r2 -> fst (f1 b r1) = fst (f2 b r2) /\ Q (snd (f1 b r1)) (snd (f2 b r2))) ->
  (forall b r1, ib_size (fst (f1 b r1)) = ib_size b) ->
  forall sf fuel (st : LrDriver.dstate (tok := token) (A := A)) l b r1 r2, ib_size b / 2 <> 0 -> Q r1 r2 ->
  file_loop rule resets limit g t c f1 fuel sf st l b r1 = file_loop rule resets limit g t c f2 fuel sf st l b r2.
Proof.
  intros Hf Hz sf. induction fuel as [|fuel IH]; intros st l b r1 r2 Hb Hq; [reflexivity|]. cbn [file_loop].
  destruct (Hf b r1 r2 Hb Hq) as [E1 E2]. specialize (Hz b r1). destruct (f1 b r1) as (b1 & q1), (f2 b r2) as (b2 & q2). cbn [fst snd] in *. subst b2.
  destruct (file_next c sf st l b1) as [[[[tk s1] l1] b2]| | |] eqn:En; cbn [bind]; try reflexivity.
  assert (Hb2 : ib_size b2 = ib_size b).
  { unfold file_next in En. destruct (d_next st); [injection En as _ _ _ <-; exact Hz|].
    destruct (scan sf c l b1) as [[[[tk1|] l2] b3]| | |] eqn:Es; cbn [bind] in En; try discriminate. injection En as _ _ _ <-.
    apply scan_frame in Es as (_ & _ & _ & Es & _). congruence. }
  destruct (match t_ids tk with None => _ | Some Xs => _ end) as [[[[[|] s2] b3]|]| | |] eqn:Ea; cbn [bind]; try reflexivity.
  destruct (t_ids tk) as [Xs|]; [|discriminate]. apply advance_size in Ea. apply IH; [congruence|exact E2].
Qed.
(** SchemaParser.cpp 53-59 and 61-85, the parser's construction as in PropertiesSchemaText.v. [None]: the file cannot be opened
    (FileReader.cpp 39-50). *)
Definition try_schema_file (dfuel fuel pfuel : nat) (addr : nat -> N) (b : ibuf) (alloc : N) (f : option file) : out (option schema * N) :=
  match f with
  | None => Throw
  | Some f =>
    do c <- schema_lexer dfuel addr;
    do (t, root) <- generate sfuel scfuel schema_grammar;
    do (v, al) <- file_parse schema_rule schema_resets cSizeOfAllChildren schema_grammar t c file_fill pfuel fuel root b f alloc;
    match v with
    | VNt _ (Some (VSchema vars delims)) => Ret (Some (schema_of vars delims), al)
    | _ => Ret (None, al)
    end
  end.
(** The answers of the model's reader are those of the FileReader. *)
Lemma file_reader f count calls n : (length (fl_rest f) <= n)%nat -> 0 < count ->
  let '(res, r') := rd_read (fun _ => N.of_nat n) (mkReader (fl_rest f) calls) count in
  let '(res', f') := file_answer f count in res = res' /\ rd_rest r' = fl_rest f'.
Proof.
  intros Hn Hc. unfold rd_read, file_answer, file_read, rd_amount. cbn [rd_rest rd_calls].
  destruct (fl_rest f) as [|x l] eqn:E.
  - rewrite firstn_nil, skipn_nil. auto.
  - cbn [rd_rest fl_rest]. assert (Hk : length (firstn (N.to_nat count) (x :: l)) = Nat.min (N.to_nat count) (length (x :: l))) by apply firstn_length.
    destruct (N.eqb_spec (N.of_nat (length (firstn (N.to_nat count) (x :: l)))) 0) as [Z|Z]; [rewrite Hk in Z; cbn [length] in Z; lia|].
    cbn [length] in *. destruct (N.le_gt_cases count (N.of_nat (S (length l)))) as [L|L].
    + replace (N.to_nat (N.max 1 (N.min (N.min (N.of_nat n) count) (N.of_nat (S (length l)))))) with (N.to_nat count) by lia. auto.
    + replace (N.to_nat (N.max 1 (N.min (N.min (N.of_nat n) count) (N.of_nat (S (length l)))))) with (S (length l)) by lia.
      rewrite !firstn_all2, !skipn_all2 by (cbn [length]; lia). auto.
Qed.

Lemma fill_size b f : ib_size (fst (file_fill b f)) = ib_size b.
Proof. unfold file_fill. destruct (read_is_safe b); [|reflexivity]. destruct (file_answer f _) as ([bytes|] & f'); reflexivity. Qed.
(** The parser with a file does what it does with a reader that fills every request from the bytes of the file, if there are any. *)
Lemma file_parse_reader {A} rule resets limit g t c sf fuel root b alloc f (k : N) : len (fl_rest f) <= k ->
  file_parse (A := A) rule resets limit g t c file_fill fuel sf root b f alloc =
  file_parse rule resets limit g t c (read_if_safe (fun _ => k)) fuel sf root b (mkReader (fl_rest f) 0) alloc.
Proof.
  intros Hk. destruct root as [s|]; [|reflexivity]. cbn [file_parse].
  apply (loop_sources rule resets limit g t c file_fill (read_if_safe (fun _ => k)) (fun f r => fl_rest f = rd_rest r /\ len (fl_rest f) <= k)).
  - intros b0 f0 r0 Hb (Q1 & Q2). unfold file_fill, read_if_safe. destruct (read_is_safe b0); [|cbn; auto]. unfold ib_read.
    pose proof (file_reader f0 (ib_size b0 / 2) (rd_calls r0) (N.to_nat k) ltac:(unfold len in Q2; lia) ltac:(lia)) as Fr.
    replace (mkReader (fl_rest f0) (rd_calls r0)) with r0 in Fr by (destruct r0; cbn in *; now subst). rewrite N2Nat.id in Fr.
    assert (Hle : len (fl_rest (snd (file_answer f0 (ib_size b0 / 2)))) <= len (fl_rest f0)).
    { unfold file_answer, file_read. cbn [snd fl_rest]. unfold len. rewrite skipn_length. lia. }
    destruct (rd_read _ r0 _) as (res & r'), (file_answer f0 _) as (res' & f'). destruct Fr as [-> Fr]. cbn [fst snd] in *. split; [reflexivity|].
    split; [congruence|]. lia.
  - intros. apply fill_size.
  - discriminate.
  - cbn [rd_rest]. auto.
Qed.
