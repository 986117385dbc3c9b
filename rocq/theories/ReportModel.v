(** ReportModel.v -- LALR1Parser::parse with the static array of children and with the error message (LALR1Parser.tpp 12-54, 521-758). *)
From Verif Require Import Base OrdSet GrammarSpec FirstModel LrModel LrTable ParseSpec LrDriver LrReport.
From Coq Require Import String Ascii DecimalString.
Local Open Scope list_scope.
Local Open Scope N_scope.

Section Report.
  Context {tok A : Type}.
  Variables (types : tok -> list N) (eof : tok).
  (** Token::to_string and m_line (Token.cpp 9-20, Token.hpp 42). *)
  Variables (text : tok -> list N) (line : tok -> N).
  Variable rule : N -> option (list (value tok A) -> out A).
  Variables (resets : N -> bool) (limit : N) (g : grammar) (t : table).

  (** MatchedSymbol (LALR1Parser.hpp 24-100): a token, or a NonTerminal with its production, m_children_start and m_ast. *)
  Inductive cell : Type := CTok (tk : tok) | CNt (p from : N) (a : option A).
  Definition view (c : cell) : value tok A := match c with CTok tk => VTok tk | CNt p _ a => VNt p a end.
  (** The parser's stacks, m_next_token, m_next_children_start and m_all_children (None: never written). *)
  Record rstate : Type := mkRS {
    r_states : list N; r_matches : list cell; r_next : option tok; r_alloc : N; r_array : N -> option cell }.

  (** LALR1Parser.tpp 721-737: the children are moved to the positions from [from] on, the first child first. *)
  Definition put (arr : N -> option cell) (from : N) (children : list cell) : N -> option cell :=
    fun i => if (from <=? i) && (i <? from + N.of_nat (List.length children)) then nth_error children (N.to_nat (i - from)) else arr i.
  (** LALR1Parser.tpp 721-752: reduce. The semantic rule reads the children that have just been written. *)
  Definition r_reduce (p : N) (tk : tok) (st : rstate) : out rstate :=
    let n := List.length (body_at g p) in
    let from := r_alloc st in
    let next := from + N.of_nat n in
    if (0 <? N.of_nat n) && (limit <? next) then UB
    else if Nat.ltb (List.length (r_matches st)) n then UB
    else
      let children := rev (firstn n (r_matches st)) in
      let arr := put (r_array st) from children in
      do ast <- match rule p with
                | None => Ret None
                | Some f => do a <- f (map view children); Ret (Some a)
                end;
      let next' := if resets p && (limit / 2 <? next) then 0 else next in
      match skipn n (r_states st) with
      | [] => UB
      | s :: ss =>
          do act <- action_at g t s (p_head (prod_at g p));
          match act with
          | AShift j => Ret (mkRS (j :: s :: ss) (CNt p from ast :: skipn n (r_matches st)) (Some tk) next' arr)
          | _ => Throw
          end
      end.
  (** LALR1Parser.tpp 696-758: parse_symbol. *)
  Definition r_symbol (X : N) (tk : tok) (st : rstate) : out (option (bool * rstate)) :=
    match r_states st with
    | [] => UB
    | s :: ss =>
        do act <- action_at g t s X;
        match act with
        | ABool false => Ret None
        | ABool true => Ret (Some (true, st))
        | AShift j => Ret (Some (false, mkRS (j :: s :: ss) (CTok tk :: r_matches st) (r_next st) (r_alloc st) (r_array st)))
        | AReduce p => do st' <- r_reduce p tk st; Ret (Some (false, st'))
        end
    end.
  (** LALR1Parser.tpp 682-694: parse_advance. (The offending token is pushed on m_parse_stack_matches; report_error pops it again.) *)
  Fixpoint r_advance (Xs : list N) (tk : tok) (st : rstate) : out (option (bool * rstate)) :=
    match Xs with
    | [] => Ret None
    | X :: r =>
        do res <- r_symbol X tk st;
        match res with
        | Some x => Ret (Some x)
        | None => r_advance r tk st
        end
    end.
  (** LALR1Parser.tpp 666-680: get_next_symbol. *)
  Definition r_token (inp : list tok) (st : rstate) : tok * list tok * rstate :=
    match r_next st with
    | Some tk => (tk, inp, mkRS (r_states st) (r_matches st) None (r_alloc st) (r_array st))
    | None => match inp with
              | [] => (eof, [], st)
              | tk :: r => (tk, r, st)
              end
    end.

  (** *** The error message. *)
  (** LALR1Parser.tpp 521-558: get_input_after_last_newline. [acc]: error_message_reversed. *)
  Definition is_newline (w : list N) : bool :=
    match w with [b] => (b =? 13) || (b =? 10) | _ => false end.
  Fixpoint fetch (arr : N -> option cell) (from : N) (n : nat) : out (list cell) :=
    match n with
    | O => Ret []
    | S m => if limit <=? from then UB else
             match arr from with
             | None => UB
             | Some c => do r <- fetch arr (from + 1) m; Ret (c :: r)
             end
    end.
  Fixpoint walk (fuel : nat) (arr : N -> option cell) (stack : list cell) (acc : list N) : out (list N) :=
    match fuel with
    | O => OutOfFuel
    | S f =>
        match stack with
        | [] => Ret (rev acc)
        | CTok tk :: r => if is_newline (text tk) then Ret (rev acc) else walk f arr r (acc ++ rev (text tk))
        | CNt p from _ :: r => do cs <- fetch arr from (List.length (body_at g p)); walk f arr (rev cs ++ r) acc
        end
    end.
  (** LALR1Parser.tpp 560-578: get_input_until_next_newline. m_type_ids_ptr->at(0) of a token without types throws. *)
  Definition has_newline (w : list N) : bool := existsb (fun b => (b =? 10) || (b =? 13)) w.
  Definition at_end_token (tk : tok) : out bool := match types tk with [] => Throw | X :: _ => Ret (X =? TokenEnd) end.
  Fixpoint rest_tokens (rest : list tok) : out (list N) :=
    match rest with
    | [] => Ret []                                             (* the end token: its text is empty *)
    | tk :: r =>
        if has_newline (text tk) then Ret [] else
        do e <- at_end_token tk;
        if e then Ret (text tk) else do w <- rest_tokens r; Ret (text tk ++ w)
    end.
  Definition rest_of_line (tk : tok) (rest : list tok) : out (list N) :=
    do e <- at_end_token tk;
    if has_newline (text tk) || e then Ret [10] else do w <- rest_tokens rest; Ret (w ++ [10]).
  (** LALR1Parser.tpp 580-629: report_error (with get_line_num, 13-36, which is called with a token), up to the text of the message: the line number printed, the column printed (the number of bytes of
      consumed_input and one), the two parts of the quoted line and the offending token, and the symbols listed as expected (None: "empty
      file"). *)
  Record report : Type := mkReport {
    rp_line : N; rp_column : N; rp_consumed : list N; rp_token : list N; rp_rest : list N; rp_expected : option (list N) }.
  Definition listed (s : N) : out (list N) :=
    match row_of t s with
    | None => UB
    | Some row => Ret (filter (fun X => match act_at row X with ABool _ => false | _ => true end) (map N.of_nat (seq 0 (N.to_nat (g_nsym g)))))
    end.
  Definition report_error (fuel : nat) (st : rstate) (tk : tok) (rest : list tok) : out report :=
    match r_next st with
    | Some _ => UB                                             (* assert(m_next_token == std::nullopt) *)
    | None =>
        do consumed <- walk fuel (r_array st) (r_matches st) [];
        do r <- rest_of_line tk rest;
        do e <- at_end_token tk;
        do expected <- (if e && match consumed with [] => true | _ => false end then Ret None
                        else match r_states st with [] => UB | s :: _ => do l <- listed s; Ret (Some l) end);
        Ret (mkReport (line tk + 1) (N.of_nat (List.length consumed) + 1) consumed (text tk) r expected)
    end.

  (** LALR1Parser.tpp 631-651: parse. A syntax error is thrown with its report; the other exceptions and undefined behaviour are as before. *)
  Inductive parsed : Type := Parsed (v : value tok A) (alloc : N) | Failed (r : report).
  Fixpoint r_loop (fuel wfuel : nat) (inp : list tok) (st : rstate) : out parsed :=
    match fuel with
    | O => OutOfFuel
    | S f =>
        let '(tk, inp', st') := r_token inp st in
        do res <- r_advance (types tk) tk st';
        match res with
        | None => do r <- report_error wfuel st' tk inp'; Ret (Failed r)
        | Some (true, st2) =>
            match r_matches st2 with
            | [] => UB
            | CTok _ :: _ => Throw
            | c :: _ => Ret (Parsed (view c) (r_alloc st2))
            end
        | Some (false, st2) => r_loop f wfuel inp' st2
        end
    end.
  (** LALR1Parser.tpp 631-664: parse and reset. *)
  Definition r_parse (fuel wfuel : nat) (root : option N) (inp : list tok) (alloc : N) (arr : N -> option cell) : out parsed :=
    match root with
    | None => UB
    | Some r => r_loop fuel wfuel inp (mkRS [r] [] None alloc arr)
    end.

  (** ** It is the parser of LrDriver.v. *)
  (** Proof vocabulary, no code: the state of LrDriver.v that this state refines (LALR1Parser.hpp 280-283). *)
  Definition forget (st : rstate) : dstate (tok := tok) (A := A) := mkD (r_states st) (map view (r_matches st)) (r_next st) (r_alloc st).
  (** Proof vocabulary, no code. *)
  Definition forget_res (r : option (bool * rstate)) : option (bool * dstate (tok := tok) (A := A)) :=
    match r with Some (b, st) => Some (b, forget st) | None => None end.
  (** Proof vocabulary, no code. *)
  Definition omap {X Y} (f : X -> Y) (o : out X) : out Y := do x <- o; Ret (f x).
  Lemma reduce_forget p tk st : reduce rule resets limit g t p tk (forget st) = omap forget (r_reduce p tk st).
  Proof.
    unfold reduce, r_reduce. cbn [forget d_alloc d_matches d_states]. rewrite map_length. destruct (_ && (limit <? _)); [reflexivity|].
    destruct (Nat.ltb _ _); [reflexivity|]. rewrite firstn_map, <- map_rev.
    destruct (match rule p with None => _ | Some f => _ end) as [ast| | |]; try reflexivity. cbn [bind omap].
    destruct (skipn _ (r_states st)) as [|s ss]; [reflexivity|].
    destruct (action_at g t s _) as [[?|j|?]| | |]; try reflexivity. cbn [bind omap]. unfold omap. cbn [bind]. unfold forget. cbn. now rewrite skipn_map.
  Qed.
  Lemma symbol_forget X tk st : parse_symbol rule resets limit g t X tk (forget st) = omap forget_res (r_symbol X tk st).
  Proof.
    unfold parse_symbol, r_symbol. cbn [forget d_states]. destruct (r_states st) as [|s ss]; [reflexivity|].
    destruct (action_at g t s X) as [[[|]|j|p]| | |]; try reflexivity. cbn [bind]. fold (forget st). rewrite reduce_forget.
    destruct (r_reduce p tk st); reflexivity.
  Qed.
  Lemma advance_forget Xs tk st : parse_advance rule resets limit g t Xs tk (forget st) = omap forget_res (r_advance Xs tk st).
  Proof.
    induction Xs as [|X Xs IH]; [reflexivity|]. cbn [parse_advance r_advance]. rewrite symbol_forget.
    destruct (r_symbol X tk st) as [[[b st2]|]| | |]; try reflexivity. cbn [bind omap forget_res]. exact IH.
  Qed.
  Lemma token_forget inp st : get_next_symbol eof inp (forget st) = let '(tk, inp', st') := r_token inp st in (tk, inp', forget st').
  Proof. unfold get_next_symbol, r_token. cbn [forget d_next]. destruct (r_next st); [reflexivity|]. destruct inp; reflexivity. Qed.
  (** The parser stops in the same way; if it stops with a syntax error, it reports it in the state in which parse_run stops. *)
  Theorem loop_forget wfuel : forall fuel inp st,
    match parse_run types eof rule resets limit g t fuel inp (forget st) with
    | Ret (Accepted v al) => r_loop fuel wfuel inp st = Ret (Parsed v al)
    | Ret (Rejected st' tk rest) => exists st2, st' = forget st2 /\ r_loop fuel wfuel inp st = do r <- report_error wfuel st2 tk rest; Ret (Failed r)
    | UB => r_loop fuel wfuel inp st = UB
    | Throw => r_loop fuel wfuel inp st = Throw
    | OutOfFuel => r_loop fuel wfuel inp st = OutOfFuel
    end.
  Proof.
    induction fuel as [|fuel IH]; intros inp st; [reflexivity|]. cbn [parse_run r_loop]. rewrite token_forget.
    destruct (r_token inp st) as [[tk inp'] st']. rewrite advance_forget.
    destruct (r_advance (types tk) tk st') as [[[[|] st2]|]| | |]; try reflexivity; cbn [bind omap forget_res].
    - unfold omap. cbn [bind forget_res forget d_matches d_alloc]. destruct (r_matches st2) as [|[?|? ? ?] ?]; reflexivity.
    - exact (IH inp' st2).
    - exists st'. split; reflexivity.
  Qed.
End Report.
Arguments CTok {tok A}. Arguments CNt {tok A}. Arguments Parsed {tok A}. Arguments Failed {tok A}.
Arguments mkRS {tok A}. Arguments r_states {tok A}. Arguments r_matches {tok A}. Arguments r_next {tok A}. Arguments r_alloc {tok A}. Arguments r_array {tok A}.

(** ** The text of the message (lines 591-629). [name]: m_id_symbol; [literal]: the character of the symbol's lexical rule, if get_rule
    (Lexer.tpp 365-374) finds one and it is a RegexASTLiteral. *)
Definition codes_of (s : string) : list N := map N_of_ascii (list_ascii_of_string s).
Definition decimal (n : N) : list N := codes_of (NilZero.string_of_uint (N.to_uint n)).
(** LALR1Parser.tpp 38-53. *)
Definition unescape (b : N) : list N :=
  match b with
  | 9 => codes_of "\t" | 13 => codes_of "\r" | 10 => codes_of "\n" | 11 => codes_of "\v" | 12 => codes_of "\f" | _ => [b]
  end.
(** LALR1Parser.tpp 602-618: one symbol of the list. *)
Definition entry (name : N -> list N) (literal : N -> option N) (X : N) : list N :=
  codes_of "'" ++ match literal X with Some b => unescape b | None => name X end ++ codes_of "',".
Definition message (name : N -> list N) (literal : N -> option N) (r : report) : list N :=
  let indicator := match rp_expected r with
                   | None => codes_of "^" ++ [10]
                   | Some _ => repeat 32 (List.length (rp_consumed r) + 10) ++ codes_of "^" ++ [10]
                   end in
  let kind := match rp_expected r with
              | None => codes_of "empty file"
              | Some l => removelast (codes_of "expected " ++ flat_map (entry name literal) l) ++
                          codes_of " before '" ++ unescape (hd 0 (rp_token r)) ++ codes_of "' token"
              end in
  codes_of "Schema:" ++ decimal (rp_line r) ++ codes_of ":" ++ decimal (rp_column r) ++ codes_of ": error: " ++ kind ++ [10] ++
  repeat 32 10 ++ rp_consumed r ++ rp_token r ++ rp_rest r ++ indicator.
