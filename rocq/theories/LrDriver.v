(** LrDriver.v -- LALR1Parser::parse on a sequence of tokens (LALR1Parser.tpp 630-758). *)
From Verif Require Import Base OrdSet GrammarSpec FirstModel LrModel LrTable ParseSpec.

(** Constants.hpp 11. *)
Definition cSizeOfAllChildren : N := 10000.

Section Driver.
  Context {tok A : Type}.
  (** The type ids of a token, in the order in which parse_advance tries them, and the token that the
      lexer returns, over and over, at the end of the input. *)
  Variables (types : tok -> list N) (eof : tok).

  (** A NonTerminal's children in the static array m_all_children are read by no semantic rule of a later
      reduction (every rule only looks at the children of its own NonTerminal), only by the error report,
      which is modelled in ReportModel.v. *)
  (** The semantic rule of a production (None: nullptr) as a function of the children it can reach with
      token_cast and non_terminal_cast, and whether it contains the code of
      SchemaParser::existing_schema_rule that sets m_next_children_start back to 0. *)
  Variable rule : N -> option (list (value tok A) -> out A).
  Variable resets : N -> bool.
  (** The size of NonTerminal::m_all_children: cSizeOfAllChildren in the code. *)
  Variable limit : N.

  (** m_parse_stack_states and m_parse_stack_matches (top first), m_next_token and the static
      NonTerminal::m_next_children_start. *)
  (** LALR1Parser.hpp 280-283, 102-103. *)
  Record dstate : Type := mkD {
    d_states : list N; d_matches : list (value tok A); d_next : option tok; d_alloc : N }.

  Variables (g : grammar) (t : table).

  (** ItemSet::m_actions[X]; a state without a row would be a dangling pointer, an index outside
      m_actions is undefined. *)
  (** LALR1Parser.tpp 703, 747-748. *)
  Definition action_at (s X : N) : out action :=
    match row_of t s with
    | None => UB
    | Some a => if g_nsym g <=? X then UB else Ret (act_at a X)
    end.

  (** LALR1Parser.tpp 721-752: reduce. Writing to m_all_children outside its bounds and popping an empty
      stack are undefined; std::get<ItemSet*> throws bad_variant_access on any other alternative. The
      call of set_consumed_pos only concerns the input buffer. *)
  Definition reduce (p : N) (tk : tok) (st : dstate) : out dstate :=
    let n := length (body_at g p) in
    let start := d_alloc st in
    let next := start + N.of_nat n in
    if (0 <? N.of_nat n) && (limit <? next) then UB
    else if Nat.ltb (length (d_matches st)) n then UB
    else
      let children := rev (firstn n (d_matches st)) in
      do ast <- match rule p with
                | None => Ret None
                | Some f => do a <- f children; Ret (Some a)
                end;
      let next' := if resets p && (limit / 2 <? next) then 0 else next in
      match skipn n (d_states st) with
      | [] => UB
      | s :: ss =>
          do act <- action_at s (p_head (prod_at g p));
          match act with
          | AShift j => Ret (mkD (j :: s :: ss) (VNt p ast :: skipn n (d_matches st)) (Some tk) next')
          | _ => Throw
          end
      end.

  (** LALR1Parser.tpp 694-758: parse_symbol. None: the symbol is not acceptable here; Some (true, _):
      the input is accepted. *)
  Definition parse_symbol (X : N) (tk : tok) (st : dstate) : out (option (bool * dstate)) :=
    match d_states st with
    | [] => UB
    | s :: ss =>
        do act <- action_at s X;
        match act with
        | ABool false => Ret None
        | ABool true => Ret (Some (true, st))
        | AShift j => Ret (Some (false, mkD (j :: s :: ss) (VTok tk :: d_matches st) (d_next st) (d_alloc st)))
        | AReduce p => do st' <- reduce p tk st; Ret (Some (false, st'))
        end
    end.

  (** LALR1Parser.tpp 680-692: parse_advance; None: no type of the token is acceptable. *)
  Fixpoint parse_advance (Xs : list N) (tk : tok) (st : dstate) : out (option (bool * dstate)) :=
    match Xs with
    | [] => Ret None
    | X :: r =>
        do res <- parse_symbol X tk st;
        match res with
        | Some x => Ret (Some x)
        | None => parse_advance r tk st
        end
    end.

  (** LALR1Parser.tpp 663-678: get_next_symbol, on the tokens the lexer will return. *)
  Definition get_next_symbol (inp : list tok) (st : dstate) : tok * list tok * dstate :=
    match d_next st with
    | Some tk => (tk, inp, mkD (d_states st) (d_matches st) None (d_alloc st))
    | None => match inp with
              | [] => (eof, [], st)
              | tk :: r => (tk, r, st)
              end
    end.

  (** LALR1Parser.tpp 634-649: the loop of parse, and what follows it: the error report is an exception,
      a match that is not a NonTerminal makes std::get throw. The second result is the final value of
      m_next_children_start. *)
  Fixpoint parse_loop (fuel : nat) (inp : list tok) (st : dstate) : out (value tok A * N) :=
    match fuel with
    | O => OutOfFuel
    | S f =>
        let '(tk, inp', st') := get_next_symbol inp st in
        do res <- parse_advance (types tk) tk st';
        match res with
        | None => Throw
        | Some (true, st2) =>
            match d_matches st2 with
            | [] => UB
            | VTok _ :: _ => Throw
            | v :: _ => Ret (v, d_alloc st2)
            end
        | Some (false, st2) => parse_loop f inp' st2
        end
    end.

  (** LALR1Parser.tpp 630-632, 652-661: reset clears the stacks and m_next_token, but not
      m_next_children_start. *)
  Definition parse (fuel : nat) (root : option N) (inp : list tok) (alloc : N) : out (value tok A * N) :=
    match root with
    | None => UB
    | Some r => parse_loop fuel inp (mkD [r] [] None alloc)
    end.
End Driver.
Arguments mkD {tok A}. Arguments d_states {tok A}. Arguments d_matches {tok A}.
Arguments d_next {tok A}. Arguments d_alloc {tok A}.
