(** StreamModel.v -- the sequence of tokens a client of Lexer::scan obtains. *)
From Verif Require Import Base LexerModel LexerSpec.

(** Call scan until it returns the end token (Lexer.hpp 56-64; the way the schema parser and the tests use
    a lexer). [calls] bounds the number of calls. BufferOutOfBounds is reported as [Throw]. *)
Fixpoint scan_all (calls fuel : nat) (c : lexcfg) (l : lex) (b : ibuf) : out (list token) :=
  match calls with
  | O => OutOfFuel
  | S calls' =>
    do (ot, l', b') <- scan fuel c l b;
    match ot with
    | None => Throw
    | Some tok =>
      match t_ids tok with
      | Some [0] => Ret [tok]                       (* SymbolId::TokenEnd *)
      | _ => do r <- scan_all calls' fuel c l' b'; Ret (tok :: r)
      end
    end
  end.

(** The lexer and buffer states in which the first scan of a log happens: Lexer::reset,
    ParserInputBuffer::reset, prepend_start_of_file_char (LogParser.cpp 158-162), then set_storage
    (BufferParser.cpp 28) with offset 0 and finished_reading_input = true. *)
Definition first_buf (b : ibuf) (k : nat) (m : mem) (size : N) : ibuf :=
  ib_set_storage (ib_reset b) k m size 0 true.
Definition lex_all (calls fuel : nat) (c : lexcfg) (k : nat) (m : mem) (t : list N) (b : ibuf) : out (list token) :=
  scan_all calls fuel c (prepend_sof c lex_reset (ib_reset b)) (first_buf b k m (len t)).

(** [tile a toks e]: the tokens lie one after the other from [a] to [e]. *)
(** Specification, no code: the tokens cover [a, e) without gap or overlap. *)
Fixpoint tile (a : N) (toks : list token) (e : N) : Prop :=
  match toks with
  | [] => a = e
  | tok :: toks' => t_start tok = a /\ a <= t_end tok /\ tile (t_end tok) toks' e
  end.
(** Kinds of tokens. *)
(** Lexer.hpp 25, Lexer.tpp 135-142: the token for the end of the input carries cTokenEndTypes. *)
Definition is_end (tok : token) : Prop := t_ids tok = cTokenEndTypes.
(** Lexer.hpp 26-27, Lexer.tpp 100-109, 122-134: a token that no rule matched carries cTokenUncaughtStringTypes. *)
Definition is_static (tok : token) : Prop := t_ids tok = cTokenUncaughtStringTypes.
(** Specification: a token that carries ids of rules (Lexer.tpp 113-120). *)
Definition is_var (tok : token) : Prop := ~ is_end tok /\ ~ is_static tok.
