(** LexerModel.v -- executable model of Buffer<char>, ParserInputBuffer, Token and Lexer::scan. *)
From Verif Require Import Base.

(** * Storage

    Identity of a byte storage: the static array of Buffer<char>, the k-th dynamic vector
    (Buffer.hpp 47-51, 88-92) or the k-th buffer a BufferParser user passes in. [Null] is nullptr. *)
Inductive sid := Null | Static | Dyn (k : nat) | User (k : nat).

(** Equality of the pointers Token::m_buffer / m_active_storage (Token.hpp 40, Buffer.hpp 92): the same storage. *)
Definition sid_eqb (a b : sid) : bool :=
  match a, b with
  | Null, Null => true
  | Static, Static => true
  | Dyn i, Dyn j => Nat.eqb i j
  | User i, User j => Nat.eqb i j
  | _, _ => false
  end.

(** Contents of one storage. [None] = outside the allocation, freed, or never written:
    reading it is undefined behaviour. *)
(** The char array behind a pointer (Buffer.hpp 88-92), with what is not allocated left out. *)
Definition mem := N -> option N.
(** All the arrays that pointers of the lexer and parser can refer to (Buffer.hpp 88-92, ParserInputBuffer.hpp 127-137). *)
Definition heap := sid -> mem.
(** Writing a whole array (Buffer.hpp 47-51, 64-69; ParserInputBuffer.hpp 92-107 for set_storage). *)
Definition heap_set (h : heap) (s : sid) (m : mem) : heap :=
  fun s' => if sid_eqb s' s then m else h s'.

(** ParserInputBuffer.hpp 127-137 with Buffer.hpp 88-92 inlined.
    [ib_dyn] is the number of dynamic storages allocated since the last reset. *)
Record ibuf := mkIbuf {
  ib_heap : heap;
  ib_active : sid;       (* m_storage.m_active_storage *)
  ib_dyn : nat;          (* m_storage.m_dynamic_storages.size() *)
  ib_size : N;           (* m_storage.m_active_size *)
  ib_pos : N;            (* m_storage.m_pos *)
  ib_last : N;           (* m_pos_last_read_char *)
  ib_lrfh : bool;        (* m_last_read_first_half *)
  ib_fin : bool;         (* m_finished_reading_input *)
  ib_full : bool;        (* m_log_fully_consumed *)
  ib_cons : N            (* m_consumed_pos *)
}.

(** Buffer.hpp 43: set_pos / ParserInputBuffer.hpp 73. *)
Definition ib_set_pos (b : ibuf) (p : N) : ibuf :=
  mkIbuf (ib_heap b) (ib_active b) (ib_dyn b) (ib_size b) p (ib_last b)
         (ib_lrfh b) (ib_fin b) (ib_full b) (ib_cons b).
(** ParserInputBuffer.hpp 89-91. *)
Definition ib_set_full (b : ibuf) (v : bool) : ibuf :=
  mkIbuf (ib_heap b) (ib_active b) (ib_dyn b) (ib_size b) (ib_pos b) (ib_last b)
         (ib_lrfh b) (ib_fin b) v (ib_cons b).
(** ParserInputBuffer.hpp 81. *)
Definition ib_set_cons (b : ibuf) (p : N) : ibuf :=
  mkIbuf (ib_heap b) (ib_active b) (ib_dyn b) (ib_size b) (ib_pos b) (ib_last b)
         (ib_lrfh b) (ib_fin b) (ib_full b) p.
Definition ib_set_fin (b : ibuf) (v : bool) : ibuf :=
  mkIbuf (ib_heap b) (ib_active b) (ib_dyn b) (ib_size b) (ib_pos b) (ib_last b)
         (ib_lrfh b) v (ib_full b) (ib_cons b).

(** ParserInputBuffer.cpp 12-19 and Buffer.hpp 57-62 (the dynamic storages are freed, the static one
    keeps its bytes). *)
Definition ib_reset (b : ibuf) : ibuf :=
  mkIbuf (fun s => match s with Dyn _ => fun _ => None | _ => ib_heap b s end)
         Static 0%nat cStaticByteBuffSize 0 0 false false false (cStaticByteBuffSize - 1).

(** ParserInputBuffer.cpp 110-121: set_storage, with Buffer.hpp 64-68. [k] names the user's buffer and
    [m] is what is stored there. [size * 2] is not wrapped at 2^32 (buffers below 2 GiB). *)
Definition ib_set_storage (b : ibuf) (k : nat) (m : mem) (size pos : N) (fin : bool) : ibuf :=
  let b0 := ib_reset b in
  mkIbuf (heap_set (ib_heap b0) (User k) m) (User k) (ib_dyn b0) (size * 2) pos size
         true fin (ib_full b0) (ib_cons b0).

(** ParserInputBuffer.cpp 86-104: get_next_character.
    [Ret None] is ErrorCode::BufferOutOfBounds, [Ret (Some (c, b'))] is Success. *)
Definition get_next_character (b : ibuf) : out (option (N * ibuf)) :=
  if ib_fin b && (ib_pos b =? ib_last b) then Ret (Some (cCharEOF, ib_set_full b true))
  else if (ib_lrfh b && (ib_pos b =? ib_size b / 2)) || (negb (ib_lrfh b) && (ib_pos b =? 0))
  then Ret None
  else match ib_heap b (ib_active b) (ib_pos b) with
       | None => UB
       | Some c =>
         let p := ib_pos b + 1 in
         Ret (Some (c, ib_set_pos b (if p =? ib_size b then 0 else p)))
       end.

(** * Tokens (Token.hpp 38-44). [t_ids = None] is a null m_type_ids_ptr. The cached wrap-around string
    is modelled separately in TokenModel.v. *)
Record token := mkToken {
  t_start : N;
  t_end : N;
  t_sid : sid;
  t_bufsz : N;
  t_line : N;
  t_ids : option (list N)
}.

(** Token.hpp 38-44: assignments to the members of a token (as in LogParser.cpp 191-205, 257-270). *)
Definition set_t_start (t : token) (p : N) := mkToken p (t_end t) (t_sid t) (t_bufsz t) (t_line t) (t_ids t).
Definition set_t_end (t : token) (p : N) := mkToken (t_start t) p (t_sid t) (t_bufsz t) (t_line t) (t_ids t).
Definition set_t_ids (t : token) (i : option (list N)) :=
  mkToken (t_start t) (t_end t) (t_sid t) (t_bufsz t) (t_line t) i.

(** Lexer.hpp 25-27. *)
Definition cTokenEndTypes : option (list N) := Some [TokenEnd].
Definition cTokenUncaughtStringTypes : option (list N) := Some [TokenUncaughtString].

(** * Lexer

    The generated part of a lexer: the DFA (state 0 is the root, RegexDFA.hpp; [d_next] = None models a
    nullptr transition; a state is accepting iff its id list is not empty, RegexDFA.hpp), the delimiter
    table (Lexer.hpp 154) and m_has_delimiters. *)
Record dfa := mkDfa {
  d_next : nat -> N -> option nat;
  d_ids : nat -> list N
}.
Definition d_root : nat := 0%nat.
Definition is_accepting (d : dfa) (q : nat) : bool :=
  match d_ids d q with [] => false | _ => true end.

(** Lexer.hpp 153-159: what generate leaves in a lexer and scan only reads. *)
Record lexcfg := mkCfg {
  c_dfa : dfa;
  c_delim : N -> bool;       (* m_is_delimiter *)
  c_has_delims : bool        (* m_has_delimiters *)
}.
(** Lexer.tpp 376-389 (generate): m_is_first_char[i] iff root->next(i) is not null. *)
Definition c_first (c : lexcfg) (b : N) : bool :=
  match d_next (c_dfa c) d_root b with Some _ => true | None => false end.

(** The mutable part of a lexer (Lexer.hpp 146-161). *)
Record lex := mkLex {
  l_match_pos : N;
  l_start_pos : N;
  l_match_line : N;
  l_last_match_pos : N;
  l_last_match_line : N;
  l_match : bool;
  l_ids : option (list N);   (* m_type_ids *)
  l_line : N;
  l_asked : bool;            (* m_asked_for_more_data *)
  l_prev : option nat        (* m_prev_state *)
}.

(** Lexer.tpp 319-331: reset. *)
Definition lex_reset : lex := mkLex 0 0 0 0 0 false None 0 false None.

(** Lexer.tpp 333-342: prepend_start_of_file_char. *)
Definition prepend_sof (c : lexcfg) (l : lex) (b : ibuf) : lex :=
  mkLex (ib_pos b) (ib_pos b) (l_line l) (l_last_match_pos l) (l_last_match_line l) (l_match l)
        None (l_line l) true (d_next (c_dfa c) d_root cCharStartOfFile).

(** Token{start, end, active buffer, size, line, ids} as built in scan. *)
Definition mk_tok (b : ibuf) (s e line : N) (ids : option (list N)) : token :=
  mkToken s e (ib_active b) (ib_size b) line ids.

(** Result of scan: [None] = ErrorCode::BufferOutOfBounds. *)
(** Lexer.hpp 94 (scan returns an ErrorCode and sets the token). *)
Definition scan_res := out (option token * lex * ibuf).

(** m_asked_for_more_data = true; m_prev_state = state (Lexer.tpp 71-72, 154-155). *)
Definition lex_ask (l : lex) (q : nat) : lex :=
  mkLex (l_match_pos l) (l_start_pos l) (l_match_line l) (l_last_match_pos l) (l_last_match_line l)
        (l_match l) (l_ids l) (l_line l) true (Some q).
(** Record a match (Lexer.tpp 78-81). *)
Definition lex_set_match (l : lex) (ids : list N) (pos line : N) : lex :=
  mkLex pos (l_start_pos l) line (l_last_match_pos l) (l_last_match_line l)
        true (Some ids) (l_line l) (l_asked l) (l_prev l).
(** m_line++ (Lexer.tpp 85). *)
Definition lex_inc_line (l : lex) : lex :=
  mkLex (l_match_pos l) (l_start_pos l) (l_match_line l) (l_last_match_pos l) (l_last_match_line l)
        (l_match l) (l_ids l) (l_line l + 1) (l_asked l) (l_prev l).
(** Newline treated as a token of its own (Lexer.tpp 88-92). *)
Definition lex_newline (l : lex) (ids : list N) (start pos : N) : lex :=
  mkLex pos start (l_line l) (l_last_match_pos l) (l_last_match_line l)
        true (Some ids) (l_line l) (l_asked l) (l_prev l).
(** m_line = m_match_line (Lexer.tpp 99). *)
Definition lex_restore_line (l : lex) : lex :=
  mkLex (l_match_pos l) (l_start_pos l) (l_match_line l) (l_last_match_pos l) (l_last_match_line l)
        (l_match l) (l_ids l) (l_match_line l) (l_asked l) (l_prev l).
(** m_match = false; m_last_match_pos = m_match_pos; m_last_match_line = m_match_line
    (Lexer.tpp 50-52, 110-112). *)
Definition lex_take (l : lex) : lex :=
  mkLex (l_match_pos l) (l_start_pos l) (l_match_line l) (l_match_pos l) (l_match_line l)
        false (l_ids l) (l_line l) (l_asked l) (l_prev l).
(** Prepare the end token (Lexer.tpp 124-126). *)
Definition lex_end (l : lex) (pos : N) : lex :=
  mkLex pos (l_start_pos l) (l_match_line l) (l_last_match_pos l) (l_last_match_line l)
        true cTokenEndTypes (l_line l) (l_asked l) (l_prev l).
(** m_start_pos = ... (Lexer.tpp 160). *)
Definition lex_set_start (l : lex) (p : N) : lex :=
  mkLex (l_match_pos l) p (l_match_line l) (l_last_match_pos l) (l_last_match_line l)
        (l_match l) (l_ids l) (l_line l) (l_asked l) (l_prev l).
(** m_asked_for_more_data = false (Lexer.tpp 47). *)
Definition lex_unask (l : lex) : lex :=
  mkLex (l_match_pos l) (l_start_pos l) (l_match_line l) (l_last_match_pos l) (l_last_match_line l)
        (l_match l) (l_ids l) (l_line l) false (l_prev l).
(** Begin a new match (Lexer.tpp 62-65). *)
Definition lex_begin (l : lex) (pos : N) : lex :=
  mkLex pos pos (l_line l) (l_last_match_pos l) (l_last_match_line l)
        (l_match l) None (l_line l) (l_asked l) (l_prev l).

(** Lexer.tpp 147-158: the loop skipping to the next character that can start a variable.
    Returns the final (prev_byte_buf_pos, buffer), or [None] on BufferOutOfBounds together with the
    buffer as it was left. *)
Fixpoint skip_loop (fuel : nat) (c : lexcfg) (ch : N) (prev : N) (b : ibuf)
  : out (option N * ibuf) :=
  match fuel with
  | O => OutOfFuel
  | S fuel' =>
    if negb (ib_full b) && (negb (c_first c ch) || negb (c_delim c ch)) then
      match get_next_character b with
      | Ret None => Ret (None, b)
      | Ret (Some (ch', b')) => skip_loop fuel' c ch' (ib_pos b) b'
      | UB => UB | Throw => Throw | OutOfFuel => OutOfFuel
      end
    else Ret (Some prev, b)
  end.

(** Lexer.tpp 67-165: the main loop of scan. One unit of fuel per iteration. *)
Fixpoint scan_loop (fuel : nat) (c : lexcfg) (q : nat) (l : lex) (b : ibuf) : scan_res :=
  match fuel with
  | O => OutOfFuel
  | S fuel' =>
    let d := c_dfa c in
    let prev := ib_pos b in
    match get_next_character b with
    | UB => UB | Throw => Throw | OutOfFuel => OutOfFuel
    | Ret None => Ret (None, lex_ask l q, b)                                   (* 70-74 *)
    | Ret (Some (ch, b1)) =>
      let l1 := if (c_delim c ch || ib_full b1 || negb (c_has_delims c)) && is_accepting d q
                then lex_set_match l (d_ids d q) prev (l_line l) else l in     (* 75-82 *)
      let next := d_next d q ch in                                             (* 83 *)
      do (next2, l3) <-
        (if ch =? cNewline then                                                (* 84-94 *)
           let l2 := lex_inc_line l1 in
           if c_has_delims c && negb (l_match l2) then
             match d_next d d_root ch with
             | None => UB                       (* next->get_matching_variable_ids() on nullptr *)
             | Some n => Ret (Some n, lex_newline l2 (d_ids d n) prev (ib_pos b1))
             end
           else Ret (next, l2)
         else Ret (next, l1));
      match ib_full b1, next2 with
      | false, Some n => scan_loop fuel' c n l3 b1                             (* 164 *)
      | full, _ =>                                                             (* 95-163 *)
        if l_match l3 then
          let b2 := ib_set_pos (ib_set_full b1 false) (l_match_pos l3) in
          let l4 := lex_restore_line l3 in
          if negb (l_last_match_pos l4 =? l_start_pos l4) then
            Ret (Some (mk_tok b2 (l_last_match_pos l4) (l_start_pos l4) (l_last_match_line l4)
                              cTokenUncaughtStringTypes), l4, b2)
          else
            Ret (Some (mk_tok b2 (l_start_pos l4) (l_match_pos l4) (l_match_line l4) (l_ids l4)),
                 lex_take l4, b2)
        else if full && (l_start_pos l3 =? ib_pos b1) then
          if negb (l_last_match_pos l3 =? l_start_pos l3) then
            Ret (Some (mk_tok b1 (l_last_match_pos l3) (l_start_pos l3) (l_last_match_line l3)
                              cTokenUncaughtStringTypes), lex_end l3 (ib_pos b1), b1)
          else
            Ret (Some (mk_tok b1 (ib_pos b1) (ib_pos b1) (l_line l3) cTokenEndTypes), l3, b1)
        else
          match skip_loop fuel' c ch prev b1 with
          | UB => UB | Throw => Throw | OutOfFuel => OutOfFuel
          | Ret (None, b2) => Ret (None, lex_ask l3 q, b2)
          | Ret (Some prev', b2) =>
            scan_loop fuel' c d_root (lex_set_start l3 prev') (ib_set_pos b2 prev')
          end
      end
    end
  end.

(** Lexer.tpp 41-166: scan. A null m_prev_state is dereferenced by is_accepting()/next() in the first
    iteration unless get_next_character fails before: [UB] is reported at once, except for that case. *)
Definition scan (fuel : nat) (c : lexcfg) (l : lex) (b : ibuf) : scan_res :=
  if l_asked l then                                                            (* 45-47 *)
    let l1 := lex_unask l in
    match l_prev l with
    | Some q => scan_loop fuel c q l1 b
    | None =>
      match get_next_character b with
      | Ret None =>
        Ret (None, mkLex (l_match_pos l) (l_start_pos l) (l_match_line l) (l_last_match_pos l)
                         (l_last_match_line l) (l_match l) (l_ids l) (l_line l) true None, b)
      | Ret (Some _) => UB
      | UB => UB | Throw => Throw | OutOfFuel => OutOfFuel
      end
    end
  else if l_match l then                                                       (* 49-61 *)
    let l1 := lex_take l in
    Ret (Some (mk_tok b (l_start_pos l) (l_match_pos l) (l_match_line l) (l_ids l)), l1, b)
  else
    scan_loop fuel c d_root (lex_begin l (ib_pos b)) b.                        (* 62-65 *)
