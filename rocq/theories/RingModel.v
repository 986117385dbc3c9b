(** RingModel.v -- model of the reading side of ParserInputBuffer, of Reader, of Lexer::increase_buffer_capacity
    and of ReaderParser. *)
From Verif Require Import Base LexerModel LogParserModel.

(** * Reader (Reader.hpp)
    A reader that honours its contract: the bytes of the source not delivered yet, and how many bytes the n-th
    call is willing to deliver. *)
Record reader := mkReader { rd_rest : list N; rd_calls : nat }.
Section Reader.
Variable chunk : nat -> N.
(** Reader.hpp 17-22: EndOfFile ([None]) if nothing is left, otherwise at least one and at most [count] bytes. *)
Definition rd_amount (r : reader) (count : N) : N :=
  N.max 1 (N.min (N.min (chunk (rd_calls r)) count) (N.of_nat (length (rd_rest r)))).
Definition rd_read (r : reader) (count : N) : option (list N) * reader :=
  match rd_rest r with
  | [] => (None, mkReader [] (S (rd_calls r)))
  | _ => let k := N.to_nat (rd_amount r count) in
         (Some (firstn k (rd_rest r)), mkReader (skipn k (rd_rest r)) (S (rd_calls r)))
  end.

(** Storing [bytes] at [off] (the reader writes into the active storage, Buffer.hpp 80-85). *)
Definition mem_write (m : mem) (off : N) (bytes : list N) : mem :=
  fun i => if (off <=? i) && (i <? off + N.of_nat (length bytes)) then nth_error bytes (N.to_nat (i - off)) else m i.

(** ParserInputBuffer.cpp 21-33. *)
Definition read_is_safe (b : ibuf) : bool :=
  if ib_fin b then false
  else (negb (ib_lrfh b) && (ib_size b / 2 <? ib_cons b))
       || (ib_lrfh b && (ib_cons b <? ib_size b / 2) && (0 <? ib_cons b)).
(** ParserInputBuffer.cpp 35-62, given what the reader answers. Both outcomes a contract-honouring reader can give let the parser continue
    (ReaderParser.cpp 24-26, 40-42), so the error code is not returned. *)
Definition ib_fill (b : ibuf) (res : option (list N)) : ibuf :=
  let off := if ib_lrfh b then ib_size b / 2 else 0 in
  match res with
  | None => ib_set_fin b true
  | Some bytes =>
    let last := ib_last b + N.of_nat (length bytes) in
    mkIbuf (heap_set (ib_heap b) (ib_active b) (mem_write (ib_heap b (ib_active b)) off bytes)) (ib_active b) (ib_dyn b) (ib_size b)
           (ib_pos b) (if ib_size b <? last then last - ib_size b else last) (negb (ib_lrfh b))
           (if N.of_nat (length bytes) <? ib_size b / 2 then true else ib_fin b) (ib_full b) (ib_cons b)
  end.
Definition ib_read (b : ibuf) (r : reader) : ibuf * reader :=
  let (res, r') := rd_read r (ib_size b / 2) in (ib_fill b res, r').
(** ParserInputBuffer.hpp 41-46. *)
Definition read_if_safe (b : ibuf) (r : reader) : ibuf * reader := if read_is_safe b then ib_read b r else (b, r).
End Reader.

(** SchemaParser.cpp 87-102: the reader try_schema_string makes of a string. Its position is a local variable of the
    lambda, so every call answers from the beginning of the string. *)
Definition str_read (s : list N) (count : N) : option (list N) :=
  let n := if N.of_nat (length s) <? count then N.of_nat (length s) else count in
  if n =? 0 then None else Some (firstn (N.to_nat n) s).

(** ParserInputBuffer.cpp 64-84 with Buffer.hpp 47-51 (a zero-initialised vector of twice the size) and 75-78.
    m_consumed_pos is left as it is. *)
Definition increase_capacity (b : ibuf) : ibuf :=
  let old := ib_size b in
  let m := ib_heap b (ib_active b) in
  let m' : mem := fun i =>
    if i <? old then
      if ib_lrfh b then (if i <? old / 2 then m (old / 2 + i) else m (i - old / 2)) else m i
    else if i <? 2 * old then Some 0 else None in
  mkIbuf (heap_set (ib_heap b) (Dyn (ib_dyn b)) m') (Dyn (ib_dyn b)) (S (ib_dyn b)) (old * 2) old (2 * old - old) true
         (ib_fin b) (ib_full b) (ib_cons b).
(** ... and its output parameter flipped_static_buffer. *)
Definition capacity_flips (b : ibuf) : bool := ib_lrfh b.

(** Lexer.tpp 20-39. *)
Definition flip_states (old : N) (l : lex) : lex :=
  let half := old / 2 in
  mkLex (if half <=? l_match_pos l then l_match_pos l - half else l_match_pos l + half)
        (if half <? l_start_pos l then l_start_pos l - half else l_start_pos l + half)
        (l_match_line l)
        (if half <=? l_last_match_pos l then l_last_match_pos l - half else l_last_match_pos l + half)
        (l_last_match_line l) (l_match l) (l_ids l) (l_line l) (l_asked l) (l_prev l).
(** Lexer.tpp 302-317. *)
Definition increase_buffer_capacity (l : lex) (b : ibuf) : lex * ibuf :=
  let b' := increase_capacity b in
  if ib_size b <? ib_size b' then
    let l1 := if capacity_flips b then flip_states (ib_size b) l else l in
    let l2 := if l_last_match_pos l1 =? 0
              then mkLex (l_match_pos l1) (ib_size b) (l_match_line l1) (ib_size b) (l_last_match_line l1) (l_match l1) (l_ids l1)
                         (l_line l1) (l_asked l1) (l_prev l1)
              else l1 in
    (l2, b')
  else (l, b').

(** * ReaderParser *)
(** ReaderParser.hpp 82-84, with the Reader of its input buffer. *)
Record rparser := mkRp { rp_lp : lparser; rp_done : bool; rp_rd : reader }.
Section ReaderParser.
Variable chunk : nat -> N.
(** ReaderParser.cpp 15-19. *)
Definition rp_reset (c : lexcfg) (rp : rparser) (r : reader) : rparser := mkRp (lp_reset c (rp_lp rp)) false r.
(** LogParser.hpp 117-119: read_into_input. *)
Definition lp_read (p : lparser) (r : reader) : lparser * reader :=
  let (b, r') := read_if_safe chunk (lp_in p) r in (lp_set_lexin p (lp_lex p) b, r').
(** LogParser.hpp 109-113: increase_capacity. *)
Definition lp_grow (p : lparser) : lparser :=
  let (l, b) := increase_buffer_capacity (lp_lex p) (lp_in p) in lp_set_lexin p l b.
(** ReaderParser.cpp 28-47: the loop. One unit of [grow] fuel per increase of the capacity. *)
Fixpoint rp_loop (grow fuel sfuel : nat) (c : lexcfg) (p : lparser) (done : bool) (r : reader) : out rparser :=
  do (oa, p1) <- parse_and_generate_metadata fuel sfuel c p;
  match oa with
  | Some a => Ret (mkRp p1 (match a with ActCompressAndFinish => true | _ => done end) r)
  | None =>
    match grow with
    | O => OutOfFuel
    | S grow' => let (p2, r') := lp_read (lp_grow p1) r in rp_loop grow' fuel sfuel c p2 done r'
    end
  end.
(** ReaderParser.cpp 21-48. *)
Definition rp_parse_next_event (grow fuel sfuel : nat) (c : lexcfg) (rp : rparser) : out rparser :=
  let p0 := reset_log_event_view (rp_lp rp) in
  let (p1, r1) := lp_read p0 (rp_rd rp) in
  rp_loop grow fuel sfuel c p1 (rp_done rp) r1.
(** The documented use (examples/reader-parser.cpp): parse_next_event until done. *)
Fixpoint rp_drive {A} (obs : lparser -> A) (calls grow fuel sfuel : nat) (c : lexcfg) (rp : rparser) : out (list A * rparser) :=
  match calls with
  | O => OutOfFuel
  | S calls' =>
    do rp1 <- rp_parse_next_event grow fuel sfuel c rp;
    let a := obs (rp_lp rp1) in
    if rp_done rp1 then Ret ([a], rp1)
    else do (l, rp2) <- rp_drive obs calls' grow fuel sfuel c rp1; Ret (a :: l, rp2)
  end.
End ReaderParser.
