(** RingSpec.v -- what the user of a ParserInputBuffer does, and what he may expect to see.

    The buffer is used by one client (LogParser/Lexer). The client never uses absolute log positions; he knows only
    where the cursor of the buffer is, and how many characters ago something was. [behind b d] is the place in the
    storage where the cursor was [d] characters ago. *)
From Verif Require Import Base LexerModel RingModel.

Definition behind (b : ibuf) (d : N) : N := (ib_pos b + ib_size b - d) mod ib_size b.

(** The operations of the client.
    [RRead]: read_if_safe. [RNext]: get_next_character. [RGrow]: increase_capacity.
    [RConsume d incl]: everything but the last [d] characters is not needed any more; the consumed position is set
    to the last byte not needed ([incl], LogParser.cpp 268-272) or to the byte after it (LogParser.cpp 203, 248).
    [RBack d]: the cursor is moved back by [d] characters (Lexer.tpp 97-98, 161). *)
Inductive rop := RRead | RNext | RGrow | RConsume (d : N) (incl : bool) | RBack (d : N).

(** What the client sees. *)
Inductive robs := OChar (c : N) | OEof | OOob | OBack (d : N).

(** The buffer together with what its client knows: [h_at] characters lie before the cursor, the first [h_used] are
    declared not needed, [h_oob]: the previous operation was a get_next_character that reported BufferOutOfBounds. *)
Record ring := mkRing { h_buf : ibuf; h_rd : reader; h_at : N; h_used : N; h_oob : bool }.

(** One operation. Operations the client has no right to perform are skipped: growing is only for a buffer that has
    just reported BufferOutOfBounds (ReaderParser.cpp 31-43), going back and consuming are limited to the characters
    obtained and not consumed. *)
Definition ring_step (chunk : nat -> N) (op : rop) (h : ring) : out (ring * list robs) :=
  let b := h_buf h in
  match op with
  | RRead => let (b', r') := read_if_safe chunk b (h_rd h) in Ret (mkRing b' r' (h_at h) (h_used h) false, [])
  | RNext =>
    do o <- get_next_character b;
    match o with
    | None => Ret (mkRing b (h_rd h) (h_at h) (h_used h) true, [OOob])
    | Some (c, b') =>
      if ib_full b' then Ret (mkRing b' (h_rd h) (h_at h) (h_used h) false, [OEof])
      else Ret (mkRing b' (h_rd h) (h_at h + 1) (h_used h) false, [OChar c])
    end
  | RGrow =>
    if h_oob h then Ret (mkRing (increase_capacity b) (h_rd h) (h_at h) (h_used h) false, []) else Ret (h, [])
  | RConsume d incl =>
    if h_used h + d <=? h_at h
    then Ret (mkRing (ib_set_cons b (behind b (if incl then d + 1 else d))) (h_rd h) (h_at h) (h_at h - d) (h_oob h), [])
    else Ret (h, [])
  | RBack d =>
    if h_used h + d <=? h_at h
    then Ret (mkRing (ib_set_full (ib_set_pos b (behind b d)) false) (h_rd h) (h_at h - d) (h_used h) false, [OBack d])
    else Ret (h, [])
  end.
(** A schedule of operations. *)
Fixpoint ring_run (chunk : nat -> N) (ops : list rop) (h : ring) : out (ring * list robs) :=
  match ops with
  | [] => Ret (h, [])
  | op :: ops' => do (h1, t1) <- ring_step chunk op h; do (h2, t2) <- ring_run chunk ops' h1; Ret (h2, t1 ++ t2)
  end.

(** A buffer of size [size] after reset() whose storage holds anything (ParserInputBuffer.cpp 12-19 with
    [size] = 48000). *)
Definition empty_buffer (size : N) (b : ibuf) : Prop :=
  ib_size b = size /\ ib_pos b = 0 /\ ib_last b = 0 /\ ib_lrfh b = false /\ ib_fin b = false /\ ib_full b = false /\
  ib_cons b = size - 1 /\ ib_dyn b = 0%nat /\ ib_active b = Static.
Definition ring_start (b : ibuf) (log : list N) : ring := mkRing b (mkReader log 0) 0 0 false.

(** A reader that fills every request as long as there are bytes of [log]: each call is willing to deliver at least as
    many bytes as there are. *)
Definition fills (chunk : nat -> N) (log : list N) : Prop := forall n, N.of_nat (length log) <= chunk n.

(** What a client may see of [log], the cursor being at [a]: the characters of the log in order, again from where he
    went back to, and end-of-file where [stop] allows. *)
Fixpoint replay (log : list N) (stop : N -> Prop) (a : N) (t : list robs) : Prop :=
  match t with
  | [] => True
  | OChar c :: t' => nth_error log (N.to_nat a) = Some c /\ replay log stop (a + 1) t'
  | OEof :: t' => stop a /\ replay log stop a t'
  | OOob :: t' => replay log stop a t'
  | OBack d :: t' => d <= a /\ replay log stop (a - d) t'
  end.

(** The characters seen. *)
Definition seen (t : list robs) : list N := flat_map (fun o => match o with OChar c => [c] | _ => [] end) t.
