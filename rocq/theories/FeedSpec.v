(** FeedSpec.v -- a BufferParser that is given a log piece by piece. *)
From Verif Require Import Base LexerModel LogParserModel EventSpec ReaderSpec.

(** The calls for one buffer (examples/buffer-parser.cpp 40-62): parse_next_event until it returns BufferOutOfBounds or done()
    holds. For each event: an observation of it, and the offset after the call. Then: whether done(), and the final offset.
    [fin]: finished_reading_input. [calls] bounds the number of calls. *)
Fixpoint feed {A} (obs : lparser -> A) (calls fuel sfuel : nat) (c : lexcfg) (k : nat) (m : mem) (size offset : N) (fin : bool) (bp : bparser)
  : out (list (A * N) * bool * N * bparser) :=
  match calls with
  | O => OutOfFuel
  | S calls' =>
    do (ok, offset', bp') <- parse_next_event fuel sfuel c k m size offset fin bp;
    if ok then
      let a := (obs (bp_lp bp'), offset') in
      if bp_done bp' then Ret ([a], true, offset', bp')
      else do (l, d, o, bp'') <- feed obs calls' fuel sfuel c k m size offset' fin bp'; Ret (a :: l, d, o, bp'')
    else Ret ([], false, offset', bp')
  end.
