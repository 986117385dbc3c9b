(** PieceSpec.v -- a log given to a BufferParser in pieces: the protocol, and what is compared (C43). *)
From Verif Require Import Base LexerModel LexerSpec LogParserModel EventSpec ReaderSpec FeedSpec.

(** The type of a timestamp token says only whether the timestamp was the first thing in the buffer. *)
Definition stamp_id (id : N) : bool := (id =? TokenFirstTimestamp) || (id =? TokenNewlineTimestamp).
(** A token without its line number (lines are counted from the start of the buffer), and without type ids if it is a
    timestamp. *)
Definition seen (x : out (list N) * option (list N) * N) : out (list N) * option (list N) :=
  let '(s, ids, _) := x in (s, match ids with Some (i :: _) => if stamp_id i then None else ids | _ => ids end).
(** What is compared of an event: to_string(), its tokens, get_timestamp(), is_multiline(), get_variables(id) for every id
    that is not a timestamp's, get_logtype(). *)
Record plain := mkPlain {
  pl_string : out (list N);
  pl_tokens : list (out (list N) * option (list N));
  pl_timestamp : option (out (list N) * option (list N));
  pl_multiline : bool;
  pl_variables : list (out (list (out (list N) * option (list N))));
  pl_logtype : option (out (list N))
}.
Definition plain_of (r : report) : plain :=
  mkPlain (r_string r) (map seen (r_tokens r)) (option_map seen (r_timestamp r)) (r_multiline r)
          (map (fun x => if stamp_id (N.of_nat (fst x)) then Ret [] else do l <- snd x; Ret (map seen l))
               (combine (seq 0 (length (r_variables r))) (r_variables r)))
          (r_logtype r).

(** The protocol (examples/buffer-parser.cpp 40-95). A buffer holds the unparsed rest [kept] of the previous one and the next
    piece of the log; parse_next_event is called until it returns BufferOutOfBounds (or, for the last piece, until done());
    what is kept is buf[offset..]. [place i] and [store i buf]: where the buffer is that is submitted when [i] more pieces
    follow, and its memory. *)
Fixpoint feed_pieces {A} (obs : lparser -> A) (calls fuel sfuel : nat) (c : lexcfg) (place : nat -> nat) (store : nat -> list N -> mem)
         (kept : list N) (pieces : list (list N)) (bp : bparser) : out (list A * bool * bparser) :=
  match pieces with
  | [] => Ret ([], false, bp)
  | piece :: more =>
    let buf := kept ++ piece in
    let i := length more in
    do (l, dn, off, bp') <- feed obs calls fuel sfuel c (place i) (store i buf) (len buf) 0 (match more with [] => true | _ => false end) bp;
    if dn then Ret (map fst l, true, bp')
    else do (l', dn', bp'') <- feed_pieces obs calls fuel sfuel c place store (skipn (N.to_nat off) buf) more bp'; Ret (map fst l ++ l', dn', bp'')
  end.

(** A timestamp at the start of a line is recognised at the start of a buffer: what is a delimited word after a newline is one
    after the start-of-file character, and the timestamps are the same. (It holds for the lexers of schemas whose delimiters include
    the newline, if ids are listed in the order of the rules.) *)
Record starts_alike (c : lexcfg) : Prop := {
  sa_words : forall w, w <> [] -> reported (c_dfa c) d_root (cCharStartOfFile :: w) = [] <-> reported (c_dfa c) d_root (cNewline :: w) = [];
  sa_stamp : forall w l, reported (c_dfa c) d_root (cNewline :: w) = TokenNewlineTimestamp :: l ->
     w <> [] /\ exists l', reported (c_dfa c) d_root (cCharStartOfFile :: w) = TokenFirstTimestamp :: l'
}.
