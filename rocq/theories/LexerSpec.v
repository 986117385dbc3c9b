(** LexerSpec.v -- text-level vocabulary used to state what the lexer must do. No reference to the
    lexer's mutable state. *)
From Verif Require Import Base LexerModel.

(** Length, byte at a position and substring [a, b) of a text. *)
Definition len (t : list N) : N := N.of_nat (length t).
Definition byte_at (t : list N) (p : N) : option N := nth_error t (N.to_nat p).
Definition sub (t : list N) (a b : N) : list N :=
  firstn (N.to_nat (b - a)) (skipn (N.to_nat a) t).

(** Number of newline bytes among the first [p] bytes. *)
Definition newlines (t : list N) (p : N) : N :=
  N.of_nat (count_occ N.eq_dec (firstn (N.to_nat p) t) cNewline).

(** Run a DFA over a string. *)
Fixpoint run (d : dfa) (q : nat) (w : list N) : option nat :=
  match w with
  | [] => Some q
  | x :: w' => match d_next d q x with Some q' => run d q' w' | None => None end
  end.

(** The ids the DFA reports for string [w] read from state [q] ([] = not accepted). *)
Definition reported (d : dfa) (q : nat) (w : list N) : list N :=
  match run d q w with Some q' => d_ids d q' | None => [] end.

(** Position [b] of [t] is the end of the text or holds a delimiter. *)
Definition delimited (c : lexcfg) (t : list N) (b : N) : Prop :=
  b = len t \/ exists x, byte_at t b = Some x /\ c_delim c x = true.

(** The string between [a] and [b] is accepted (read from [q]) with ids [ids] and is delimited. *)
Definition dmatch (c : lexcfg) (t : list N) (q : nat) (a b : N) : Prop :=
  a <= b <= len t /\ reported (c_dfa c) q (sub t a b) <> [] /\ delimited c t b.

(** [start_state c a q]: reading may begin at position [a] in DFA state [q]: the root anywhere, or, at
    position 0 only, the state reached by the start-of-file character. *)
Definition start_state (c : lexcfg) (a : N) (q : nat) : Prop :=
  q = d_root \/ (a = 0 /\ d_next (c_dfa c) d_root cCharStartOfFile = Some q).

(** What the generated lexer of a LogParser must satisfy for scan and parse to be defined at all (shown
    for every accepted schema elsewhere). *)
Record wf_cfg (c : lexcfg) : Prop := {
  wf_delims : c_has_delims c = true;
  wf_root : d_ids (c_dfa c) d_root = [];
  (* rule ids are not the ids reserved for the end token and for static text *)
  wf_ids : forall q i, In i (d_ids (c_dfa c) q) -> i <> TokenEnd /\ i <> TokenUncaughtString;
  (* a newline-timestamp begins with a newline *)
  wf_nt : forall w, In TokenNewlineTimestamp (reported (c_dfa c) d_root w) -> exists w', w = cNewline :: w';
  wf_newline : exists q, d_next (c_dfa c) d_root cNewline = Some q /\ d_ids (c_dfa c) q <> []
}.

(** A run from the root that began with something else than a newline never crosses a delimiter. *)
Definition no_cross (c : lexcfg) (t : list N) : Prop :=
  forall i p x y, byte_at t i = Some x -> x <> cNewline -> i < p ->
    byte_at t p = Some y -> c_delim c y = true ->
    run (c_dfa c) d_root (sub t i (p + 1)) = None.

(** Nor does the run begun by the start-of-file character, unless it has matched before. *)
Definition no_cross_sof (c : lexcfg) (t : list N) : Prop :=
  forall q p y, d_next (c_dfa c) d_root cCharStartOfFile = Some q ->
    byte_at t p = Some y -> c_delim c y = true ->
    run (c_dfa c) q (sub t 0 (p + 1)) = None \/ exists b, b <= p /\ dmatch c t q 0 b.

(** A delimited variable occurrence: [t[i]] is a delimiter, the bytes strictly between [i] and [j] are
    not, [j] is delimited and the DFA accepts [t[i..j)]. *)
Definition occurrence (c : lexcfg) (t : list N) (i j : N) : Prop :=
  i < j /\ dmatch c t d_root i j /\
  (exists x, byte_at t i = Some x /\ c_delim c x = true) /\
  (forall k y, i < k < j -> byte_at t k = Some y -> c_delim c y = false).

(** What a variable token [a, b) with ids [ids] on line [line] must satisfy. *)
Record var_token_ok (c : lexcfg) (t : list N) (a b : N) (ids : list N) (line : N) : Prop := {
  vt_state : exists q, start_state c a q /\
      (* the ids are those the DFA reports for the token's text *)
      reported (c_dfa c) q (sub t a b) = ids /\
      (* and no longer delimited match exists from the same position *)
      (forall b', b < b' -> ~ dmatch c t q a b');
  vt_ids : ids <> [];
  vt_range : a <= b <= len t;
  (* it is followed by a delimiter or the end of the text, or is the newline token *)
  vt_delim : delimited c t b \/ (b = a + 1 /\ byte_at t a = Some cNewline);
  (* its line number counts the newlines before its end *)
  vt_line : c_delim c cNewline = true -> line = newlines t b
}.
