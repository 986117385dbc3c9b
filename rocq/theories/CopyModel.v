(** CopyModel.v -- LogEvent (LogEventView::deep_copy). *)
From Verif Require Import Base LexerModel LogParserModel.

(** m_buffer[p] = x for a vector of [size] bytes (LogEvent.cpp 91): outside it is UB. *)
Definition put (size : N) (m : mem) (p x : N) : out mem :=
  if p <? size then Ret (fun i => if i =? p then Some x else m i) else UB.
(** LogEvent.cpp 90-93: copy one token's bytes. *)
Fixpoint put_all (size : N) (m : mem) (p : N) (s : list N) : out (mem * N) :=
  match s with
  | [] => Ret (m, p)
  | x :: s' => do m' <- put size m p x; put_all size m' (p + 1) s'
  end.
(** LogEvent.cpp 87-104: copy the tokens, in order, to the slots from the current one on. [kc] names m_buffer's storage; the
    copies' line is 0. *)
Fixpoint copy_loop (h : heap) (kc : nat) (size : N) (toks : list token) (m : mem) (cur : N) (o : obuf) : out (mem * obuf) :=
  match toks with
  | [] => Ret (m, o)
  | t :: toks' =>
    do s <- tok_text h t;
    do (m', cur') <- put_all size m cur s;
    copy_loop h kc size toks' m' cur' (ob_advance (ob_set_curr o (mkToken cur cur' (User kc) size 0 (t_ids t))))
  end.
(** token_types[0] (LogEvent.cpp 108), unchecked. *)
Definition first_type (t : token) : out N := match t_ids t with Some (i :: _) => Ret i | _ => UB end.
(** LogEvent.cpp 105-109. *)
Fixpoint occ_loop (o : obuf) (is : list N) (occ : list (list N)) : out (list (list N)) :=
  match is with
  | [] => Ret occ
  | i :: is' => do ty <- first_type (ob_act o i); do occ' <- occ_add occ ty i; occ_loop o is' occ'
  end.
(** LogEvent.cpp 77-81: the total length (32-bit wrap not modelled). *)
Definition total_length (toks : list token) : N := fold_left (fun n t => n + tok_length t) toks 0.
(** LogEvent.cpp 69-110, LogEvent.cpp 13-17, 19-21: the LogEvent made from the view of [p]. Its memory is m_buffer (zeros at
    first) and nothing else: the storages of the parser may have been freed. The fields that belong to the parser are left
    at their initial values. [nsym]: log_parser.m_lexer.m_id_symbol.size(). *)
Definition deep_copy (kc : nat) (nsym : N) (p : lparser) : out lparser :=
  let toks := ob_tokens (lp_out p) in
  let o := ob_set_delims (ob_set_ts obuf_init (ob_has_ts (lp_out p))) (ob_has_delims (lp_out p)) in
  let size := total_length toks in
  if size =? 0 then Throw
  else
    do (m, o') <- copy_loop (ib_heap (lp_in p)) kc size toks (fun i => if i <? size then Some 0 else None) 0 o;
    do occ <- occ_loop o' (indices 0 (ob_pos o')) (repeat [] (N.to_nat nsym));
    let init := bp_lp (bp_init nsym) in
    let b := lp_in init in
    let b' := mkIbuf (heap_set (ib_heap b) (User kc) m) (ib_active b) (ib_dyn b) (ib_size b) (ib_pos b) (ib_last b) (ib_lrfh b) (ib_fin b) (ib_full b) (ib_cons b) in
    Ret (mkLp (lp_lex init) b' false default_token o' (lp_multi p) occ).
