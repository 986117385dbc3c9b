(** WildcardModel.v -- executable model of Lexer::scan_with_wildcard (Lexer.tpp 168-300). *)
From Verif Require Import Base LexerModel.

(** The bytes 0 .. 255 in the order of the loops of Lexer.tpp 241 and 272. *)
Definition all_bytes : list N := map N.of_nat (seq 0 256).

(** Lexer.tpp 240-253: the wildcard '?'. [Ret true]: the loop ends; [Ret false]: a successor is not accepting and static text is returned.
    A successor is dereferenced without a check for nullptr (line 243). *)
Fixpoint any_byte_loop (d : dfa) (q : nat) (bs : list N) : out bool :=
  match bs with
  | [] => Ret true
  | b :: bs' => match d_next d q b with
                | None => UB
                | Some q' => if is_accepting d q' then any_byte_loop d q bs' else Ret false
                end
  end.

(** Lexer.tpp 272-280: the successors of [q] over the bytes [bs] that are not delimiters and that are not visited are pushed, in this order. nullptr
    (None) is never in visited_states. *)
Fixpoint push_loop (c : lexcfg) (q : nat) (visited : list nat) (bs : list N) (stack : list (option nat)) : list (option nat) :=
  match bs with
  | [] => stack
  | b :: bs' =>
    if c_delim c b then push_loop c q visited bs' stack
    else let nx := d_next (c_dfa c) q b in
         push_loop c q visited bs'
           (if match nx with Some q' => existsb (Nat.eqb q') visited | None => false end then stack else nx :: stack)
  end.
(** Lexer.tpp 255-281: the search. The head of [stack] is the top. [Ret false]: static text is returned (260-269). *)
Fixpoint any_string_loop (fuel : nat) (c : lexcfg) (visited : list nat) (stack : list (option nat)) : out bool :=
  match fuel with
  | O => OutOfFuel
  | S fuel' =>
    match stack with
    | [] => Ret true
    | None :: _ => Ret false
    | Some q :: rest =>
      if is_accepting (c_dfa c) q then any_string_loop fuel' c (q :: visited) (push_loop c q (q :: visited) all_bytes rest)
      else Ret false
    end
  end.

(** ASCII '?' and '*'. *)
(** Lexer.tpp 240. *)
Definition cQuestion : N := 63.
(** Lexer.tpp 254. *)
Definition cStar : N := 42.

(** Lexer.tpp 198-299: the main loop. [wfuel] bounds the search of the wildcard '*'. The assertion of line 227 failing is [UB]: the program is aborted
    or, with NDEBUG, goes on as if the text had ended. *)
Fixpoint wild_loop (fuel wfuel : nat) (c : lexcfg) (wildcard : N) (q : nat) (l : lex) (b : ibuf) : scan_res :=
  match fuel with
  | O => OutOfFuel
  | S fuel' =>
    let d := c_dfa c in
    let prev := ib_pos b in
    match get_next_character b with
    | UB => UB | Throw => Throw | OutOfFuel => OutOfFuel
    | Ret None => Ret (None, lex_ask l q, b)                                   (* 201-205 *)
    | Ret (Some (ch, b1)) =>
      let l1 := if (c_delim c ch || ib_full b1 || negb (c_has_delims c)) && is_accepting d q
                then lex_set_match l (d_ids d q) prev (l_line l) else l in     (* 206-213 *)
      let next := d_next d q ch in                                             (* 214 *)
      do (next2, l3) <-
        (if ch =? cNewline then                                                (* 215-225 *)
           let l2 := lex_inc_line l1 in
           if c_has_delims c && negb (l_match l2) then
             match d_next d d_root ch with
             | None => UB
             | Some n => Ret (Some n, lex_newline l2 (d_ids d n) prev (ib_pos b1))
             end
           else Ret (next, l2)
         else Ret (next, l1));
      match ib_full b1, next2 with
      | false, Some n => wild_loop fuel' wfuel c wildcard n l3 b1              (* 298 *)
      | false, None => UB                                                      (* 227 *)
      | true, _ =>
        let static := Ret (Some (mk_tok b1 (l_last_match_pos l3) (ib_pos b1) (l_last_match_line l3) cTokenUncaughtStringTypes), l3, b1) in
        if negb (l_match l3) || negb (l_match_pos l3 =? ib_pos b1) then static (* 228-237 *)
        else
          do ok <- (if wildcard =? cQuestion then any_byte_loop d q all_bytes
                    else if wildcard =? cStar then any_string_loop wfuel c [] [Some q]
                    else Ret true);
          if (ok : bool) then
            let b2 := ib_set_pos b1 (l_match_pos l3) in                        (* 283-295 *)
            let l4 := lex_restore_line l3 in
            Ret (Some (mk_tok b2 (l_start_pos l4) (l_match_pos l4) (l_match_line l4) (l_ids l4)), lex_take l4, b2)
          else static
      end
    end
  end.

(** Lexer.tpp 169-197: scan_with_wildcard. A null m_prev_state as in [scan]. *)
Definition scan_with_wildcard (fuel wfuel : nat) (c : lexcfg) (wildcard : N) (l : lex) (b : ibuf) : scan_res :=
  if l_asked l then                                                            (* 176-178 *)
    let l1 := lex_unask l in
    match l_prev l with
    | Some q => wild_loop fuel wfuel c wildcard q l1 b
    | None =>
      match get_next_character b with
      | Ret None =>
        Ret (None, mkLex (l_match_pos l) (l_start_pos l) (l_match_line l) (l_last_match_pos l)
                         (l_last_match_line l) (l_match l) (l_ids l) (l_line l) true None, b)
      | Ret (Some _) => UB
      | UB => UB | Throw => Throw | OutOfFuel => OutOfFuel
      end
    end
  else if l_match l then                                                       (* 180-192 *)
    Ret (Some (mk_tok b (l_start_pos l) (l_match_pos l) (l_match_line l) (l_ids l)), lex_take l, b)
  else
    wild_loop fuel wfuel c wildcard d_root (lex_begin l (ib_pos b)) b.         (* 193-196 *)

(** A search for the variables that [text] followed by [wildcard] can be: reset() (Lexer.tpp 319-331), the text given to the input buffer
    (ParserInputBuffer.cpp 110-121), then scan_with_wildcard(). [sof]: with prepend_start_of_file_char() (Lexer.tpp 333-342) before. *)
Definition wildcard_search (fuel wfuel : nat) (c : lexcfg) (sof : bool) (wildcard : N) (b : ibuf) (k : nat) (m : mem) (size : N) : scan_res :=
  let b0 := ib_set_storage b k m size 0 true in
  scan_with_wildcard fuel wfuel c wildcard (if sof then prepend_sof c lex_reset b0 else lex_reset) b0.
