(** PropertiesLexer.v -- C03, C04, C05, C06, C41: the token stream of a finished buffer. *)
From Verif Require Import Base LexerModel LexerSpec LogParserModel EventSpec StreamModel.
From Verif Require Import LexerProofs StreamProofs Toy ToyTs.

(** C03: the tokens returned by successive scan calls tile the buffer, the end token comes after the last
    byte, and the tokens' texts, concatenated, are the buffer's text. *)
Theorem C03_tokens_tile_the_input : forall c nsym t k m b calls fuel,
  usable c nsym -> stored m t -> len t + 1 < N.of_nat calls -> 2 * len t + 4 <= N.of_nat fuel ->
  exists toks e, lex_all calls fuel c k m t b = Ret (toks ++ [e]) /\
    is_end e /\ t_start e = len t /\ t_end e = len t /\
    Forall (fun tok => ~ is_end tok) toks /\
    tile 0 toks (len t) /\
    concat_out (map (tok_text (ib_heap (first_buf b k m (len t)))) toks) = Ret t.
Proof.
  intros c nsym t k m b calls fuel Hus Hh Hc Hf.
  destruct (lex_all_spec c t k m (us_wf _ _ Hus) Hh fuel calls b (us_sof _ _ Hus)) as (toks & Hr & Hst);
    [unfold scan_fuel; lia|exact Hc|].
  destruct (stream_split c t k m Hh _ _ _ Hst) as (body & e & -> & He & Ht & H1 & H2 & Hall).
  exists body, e. do 4 (split; [assumption|]). split; [|split; [exact Ht|]].
  - eapply Forall_impl; [|exact Hall]. intros tok (z & _ & Hne). exact Hne.
  - rewrite (tile_text c t k (us_wf _ _ Hus) _ 0 body); auto.
    + rewrite sub_full. reflexivity.
    + intros p Hp. cbn. unfold heap_set. cbn. rewrite Nat.eqb_refl. apply Hh. exact Hp.
Qed.
Print Assumptions C03_tokens_tile_the_input.

(** C04: a token reported with rule ids carries exactly the ids the DFA reports for its text, read from the
    root (or, for a token at the start of the log, after the start-of-file character), and is followed by a
    delimiter or the end of the log, unless it is the one-byte newline token. *)
Theorem C04_variable_tokens_are_matches : forall c nsym t k m b calls fuel toks tok,
  usable c nsym -> stored m t -> len t + 1 < N.of_nat calls -> 2 * len t + 4 <= N.of_nat fuel ->
  lex_all calls fuel c k m t b = Ret toks -> In tok toks -> is_var tok ->
  exists q ids, t_ids tok = Some ids /\ ids <> [] /\ start_state c (t_start tok) q /\
    reported (c_dfa c) q (sub t (t_start tok) (t_end tok)) = ids /\
    (delimited c t (t_end tok) \/
     (t_end tok = t_start tok + 1 /\ byte_at t (t_start tok) = Some cNewline)).
Proof.
  intros c nsym t k m b calls fuel toks tok Hus Hh Hc Hf Hr Hin Hv.
  destruct (lex_all_spec c t k m (us_wf _ _ Hus) Hh fuel calls b (us_sof _ _ Hus)) as (toks' & Hr' & Hst);
    [unfold scan_fuel; lia|exact Hc|]. rewrite Hr in Hr'. injection Hr' as <-.
  destruct (stream_split c t k m Hh _ _ _ Hst) as (body & e & -> & He & Ht & H1 & H2 & Hall).
  apply in_app_iff in Hin as [Hin|[<-|[]]]; [|exfalso; exact (proj1 Hv He)].
  rewrite Forall_forall in Hall. destruct (Hall _ Hin) as (z & Hok & Hne).
  destruct (token_kinds c t k (us_wf _ _ Hus) z tok Hok Hne) as (_ & _ & _ & [(ids & Hi & _ & Hvt)|(Hs & _)]);
    [|exfalso; exact (proj2 Hv Hs)].
  destruct (vt_state _ _ _ _ _ _ Hvt) as (q & Hst' & Hrep & _).
  exists q, ids. repeat split; auto; [apply (vt_ids _ _ _ _ _ _ Hvt)|apply (vt_delim _ _ _ _ _ _ Hvt)].
Qed.
Print Assumptions C04_variable_tokens_are_matches.

(** C05: and from the state the token was read from, no longer text that is followed by a delimiter or the
    end of the log is accepted. *)
Theorem C05_longest_match : forall c nsym t k m b calls fuel toks tok,
  usable c nsym -> stored m t -> len t + 1 < N.of_nat calls -> 2 * len t + 4 <= N.of_nat fuel ->
  lex_all calls fuel c k m t b = Ret toks -> In tok toks -> is_var tok ->
  exists q, start_state c (t_start tok) q /\
    t_ids tok = Some (reported (c_dfa c) q (sub t (t_start tok) (t_end tok))) /\
    forall e, t_end tok < e -> e <= len t -> delimited c t e ->
      reported (c_dfa c) q (sub t (t_start tok) e) = [].
Proof.
  intros c nsym t k m b calls fuel toks tok Hus Hh Hc Hf Hr Hin Hv.
  destruct (lex_all_spec c t k m (us_wf _ _ Hus) Hh fuel calls b (us_sof _ _ Hus)) as (toks' & Hr' & Hst);
    [unfold scan_fuel; lia|exact Hc|]. rewrite Hr in Hr'. injection Hr' as <-.
  destruct (stream_split c t k m Hh _ _ _ Hst) as (body & e & -> & He & Ht & H1 & H2 & Hall).
  apply in_app_iff in Hin as [Hin|[<-|[]]]; [|exfalso; exact (proj1 Hv He)].
  rewrite Forall_forall in Hall. destruct (Hall _ Hin) as (z & Hok & Hne).
  destruct (token_kinds c t k (us_wf _ _ Hus) z tok Hok Hne) as (Hle & _ & _ & [(ids & Hi & _ & Hvt)|(Hs & _)]);
    [|exfalso; exact (proj2 Hv Hs)].
  destruct (vt_state _ _ _ _ _ _ Hvt) as (q & Hst' & Hrep & Hlong).
  exists q. split; [exact Hst'|]. split; [congruence|]. intros e' Hlt Hle' Hd.
  destruct (reported (c_dfa c) q (sub t (t_start tok) e')) eqn:E; [reflexivity|].
  exfalso. apply (Hlong e' Hlt). split; [lia|]. split; [rewrite E; discriminate|exact Hd].
Qed.
Print Assumptions C05_longest_match.

(** C06 (partial): when the newline is a delimiter and no attempt begun by something else than a newline
    or the start of file crosses a delimiter (true of every accepted schema's variables), a delimited
    occurrence is never reported as static text: it is the text of a variable token, or is covered by the
    variable token at the start of the file or by one that begins with a newline (a timestamp).
    Missing: attempts begun by the start of file may cross delimiters (see C06_refuted). *)
Theorem C06_matches_never_missed_partial : forall c nsym t k m b calls fuel toks i j,
  usable c nsym -> stored m t -> len t + 1 < N.of_nat calls -> 2 * len t + 4 <= N.of_nat fuel ->
  c_delim c cNewline = true -> no_cross c t -> no_cross_sof c t ->
  lex_all calls fuel c k m t b = Ret toks -> occurrence c t i j ->
  exists tok, In tok toks /\ is_var tok /\ t_start tok <= i < t_end tok /\
   (t_start tok = 0 \/ byte_at t (t_start tok) = Some cNewline \/ (t_start tok = i /\ t_end tok = j)).
Proof.
  intros c nsym t k m b calls fuel toks i j Hus Hh Hc Hf Hnl Hnc Hns Hr Hocc.
  destruct (lex_all_spec c t k m (us_wf _ _ Hus) Hh fuel calls b (us_sof _ _ Hus)) as (toks' & Hr' & Hst);
    [unfold scan_fuel; lia|exact Hc|]. rewrite Hr in Hr'. injection Hr' as <-.
  destruct (stream_split c t k m Hh _ _ _ Hst) as (body & e & -> & He & Ht & H1 & H2 & Hall).
  destruct (occurrence_covered c t k m (us_wf _ _ Hus) Hh 0 body i j Ht Hall Hnl Hnc Hns Hocc) as (tok & Hin & Hrest); [lia|].
  exists tok. split; [apply in_app_iff; left; exact Hin|exact Hrest].
Qed.
Print Assumptions C06_matches_never_missed_partial.

(** C41 (partial): when the newline is a delimiter, a variable token's line number is the number of newlines
    before its end. Missing: delimiter sets without the newline (see C41_refuted). *)
Theorem C41_line_numbers_partial : forall c nsym t k m b calls fuel toks tok,
  usable c nsym -> stored m t -> len t + 1 < N.of_nat calls -> 2 * len t + 4 <= N.of_nat fuel ->
  c_delim c cNewline = true ->
  lex_all calls fuel c k m t b = Ret toks -> In tok toks -> is_var tok ->
  t_line tok = newlines t (t_end tok).
Proof.
  intros c nsym t k m b calls fuel toks tok Hus Hh Hc Hf Hnl Hr Hin Hv.
  destruct (lex_all_spec c t k m (us_wf _ _ Hus) Hh fuel calls b (us_sof _ _ Hus)) as (toks' & Hr' & Hst);
    [unfold scan_fuel; lia|exact Hc|]. rewrite Hr in Hr'. injection Hr' as <-.
  destruct (stream_split c t k m Hh _ _ _ Hst) as (body & e & -> & He & Ht & H1 & H2 & Hall).
  apply in_app_iff in Hin as [Hin|[<-|[]]]; [|exfalso; exact (proj1 Hv He)].
  rewrite Forall_forall in Hall. destruct (Hall _ Hin) as (z & Hok & Hne).
  destruct (token_kinds c t k (us_wf _ _ Hus) z tok Hok Hne) as (Hle & _ & _ & [(ids & Hi & _ & Hvt)|(Hs & _)]);
    [|exfalso; exact (proj2 Hv Hs)].
  exact (vt_line _ _ _ _ _ _ Hvt Hnl).
Qed.
Print Assumptions C41_line_numbers_partial.

(** Non-vacuity: the toy configuration on "1 22 x\n3" : tokens "1" (from the start of file), " 22", static
    " x", "\n3", end. *)
Example lexer_properties_apply :
  usable toy toy_nsym /\ stored (exact_buf [49;32;50;50;32;120;10;51]) [49;32;50;50;32;120;10;51] /\
  c_delim toy cNewline = true /\
  match lex_all 20 30 toy 0 (exact_buf [49;32;50;50;32;120;10;51]) [49;32;50;50;32;120;10;51]
                (lp_in (bp_lp (bp_init toy_nsym))) with
  | Ret toks => map (fun tok => (t_start tok, t_end tok, t_line tok, t_ids tok)) toks =
      [(0,1,0,Some [8]); (1,4,0,Some [8]); (4,6,0,Some [1]); (6,8,1,Some [8]); (8,8,1,Some [0])]
  | _ => False
  end.
Proof. split; [exact toy_usable|]. split; [intros p _; reflexivity|]. split; vm_compute; reflexivity. Qed.

(** No delimiter can be crossed by the toy DFA except by a timestamp, which contains none. *)
Lemma toy_no_cross t : no_cross toy t /\ no_cross_sof toy t.
Proof.
  assert (Hd : forall y, toy_delim y = true -> is_digit y = false /\ y <> 84).
  { intros y. unfold toy_delim, is_digit. destruct (N.eqb_spec y 10) as [->|]; [split; [reflexivity|discriminate]|].
    destruct (N.eqb_spec y 32) as [->|]; [split; [reflexivity|discriminate]|].
    destruct (N.eqb_spec y 253) as [->|]; [split; [reflexivity|discriminate]|]. discriminate. }
  assert (Hstop : forall w y q, toy_delim y = true -> q <> 0%nat -> run (c_dfa toy) q (w ++ [y]) = None).
  { intros w y q Hy. destruct (Hd y Hy) as (Hy1 & Hy2). apply N.eqb_neq in Hy2. revert q.
    assert (Hne0 : forall q x q', toy_next q x = Some q' -> q' <> 0%nat).
    { intros q x q' Hq ->. unfold toy_next in Hq.
      destruct q as [|[|[|[|[|[|q]]]]]]; try discriminate;
        repeat match type of Hq with (if ?b then _ else _) = _ => destruct b end; discriminate. }
    induction w as [|x w IH]; intros q Hq; cbn [app run].
    - cbn [toy c_dfa d_next]. unfold toy_next. destruct q as [|[|[|[|[|[|q]]]]]]; rewrite ?Hy1, ?Hy2; try reflexivity. contradiction.
    - destruct (d_next (c_dfa toy) q x) as [q'|] eqn:E; [|reflexivity]. apply IH. exact (Hne0 q x q' E). }
  split.
  - intros i p x y Hx Hxn Hip Hy Hdy.
    rewrite (sub_snoc t i p y) by (auto; lia). rewrite (sub_cons t i p x Hx Hip). cbn [app run].
    destruct (d_next (c_dfa toy) d_root x) as [q|] eqn:E; [|reflexivity]. apply Hstop; [exact Hdy|].
    intros ->. cbn in E. repeat match type of E with (if ?b then _ else _) = _ => destruct b end; discriminate.
  - intros q p y Hq Hy Hdy. left. rewrite (sub_snoc t 0 p y) by (auto; lia).
    injection Hq as <-. apply Hstop; [exact Hdy|discriminate].
Qed.
Example C06_applies :
  no_cross toy [49;32;50;50;32;120;10;51] /\ no_cross_sof toy [49;32;50;50;32;120;10;51] /\
  occurrence toy [49;32;50;50;32;120;10;51] 1 4.
Proof.
  split; [apply toy_no_cross|]. split; [apply toy_no_cross|].
  split; [reflexivity|]. split.
  - split; [split; vm_compute; discriminate|]. split; [vm_compute; discriminate|].
    right. exists 32. split; reflexivity.
  - split; [exists 32; split; reflexivity|]. intros p y Hp Hy.
    assert (Hc : p = 2 \/ p = 3) by lia. destruct Hc as [->| ->]; injection Hy as <-; reflexivity.
Qed.

(** C06 as stated is false: with the timestamp pattern "T 1:", the log "T 1 x" begins like a timestamp; the
    lexer gives up at the second space and never looks again at the " 1" it has passed over, although " 1" is
    a delimited match of the variable. *)
Theorem C06_refuted : exists c nsym t k m b calls fuel toks i j,
  usable c nsym /\ stored m t /\ c_delim c cNewline = true /\ no_cross c t /\
  lex_all calls fuel c k m t b = Ret toks /\ occurrence c t i j /\
  forall tok, In tok toks -> t_start tok <= i < t_end tok -> is_static tok.
Proof.
  exists tts, toy_nsym, [84;32;49;32;120], 0%nat, (exact_buf [84;32;49;32;120]), (lp_in (bp_lp (bp_init toy_nsym))), 20%nat, 30%nat.
  eexists _, 1, 3. split; [exact tts_usable|]. split; [intros p _; reflexivity|]. split; [reflexivity|].
  split.
  { assert (Hfin : forall i, byte_at [84;32;49;32;120] i <> None -> i = 0 \/ i = 1 \/ i = 2 \/ i = 3 \/ i = 4).
    { intros i Hi. unfold byte_at in Hi. apply nth_error_Some in Hi. cbn in Hi. lia. }
    intros i p x y Hx Hxn Hip Hy Hd.
    destruct (Hfin i) as [-> | [-> | [-> | [-> | -> ]]]]; [congruence|..];
    (destruct (Hfin p) as [-> | [-> | [-> | [-> | -> ]]]]; [congruence|..]); try lia; try reflexivity;
    vm_compute in Hx, Hy; injection Hx as <-; injection Hy as <-; discriminate. }
  split; [vm_compute; reflexivity|]. split.
  - split; [reflexivity|]. split.
    + split; [split; vm_compute; discriminate|]. split; [vm_compute; discriminate|].
      right. exists 32. split; reflexivity.
    + split; [exists 32; split; reflexivity|]. intros p y Hp Hy.
      assert (Hc : p = 2) by lia. subst p; injection Hy as <-; reflexivity.
  - intros tok Hin Hr. cbn in Hin. repeat (destruct Hin as [<-|Hin]; [cbn in Hr; try lia; try reflexivity|]). contradiction.
Qed.
Print Assumptions C06_refuted.

(** C41 as stated is false when the newline is not a delimiter: in "a\n 1" the token " 1" is on line 0. *)
Theorem C41_refuted : exists c nsym t k m b calls fuel toks tok,
  usable c nsym /\ stored m t /\ lex_all calls fuel c k m t b = Ret toks /\ In tok toks /\ is_var tok /\
  t_line tok <> newlines t (t_end tok).
Proof.
  exists toy_nonl, toy_nsym, [97;10;32;49], 0%nat, (exact_buf [97;10;32;49]), (lp_in (bp_lp (bp_init toy_nsym))), 20%nat, 30%nat.
  eexists _, _. split; [exact toy_nonl_usable|]. split; [intros p _; reflexivity|].
  split; [vm_compute; reflexivity|]. split; [right; left; reflexivity|].
  split; [split; discriminate|]. vm_compute. discriminate.
Qed.
Print Assumptions C41_refuted.
