(** ReaderErrors.v -- ReaderParser with a Reader whose calls may fail (ReaderParser.cpp 21-48, ParserInputBuffer.cpp 35-62, Reader.hpp 17-22), and what a
    Reader is asked for. *)
From Verif Require Import Base LexerModel LexerSpec LogParserModel EventSpec RingModel ReaderSpec LexerProofs LogParserProofs FileModel FeedProofs.

(** ** The model. *)
(** A Reader (Reader.hpp 17-22) with the number of calls made so far; the [n]-th one fails with an error code [fails n] other than Success and
    EndOfFile. Simplification: a call that fails stores nothing and takes nothing from the source. *)
Record freader := mkFr { fr_rd : reader; fr_tries : nat }.
Record fparser := mkFp { fp_lp : lparser; fp_done : bool; fp_rd : freader }.
Section Failing.
  Variables (chunk : nat -> N) (fails : nat -> option N).
  (** ParserInputBuffer.hpp 41-46 with ParserInputBuffer.cpp 35-62: an error other than EndOfFile is returned and changes nothing. *)
  Definition fread_if_safe (b : ibuf) (r : freader) : option N * ibuf * freader :=
    if read_is_safe b then
      match fails (fr_tries r) with
      | Some e => (Some e, b, mkFr (fr_rd r) (S (fr_tries r)))
      | None => let (b', r') := ib_read chunk b (fr_rd r) in (None, b', mkFr r' (S (fr_tries r)))
      end
    else (None, b, r).
  (** LogParser.hpp 117-119. *)
  Definition fp_read (p : lparser) (r : freader) : option N * lparser * freader :=
    let '(e, b, r') := fread_if_safe (lp_in p) r in (e, lp_set_lexin p (lp_lex p) b, r').
  (** ReaderParser.cpp 28-47; the first component is the error code (None: Success). One unit of [grow] fuel per increase of the capacity. *)
  Fixpoint fp_loop (grow fuel sfuel : nat) (c : lexcfg) (p : lparser) (done : bool) (r : freader) : out (option N * fparser) :=
    do (oa, p1) <- parse_and_generate_metadata fuel sfuel c p;
    match oa with
    | Some a => Ret (None, mkFp p1 (match a with ActCompressAndFinish => true | _ => done end) r)
    | None =>
      match grow with
      | O => OutOfFuel
      | S grow' =>
        let '(e, p2, r') := fp_read (lp_grow p1) r in
        match e with
        | Some _ => Ret (e, mkFp p2 done r')
        | None => fp_loop grow' fuel sfuel c p2 done r'
        end
      end
    end.
  (** ReaderParser.cpp 21-48. *)
  Definition fp_parse_next_event (grow fuel sfuel : nat) (c : lexcfg) (fp : fparser) : out (option N * fparser) :=
    let '(e, p1, r1) := fp_read (reset_log_event_view (fp_lp fp)) (fp_rd fp) in
    match e with
    | Some _ => Ret (e, mkFp p1 (fp_done fp) r1)
    | None => fp_loop grow fuel sfuel c p1 (fp_done fp) r1
    end.
  (** The caller calls parse_next_event until done(), and again if it failed. What each call gives: an error, or an event. *)
  Fixpoint fp_drive {A} (obs : lparser -> A) (calls grow fuel sfuel : nat) (c : lexcfg) (fp : fparser) : out (list (N + A) * fparser) :=
    match calls with
    | O => OutOfFuel
    | S calls' =>
      do (e, fp1) <- fp_parse_next_event grow fuel sfuel c fp;
      let a := match e with Some code => inl code | None => inr (obs (fp_lp fp1)) end in
      if match e with None => fp_done fp1 | _ => false end then Ret ([a], fp1)
      else do (l, fp2) <- fp_drive obs calls' grow fuel sfuel c fp1; Ret (a :: l, fp2)
    end.
End Failing.
(** reset_and_set_reader (ReaderParser.cpp 15-19), then the calls. *)
Definition retry_all (chunk : nat -> N) (fails : nat -> option N) (name : N -> option (list N)) (nsym : N) (calls grow fuel sfuel : nat) (c : lexcfg)
  (log : list N) (rp : rparser) : out (list (N + report) * fparser) :=
  fp_drive chunk fails (report_of name nsym) calls grow fuel sfuel c (mkFp (lp_reset c (rp_lp rp)) false (mkFr (mkReader log 0) 0)).
Definition events_of {A} (l : list (N + A)) : list A := flat_map (fun x => match x with inl _ => [] | inr a => [a] end) l.
Definition errors_of {A} (l : list (N + A)) : list N := flat_map (fun x => match x with inl e => [e] | inr _ => [] end) l.
(** The failures among the calls [a], [a + 1], ..., [a + n - 1]. *)
Definition failures (fails : nat -> option N) (a n : nat) : list N := flat_map (fun i => match fails i with Some e => [e] | None => [] end) (seq a n).

(** ** A failure at the beginning of parse_next_event. *)
Lemma view_reset_twice p : reset_log_event_view (reset_log_event_view p) = reset_log_event_view p.
Proof. unfold reset_log_event_view. cbn. rewrite map_map. reflexivity. Qed.
Lemma failures_app fails a n m : failures fails a (n + m) = failures fails a n ++ failures fails (a + n) m.
Proof. unfold failures. rewrite seq_app, flat_map_app. reflexivity. Qed.
Section Retry.
  Variables (chunk : nat -> N) (fails : nat -> option N).
  Context {A : Type}.
  Variable obs : lparser -> A.
  Lemma set_same p : lp_set_lexin p (lp_lex p) (lp_in p) = p.
  Proof. destruct p; reflexivity. Qed.
  (** One call that does not enlarge the buffer: at most one failure, which leaves everything as it was. *)
  Lemma call_cases fuel sfuel c fp rp1 :
    rp_parse_next_event chunk 0 fuel sfuel c (mkRp (fp_lp fp) (fp_done fp) (fr_rd (fp_rd fp))) = Ret rp1 ->
    (forall grow, exists n, fp_parse_next_event chunk fails grow fuel sfuel c fp = Ret (None, mkFp (rp_lp rp1) (rp_done rp1) (mkFr (rp_rd rp1) (fr_tries (fp_rd fp) + n))) /\
       failures fails (fr_tries (fp_rd fp)) n = []) \/
    exists e, fails (fr_tries (fp_rd fp)) = Some e /\
      let fp' := mkFp (reset_log_event_view (fp_lp fp)) (fp_done fp) (mkFr (fr_rd (fp_rd fp)) (S (fr_tries (fp_rd fp)))) in
      (forall grow, fp_parse_next_event chunk fails grow fuel sfuel c fp = Ret (Some e, fp')) /\
      rp_parse_next_event chunk 0 fuel sfuel c (mkRp (fp_lp fp') (fp_done fp') (fr_rd (fp_rd fp'))) = Ret rp1.
  Proof.
    destruct fp as [p done [r tries]]. cbn [fp_lp fp_done fp_rd fr_rd fr_tries]. unfold rp_parse_next_event. cbn [rp_lp rp_done rp_rd]. rewrite view_reset_twice. intros H.
    unfold fp_parse_next_event, fp_read, fread_if_safe. cbn [fp_lp fp_done fp_rd fr_rd fr_tries]. unfold lp_read, read_if_safe in H.
    assert (G : forall q r0 t0 done, rp_loop chunk 0 fuel sfuel c q done r0 = Ret rp1 ->
              forall grow, fp_loop chunk fails grow fuel sfuel c q done (mkFr r0 t0) = Ret (None, mkFp (rp_lp rp1) (rp_done rp1) (mkFr (rp_rd rp1) t0))).
    { clear. intros q r0 t0 done H grow. cbn [rp_loop] in H. destruct grow; cbn [fp_loop];
      (destruct (parse_and_generate_metadata fuel sfuel c q) as [([a|], p1)| | |]; cbn [bind] in *; try discriminate H; injection H as <-; reflexivity). }
    destruct (read_is_safe (lp_in (reset_log_event_view p))) eqn:Sf.
    - destruct (fails tries) as [e|] eqn:Ef.
      + right. exists e. split; [reflexivity|]. split; [intros grow; rewrite set_same; reflexivity|]. cbv zeta. unfold lp_read, read_if_safe. rewrite Sf. exact H.
      + left. intros grow. exists 1%nat. destruct (ib_read chunk (lp_in (reset_log_event_view p)) r) as [b' r']. rewrite Nat.add_1_r.
        split; [now apply G|]. unfold failures. cbn [seq flat_map]. now rewrite Ef.
    - left. intros grow. exists 0%nat. rewrite Nat.add_0_r. split; [now apply G|reflexivity].
  Qed.
  Lemma drive_retry fuel sfuel c grow : forall calls K fp l rp',
    (forall n, (K <= n)%nat -> fails n = None) ->
    rp_drive chunk obs calls 0 fuel sfuel c (mkRp (fp_lp fp) (fp_done fp) (fr_rd (fp_rd fp))) = Ret (l, rp') ->
    exists rs fp' n, fp_drive chunk fails obs (calls + (K - fr_tries (fp_rd fp))) grow fuel sfuel c fp = Ret (rs, fp') /\ events_of rs = l /\
      fp_lp fp' = rp_lp rp' /\ fp_done fp' = rp_done rp' /\ fp_rd fp' = mkFr (rp_rd rp') (fr_tries (fp_rd fp) + n) /\
      errors_of rs = failures fails (fr_tries (fp_rd fp)) n.
  Proof.
    intros calls K fp l rp' HK. remember (K - fr_tries (fp_rd fp))%nat as j eqn:Hj. revert calls fp l rp' Hj.
    assert (Hmore : forall calls calls' fp rs fp', (calls <= calls')%nat ->
              fp_drive chunk fails obs calls grow fuel sfuel c fp = Ret (rs, fp') -> fp_drive chunk fails obs calls' grow fuel sfuel c fp = Ret (rs, fp')).
    { clear. induction calls as [|calls IH]; intros [|calls'] fp rs fp' Hl H; try discriminate H; try lia. cbn [fp_drive] in *.
      destruct (fp_parse_next_event chunk fails grow fuel sfuel c fp) as [(e, fp1)| | |]; cbn [bind] in *; try discriminate H.
      destruct (match e with None => fp_done fp1 | _ => false end); [exact H|].
      destruct (fp_drive chunk fails obs calls grow fuel sfuel c fp1) as [(l, fp2)| | |] eqn:E; cbn [bind] in H; try discriminate H.
      rewrite (IH calls' fp1 l fp2 ltac:(lia) E). exact H. }
    induction j as [j IHj] using lt_wf_ind. induction calls as [|calls IH]; intros fp l rp' Hj H; [discriminate H|].
    pose proof H as H0. cbn [rp_drive] in H.
    destruct (rp_parse_next_event chunk 0 fuel sfuel c (mkRp (fp_lp fp) (fp_done fp) (fr_rd (fp_rd fp)))) as [rp1| | |] eqn:E1; try discriminate H. cbn [bind] in H.
    destruct (call_cases fuel sfuel c fp rp1 E1) as [Hok | (e & He & Hf & Hagain)].
    - destruct (Hok grow) as (n & Hc & Hn). cbn [Nat.add fp_drive]. rewrite Hc. cbn [bind fp_done fp_lp].
      destruct (rp_done rp1) eqn:Ed.
      + injection H as <- <-. exists [inr (obs (rp_lp rp1))], (mkFp (rp_lp rp1) true (mkFr (rp_rd rp1) (fr_tries (fp_rd fp) + n))), n. cbn [fp_lp fp_done fp_rd].
        split; [reflexivity|]. split; [reflexivity|]. split; [reflexivity|]. split; [now rewrite Ed|]. split; [reflexivity|]. now rewrite Hn.
      + destruct (rp_drive chunk obs calls 0 fuel sfuel c rp1) as [(l1, rp2)| | |] eqn:E2; try discriminate H. cbn [bind] in H. injection H as <- <-.
        set (fp1 := mkFp (rp_lp rp1) false (mkFr (rp_rd rp1) (fr_tries (fp_rd fp) + n))).
        assert (E3 : rp_drive chunk obs calls 0 fuel sfuel c (mkRp (fp_lp fp1) (fp_done fp1) (fr_rd (fp_rd fp1))) = Ret (l1, rp2)).
        { cbn. rewrite <- E2. f_equal. destruct rp1. cbn in *. congruence. }
        assert (Q : exists rs fp' m, fp_drive chunk fails obs (calls + j) grow fuel sfuel c fp1 = Ret (rs, fp') /\ events_of rs = l1 /\
                      fp_lp fp' = rp_lp rp2 /\ fp_done fp' = rp_done rp2 /\ fp_rd fp' = mkFr (rp_rd rp2) (fr_tries (fp_rd fp1) + m) /\
                      errors_of rs = failures fails (fr_tries (fp_rd fp1)) m).
        { destruct n as [|n].
          - apply (IH fp1 l1 rp2); [cbn; rewrite Nat.add_0_r; exact Hj|exact E3].
          - destruct (Nat.eq_dec j 0) as [Ej|Ej].
            + apply (IH fp1 l1 rp2); [cbn; lia|exact E3].
            + destruct (IHj (j - S n)%nat ltac:(lia) calls fp1 l1 rp2) as (rs & fp' & m & Q1 & Q2); [cbn; lia|exact E3|].
              exists rs, fp', m. split; [|exact Q2]. apply (Hmore _ _ _ _ _ (ltac:(lia) : (calls + (j - S n) <= calls + j)%nat) Q1). }
        destruct Q as (rs & fp' & m & Q1 & Q2 & Q3 & Q4 & Q5 & Q6). rewrite Q1. cbn [bind].
        exists (inr (obs (rp_lp rp1)) :: rs), fp', (n + m)%nat. split; [reflexivity|].
        split; [change (obs (rp_lp rp1) :: events_of rs = obs (rp_lp rp1) :: l1); now rewrite Q2|]. split; [exact Q3|]. split; [exact Q4|].
        split; [rewrite Q5; cbn [fp1 fp_rd fr_tries]; f_equal; lia|]. rewrite failures_app, Hn. exact Q6.
    - destruct (Nat.eq_dec j 0) as [Ej|Ej]; [rewrite HK in He by lia; discriminate He|].
      cbv zeta in Hf, Hagain. set (fp1 := mkFp (reset_log_event_view (fp_lp fp)) (fp_done fp) (mkFr (fr_rd (fp_rd fp)) (S (fr_tries (fp_rd fp))))) in *.
      destruct (IHj (j - 1)%nat ltac:(lia) (S calls) fp1 l rp') as (rs & fp' & m & Q1 & Q2 & Q3 & Q4 & Q5 & Q6); [cbn; lia| |].
      { cbn [rp_drive]. rewrite Hagain. cbn [bind]. exact H. }
      exists (inl e :: rs), fp', (S m). replace (S calls + j)%nat with (S (S calls + (j - 1)))%nat by lia. cbn [fp_drive]. rewrite Hf. cbn [bind].
      change (fp_drive chunk fails obs (S calls + (j - 1)) grow fuel sfuel c fp1) with (fp_drive chunk fails obs (S (calls + (j - 1))) grow fuel sfuel c fp1) in Q1.
      replace (S (calls + (j - 1)))%nat with (S calls + (j - 1))%nat in Q1 by lia. rewrite Q1. cbn [bind].
      split; [reflexivity|]. split; [exact Q2|]. split; [exact Q3|]. split; [exact Q4|]. split; [rewrite Q5; cbn; f_equal; lia|].
      cbn. unfold failures. cbn [seq flat_map]. rewrite He. cbn. f_equal. exact Q6.
  Qed.
End Retry.

(** ** Every failure is reported. *)
Section Reported.
  Variables (chunk : nat -> N) (fails : nat -> option N).
  Definition code (e : option N) : list N := match e with Some x => [x] | None => [] end.
  Lemma fread_code b r e b' r' : fread_if_safe chunk fails b r = (e, b', r') -> exists n, fr_tries r' = (fr_tries r + n)%nat /\ failures fails (fr_tries r) n = code e.
  Proof.
    unfold fread_if_safe. destruct (read_is_safe b).
    - destruct (fails (fr_tries r)) as [x|] eqn:E.
      + intros [= <- <- <-]. exists 1%nat. cbn [fr_tries]. split; [lia|]. unfold failures. cbn. now rewrite E.
      + destruct (ib_read chunk b (fr_rd r)) as [b1 r1]. intros [= <- <- <-]. exists 1%nat. cbn [fr_tries]. split; [lia|]. unfold failures. cbn. now rewrite E.
    - intros [= <- <- <-]. exists 0%nat. split; [lia|reflexivity].
  Qed.
  Lemma fp_read_code p r e p' r' : fp_read chunk fails p r = (e, p', r') -> exists n, fr_tries r' = (fr_tries r + n)%nat /\ failures fails (fr_tries r) n = code e.
  Proof.
    unfold fp_read. destruct (fread_if_safe chunk fails (lp_in p) r) as [[e1 b1] r1] eqn:E. intros [= <- <- <-]. exact (fread_code _ _ _ _ _ E).
  Qed.
  Lemma fp_loop_code fuel sfuel c : forall grow p done r e fp', fp_loop chunk fails grow fuel sfuel c p done r = Ret (e, fp') ->
    exists n, fr_tries (fp_rd fp') = (fr_tries r + n)%nat /\ failures fails (fr_tries r) n = code e.
  Proof.
    induction grow as [|grow IH]; intros p done r e fp' H; cbn [fp_loop] in H;
      destruct (parse_and_generate_metadata fuel sfuel c p) as [[[a|] p1]| | |]; try discriminate H; cbn [bind] in H.
    - injection H as <- <-. exists 0%nat. cbn [fp_rd]. split; [lia|reflexivity].
    - injection H as <- <-. exists 0%nat. cbn [fp_rd]. split; [lia|reflexivity].
    - destruct (fp_read chunk fails (lp_grow p1) r) as [[e1 p2] r1] eqn:E. destruct (fp_read_code _ _ _ _ _ E) as (n1 & N1 & N2). destruct e1 as [x|].
      + injection H as <- <-. exists n1. split; [exact N1|exact N2].
      + destruct (IH _ _ _ _ _ H) as (n2 & M1 & M2). exists (n1 + n2)%nat. split; [lia|]. rewrite failures_app, N2, <- N1, M2. reflexivity.
  Qed.
  Lemma fp_drive_code {A} (obs : lparser -> A) grow fuel sfuel c : forall calls fp rs fp', fp_drive chunk fails obs calls grow fuel sfuel c fp = Ret (rs, fp') ->
    exists n, fr_tries (fp_rd fp') = (fr_tries (fp_rd fp) + n)%nat /\ errors_of rs = failures fails (fr_tries (fp_rd fp)) n.
  Proof.
    induction calls as [|calls IH]; intros fp rs fp' H; [discriminate H|]. cbn [fp_drive] in H.
    destruct (fp_parse_next_event chunk fails grow fuel sfuel c fp) as [[e fp1]| | |] eqn:E; try discriminate H. cbn [bind] in H.
    assert (HN : exists n, fr_tries (fp_rd fp1) = (fr_tries (fp_rd fp) + n)%nat /\ failures fails (fr_tries (fp_rd fp)) n = code e).
    { unfold fp_parse_next_event in E. destruct (fp_read chunk fails (reset_log_event_view (fp_lp fp)) (fp_rd fp)) as [[e1 p1] r1] eqn:Er.
      destruct (fp_read_code _ _ _ _ _ Er) as (n1 & N1 & N2). destruct e1 as [x|].
      - injection E as <- <-. exists n1. split; [exact N1|exact N2].
      - destruct (fp_loop_code _ _ _ _ _ _ _ _ _ E) as (n2 & M1 & M2). exists (n1 + n2)%nat. split; [lia|]. rewrite failures_app, N2, <- N1, M2. reflexivity. }
    destruct HN as (n & N1 & N2).
    destruct (match e with None => fp_done fp1 | _ => false end) eqn:Ed.
    - injection H as <- <-. exists n. split; [exact N1|]. rewrite N2. destruct e as [x|]; reflexivity.
    - destruct (fp_drive chunk fails obs calls grow fuel sfuel c fp1) as [[l fp2]| | |] eqn:El; try discriminate H. cbn [bind] in H. injection H as <- <-.
      destruct (IH _ _ _ El) as (n2 & M1 & M2). exists (n + n2)%nat. split; [lia|]. rewrite failures_app, N2, <- N1, <- M2. destruct e as [x|]; reflexivity.
  Qed.
End Reported.
