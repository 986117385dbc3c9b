(** WildcardProofs.v -- scan_with_wildcard over a complete in-memory buffer. *)
From Verif Require Import Base LexerModel LexerSpec WildcardModel LexerProofs DfaExact.
From Verif Require Import EventSpec.

(** Bytes that are not delimiters. *)
Definition nondelim (c : lexcfg) (v : list N) : Prop := forall b, In b v -> b < 256 /\ c_delim c b = false.
(** The automaton has (at most) the states 0 .. n-1. *)
Definition states (d : dfa) (n : nat) : Prop := (d_root < n)%nat /\ forall q b q', d_next d q b = Some q' -> (q' < n)%nat.

Lemma all_bytes_in b : In b all_bytes <-> b < 256.
Proof.
  unfold all_bytes. rewrite in_map_iff. split.
  - intros (x & <- & H). apply in_seq in H. lia.
  - intros H. exists (N.to_nat b). split; [apply Nnat.N2Nat.id|]. apply in_seq. lia.
Qed.

Section Search.
Context (c : lexcfg) (n : nat).
Let d := c_dfa c.
Hypothesis Hst : states d n.

(** ** '?' *)
Lemma any_byte_spec q bs : match any_byte_loop d q bs with
  | Ret true => forall x, In x bs -> reported d q [x] <> []
  | Ret false => exists x, In x bs /\ reported d q [x] = []
  | UB => exists x, In x bs /\ run d q [x] = None
  | Throw | OutOfFuel => False
  end.
Proof.
  induction bs as [|b bs IH]; cbn [any_byte_loop]; [intros x []|].
  destruct (d_next d q b) as [q'|] eqn:E; [|exists b; split; [left; reflexivity|]; cbn [run]; rewrite E; reflexivity].
  destruct (is_accepting d q') eqn:A.
  - destruct (any_byte_loop d q bs) as [[|]| | |].
    + intros x [<-|H]; [|auto]. unfold reported. cbn [run]. rewrite E. apply is_accepting_spec. exact A.
    + destruct IH as (x & H & Hx). exists x. split; [right; exact H|exact Hx].
    + destruct IH as (x & H & Hx). exists x. split; [right; exact H|exact Hx].
    + exact IH.
    + exact IH.
  - exists b. split; [left; reflexivity|]. unfold reported. cbn [run]. rewrite E. unfold is_accepting in A. destruct (d_ids d q'); [reflexivity|discriminate].
Qed.

(** ** '*' *)
Definition is_visited (visited : list nat) (o : option nat) : bool := match o with Some q => existsb (Nat.eqb q) visited | None => false end.
Lemma is_visited_in vis q : is_visited vis (Some q) = true <-> In q vis.
Proof.
  cbn [is_visited]. rewrite existsb_exists. split.
  - intros (x & H & E). apply Nat.eqb_eq in E. subst x. exact H.
  - intros H. exists q. split; [exact H|apply Nat.eqb_refl].
Qed.
Lemma push_loop_spec q vis bs : forall stack, exists new, push_loop c q vis bs stack = new ++ stack /\ (length new <= length bs)%nat /\
  (forall o, In o new <-> is_visited vis o = false /\ exists b, In b bs /\ c_delim c b = false /\ d_next d q b = o).
Proof.
  induction bs as [|b bs IH]; intros stack; cbn [push_loop].
  { exists []. split; [reflexivity|]. split; [apply Nat.le_refl|]. intros o. split; [intros []|intros (_ & b & [] & _)]. }
  destruct (c_delim c b) eqn:E.
  { destruct (IH stack) as (new & H1 & H2 & H3). exists new. split; [exact H1|]. split; [cbn [length]; lia|]. intros o. rewrite H3. split.
    - intros (V & x & Hx & R). split; [exact V|]. exists x. split; [right; exact Hx|exact R].
    - intros (V & x & [<-|Hx] & R1 & R2); [congruence|]. split; [exact V|]. exists x. auto. }
  cbv zeta. fold d. fold (is_visited vis (d_next d q b)). destruct (is_visited vis (d_next d q b)) eqn:V.
  - destruct (IH stack) as (new & H1 & H2 & H3). exists new. split; [exact H1|]. split; [cbn [length]; lia|]. intros o. rewrite H3. split.
    + intros (V' & x & Hx & R). split; [exact V'|]. exists x. split; [right; exact Hx|exact R].
    + intros (V' & x & [<-|Hx] & R1 & R2); [congruence|]. split; [exact V'|]. exists x. auto.
  - destruct (IH (d_next d q b :: stack)) as (new & H1 & H2 & H3). exists (new ++ [d_next d q b]). split; [rewrite H1, <- app_assoc; reflexivity|].
    split; [rewrite app_length; cbn [length]; lia|]. intros o. rewrite in_app_iff, H3. split.
    + intros [(V' & x & Hx & R)|[<-|[]]].
      * split; [exact V'|]. exists x. split; [right; exact Hx|exact R].
      * split; [exact V|]. exists b. split; [left; reflexivity|auto].
    + intros (V' & x & [<-|Hx] & R1 & R2); [right; left; exact R2|]. left. split; [exact V'|]. exists x. auto.
Qed.

(** Reading [v] from [q]: [None] also stands for nullptr. *)
Definition reach (q : nat) (o : option nat) : Prop := exists v, nondelim c v /\ run d q v = o.
Definition succ (q : nat) (o : option nat) : Prop := exists b, b < 256 /\ c_delim c b = false /\ d_next d q b = o.
Lemma reach_step q0 q o : reach q0 (Some q) -> succ q o -> reach q0 o.
Proof.
  intros (v & Hv & R) (b & Hb & Hd & E). exists (v ++ [b]). split.
  - intros x Hx. apply in_app_iff in Hx as [Hx|[<-|[]]]; auto.
  - rewrite run_snoc, R. exact E.
Qed.

(** The states among 0 .. n-1 that are not visited. *)
Definition unvisited (vis : list nat) : nat := length (filter (fun q => negb (existsb (Nat.eqb q) vis)) (seq 0 n)).
Lemma filter_length_le {A} (f g : A -> bool) l : (forall x, g x = true -> f x = true) -> (length (filter g l) <= length (filter f l))%nat.
Proof.
  intros H. induction l as [|x l IH]; cbn [filter]; [lia|]. destruct (g x) eqn:G.
  - rewrite (H _ G). cbn [length]. lia.
  - destruct (f x); cbn [length]; lia.
Qed.
Lemma unvisited_lt q vis : (q < n)%nat -> ~ In q vis -> (unvisited (q :: vis) < unvisited vis)%nat.
Proof.
  intros Hq Hn. unfold unvisited. assert (Hi : In q (seq 0 n)) by (apply in_seq; lia). apply in_split in Hi as (l1 & l2 & E).
  rewrite E, !filter_app, !app_length. cbn [filter existsb]. rewrite Nat.eqb_refl. cbn [orb negb].
  destruct (existsb (Nat.eqb q) vis) eqn:V.
  { exfalso. apply Hn. apply is_visited_in. exact V. }
  cbn [negb length].
  pose proof (filter_length_le (fun x => negb (existsb (Nat.eqb x) vis)) (fun x => negb (existsb (Nat.eqb x) (q :: vis))) l1) as L1.
  pose proof (filter_length_le (fun x => negb (existsb (Nat.eqb x) vis)) (fun x => negb (existsb (Nat.eqb x) (q :: vis))) l2) as L2.
  cbn [existsb] in L1, L2.
  assert (M : forall x, negb ((x =? q)%nat || existsb (Nat.eqb x) vis) = true -> negb (existsb (Nat.eqb x) vis) = true).
  { intros x. destruct (x =? q)%nat, (existsb (Nat.eqb x) vis); auto. }
  specialize (L1 M). specialize (L2 M). lia.
Qed.

(** Invariant: every stacked or visited state is reachable; visited ones are accepting; the successors of a visited state are visited or on the
    stack, above every stacked copy of that state. *)
Record sinv (q0 : nat) (vis : list nat) (stack : list (option nat)) : Prop := {
  si_reach : forall o, In o stack -> reach q0 o;
  si_bound : forall q, In (Some q) stack -> (q < n)%nat;
  si_start : In q0 vis \/ In (Some q0) stack;
  si_acc : forall q, In q vis -> d_ids d q <> [];
  si_above : forall q s1 s2, In q vis -> stack = s1 ++ Some q :: s2 -> forall o, succ q o -> is_visited vis o = true \/ In o s1;
  si_succ : forall q, In q vis -> forall o, succ q o -> is_visited vis o = true \/ In o stack
}.

Lemma any_string_spec q0 : forall fuel vis stack, sinv q0 vis stack -> (257 * unvisited vis + length stack < fuel)%nat ->
  match any_string_loop fuel c vis stack with
  | Ret true => forall v, nondelim c v -> reported d q0 v <> []
  | Ret false => exists v, nondelim c v /\ reported d q0 v = []
  | UB | Throw | OutOfFuel => False
  end.
Proof.
  induction fuel as [|fuel IH]; intros vis stack Hi Hf; [lia|]. cbn [any_string_loop].
  destruct stack as [|[q|] rest].
  - (* the search is over *)
    assert (V : forall v q, nondelim c v -> In q vis -> exists q', run d q v = Some q' /\ In q' vis).
    { induction v as [|b v IHv]; intros q Hv Hq; [exists q; auto|]. cbn [run].
      destruct (si_succ _ _ _ Hi q Hq (d_next d q b)) as [X|[]]; [exists b; split; [apply Hv; left; reflexivity|split; [apply Hv; left; reflexivity|reflexivity]]|].
      destruct (d_next d q b) as [q'|]; [|discriminate]. apply is_visited_in in X. apply IHv; [|exact X]. intros x Hx. apply Hv. right. exact Hx. }
    intros v Hv. destruct (si_start _ _ _ Hi) as [S|[]]. destruct (V v q0 Hv S) as (q' & R & Hq'). unfold reported. rewrite R. exact (si_acc _ _ _ Hi _ Hq').
  - fold d. destruct (is_accepting d q) eqn:A.
    2: { destruct (si_reach _ _ _ Hi (Some q) (or_introl eq_refl)) as (v & Hv & R). exists v. split; [exact Hv|]. unfold reported. rewrite R.
         unfold is_accepting in A. destruct (d_ids d q); [reflexivity|discriminate]. }
    destruct (push_loop_spec q (q :: vis) all_bytes rest) as (new & E & L & Hnew). rewrite E.
    assert (Hnew' : forall o, In o new <-> is_visited (q :: vis) o = false /\ succ q o).
    { intros o. rewrite Hnew. split; intros (V & b & Hb & R); (split; [exact V|]); exists b; [apply all_bytes_in in Hb|apply all_bytes_in in Hb || rewrite all_bytes_in]; tauto. }
    assert (Hmono : forall o, is_visited vis o = true -> is_visited (q :: vis) o = true).
    { intros [x|] H; [|discriminate]. apply is_visited_in. right. apply is_visited_in. exact H. }
    assert (Hsucc : forall o, succ q o -> is_visited (q :: vis) o = true \/ In o new).
    { intros o Ho. destruct (is_visited (q :: vis) o) eqn:V; [left; reflexivity|right; apply Hnew'; auto]. }
    apply IH.
    + constructor.
      * intros o Ho. apply in_app_iff in Ho as [Ho|Ho]; [|apply (si_reach _ _ _ Hi); right; exact Ho].
        apply Hnew' in Ho as (_ & Hs). exact (reach_step q0 q o (si_reach _ _ _ Hi _ (or_introl eq_refl)) Hs).
      * intros x Hx. apply in_app_iff in Hx as [Hx|Hx]; [|apply (si_bound _ _ _ Hi); right; exact Hx].
        apply Hnew' in Hx as (_ & b & _ & _ & Eb). exact (proj2 Hst _ _ _ Eb).
      * destruct (si_start _ _ _ Hi) as [S|[[= ->]|S]]; [left; right; exact S|left; left; reflexivity|right; apply in_app_iff; right; exact S].
      * intros x [<-|Hx]; [apply is_accepting_spec; exact A|exact (si_acc _ _ _ Hi _ Hx)].
      * intros x s1 s2 Hx Es o Ho.
        (* the copy of x lies in rest: the states pushed now are not visited *)
        assert (Hc : exists s1', s1 = new ++ s1' /\ rest = s1' ++ Some x :: s2).
        { clear - Es Hx Hnew'. assert (Hn : ~ In (Some x) new). { intros C. apply Hnew' in C as (V & _). rewrite (proj2 (is_visited_in _ _) Hx) in V. discriminate. }
          clear Hnew'. revert s1 Es. induction new as [|y new IHn]; intros s1 Es; [exists s1; auto|]. destruct s1 as [|z s1]; cbn [app] in Es.
          - injection Es as -> _. exfalso. apply Hn. left. reflexivity.
          - injection Es as -> Es. destruct (IHn (fun H => Hn (or_intror H)) s1 Es) as (s1' & -> & H). exists s1'. auto. }
        destruct Hc as (s1' & -> & Er). destruct (Nat.eq_dec x q) as [->|Hne].
        { destruct (Hsucc o Ho) as [V|V]; [left; exact V|right; apply in_app_iff; left; exact V]. }
        destruct Hx as [E'|Hx]; [exfalso; congruence|].
        destruct (si_above _ _ _ Hi x (Some q :: s1') s2 Hx ltac:(cbn [app]; rewrite Er; reflexivity) o Ho) as [V|[<-|V]].
        { left. apply Hmono. exact V. }
        { left. apply is_visited_in. left. reflexivity. }
        { right. apply in_app_iff. right. exact V. }
      * intros x Hx o Ho. destruct (Nat.eq_dec x q) as [->|Hne].
        { destruct (Hsucc o Ho) as [V|V]; [left; exact V|right; apply in_app_iff; left; exact V]. }
        destruct Hx as [E'|Hx]; [exfalso; congruence|]. destruct (si_succ _ _ _ Hi x Hx o Ho) as [V|[<-|V]].
        { left. apply Hmono. exact V. }
        { left. apply is_visited_in. left. reflexivity. }
        { right. apply in_app_iff. right. exact V. }
    + (* the measure *)
      cbn [length] in Hf. rewrite app_length. change (length all_bytes) with 256%nat in L. destruct (in_dec Nat.eq_dec q vis) as [Hv|Hv].
      * assert (N0 : new = []).
        { destruct new as [|o new]; [reflexivity|exfalso]. destruct (proj1 (Hnew' o) (or_introl eq_refl)) as (V & Hs).
          destruct (si_above _ _ _ Hi q [] rest Hv eq_refl o Hs) as [V'|[]]. rewrite (Hmono _ V') in V. discriminate. }
        subst new. cbn [length]. assert (unvisited (q :: vis) <= unvisited vis)%nat; [|lia]. unfold unvisited. apply filter_length_le. intros x. cbn [existsb].
        destruct (x =? q)%nat, (existsb (Nat.eqb x) vis); auto.
      * pose proof (unvisited_lt q vis (si_bound _ _ _ Hi q (or_introl eq_refl)) Hv). lia.
  - destruct (si_reach _ _ _ Hi None (or_introl eq_refl)) as (v & Hv & R). exists v. split; [exact Hv|]. unfold reported. rewrite R. reflexivity.
Qed.
Lemma any_string_start q fuel : (q < n)%nat -> (257 * n + 1 < fuel)%nat ->
  match any_string_loop fuel c [] [Some q] with
  | Ret true => forall v, nondelim c v -> reported d q v <> []
  | Ret false => exists v, nondelim c v /\ reported d q v = []
  | UB | Throw | OutOfFuel => False
  end.
Proof.
  intros Hq Hf. apply any_string_spec.
  - constructor.
    + intros o [<-|[]]. exists []. split; [intros b []|reflexivity].
    + intros x [[= <-]|[]]. exact Hq.
    + right. left. reflexivity.
    + intros x [].
    + intros x s1 s2 [].
    + intros x [].
  - assert (X : forall (f : nat -> bool) l, (length (filter f l) <= length l)%nat).
    { intros f l. induction l as [|x l IHl]; cbn [filter length]; [lia|]. destruct (f x); cbn [length]; lia. }
    unfold unvisited. pose proof (X (fun q => negb (existsb (Nat.eqb q) [])) (seq 0 n)) as Y. rewrite seq_length in Y. cbn [length]. lia.
Qed.
End Search.

(** ** The scan *)
Section Scan.
Context (c : lexcfg) (t : list N) (k : sid) (nst : nat).
Hypothesis Hwf : wf_cfg c.
Hypothesis Hst : states (c_dfa c) nst.
Let d := c_dfa c.

(** [q0]: the state in which reading began. A match recorded at the current position means that the current state is accepting. *)
Record winv (q0 q : nat) (l : lex) (b : ibuf) : Prop := {
  wi_buf : static_buf t k b;
  wi_full : ib_full b = false;
  wi_last : l_last_match_pos l = 0;
  wi_start : l_start_pos l = 0;
  wi_run : run d q0 (sub t 0 (ib_pos b)) = Some q;
  wi_state : (q < nst)%nat;
  wi_line : l_line l = newlines t (ib_pos b);
  wi_lastline : l_last_match_line l = 0;
  wi_match : l_match l = true -> l_match_pos l < ib_pos b \/ l_match_pos l = ib_pos b /\ d_ids d q <> []
}.
(** What the search must return for the text [t] read from [q0]. *)
Definition answer (q0 : nat) (wildcard : N) (typed : Prop) (r : scan_res) : Prop :=
  match r with
  | Ret (Some tok, _, _) => run d q0 t <> None /\ t_start tok = 0 /\ t_end tok = len t /\ t_sid tok = k /\
      (typed /\ reported d q0 t <> [] /\ t_ids tok = Some (reported d q0 t) /\ t_line tok = newlines t (len t) \/
       ~ (typed /\ reported d q0 t <> []) /\ t_ids tok = cTokenUncaughtStringTypes /\ t_line tok = 0)
  | UB => run d q0 t = None \/ wildcard = cQuestion /\ exists x, x < 256 /\ run d q0 (t ++ [x]) = None
  | _ => False
  end.
Lemma run_prefix q0 p : p <= len t -> run d q0 (sub t 0 p) = None -> run d q0 t = None.
Proof. intros Hp H. rewrite <- (sub_full t). rewrite (sub_app t 0 p (len t)) by lia. rewrite run_app, H. reflexivity. Qed.

Lemma wild_loop_spec wildcard q0 wfuel : (257 * nst + 1 < wfuel)%nat ->
  (forall p, byte_at t p = Some cNewline -> p = 0 /\ q0 = d_root) ->
  forall fuel q l b, winv q0 q l b -> len t - ib_pos b < N.of_nat fuel ->
  answer q0 wildcard (if wildcard =? cQuestion then forall x, x < 256 -> reported d q0 (t ++ [x]) <> []
                      else if wildcard =? cStar then forall v, nondelim c v -> reported d q0 (t ++ v) <> [] else True)
    (wild_loop fuel wfuel c wildcard q l b).
Proof.
  intros Hw Hnl. induction fuel as [|fuel IH]; intros q l b Hi Hf; [lia|]. cbn [wild_loop].
  pose proof (sb_pos _ _ _ (wi_buf _ _ _ _ Hi)) as Hp.
  destruct (N.eq_dec (ib_pos b) (len t)) as [He|He].
  - rewrite (gnc_end _ _ b (wi_buf _ _ _ _ Hi) He). change (ib_full (ib_set_full b true)) with true.
    change (cCharEOF =? cNewline) with false. cbn [bind]. rewrite orb_true_r. cbn [orb andb].
    pose proof (wi_run _ _ _ _ Hi) as R. rewrite He, sub_full in R.
    assert (Rr : reported d q0 t = d_ids d q) by (unfold reported; rewrite R; reflexivity).
    assert (Rv : forall v, reported d q0 (t ++ v) = reported d q v) by (intros v; unfold reported; rewrite run_app, R; reflexivity).
    fold d. change (ib_pos (ib_set_full b true)) with (ib_pos b). destruct (is_accepting d q) eqn:A.
    + pose proof (proj1 (is_accepting_spec _ _) A) as A'.
      cbn [lex_set_match l_match l_match_pos l_last_match_pos l_last_match_line negb orb]. rewrite N.eqb_refl. cbn [negb].
      assert (Typed : forall P b2 l2, answer q0 wildcard P (Ret (Some (mk_tok (ib_set_pos (ib_set_full b true) (ib_pos b)) (l_start_pos l) (ib_pos b) (l_line l) (Some (d_ids d q))), l2, b2)) <-> P).
      { intros P b2 l2. unfold answer, mk_tok. cbn [t_start t_end t_sid t_ids t_line ib_active ib_set_pos ib_set_full]. rewrite (wi_start _ _ _ _ Hi), He, (sb_active _ _ _ (wi_buf _ _ _ _ Hi)), R, Rr, (wi_line _ _ _ _ Hi), He.
        split; [|intros HP; split; [discriminate|]; split; [reflexivity|]; split; [reflexivity|]; split; [reflexivity|left; auto]].
        intros (_ & _ & _ & _ & [(X & _)|(_ & X & _)]); [exact X|exfalso]. unfold cTokenUncaughtStringTypes in X. injection X as X.
        pose proof (wf_ids _ Hwf q TokenUncaughtString) as Y. fold d in Y. rewrite X in Y. destruct (Y (or_introl eq_refl)) as (_ & Z). apply Z. reflexivity. }
      assert (Static : forall P : Prop, ~ P -> answer q0 wildcard P (Ret (Some (mk_tok (ib_set_full b true) (l_last_match_pos l) (ib_pos b) (l_last_match_line l) cTokenUncaughtStringTypes), lex_set_match l (d_ids d q) (ib_pos b) (l_line l), ib_set_full b true))).
      { intros P HP. unfold answer, mk_tok. cbn [t_start t_end t_sid t_ids t_line ib_active ib_set_pos ib_set_full]. rewrite (wi_last _ _ _ _ Hi), He, (sb_active _ _ _ (wi_buf _ _ _ _ Hi)), R, (wi_lastline _ _ _ _ Hi).
        split; [discriminate|]. split; [reflexivity|]. split; [reflexivity|]. split; [reflexivity|]. right. split; [tauto|auto]. }
      destruct (wildcard =? cQuestion) eqn:Q.
      * pose proof (any_byte_spec c q all_bytes) as X. fold d in X. destruct (any_byte_loop d q all_bytes) as [[|]| | |]; cbn [bind].
        -- apply Typed. intros x Hx. rewrite Rv. apply X, all_bytes_in, Hx.
        -- apply Static. intros Y. destruct X as (x & Hx & X). apply all_bytes_in in Hx. rewrite <- Rv in X. exact (Y x Hx X).
        -- right. split; [apply N.eqb_eq; exact Q|]. destruct X as (x & Hx & X). apply all_bytes_in in Hx. exists x. split; [exact Hx|]. rewrite run_app, R. exact X.
        -- exact X.
        -- exact X.
      * destruct (wildcard =? cStar).
        -- pose proof (any_string_start c nst Hst q wfuel (wi_state _ _ _ _ Hi) Hw) as X. fold d in X. destruct (any_string_loop wfuel c [] [Some q]) as [[|]| | |]; cbn [bind].
           ++ apply Typed. intros v Hv. rewrite Rv. apply X, Hv.
           ++ apply Static. intros Y. destruct X as (v & Hv & X). rewrite <- Rv in X. exact (Y v Hv X).
           ++ destruct X.
           ++ destruct X.
           ++ destruct X.
        -- cbn [bind]. apply Typed. exact I.
    + assert (A' : d_ids d q = []) by (unfold is_accepting in A; destruct (d_ids d q); [reflexivity|discriminate]).
      assert (G : negb (l_match l) || negb (l_match_pos l =? ib_pos b) = true).
      { destruct (l_match l) eqn:M; [|reflexivity]. destruct (wi_match _ _ _ _ Hi M) as [X|(_ & X)]; [|congruence]. cbn [negb orb]. destruct (N.eqb_spec (l_match_pos l) (ib_pos b)); [lia|reflexivity]. }
      rewrite G. unfold answer, mk_tok. cbn [t_start t_end t_sid t_ids t_line ib_active ib_set_full]. rewrite (wi_last _ _ _ _ Hi), He, (sb_active _ _ _ (wi_buf _ _ _ _ Hi)), R, Rr, (wi_lastline _ _ _ _ Hi).
      split; [discriminate|]. split; [reflexivity|]. split; [reflexivity|]. split; [reflexivity|]. right. split; [intros (_ & X); congruence|auto].
  - assert (Hlt : ib_pos b < len t) by lia. destruct (byte_at_some t _ Hlt) as (x & Hx). rewrite (gnc_byte _ _ b x (wi_buf _ _ _ _ Hi) Hx).
    change (ib_full (ib_set_pos b (ib_pos b + 1))) with (ib_full b). rewrite (wi_full _ _ _ _ Hi).
    assert (Hb' : static_buf t k (ib_set_pos b (ib_pos b + 1))).
    { eapply static_move; [exact (wi_buf _ _ _ _ Hi)|apply same_frame_set_pos|cbn; lia|]. cbn. rewrite (wi_full _ _ _ _ Hi). discriminate. }
    assert (Rn : run d q0 (sub t 0 (ib_pos b + 1)) = d_next d q x).
    { rewrite (sub_snoc t 0 (ib_pos b) x ltac:(lia) Hx), run_snoc, (wi_run _ _ _ _ Hi). reflexivity. }
    pose proof (newlines_snoc t (ib_pos b) x Hx) as Ln.
    set (l1 := if (c_delim c x || false || negb (c_has_delims c)) && is_accepting (c_dfa c) q then lex_set_match l (d_ids (c_dfa c) q) (ib_pos b) (l_line l) else l).
    assert (F1 : l_last_match_pos l1 = 0 /\ l_start_pos l1 = 0 /\ l_line l1 = newlines t (ib_pos b) /\ l_last_match_line l1 = 0 /\ (l_match l1 = true -> l_match_pos l1 < ib_pos b + 1)).
    { unfold l1. pose proof (wi_last _ _ _ _ Hi). pose proof (wi_start _ _ _ _ Hi). pose proof (wi_line _ _ _ _ Hi). pose proof (wi_lastline _ _ _ _ Hi). pose proof (wi_match _ _ _ _ Hi) as M.
      destruct (_ && _); cbn; repeat split; auto; try lia; intros E; specialize (M E); lia. }
    clearbody l1. destruct F1 as (F1 & F2 & F3 & F4 & F5).
    set (b1 := ib_set_pos b (ib_pos b + 1)) in *. assert (P1 : ib_pos b1 = ib_pos b + 1) by reflexivity. assert (U1 : ib_full b1 = false) by exact (wi_full _ _ _ _ Hi).
    assert (Go : forall n l3, d_next d q x = Some n -> l_last_match_pos l3 = 0 -> l_start_pos l3 = 0 -> l_line l3 = newlines t (ib_pos b + 1) -> l_last_match_line l3 = 0 ->
      (l_match l3 = true -> l_match_pos l3 < ib_pos b + 1 \/ l_match_pos l3 = ib_pos b + 1 /\ d_ids d n <> []) -> winv q0 n l3 b1).
    { intros n l3 En G1 G2 G3 G4 G5. constructor; rewrite ?P1; auto; [rewrite Rn; exact En|exact (proj2 Hst _ _ _ En)]. }
    assert (Stop : d_next d q x = None -> run d q0 t = None) by (intros E; apply (run_prefix q0 (ib_pos b + 1)); [lia|rewrite Rn; exact E]).
    destruct (N.eqb_spec x cNewline) as [->|Hne].
    + destruct (Hnl _ Hx) as (P0 & ->). pose proof (wi_run _ _ _ _ Hi) as R0. rewrite P0 in R0. rewrite sub_nil in R0. cbn [run] in R0. injection R0 as <-.
      rewrite (wf_delims _ Hwf). cbn [andb]. destruct (wf_newline _ Hwf) as (qn & En & An). fold d in En, An. change (l_match (lex_inc_line l1)) with (l_match l1). destruct (l_match l1) eqn:M; cbn [negb bind].
      * fold d. rewrite En. apply IH; [|lia]. apply Go; [exact En| | | | |]; cbn; auto; try congruence.
      * fold d. rewrite En. cbn [bind]. apply IH; [|lia]. apply Go; [exact En| | | | |]; cbn; auto; congruence.
    + cbn [bind]. fold d. destruct (d_next d q x) as [n|] eqn:En.
      * apply IH; [|lia]. apply Go; auto. rewrite F3, Ln. lia.
      * left. apply Stop. reflexivity.
Qed.
End Scan.
