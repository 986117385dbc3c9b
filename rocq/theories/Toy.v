(** Toy.v -- a small concrete configuration used in non-vacuity examples and counterexamples:
    delimiters newline, space and 0xFD; a timestamp pattern "T"; one variable of id 8 made of digits. It is
    what LogParser::add_rules + generate would build for
      timestamp:T
      num:[0-9]+  (with the delimiters header)                                                        *)
From Verif Require Import Base LexerModel LexerSpec LogParserModel EventSpec StreamModel.

Definition is_digit (x : N) : bool := (48 <=? x) && (x <=? 57).
Definition toy_next (q : nat) (x : N) : option nat :=
  match q with
  | 0%nat => if x =? 253 then Some 1%nat else if x =? 10 then Some 2%nat else if x =? 32 then Some 3%nat else None
  | 1%nat => if x =? 84 then Some 4%nat else if is_digit x then Some 5%nat else None
  | 2%nat => if x =? 84 then Some 6%nat else if is_digit x then Some 5%nat else None
  | 3%nat => if is_digit x then Some 5%nat else None
  | 5%nat => if is_digit x then Some 5%nat else None
  | _ => None
  end.
Definition toy_ids (q : nat) : list N :=
  match q with
  | 2%nat => [TokenNewline] | 4%nat => [TokenFirstTimestamp] | 5%nat => [8] | 6%nat => [TokenNewlineTimestamp]
  | _ => []
  end.
Definition toy_delim (x : N) : bool := (x =? 10) || (x =? 32) || (x =? 253).
Definition toy : lexcfg := mkCfg (mkDfa toy_next toy_ids) toy_delim true.
Definition toy_nsym : N := 9.

(** Text in a buffer with one extra readable byte. *)
Definition buf_of (t : list N) : mem :=
  fun p => if p =? len t then Some 0 else byte_at t p.
(** Text in a buffer of exactly its size. *)
Definition exact_buf (t : list N) : mem := byte_at t.

Lemma buf_of_holds t : holds (buf_of t) t.
Proof.
  unfold holds, buf_of. split.
  - intros p Hp. destruct (N.eqb_spec p (len t)); [lia|reflexivity].
  - exists 0. rewrite N.eqb_refl. reflexivity.
Qed.
Lemma bp_init_idle nsym : idle nsym (bp_init nsym).
Proof. split; [reflexivity|]. cbn. apply repeat_length. Qed.

Lemma toy_ids_cases q i : In i (toy_ids q) ->
  (q = 2%nat /\ i = TokenNewline) \/ (q = 4%nat /\ i = TokenFirstTimestamp) \/ (q = 5%nat /\ i = 8) \/
  (q = 6%nat /\ i = TokenNewlineTimestamp).
Proof.
  destruct q as [|[|[|[|[|[|[|q]]]]]]]; cbn; intros H; try contradiction; destruct H as [<-|[]]; auto 10.
Qed.

(** What the toy DFA has read in each state. *)
Definition toy_inv (w : list N) (q : nat) : Prop :=
  match q with
  | 0%nat => w = []
  | 1%nat => w = [253] | 2%nat => w = [10] | 3%nat => w = [32]
  | 4%nat => w = [253; 84]
  | 5%nat => exists x v, w = x :: v /\ toy_delim x = true /\ Forall (fun y => is_digit y = true) v
  | 6%nat => w = [10; 84]
  | _ => False
  end.
Lemma toy_run_inv v : forall w q q', toy_inv w q -> run (c_dfa toy) q v = Some q' -> toy_inv (w ++ v) q'.
Proof.
  induction v as [|x v IH]; intros w q q' Hi Hr.
  - injection Hr as <-. rewrite app_nil_r. exact Hi.
  - cbn [run] in Hr. destruct (d_next (c_dfa toy) q x) as [q1|] eqn:E; [|discriminate].
    replace (w ++ x :: v) with ((w ++ [x]) ++ v) by (rewrite <- app_assoc; reflexivity).
    apply (IH _ q1); [|exact Hr]. clear IH Hr. cbn [toy c_dfa d_next] in E. unfold toy_next in E.
    destruct q as [|[|[|[|[|[|[|q]]]]]]]; cbn [toy_inv] in Hi; try discriminate.
    + subst w. destruct (N.eqb_spec x 253) as [->|]; [injection E as <-; reflexivity|].
      destruct (N.eqb_spec x 10) as [->|]; [injection E as <-; reflexivity|].
      destruct (N.eqb_spec x 32) as [->|]; [injection E as <-; reflexivity|]. discriminate.
    + subst w. destruct (N.eqb_spec x 84) as [->|]; [injection E as <-; reflexivity|].
      destruct (is_digit x) eqn:Ed; [|discriminate]. injection E as <-. exists 253, [x]. auto.
    + subst w. destruct (N.eqb_spec x 84) as [->|]; [injection E as <-; reflexivity|].
      destruct (is_digit x) eqn:Ed; [|discriminate]. injection E as <-. exists 10, [x]. auto.
    + subst w. destruct (is_digit x) eqn:Ed; [|discriminate]. injection E as <-. exists 32, [x]. auto.
    + destruct Hi as (y & u & -> & Hy & Hu).
      destruct (is_digit x) eqn:Ed; [|discriminate]. injection E as <-. exists y, (u ++ [x]).
      split; [reflexivity|]. split; [exact Hy|]. apply Forall_app. auto.
Qed.
Lemma toy_reported w i : In i (reported (c_dfa toy) d_root w) ->
  (w = [10] /\ i = TokenNewline) \/ (w = [253; 84] /\ i = TokenFirstTimestamp) \/
  (w = [10; 84] /\ i = TokenNewlineTimestamp) \/
  (i = 8 /\ exists x v, w = x :: v /\ toy_delim x = true /\ Forall (fun y => is_digit y = true) v).
Proof.
  unfold reported. destruct (run (c_dfa toy) d_root w) as [q'|] eqn:E; [|contradiction].
  pose proof (toy_run_inv w [] d_root q' eq_refl E) as Hi. cbn in Hi. intros H.
  apply toy_ids_cases in H as [[-> ->]|[[-> ->]|[[-> ->]|[-> ->]]]]; cbn in Hi; auto 10.
Qed.

Lemma toy_usable : usable toy toy_nsym.
Proof.
  constructor.
  - constructor.
    + reflexivity.
    + reflexivity.
    + intros q i H. apply toy_ids_cases in H as [[_ ->]|[[_ ->]|[[_ ->]|[_ ->]]]]; split; discriminate.
    + intros w H. apply toy_reported in H as [[-> H]|[[-> H]|[[-> H]|[H _]]]]; try discriminate. eexists; reflexivity.
    + exists 2%nat. split; [reflexivity|discriminate].
  - exists 1%nat. reflexivity.
  - intros q i H. apply toy_ids_cases in H as [[_ ->]|[[_ ->]|[[_ ->]|[_ ->]]]]; vm_compute; reflexivity.
  - vm_compute; reflexivity.
Qed.

Lemma toy_newline_free : newline_free toy.
Proof.
  constructor.
  - reflexivity.
  - intros w H. apply toy_reported in H as [[-> H]|[[-> H]|[[-> H]|[H _]]]]; try discriminate. reflexivity.
  - intros w H. apply toy_reported in H as [[-> H]|[[-> H]|[[-> H]|[H _]]]]; try discriminate. eexists; reflexivity.
  - reflexivity.
  - intros w i H Hi1 Hi2. apply toy_reported in H as [[-> ->]|[[-> ->]|[[-> ->]|[-> (x & v & -> & _ & Hv)]]]];
      try contradiction; cbn.
    + tauto.
    + intros Hin. rewrite Forall_forall in Hv. specialize (Hv _ Hin). discriminate.
Qed.

(** Loop bounds for texts of up to 100 bytes. *)
Lemma enough_100 t : len t < 100 -> enough t 102 102 210.
Proof. intros H. constructor; lia. Qed.
