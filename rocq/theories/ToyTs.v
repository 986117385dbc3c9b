(** ToyTs.v -- like Toy.v, but the timestamp pattern is "T 1:", which contains a delimiter; and the Toy
    configuration with the newline removed from the delimiters. *)
From Verif Require Import Base LexerModel LexerSpec LogParserModel EventSpec StreamModel Toy.

Definition tts_next (q : nat) (x : N) : option nat :=
  match q with
  | 0%nat => if x =? 253 then Some 1%nat else if x =? 10 then Some 2%nat else if x =? 32 then Some 3%nat else None
  | 1%nat => if x =? 84 then Some 4%nat else if is_digit x then Some 5%nat else None
  | 2%nat => if x =? 84 then Some 10%nat else if is_digit x then Some 5%nat else None
  | 3%nat => if is_digit x then Some 5%nat else None
  | 5%nat => if is_digit x then Some 5%nat else None
  | 4%nat => if x =? 32 then Some 7%nat else None
  | 7%nat => if x =? 49 then Some 8%nat else None
  | 8%nat => if x =? 58 then Some 9%nat else None
  | 10%nat => if x =? 32 then Some 11%nat else None
  | 11%nat => if x =? 49 then Some 12%nat else None
  | 12%nat => if x =? 58 then Some 13%nat else None
  | _ => None
  end.
Definition tts_ids (q : nat) : list N :=
  match q with
  | 2%nat => [TokenNewline] | 9%nat => [TokenFirstTimestamp] | 5%nat => [8] | 13%nat => [TokenNewlineTimestamp]
  | _ => []
  end.
Definition tts : lexcfg := mkCfg (mkDfa tts_next tts_ids) toy_delim true.

Lemma tts_ids_cases q i : In i (tts_ids q) ->
  (q = 2%nat /\ i = TokenNewline) \/ (q = 9%nat /\ i = TokenFirstTimestamp) \/ (q = 5%nat /\ i = 8) \/
  (q = 13%nat /\ i = TokenNewlineTimestamp).
Proof.
  do 14 (destruct q as [|q]; [cbn; intros H; try contradiction; destruct H as [<-|[]]; auto 10|]).
  cbn. contradiction.
Qed.
Definition tts_inv (w : list N) (q : nat) : Prop :=
  match q with
  | 0%nat => w = [] | 2%nat => w = [10]
  | 10%nat | 11%nat | 12%nat | 13%nat => exists v, w = 10 :: v
  | _ => True
  end.
Lemma tts_run_inv v : forall w q q', tts_inv w q -> run (c_dfa tts) q v = Some q' -> tts_inv (w ++ v) q'.
Proof.
  induction v as [|x v IH]; intros w q q' Hi Hr.
  - injection Hr as <-. rewrite app_nil_r. exact Hi.
  - cbn [run] in Hr. destruct (d_next (c_dfa tts) q x) as [q1|] eqn:E; [|discriminate].
    replace (w ++ x :: v) with ((w ++ [x]) ++ v) by (rewrite <- app_assoc; reflexivity).
    apply (IH _ q1); [|exact Hr]. clear IH Hr. cbn [tts c_dfa d_next] in E. unfold tts_next in E.
    do 13 (destruct q as [|q];
      [cbn [tts_inv] in Hi;
       repeat match type of E with (if ?b then _ else _) = _ => destruct b eqn:? end; try discriminate;
       injection E as <-; cbn [tts_inv]; try exact I;
       try (destruct Hi as (u & ->); eexists; reflexivity);
       subst w; try (eexists; reflexivity);
       match goal with H : (x =? _) = true |- _ => apply N.eqb_eq in H; subst x; reflexivity end|]).
    discriminate.
Qed.
Lemma tts_usable : usable tts toy_nsym.
Proof.
  constructor.
  - constructor.
    + reflexivity.
    + reflexivity.
    + intros q i H. apply tts_ids_cases in H as [[_ ->]|[[_ ->]|[[_ ->]|[_ ->]]]]; split; discriminate.
    + intros w. unfold reported. destruct (run (c_dfa tts) d_root w) as [q'|] eqn:E; [|contradiction].
      pose proof (tts_run_inv w [] d_root q' eq_refl E) as Hi. cbn [app] in Hi. intros H.
      apply tts_ids_cases in H as [[-> H]|[[-> H]|[[-> H]|[-> H]]]]; try discriminate. exact Hi.
    + exists 2%nat. split; [reflexivity|discriminate].
  - exists 1%nat. reflexivity.
  - intros q i H. apply tts_ids_cases in H as [[_ ->]|[[_ ->]|[[_ ->]|[_ ->]]]]; vm_compute; reflexivity.
  - vm_compute; reflexivity.
Qed.

(** The Toy DFA with only the space and 0xFD as delimiters. *)
Definition toy_nonl : lexcfg := mkCfg (c_dfa toy) (fun x => (x =? 32) || (x =? 253)) true.
Lemma toy_nonl_usable : usable toy_nonl toy_nsym.
Proof.
  destruct toy_usable as [[H1 H2 H3 H4 H5] H6 H7 H8].
  constructor; [constructor|..]; assumption.
Qed.
