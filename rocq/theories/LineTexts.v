(** LineTexts.v -- the texts of the messages of LineModel.v are those that LineSpec.v describes. *)
From Verif Require Import Base SerializeModel SchemaSplit LineModel LineSpec.
From Coq Require Import Decimal DecimalFacts DecimalNat DecimalPos DecimalN.
Local Open Scope list_scope.
Local Open Scope N_scope.
Lemma of_uint_acc_value u : forall acc, N.pos (Pos.of_uint_acc u acc) = fold_left (fun v d => 10 * v + (d - 48)) (uint_codes u) (N.pos acc).
Proof. induction u as [|u IH|u IH|u IH|u IH|u IH|u IH|u IH|u IH|u IH|u IH]; intros acc; cbn [Pos.of_uint_acc uint_codes fold_left]; [reflexivity|..]; rewrite IH; f_equal; lia. Qed.
Lemma of_uint_value u : N.of_uint u = fold_left (fun v d => 10 * v + (d - 48)) (uint_codes u) 0.
Proof.
  unfold N.of_uint. induction u as [|u IH|u IH|u IH|u IH|u IH|u IH|u IH|u IH|u IH|u IH]; cbn [Pos.of_uint uint_codes fold_left]; [reflexivity|exact IH|..];
  exact (of_uint_acc_value _ _).
Qed.
Lemma nzhead_no_zero u v : nzhead u <> D0 v.
Proof. induction u; cbn; congruence. Qed.
Lemma dec_decimal n : LineSpec.decimal (dec n) n.
Proof.
  unfold LineSpec.decimal, dec. pose proof (DecimalN.Unsigned.of_to n) as E. pose proof (DecimalN.Unsigned.to_of (N.to_uint n)) as E2. rewrite E in E2.
  rewrite of_uint_value in E. split; [|split; [|split; [exact E|]]].
  - destruct (N.to_uint n); discriminate.
  - generalize (N.to_uint n). intros u. induction u; cbn [uint_codes]; constructor; try assumption; lia.
  - intros t Ht. destruct (N.to_uint n) as [|u|u|u|u|u|u|u|u|u|u]; try discriminate Ht. cbn [uint_codes] in Ht. injection Ht as <-.
    unfold unorm in E2. pose proof (nzhead_no_zero (D0 u) u) as Hz. destruct (nzhead (D0 u)); congruence || (injection E2 as ->; reflexivity).
Qed.
Lemma read_line_spec f : let (l, r) := read_line f in ~ In 10 l /\ ((f = l /\ r = []) \/ f = l ++ 10 :: r).
Proof.
  induction f as [|b f IH]; cbn [read_line]; [split; [intros []|now left]|]. destruct (N.eqb_spec b 10) as [-> | Hb]; [split; [intros []|now right]|].
  destruct (read_line f) as [l r]. destruct IH as (H1 & H2). split; [intros [E | H]; [now apply Hb|now apply H1]|].
  destruct H2 as [(-> & ->) | ->]; [now left|now right].
Qed.
Lemma newlines_cons a b : newlines (a ++ b) = newlines a + newlines b.
Proof. unfold newlines. rewrite filter_app, app_length. lia. Qed.
Lemma newlines_none l : ~ In 10 l -> newlines l = 0.
Proof.
  induction l as [|x l IH]; intros H; [reflexivity|]. unfold newlines in *. cbn [filter]. destruct (N.eqb_spec 10 x) as [E | _]; [exfalso; apply H; now left|].
  apply IH. intros Hi. apply H. now right.
Qed.
Lemma last_read_spec n : forall f, line_of f (N.of_nat n) (last_read n f).
Proof.
  induction n as [|n IH]; intros f; cbn [last_read]; pose proof (read_line_spec f) as R; destruct (read_line f) as [l r]; cbn [fst snd]; destruct R as (R1 & R2).
  - left. destruct R2 as [(-> & ->) | ->].
    + exists [], []. rewrite List.app_nil_r. split; [reflexivity|]. split; [reflexivity|]. split; [exact R1|]. split; now left.
    + exists [], (10 :: r). split; [reflexivity|]. split; [reflexivity|]. split; [exact R1|]. split; [now left|right; now exists r].
  - destruct R2 as [(-> & ->) | ->].
    + right. rewrite (newlines_none l R1). split; [lia|]. clear. induction n as [|n IH]; [reflexivity|exact IH].
    + destruct (IH r) as [(a & z & E & Ha & Hl & Hs & Hz) | (Hlt & E)].
      * left. exists (l ++ 10 :: a), z. split; [rewrite E at 1; now rewrite <- !List.app_assoc|]. split; [|split; [exact Hl|split; [|exact Hz]]].
        -- rewrite newlines_cons, (newlines_none l R1). change (10 :: a) with ([10] ++ a). rewrite newlines_cons, Ha. change (newlines [10]) with 1. lia.
        -- right. destruct Hs as [-> | (a' & ->)]; [now exists l|]. exists (l ++ 10 :: a'). now rewrite <- List.app_assoc.
      * right. split; [|exact E]. rewrite newlines_cons, (newlines_none l R1). change (10 :: r) with ([10] ++ r). rewrite newlines_cons. change (newlines [10]) with 1. lia.
Qed.
Lemma colon_pos_spec l : exists front back, l = front ++ back /\ colon_pos l = List.length front /\
  ((exists f, front = f ++ [58] /\ ~ In 58 f) \/ (~ In 58 front /\ back = [])).
Proof.
  induction l as [|b l IH]; cbn [colon_pos].
  - exists [], []. split; [reflexivity|]. split; [reflexivity|]. right. split; [intros []|reflexivity].
  - destruct (N.eqb_spec b 58) as [-> | Hb].
    + exists [58], l. split; [reflexivity|]. split; [reflexivity|]. left. exists []. split; [reflexivity|intros []].
    + destruct IH as (front & back & E & El & Hc). exists (b :: front), back. split; [now rewrite E at 1|]. split; [cbn; now rewrite El|].
      destruct Hc as [(f & -> & Hf) | (Hf & ->)].
      * left. exists (b :: f). split; [reflexivity|]. intros [E2 | H]; [now apply Hb|now apply Hf].
      * right. split; [|reflexivity]. intros [E2 | H]; [now apply Hb|now apply Hf].
Qed.
Lemma quoted_underlines l : underlines (quoted l) l.
Proof.
  destruct (colon_pos_spec l) as (front & back & E & El & Hc). exists front, back. split; [exact E|]. split; [exact Hc|]. unfold quoted. rewrite El.
  assert (Eb : (List.length l - List.length front = List.length back)%nat) by (rewrite E, app_length; lia). rewrite Eb. reflexivity.
Qed.
Lemma delimiter_blames path file line name d : blames path file (delimiter_message path file line name d) (line + 1) name d.
Proof.
  exists (dec (line + 1)), (match file with None => [] | Some content => quoted (last_read (N.to_nat line) content) end).
  split; [apply dec_decimal|]. split; [reflexivity|]. destruct file as [content|]; [|reflexivity].
  exists (last_read (N.to_nat line) content). split; [|apply quoted_underlines].
  replace (line + 1 - 1) with (N.of_nat (N.to_nat line)) by lia. apply last_read_spec.
Qed.
Lemma no_delimiters_blames : blames_schema no_delimiters_message.
Proof. reflexivity. Qed.
