(** SchemaLines.v -- what the lexer of a schema does at line starts: the hypotheses [one_line], [no_timestamps] and [starts_alike]
    of the theorems about ReaderParser and about logs in pieces, for parsers built from a schema. *)
From Verif Require Import Base LexerModel LexerSpec LogParserModel EventSpec RegexModel RegexSpec RegexProofs RegexLang DfaModel DfaProofs DfaExact ReaderSpec
  SchemaModel SchemaSpec SchemaProofs SchemaPaths SchemaUsable SchemaWords PieceSpec.
From Coq Require Import String Permutation.
Local Open Scope list_scope.

(** The newline is a delimiter, and no timestamp pattern mentions it ('.' in a timestamp pattern does: delimiters are not
    removed from it). *)
Record line_schema (sc : schema) : Prop := {
  ls_delim : exists front lst, sc_delims sc = front ++ [lst] /\ In cNewline lst;
  ls_stamp : forall r, In (cTimestamp, r) (sc_vars sc) -> wild_plain r /\ ~ mentions (fun _ => false) r cNewline
}.

Lemma possible_some r b : wild_plain r -> possible r b = true -> mentions (fun _ => false) r b.
Proof.
  induction r as [|c|l|wc neg rs|l IHl r IHr|l IHl r IHr|r IH mn mx|r IH t]; cbn [wild_plain possible mentions]; intros Hw H.
  - discriminate.
  - apply N.eqb_eq in H. congruence.
  - apply existsb_exists in H as (d & H1 & H2). apply N.eqb_eq in H2. exists d. auto.
  - destruct wc; [rewrite (Hw eq_refl); reflexivity|]. unfold group_has. pose proof (in_rangesb_spec rs b) as X.
    destruct neg; [|apply X; exact H]. apply negb_true_iff, not_true_iff_false in H. tauto.
  - apply orb_true_iff in H. tauto.
  - apply orb_true_iff in H. tauto.
  - auto.
  - auto.
Qed.

Section Built.
Variables (sc : schema) (g : logparser) (p : prepared) (A : nfa) (ds : list N) (ns : list string).
Hypothesis HB : built sc g p A ds ns.
Hypothesis HL : legal sc.
Hypothesis HN : line_schema sc.
Let c := lg_cfg g.

Lemma b_nl : c_delim c cNewline = true.
Proof.
  destruct (ls_delim _ HN) as (front & lst & E & Hi). destruct (b_last _ _ _ _ _ _ HB) as (fr & l2 & E2 & Hcd & _).
  rewrite E in E2. apply app_inj_tail in E2 as (_ & <-). apply Hcd. auto.
Qed.
Theorem b_one_line : one_line c.
Proof.
  intros [|x v] q Hr Hi; [destruct Hi|]. cbn [tl] in Hi. apply (b_run _ _ _ _ _ _ HB HL) in Hr as (i & r & Hk & Hm).
  destruct Hk as [|r H|r H|name r i H Hne E]; cbn [may_read] in Hm.
  - destruct Hm as (_ & ->). destruct Hi.
  - destruct (ls_stamp _ HN r H) as (W & Hno). apply Hno. apply possible_some; [exact W|]. apply Hm. exact Hi.
  - destruct (ls_stamp _ HN r H) as (W & Hno). apply Hno. apply possible_some; [exact W|]. apply Hm. exact Hi.
  - destruct Hm as (_ & Hv). specialize (Hv _ Hi). rewrite (b_no_delim _ _ _ _ _ _ HB name r _ H Hne b_nl) in Hv. discriminate.
Qed.

(** The same rules match after a newline and after the start-of-file character. *)
Lemma group_any r x w : c_delim c x = true -> img (full (RCat (group_of ds) r)) (x :: w) <-> img (full r) w.
Proof.
  intro Hx. rewrite img_full_first by exact I. split.
  - intros (y & v & [= <- <-] & _ & _ & Hv). exact Hv.
  - intros Hv. exists x, w. split; [reflexivity|]. pose proof (b_delim_lt _ _ _ _ _ _ HB x Hx). split; [|auto].
    apply group_of_first; [unfold cSizeOfByte, cUnicodeMax in *; lia|]. apply (b_delims _ _ _ _ _ _ HB). exact Hx.
Qed.
Lemma lit_same r x w : x < cSizeOfByte -> img (full (RCat (RLit x) r)) (x :: w) <-> img (full r) w.
Proof.
  intro Hx. rewrite img_full_first by exact I. split.
  - intros (y & v & [= <- <-] & _ & _ & Hv). exact Hv.
  - intros Hv. exists x, w. cbn. auto.
Qed.
Lemma lit_other r x y w : x <> y -> ~ img (full (RCat (RLit x) r)) (y :: w).
Proof. intros Hx H. apply img_full_first in H as (z & v & [= <- <-] & Hz & _); [|exact I]. cbn in Hz. congruence. Qed.
Lemma nl_longer x w : w <> [] -> ~ img (full (RLit cNewline)) (x :: w).
Proof. intros Hw H. apply (img_full_byte (RLit cNewline)) in H as (z & E & _); [|exact I]. congruence. Qed.

(** In rule order. *)
Lemma starts_selected s vars w l1 l2 : w <> [] ->
  selected (fun r => img (full r) (cCharStartOfFile :: w)) (flat_map (var_rules ds s) vars) l1 ->
  selected (fun r => img (full r) (cNewline :: w)) (flat_map (var_rules ds s) vars) l2 ->
  l1 = [] /\ l2 = [] \/
  (exists i r1 r2 name r, In (name, r) vars /\ name <> cTimestamp /\ id_of (sy_id s) name = Some i /\ l1 = i :: r1 /\ l2 = i :: r2) \/
  exists r1 r2, l1 = TokenFirstTimestamp :: r1 /\ l2 = TokenNewlineTimestamp :: r2.
Proof.
  intros Hw. revert l1 l2. induction vars as [|(name & r) vars IH]; intros l1 l2 H1 H2; cbn [flat_map] in H1, H2.
  - inversion H1. inversion H2. auto.
  - assert (forall r1 r2, l1 = r1 -> l2 = r2 -> (r1 = [] /\ r2 = [] \/ (exists i q1 q2 name r, In (name, r) vars /\ name <> cTimestamp /\ id_of (sy_id s) name = Some i /\ r1 = i :: q1 /\ r2 = i :: q2) \/
        exists q1 q2, r1 = TokenFirstTimestamp :: q1 /\ r2 = TokenNewlineTimestamp :: q2) ->
      l1 = [] /\ l2 = [] \/ (exists i q1 q2 name' r', In (name', r') ((name, r) :: vars) /\ name' <> cTimestamp /\ id_of (sy_id s) name' = Some i /\ l1 = i :: q1 /\ l2 = i :: q2) \/
        exists q1 q2, l1 = TokenFirstTimestamp :: q1 /\ l2 = TokenNewlineTimestamp :: q2) as Lift.
    { intros r1 r2 -> -> [D|[(i & q1 & q2 & nm & x & D & D2)|D]]; [auto| |auto]. right. left. exists i, q1, q2, nm, x. split; [right; exact D|exact D2]. }
    unfold var_rules in H1 at 1, H2 at 1. cbn [fst snd] in H1, H2. destruct (String.eqb_spec name cTimestamp) as [->|Hne].
    + cbn [app] in H1, H2.
      assert (cCharStartOfFile < cSizeOfByte) as B1 by reflexivity. assert (cNewline < cSizeOfByte) as B2 by reflexivity.
      inversion H1 as [|i x rl il P Q|i x rl il P Q]; subst.
      * right. right. apply (proj1 (lit_same r _ w B1)) in P.
        inversion H2 as [|i x rl2 il2 P2 Q2|i x rl2 il2 P2 Q2]; subst; [contradiction (lit_other r cCharStartOfFile cNewline w ltac:(discriminate) P2)|].
        inversion Q2 as [|i x rl3 il3 P3 Q3|i x rl3 il3 P3 Q3]; subst; [eauto|]. contradiction P3. apply lit_same; [exact B2|exact P].
      * inversion Q as [|i x rl2 il2 P2 Q2|i x rl2 il2 P2 Q2]; subst; [contradiction (lit_other r cNewline cCharStartOfFile w ltac:(discriminate) P2)|].
        inversion H2 as [|i x rl3 il3 P3 Q3|i x rl3 il3 P3 Q3]; subst; [contradiction (lit_other r cCharStartOfFile cNewline w ltac:(discriminate) P3)|].
        inversion Q3 as [|i x rl4 il4 P4 Q4|i x rl4 il4 P4 Q4]; subst.
        { contradiction P. apply lit_same; [exact B1|]. exact (proj1 (lit_same r _ w B2) P4). }
        apply (Lift _ _ eq_refl eq_refl). exact (IH _ _ Q2 Q4).
    + destruct (id_of (sy_id s) name) as [j|] eqn:Ej; [|apply (Lift _ _ eq_refl eq_refl); exact (IH _ _ H1 H2)].
      cbn [app] in H1, H2. pose proof (group_any (strip_wild ds r) _ w (b_sof _ _ _ _ _ _ HB)) as G1. pose proof (group_any (strip_wild ds r) _ w b_nl) as G2.
      inversion H1 as [|i x rl il P Q|i x rl il P Q]; subst; inversion H2 as [|i x rl2 il2 P2 Q2|i x rl2 il2 P2 Q2]; subst.
      * right. left. exists j, il, il2, name, r. split; [left; reflexivity|auto].
      * contradiction P2. apply G2, G1, P.
      * contradiction P. apply G1, G2, P2.
      * apply (Lift _ _ eq_refl eq_refl). exact (IH _ _ Q Q2).
Qed.
(** In any order. *)
Lemma starts_words w : w <> [] -> reported (c_dfa c) d_root (cCharStartOfFile :: w) = [] <-> reported (c_dfa c) d_root (cNewline :: w) = [].
Proof.
  intro Hw. assert (cCharStartOfFile < cSizeOfByte) as B1 by reflexivity. assert (cNewline < cSizeOfByte) as B2 by reflexivity.
  assert (forall v, reported (c_dfa c) d_root v = [] <-> forall i, ~ In i (reported (c_dfa c) d_root v)) as X.
  { intro v. split; [intros -> i []|]. destruct (reported (c_dfa c) d_root v) as [|i l]; [auto|]. intro H. contradiction (H i). left. reflexivity. }
  rewrite !X. unfold c. split; intros H i Hi; apply (b_rep _ _ _ _ _ _ HB) in Hi as (r & Hk & Hm).
  - destruct Hk as [|r Hi|r Hi|name r i Hi Hne E]; [exact (nl_longer _ _ Hw Hm)|exact (lit_other r cCharStartOfFile cNewline w ltac:(discriminate) Hm)| |].
    + apply (H TokenFirstTimestamp). apply (b_rep _ _ _ _ _ _ HB). exists (RCat (RLit cCharStartOfFile) r). split; [constructor; exact Hi|]. apply lit_same; [exact B1|]. exact (proj1 (lit_same r _ w B2) Hm).
    + apply (H i). apply (b_rep _ _ _ _ _ _ HB). exists (RCat (group_of ds) (strip_wild ds r)). split; [apply (rk_var _ _ _ name); auto|].
      apply (group_any _ _ _ (b_sof _ _ _ _ _ _ HB)). exact (proj1 (group_any _ _ _ b_nl) Hm).
  - destruct Hk as [|r Hi|r Hi|name r i Hi Hne E]; [exact (nl_longer _ _ Hw Hm)| |exact (lit_other r cNewline cCharStartOfFile w ltac:(discriminate) Hm)|].
    + apply (H TokenNewlineTimestamp). apply (b_rep _ _ _ _ _ _ HB). exists (RCat (RLit cNewline) r). split; [constructor; exact Hi|]. apply lit_same; [exact B2|]. exact (proj1 (lit_same r _ w B1) Hm).
    + apply (H i). apply (b_rep _ _ _ _ _ _ HB). exists (RCat (group_of ds) (strip_wild ds r)). split; [apply (rk_var _ _ _ name); auto|].
      apply (group_any _ _ _ b_nl). exact (proj1 (group_any _ _ _ (b_sof _ _ _ _ _ _ HB)) Hm).
Qed.
End Built.

(** The alternatives: ids in rule order, because later states lie at higher addresses; or no string is both a timestamp and
    a variable. *)
Definition stamps_first (addr : nat -> N) (g : logparser) : Prop :=
  (forall a b, (a < b)%nat -> addr a < addr b) \/
  forall w i, In TokenFirstTimestamp (reported (c_dfa (lg_cfg g)) d_root w) -> In i (reported (c_dfa (lg_cfg g)) d_root w) -> i = TokenFirstTimestamp.

Theorem schema_starts_alike fuel addr sc g : make_parser fuel addr sc = Ret g -> legal sc -> line_schema sc ->
  (forall r, In (cTimestamp, r) (sc_vars sc) -> nullable r = false) -> stamps_first addr g -> starts_alike (lg_cfg g).
Proof.
  intros Hg HL HN Hnull Hf. pose proof Hg as Hg'. unfold make_parser in Hg'. apply bind_Ret in Hg' as (p & Hp & Hg'). apply bind_Ret in Hg' as (A & HA & Hg').
  apply bind_Ret in Hg' as (f & Hf' & Eg). destruct (make_parser_built _ _ _ _ Hg) as (p' & A' & ds & ns & HB).
  constructor; [intros w Hw; exact (starts_words _ _ _ _ _ _ HB HN w Hw)|]. intros w l E.
  assert (Hne : w <> []).
  { intros ->. assert (Hi : In TokenNewlineTimestamp (reported (c_dfa (lg_cfg g)) d_root [cNewline])) by (rewrite E; left; reflexivity).
    apply (b_rep _ _ _ _ _ _ HB) in Hi as (r & Hk & Hm). remember TokenNewlineTimestamp as i eqn:Ei. destruct Hk as [|r Hi|r Hi|name r i Hi Hn Ej]; try discriminate.
    - apply img_full_first in Hm as (x & v & [= <- <-] & _ & _ & Hv); [|exact I]. exact (img_full_nonempty r (Hnull _ Hi) Hv).
    - destruct (b_var_id _ _ _ _ _ _ HB HL _ _ _ Hi Ej) as (_ & _ & _ & X & _). congruence. }
  split; [exact Hne|]. destruct Hf as [Hmono|Hap].
  - destruct (nfa_to_dfa_reports addr (pr_rules p) A HA) as (F & HF).
    destruct (HF (Nat.max F fuel) ltac:(lia)) as (f' & Hf'' & _ & _ & Hrep).
    rewrite (nfa_to_dfa_mono _ (Nat.max F fuel) _ _ _ Hf') in Hf'' by lia. injection Hf'' as <-. injection Eg as <-. cbn [lg_cfg c_dfa] in *.
    destruct (prepare_spec sc p Hp) as (_ & ds' & ns' & Hok).
    assert (ds' = ds) as ->.
    { rewrite (po_ds _ _ _ _ Hok), (po_ds _ _ _ _ (bu_prep _ _ _ _ _ _ HB)). f_equal. rewrite <- (bu_delim _ _ _ _ _ _ HB). reflexivity. }
    destruct (Hrep (cNewline :: w)) as (i2 & S2 & _ & M2). destruct (Hrep (cCharStartOfFile :: w)) as (i1 & S1 & _ & M1).
    rewrite (M2 Hmono) in E. rewrite (M1 Hmono). rewrite (po_rules _ _ _ _ Hok) in S1, S2.
    assert (forall x (ids : list N) rules, selected (fun r => img (full r) (x :: w)) ((TokenNewline, RLit cNewline) :: rules) ids -> selected (fun r => img (full r) (x :: w)) rules ids) as Sk.
    { intros x ids rules S. inversion S as [|i r rl il P Q|i r rl il P Q]; subst; [contradiction (nl_longer _ _ Hne P)|exact Q]. }
    apply Sk in S1, S2. destruct (starts_selected _ _ _ _ _ _ HB HN _ _ _ _ _ Hne S1 S2) as [(-> & ->)|[(i & r1 & r2 & name & r & Hi & Hn & Hid & -> & ->)|(r1 & r2 & -> & ->)]].
    + discriminate.
    + injection E as -> ->. exfalso. destruct (b_var_id _ _ _ _ _ _ HB HL name r TokenNewlineTimestamp Hi) as (_ & _ & _ & X & _); [|congruence].
      exact Hid.
    + eauto.
  - destruct (reported (c_dfa (lg_cfg g)) d_root (cCharStartOfFile :: w)) as [|i l'] eqn:E1.
    + apply (starts_words _ _ _ _ _ _ HB HN w Hne) in E1. congruence.
    + exists l'. f_equal. apply (Hap (cCharStartOfFile :: w)); [|rewrite E1; left; reflexivity].
      assert (Hi : In TokenNewlineTimestamp (reported (c_dfa (lg_cfg g)) d_root (cNewline :: w))) by (rewrite E; left; reflexivity).
      apply (b_rep _ _ _ _ _ _ HB) in Hi as (r & Hk & Hm). remember TokenNewlineTimestamp as j eqn:Ei. destruct Hk as [|r Hi|r Hi|name r j Hi Hn Ej]; try discriminate.
      * apply (b_rep _ _ _ _ _ _ HB). exists (RCat (RLit cCharStartOfFile) r). split; [constructor; exact Hi|]. apply lit_same; [reflexivity|]. exact (proj1 (lit_same r cNewline w eq_refl) Hm).
      * destruct (b_var_id _ _ _ _ _ _ HB HL _ _ _ Hi Ej) as (_ & _ & _ & X & _). congruence.
Qed.
