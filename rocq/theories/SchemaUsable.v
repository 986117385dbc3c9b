(** SchemaUsable.v -- the lexer generated from a legal schema satisfies the hypotheses of the lexing, parsing
    and event theorems. *)
From Verif Require Import Base LexerModel LexerSpec LogParserModel EventSpec RegexModel RegexSpec RegexProofs RegexLang
  DfaModel DfaProofs DfaExact LexerProofs SchemaModel SchemaProofs SchemaPaths.
From Coq Require Import String Permutation Sorted.
Local Open Scope list_scope.
Local Notation length := List.length.

Lemma delim_lines_last lines : forall tbl0 tbl, add_delimiter_lines lines tbl0 = Ret tbl ->
  (lines = [] /\ tbl = tbl0) \/
  exists front lst, lines = front ++ [lst] /\ tbl = delim_table lst /\ forall d, In d lst -> d < cSizeOfByte.
Proof.
  induction lines as [|l lines IH]; cbn [add_delimiter_lines]; intros tbl0 tbl H.
  - injection H as <-. left. auto.
  - right. apply bind_Ret in H as (tbl1 & H1 & H). unfold add_delimiters in H1.
    destruct (forallb (fun d => d <? cSizeOfByte) l) eqn:E; [|discriminate]. injection H1 as <-.
    destruct (IH _ _ H) as [(-> & ->)|(front & lst & -> & -> & Hlt)].
    + exists [], l. repeat split. intros d Hd. rewrite forallb_forall in E. apply N.ltb_lt. auto.
    + exists (l :: front), lst. auto.
Qed.
Lemma delim_table_in ds b : delim_table ds b = true <-> In b ds \/ b = cCharStartOfFile.
Proof.
  unfold delim_table. rewrite orb_true_iff, existsb_exists, N.eqb_eq. split.
  - intros [(x & Hx & E)|E]; [left; apply N.eqb_eq in E; subst; auto|auto].
  - intros [H|H]; [left; exists b; split; [auto|apply N.eqb_refl]|auto].
Qed.

Lemma img_full_byte a w : one_byte a -> img (full a) w <-> exists x, w = [x] /\ first_ok a x /\ x < cSizeOfByte.
Proof.
  intros Ha. unfold img. split.
  - intros (v & <- & Hv). apply (proj1 (full_no_trail a (match a return one_byte a -> has_trail a = false with
      | RLit _ => fun _ => eq_refl | RGroup _ _ _ => fun _ => eq_refl | _ => fun f => match f with end end Ha) v)) in Hv.
    destruct a; cbn in Ha; try contradiction; cbn [lead first_ok] in *.
    + destruct Hv as (-> & Hc). eexists. split; [reflexivity|]. auto.
    + destruct Hv as (b & -> & Hb & Hr). exists b. split; [reflexivity|]. auto.
  - intros (x & -> & Hx & Hlt). exists [SByte x]. split; [reflexivity|]. exists [SByte x], [].
    split; [reflexivity|]. split; [|apply l_star_nil].
    destruct a; cbn in Ha; try contradiction; cbn [lead first_ok] in *; [subst; auto|exists x; auto].
Qed.
Lemma img_full_cat a s w : img (full (RCat a s)) w <-> l_cat (img (full a)) (img (full s)) w.
Proof.
  rewrite <- (img_cat (full a) (full s) w). unfold img. split; intros (v & E & Hv); exists v; (split; [exact E|]);
    apply (full_cat a s v); exact Hv.
Qed.
Lemma img_full_first a s w : one_byte a -> img (full (RCat a s)) w <->
  exists x v, w = x :: v /\ first_ok a x /\ x < cSizeOfByte /\ img (full s) v.
Proof.
  intros Ha. rewrite img_full_cat. unfold l_cat. split.
  - intros (u & v & -> & Hu & Hv). apply (img_full_byte a u Ha) in Hu as (x & -> & H1 & H2). exists x, v. auto.
  - intros (x & v & -> & H1 & H2 & H3). exists [x], v. split; [reflexivity|]. split; [|exact H3].
    apply img_full_byte; [exact Ha|]. eauto.
Qed.

Section Built.
Variables (sc : schema) (g : logparser) (p : prepared) (A : nfa) (ds : list N) (ns : list string).
Hypothesis HB : built sc g p A ds ns.
Let c := lg_cfg g.
Let HP := bu_prep _ _ _ _ _ _ HB.

Lemma b_delims_in b : In b ds <-> b < cSizeOfByte /\ c_delim c b = true.
Proof. unfold c. rewrite (bu_delim _ _ _ _ _ _ HB), (po_ds _ _ _ _ HP). apply delims_of_in. Qed.
Lemma b_delim_lt b : c_delim c b = true -> b < cSizeOfByte.
Proof.
  unfold c. destruct (delim_lines_last _ _ _ (bu_lines _ _ _ _ _ _ HB)) as [(_ & E)|(fr & lst & _ & E & Hlt)]; rewrite E.
  - discriminate.
  - rewrite delim_table_in. intros [H| ->]; [auto|]. vm_compute. reflexivity.
Qed.
Lemma b_delims b : In b ds <-> c_delim c b = true.
Proof. rewrite b_delims_in. split; [tauto|]. intros H. split; [apply b_delim_lt; exact H|exact H]. Qed.
Lemma b_last : exists front lst, sc_delims sc = front ++ [lst] /\
  (forall b, c_delim c b = true <-> In b lst \/ b = cCharStartOfFile) /\ forall d, In d lst -> d < cSizeOfByte.
Proof.
  destruct (delim_lines_last _ _ _ (bu_lines _ _ _ _ _ _ HB)) as [(_ & E)|(fr & lst & E1 & E & Hlt)].
  - exfalso. apply (po_ne _ _ _ _ HP). rewrite (po_ds _ _ _ _ HP), <- (bu_delim _ _ _ _ _ _ HB), E. vm_compute. reflexivity.
  - exists fr, lst. split; [exact E1|]. split; [|exact Hlt]. intros b. unfold c. rewrite E. apply delim_table_in.
Qed.
Lemma b_sof : c_delim c cCharStartOfFile = true.
Proof. destruct b_last as (fr & lst & _ & H & _). apply H. right. reflexivity. Qed.
Lemma b_ds_sorted : StronglySorted N.lt ds.
Proof. rewrite (po_ds _ _ _ _ HP). apply delims_of_sorted. Qed.
Lemma b_ds_max d : In d ds -> d <= cUnicodeMax.
Proof. intros H. apply b_delims_in in H as (H & _). unfold cSizeOfByte, cUnicodeMax in *. lia. Qed.

(** ** The rules *)
Inductive rule_kind : N -> regex -> Prop :=
| rk_newline : rule_kind TokenNewline (RLit cNewline)
| rk_first : forall r, In (cTimestamp, r) (sc_vars sc) ->
    rule_kind TokenFirstTimestamp (RCat (RLit cCharStartOfFile) r)
| rk_newline_ts : forall r, In (cTimestamp, r) (sc_vars sc) ->
    rule_kind TokenNewlineTimestamp (RCat (RLit cNewline) r)
| rk_var : forall name r i, In (name, r) (sc_vars sc) -> name <> cTimestamp -> get_symbol_id g name = Some i ->
    rule_kind i (RCat (group_of ds) (strip_wild ds r)).
Lemma b_rule i r : In (i, r) (pr_rules p) <-> rule_kind i r.
Proof.
  rewrite (po_rules _ _ _ _ HP). cbn [In]. rewrite in_flat_map. split.
  - intros [[= <- <-]|((name & r0) & Hi & Hv)]; [constructor|]. unfold var_rules in Hv. cbn [fst snd] in Hv.
    destruct (String.eqb_spec name cTimestamp) as [->|Hne].
    + destruct Hv as [[= <- <-]|[[= <- <-]|[]]]; constructor; assumption.
    + destruct (id_of (sy_id (pr_sym p)) name) as [j|] eqn:E; [|destruct Hv]. destruct Hv as [[= <- <-]|[]].
      apply (rk_var name); auto. unfold get_symbol_id. rewrite (bu_sym _ _ _ _ _ _ HB). exact E.
  - intros H. destruct H as [|r H|r H|name r i H Hne E]; [left; reflexivity| | |]; right.
    + exists (cTimestamp, r). split; [exact H|]. left. reflexivity.
    + exists (cTimestamp, r). split; [exact H|]. right. left. reflexivity.
    + exists (name, r). split; [exact H|]. unfold var_rules. cbn [fst snd].
      destruct (String.eqb_spec name cTimestamp); [congruence|].
      unfold get_symbol_id in E. rewrite (bu_sym _ _ _ _ _ _ HB) in E. rewrite E. left. reflexivity.
Qed.
Lemma b_id_name name i : get_symbol_id g name = Some i <-> nth_error ns (N.to_nat i) = Some name.
Proof.
  unfold get_symbol_id. rewrite (bu_sym _ _ _ _ _ _ HB). destruct (po_sym _ _ _ _ HP) as (Hn & E & _). rewrite E.
  rewrite id_of_number by exact Hn. split.
  - intros (j & Hj & ->). replace (N.to_nat (0 + N.of_nat j)) with j by lia. exact Hj.
  - intros Hj. exists (N.to_nat i). split; [exact Hj|lia].
Qed.
Lemma b_name_id name i : get_id_symbol g i = Some name <-> nth_error ns (N.to_nat i) = Some name.
Proof.
  unfold get_id_symbol. rewrite (bu_sym _ _ _ _ _ _ HB). destruct (po_sym _ _ _ _ HP) as (Hn & _ & E). rewrite E.
  rewrite name_of_number. split.
  - intros (j & Hj & ->). replace (N.to_nat (0 + N.of_nat j)) with j by lia. exact Hj.
  - intros Hj. exists (N.to_nat i). split; [exact Hj|lia].
Qed.
Lemma b_nsym : lg_nsym g = N.of_nat (length ns).
Proof.
  unfold lg_nsym. rewrite (bu_sym _ _ _ _ _ _ HB). destruct (po_sym _ _ _ _ HP) as (Hn & _ & E). rewrite E.
  rewrite map_length, number_length. reflexivity.
Qed.
Lemma b_id_lt name i : get_symbol_id g name = Some i -> i < lg_nsym g.
Proof.
  intros H. apply b_id_name in H. rewrite b_nsym.
  assert (N.to_nat i < length ns)%nat by (apply nth_error_Some; congruence). lia.
Qed.
Lemma b_id_inj name name' i : get_symbol_id g name = Some i -> get_symbol_id g name' = Some i -> name = name'.
Proof. rewrite !b_id_name. congruence. Qed.
Lemma b_reserved j name : nth_error reserved j = Some name -> get_symbol_id g name = Some (N.of_nat j).
Proof.
  intros H. unfold get_symbol_id. rewrite (bu_sym _ _ _ _ _ _ HB).
  exact (reserved_id _ _ _ _ (po_sym _ _ _ _ HP) (po_res _ _ _ _ HP) H).
Qed.
Lemma b_nsym_ge : 8 <= lg_nsym g.
Proof. assert (7 < lg_nsym g) by exact (b_id_lt _ _ (b_reserved 7 cTokenNewline eq_refl)). lia. Qed.

Hypothesis HL : legal sc.
Lemma b_var_id name r i : In (name, r) (sc_vars sc) -> get_symbol_id g name = Some i ->
  i <> TokenEnd /\ i <> TokenUncaughtString /\ i <> TokenFirstTimestamp /\ i <> TokenNewlineTimestamp /\ i <> TokenNewline.
Proof.
  intros Hi E. pose proof (lg_names _ HL name r Hi) as Hf.
  assert (X : forall j nm, nth_error reserved j = Some nm -> In nm forbidden -> i <> N.of_nat j).
  { intros j nm Hj Hnm ->. apply Hf. rewrite (b_id_inj _ _ _ E (b_reserved j nm Hj)). exact Hnm. }
  repeat split; [apply (X 0%nat cTokenEnd)|apply (X 1%nat cTokenUncaughtString)|apply (X 5%nat cTokenFirstTimestamp)
    |apply (X 6%nat cTokenNewlineTimestamp)|apply (X 7%nat cTokenNewline)]; try reflexivity; cbn; auto 10.
Qed.
Lemma b_shaped i r : In (i, r) (pr_rules p) -> shaped r.
Proof.
  rewrite b_rule. intros H. destruct H as [|r H|r H|name r i H Hne E]; cbn; auto.
  - split; [exact I|]. exact (lg_ranges _ HL _ _ H).
  - split; [exact I|]. exact (lg_ranges _ HL _ _ H).
  - split; [exact I|]. apply strip_wild_ok; [apply b_ds_sorted|apply b_ds_max|]. exact (lg_ranges _ HL _ _ H).
Qed.
(** A string the DFA can read follows some rule. *)
Lemma b_run x v q : run (c_dfa c) d_root (x :: v) = Some q -> exists i r, rule_kind i r /\ may_read r x v.
Proof.
  intros H. destruct (bu_reads _ _ _ _ _ _ HB _ _ H) as (y & Hy).
  destruct (reads_rule _ _ _ _ _ b_shaped (bu_nfa _ _ _ _ _ _ HB) Hy) as (i & r & Hi & Hm).
  exists i, r. rewrite <- b_rule. auto.
Qed.
Lemma b_rep w i : In i (reported (c_dfa c) d_root w) <-> exists r, rule_kind i r /\ img (full r) w.
Proof.
  unfold c. rewrite (bu_rep _ _ _ _ _ _ HB). split; intros (r & Hi & Hw); exists r; (split; [apply b_rule; exact Hi|exact Hw]).
Qed.
Lemma b_no_delim name r b : In (name, r) (sc_vars sc) -> name <> cTimestamp -> c_delim c b = true ->
  possible (strip_wild ds r) b = false.
Proof. intros H1 H2 H3. apply (po_var _ _ _ _ HP name r H1 H2). apply b_delims. exact H3. Qed.
Lemma b_ranges name r : In (name, r) (sc_vars sc) -> neg_ranges_ok (strip_wild ds r).
Proof. intros H. apply strip_wild_ok; [apply b_ds_sorted|apply b_ds_max|]. exact (lg_ranges _ HL _ _ H). Qed.

Theorem b_usable : usable c (lg_nsym g).
Proof.
  assert (Hbyte : forall x, In x [cNewline; cCharStartOfFile] -> x < cSizeOfByte).
  { intros x [<-|[<-|[]]]; vm_compute; reflexivity. }
  constructor.
  - constructor.
    + exact (bu_has _ _ _ _ _ _ HB).
    + destruct (d_ids (c_dfa c) d_root) as [|i l] eqn:E; [reflexivity|exfalso].
      assert (Hi : In i (reported (c_dfa c) d_root [])) by (unfold reported; cbn [run]; rewrite E; left; reflexivity).
      apply b_rep in Hi as (r & Hk & Hw). destruct Hk as [|r H|r H|name r i H Hne E']; try apply img_full_first in Hw; try exact I;
        try (destruct Hw as (x & v & Hx & _); discriminate).
      apply (img_full_byte (RLit cNewline)) in Hw as (x & Hx & _); [discriminate|exact I].
    + intros q i Hi. apply (bu_ids _ _ _ _ _ _ HB) in Hi as (r & Hr). apply b_rule in Hr.
      destruct Hr as [|r H|r H|name r i H Hne E]; try (split; discriminate).
      destruct (b_var_id name r i H E) as (H1 & H2 & _). auto.
    + intros w Hi. apply b_rep in Hi as (r & Hk & Hw). remember TokenNewlineTimestamp as i eqn:Ei.
      destruct Hk as [|r H|r H|name r i H Hne E]; try discriminate.
      * apply img_full_first in Hw as (x & v & -> & Hx & _); [|exact I]. cbn in Hx. subst x. eauto.
      * destruct (b_var_id name r i H E) as (_ & _ & _ & H2 & _). congruence.
    + assert (Hi : In TokenNewline (reported (c_dfa c) d_root [cNewline])).
      { apply b_rep. exists (RLit cNewline). split; [constructor|]. apply (img_full_byte (RLit cNewline)); [exact I|].
        exists cNewline. split; [reflexivity|]. split; [reflexivity|]. apply Hbyte. left. reflexivity. }
      unfold reported in Hi. cbn [run] in Hi. destruct (d_next (c_dfa c) d_root cNewline) as [q|]; [|destruct Hi].
      exists q. split; [reflexivity|]. intros E. rewrite E in Hi. destruct Hi.
  - assert (Hr : exists q, reads (n_edges A) n_root [cCharStartOfFile] q).
    { destruct (sc_vars sc) as [|(name & r) vars] eqn:Ev; [destruct (lg_some _ HL Ev)|].
      assert (Hi : In (name, r) (sc_vars sc)) by (rewrite Ev; left; reflexivity).
      destruct (string_dec name cTimestamp) as [->|Hne].
      - apply (first_byte_read _ _ TokenFirstTimestamp (RLit cCharStartOfFile) r _ (bu_nfa _ _ _ _ _ _ HB)).
        + apply b_rule. constructor. exact Hi.
        + exact I.
        + reflexivity.
        + apply Hbyte. cbn; auto.
      - destruct (po_var _ _ _ _ HP name r Hi Hne) as (Hn & _). apply In_nth_error in Hn as (j & Hj).
        apply (first_byte_read _ _ (N.of_nat j) (group_of ds) (strip_wild ds r) _ (bu_nfa _ _ _ _ _ _ HB)).
        + apply b_rule. apply (rk_var name); auto. apply b_id_name. rewrite Nat2N.id. exact Hj.
        + exact I.
        + apply group_of_first; [vm_compute; discriminate|]. apply b_delims, b_sof.
        + apply Hbyte. cbn; auto. }
    destruct Hr as (q & Hq). destruct (d_next (c_dfa c) d_root cCharStartOfFile) as [x|] eqn:E; [eauto|exfalso].
    apply (proj1 (bu_run _ _ _ _ _ _ HB [cCharStartOfFile])) with (x := q); [|exact Hq]. fold c. cbn [run]. rewrite E. reflexivity.
  - intros q i Hi. apply (bu_ids _ _ _ _ _ _ HB) in Hi as (r & Hr). apply b_rule in Hr. pose proof b_nsym_ge.
    destruct Hr as [|r H1|r H1|name r i H1 Hne E]; try (unfold TokenNewline, TokenFirstTimestamp, TokenNewlineTimestamp; lia).
    exact (b_id_lt name i E).
  - pose proof b_nsym_ge. lia.
Qed.

Theorem b_newline_free : c_delim c cNewline = true ->
  (forall name r, In (name, r) (sc_vars sc) -> nullable r = false) -> newline_free c.
Proof.
  intros Hnl Hnn. constructor.
  - exact Hnl.
  - intros w Hi. apply b_rep in Hi as (r & Hk & Hw). remember TokenNewline as i eqn:Ei.
    destruct Hk as [|r H|r H|name r i H Hne E]; try discriminate.
    + apply (img_full_byte (RLit cNewline)) in Hw as (x & -> & Hx & _); [|exact I]. cbn in Hx. subst. reflexivity.
    + destruct (b_var_id name r i H E) as (_ & _ & _ & _ & H2). congruence.
  - intros w Hi. apply b_rep in Hi as (r & Hk & Hw). remember TokenFirstTimestamp as i eqn:Ei.
    destruct Hk as [|r H|r H|name r i H Hne E]; try discriminate.
    + apply img_full_first in Hw as (x & v & -> & Hx & _); [|exact I]. cbn in Hx. subst x. eauto.
    + destruct (b_var_id name r i H E) as (_ & _ & H2 & _). congruence.
  - destruct (reported (c_dfa c) d_root [cCharStartOfFile]) as [|i l] eqn:E; [reflexivity|exfalso].
    assert (Hi : In i (reported (c_dfa c) d_root [cCharStartOfFile])) by (rewrite E; left; reflexivity).
    apply b_rep in Hi as (r & Hk & Hw). destruct Hk as [|r H|r H|name r i H Hne E'].
    + apply (img_full_byte (RLit cNewline)) in Hw as (x & Hx & Hf & _); [|exact I]. injection Hx as <-. discriminate.
    + apply img_full_first in Hw as (x & v & [= <- <-] & _ & _ & Hv); [|exact I].
      exact (img_full_nonempty r (Hnn _ _ H) Hv).
    + apply img_full_first in Hw as (x & v & [= <- <-] & _ & _ & Hv); [|exact I].
      exact (img_full_nonempty r (Hnn _ _ H) Hv).
    + apply img_full_first in Hw as (x & v & [= <- <-] & _ & _ & Hv); [|exact I].
      refine (img_full_nonempty (strip_wild ds r) _ Hv). rewrite strip_wild_nullable. exact (Hnn _ _ H).
  - intros w i Hi H1 H2. apply b_rep in Hi as (r & Hk & Hw).
    destruct Hk as [|r H|r H|name r i H Hne E]; try congruence.
    + apply (img_full_byte (RLit cNewline)) in Hw as (x & -> & _); [|exact I]. cbn. tauto.
    + apply img_full_first in Hw as (x & v & -> & _ & _ & Hv); [|exact I]. cbn [tl]. intros Hin.
      pose proof (img_full_possible _ _ (b_ranges name r H) Hv _ Hin) as X.
      rewrite (b_no_delim name r _ H Hne Hnl) in X. discriminate.
Qed.

(** A newline alone is a newline token and nothing else. *)
Theorem b_newline_only : (forall name r, In (name, r) (sc_vars sc) -> nullable r = false) ->
  forall i, In i (reported (c_dfa c) d_root [cNewline]) -> i = TokenNewline.
Proof.
  intros Hnn i Hi. apply b_rep in Hi as (r & Hk & Hw). destruct Hk as [|r H|r H|name r i H Hne E].
  - reflexivity.
  - exfalso. apply img_full_first in Hw as (x & v & [= <- <-] & _ & _ & Hv); [|exact I].
    exact (img_full_nonempty r (Hnn _ _ H) Hv).
  - exfalso. apply img_full_first in Hw as (x & v & [= <- <-] & _ & _ & Hv); [|exact I].
    exact (img_full_nonempty r (Hnn _ _ H) Hv).
  - exfalso. apply img_full_first in Hw as (x & v & [= <- <-] & _ & _ & Hv); [|exact I].
    refine (img_full_nonempty (strip_wild ds r) _ Hv). rewrite strip_wild_nullable. exact (Hnn _ _ H).
Qed.

(** Nothing but a timestamp crosses a delimiter. *)
Lemma b_stops x v q b : run (c_dfa c) d_root (x :: v) = Some q -> In b v -> c_delim c b = true ->
  (exists r, In (cTimestamp, r) (sc_vars sc)) /\ (x = cNewline \/ x = cCharStartOfFile).
Proof.
  intros Hr Hi Hd. apply b_run in Hr as (i & r & Hk & Hm). destruct Hk as [|r H|r H|name r i H Hne E]; cbn [may_read first_ok] in Hm.
  - destruct Hm as (_ & ->). destruct Hi.
  - split; [eauto|]. right. tauto.
  - split; [eauto|]. left. tauto.
  - destruct Hm as (_ & Hv). specialize (Hv b Hi). rewrite (b_no_delim name r b H Hne Hd) in Hv. discriminate.
Qed.
Lemma b_no_cross t : (forall r, ~ In (cTimestamp, r) (sc_vars sc)) \/ ~ In cCharStartOfFile t -> no_cross c t.
Proof.
  intros Ht i q x y Hx Hnl Hlt Hy Hd.
  rewrite (sub_cons t i (q + 1) x Hx) by lia. rewrite (sub_snoc t (i + 1) q y) by (assumption || lia).
  destruct (run (c_dfa c) d_root (x :: sub t (i + 1) q ++ [y])) as [z|] eqn:E; [exfalso|reflexivity].
  destruct (b_stops _ _ _ y E) as ((r & Hr) & Hs); [apply in_app_iff; right; left; reflexivity|exact Hd|].
  destruct Hs as [-> | ->]; [congruence|]. destruct Ht as [Ht|Ht]; [exact (Ht _ Hr)|].
  apply Ht. unfold byte_at in Hx. eapply nth_error_In; eauto.
Qed.
Lemma b_no_cross_sof t : (forall r, ~ In (cTimestamp, r) (sc_vars sc)) -> no_cross_sof c t.
Proof.
  intros Ht q pos y Hq Hy Hd. left. rewrite (sub_snoc t 0 pos y) by (assumption || lia).
  destruct (run (c_dfa c) q (sub t 0 pos ++ [y])) as [z|] eqn:E; [exfalso|reflexivity].
  assert (E' : run (c_dfa c) d_root (cCharStartOfFile :: sub t 0 pos ++ [y]) = Some z) by (cbn [run]; rewrite Hq; exact E).
  destruct (b_stops _ _ _ y E') as ((r & Hr) & Hs); [apply in_app_iff; right; left; reflexivity|exact Hd|exact (Ht _ Hr)].
Qed.
End Built.
