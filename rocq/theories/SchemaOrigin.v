(** SchemaOrigin.v -- what is true of every schema that is written as text (SchemaSyntax.v). *)
From Verif Require Import Base LexerModel RegexModel RegexSpec RegexProofs SchemaModel SchemaSpec SchemaProofs SchemaPaths SchemaActions SchemaRules SchemaSyntax SchemaSplit
  PropertiesSchemaText.
From Coq Require Import String Ascii.
Local Open Scope list_scope.

Definition text_pattern (r : regex) : Prop := no_int r = true /\ wild_plain r /\ match r with RLit c => c < 128 | _ => True end.
Lemma plain_lt b : plain b -> b < 128.
Proof. intros [[H|[H|H]]|H]; try (unfold digit in H); try lia. cbn in H. repeat (destruct H as [<-|H]; [lia|]). destruct H. Qed.
Lemma special_lt b : special b -> b < 128.
Proof. intro H. cbn in H. repeat (destruct H as [<-|H]; [lia|]). destruct H. Qed.
Lemma control_lt l b : control l b -> b < 128.
Proof. intro H. cbn in H. repeat (destruct H as [[= <- <-]|H]; [lia|]). destruct H. Qed.

Lemma syntax_patterns :
  (forall w r, literal w r -> text_pattern r) /\ (forall w r, pattern w r -> text_pattern r) /\ (forall w r, alt w r -> text_pattern r) /\
  (forall w r, repeated w r -> text_pattern r) /\ (forall w r, prim w r -> text_pattern r) /\
  (forall w neg rs, bracket w neg rs -> True) /\ (forall w x, element w x -> True).
Proof.
  apply syntax_ind; unfold text_pattern; intros; cbn [no_int wild_plain]; auto;
    repeat match goal with H : _ /\ _ |- _ => destruct H end; repeat split; auto; try discriminate.
  - now apply plain_lt.
  - now apply special_lt.
  - now apply (control_lt l).
  - rewrite H0. exact H2.
  - rewrite H0. exact H2.
  - destruct (k =? 0); cbn; assumption.
  - destruct (k =? 0); cbn; auto.
  - destruct (k =? 0); exact I.
Qed.

Definition name_chars (n : list N) : Prop := n <> [] /\ Forall alnum n.
Lemma delimiters_lt w ds : delimiters w ds -> forall d, In d ds -> d < 128.
Proof.
  induction 1 as [w c H|w1 ds w2 c H1 IH H2]; intros d Hd.
  - destruct Hd as [<-|[]]. exact (proj2 (proj2 (proj1 syntax_patterns _ _ H))).
  - apply in_app_iff in Hd as [Hd|[<-|[]]]; [auto|]. exact (proj2 (proj2 (proj1 syntax_patterns _ _ H2))).
Qed.
Lemma variable_ok w n r : variable w n r -> name_chars n /\ text_pattern r.
Proof. destruct 1 as [k wn n w r (H1 & H2 & _) H]. split; [split; assumption|]. exact (proj1 (proj2 syntax_patterns) _ _ H). Qed.
Lemma text_ok ws vars delims : schema_text ws vars delims ->
  (forall ds d, In ds delims -> In d ds -> d < 128) /\ (forall n r, In (n, r) vars -> name_chars n /\ text_pattern r).
Proof.
  assert (forall (P : Prop) (x : list N * regex), In x [] -> P) as No by (intros P x []).
  induction 1 as [w H|w n r H|w d H|w vs ds b _ (IH1 & IH2) Hb|w vs ds b c _ (IH1 & IH2) Hb Hc|w vs ds b v n r _ (IH1 & IH2) Hb Hv|w vs ds b d cs _ (IH1 & IH2) Hb Hd];
    (split; [intros ds' d' Hds Hd'|intros n' r' Hi]); eauto; try (cbn in Hds; tauto); try (cbn in Hi; tauto).
  - destruct Hi as [[= <- <-]|[]]. exact (variable_ok _ _ _ H).
  - destruct Hds as [<-|[]]. exact (delimiters_lt _ _ H _ Hd').
  - apply in_app_iff in Hi as [Hi|[[= <- <-]|[]]]; [eauto|exact (variable_ok _ _ _ Hv)].
  - apply in_app_iff in Hds as [Hds|[<-|[]]]; [eauto|exact (delimiters_lt _ _ Hd _ Hd')].
Qed.

(** Names made of letters and digits. *)
Lemma string_of_alnum n s : Forall alnum n -> string_of n = s -> forall a, In a (list_ascii_of_string s) -> alnum (N_of_ascii a).
Proof.
  intros H <- a Hi. unfold string_of in Hi. rewrite list_ascii_of_string_of_list_ascii in Hi. apply in_map_iff in Hi as (b & <- & Hb).
  rewrite Forall_forall in H. specialize (H b Hb). rewrite N_ascii_embedding; [exact H|]. unfold alnum, digit in H. lia.
Qed.
Theorem string_facts s sch : schema_string s sch ->
  (forall l d, In l (sc_delims sch) -> In d l -> d < 128) /\
  (forall name r, In (name, r) (sc_vars sch) -> no_int r = true /\ wild_plain r /\ name <> cTokenEnd /\ name <> cTokenUncaughtString).
Proof.
  intros (ws & vars & delims & _ & H & ->). destruct (text_ok _ _ _ H) as (D & V). cbn [schema_of sc_delims sc_vars]. split; [exact D|].
  intros name r Hi. apply in_map_iff in Hi as ((n & r') & [= <- <-] & Hi). destruct (V n _ Hi) as ((_ & Hn) & T1 & T2 & _).
  split; [exact T1|]. split; [exact T2|].
  assert (forall s, In (ascii_of_N 36) (list_ascii_of_string s) -> string_of n <> s) as Dollar.
  { intros z Hz E. pose proof (string_of_alnum n z Hn E _ Hz) as A. rewrite N_ascii_embedding in A by reflexivity. unfold alnum, digit in A. lia. }
  split; apply Dollar; left; reflexivity.
Qed.
