(** GrammarCalls.v -- what a sequence of calls of add_rule and add_production (LALR1Parser.tpp 67-151) leaves in
    the parser: specification and proofs. *)
From Verif Require Import Base OrdSet GrammarSpec SchemaModel SchemaGrammar.
From Coq Require Import String Permutation.
Local Open Scope list_scope.
Local Open Scope N_scope.

(** ** Specification *)

(** A call: add_rule, add_token, add_token_group and add_token_chain under a name; add_production. *)
Inductive gcall (R : Type) : Type :=
| CRule (name : string) | CProd (head : string) (body : list string) (rule : R).
Arguments CRule {R}. Arguments CProd {R}.

Definition reserved : list string :=
  [cTokenEnd; cTokenUncaughtString; cTokenInt; cTokenFloat; cTokenHex; cTokenFirstTimestamp; cTokenNewlineTimestamp;
   cTokenNewline].
Definition cStartPrime : string := "$START_PRIME".

(** The heads and bodies of the productions, in the order of the calls. *)
Fixpoint call_prods {R} (calls : list (gcall R)) : list (string * list string) :=
  match calls with
  | [] => []
  | CRule _ :: r => call_prods r
  | CProd h bd _ :: r => (h, bd) :: call_prods r
  end.
Definition key_dec (a b : string * list string) : {a = b} + {a <> b}.
Proof. decide equality; [apply (list_eq_dec string_dec)|apply string_dec]. Defined.
(** The first occurrence of every element. *)
Fixpoint firsts (l : list (string * list string)) : list (string * list string) :=
  match l with
  | [] => []
  | x :: r => x :: filter (fun y => if key_dec x y then false else true) (firsts r)
  end.
(** The root production comes second. *)
Definition with_root (l : list (string * list string)) : list (string * list string) :=
  match l with [] => [] | x :: r => x :: (cStartPrime, [fst x]) :: r end.

(** The names that can be terminals, and all the names in use. *)
Definition token_name {R} (calls : list (gcall R)) (x : string) : Prop := In x reserved \/ In (CRule x) calls.
Definition used {R} (calls : list (gcall R)) (x : string) : Prop :=
  token_name calls x \/
  (exists h bd, In (h, bd) (call_prods calls) /\ (x = h \/ In x bd)) \/
  (x = cStartPrime /\ call_prods calls <> []).
(** [rule] is the semantic rule of the last call with this head and body. *)
Definition last_rule {R} (calls : list (gcall R)) (h : string) (bd : list string) (rule : R) : Prop :=
  exists before after, calls = before ++ CProd h bd rule :: after /\ ~ In (h, bd) (call_prods after).

(** ** The calls on the model *)
Section Calls.
Context {R : Type} (null : R).

(** LALR1Parser.tpp 67-151: one call. *)
Definition call1 (b : builder R) (c : gcall R) : builder R :=
  match c with CRule n => add_terminal b n | CProd h bd r => add_production null b h bd r end.
Definition registered (calls : list (gcall R)) : builder R := fold_left call1 calls builder_init.
(** m_symbol_id.find and m_id_symbol.find. *)
Definition symbol (b : builder R) (x : string) : option N := id_of (sy_id (b_sym b)) x.
Definition symbol_name (b : builder R) (i : N) : option string := name_of (sy_name (b_sym b)) i.

(** ** Symbol tables *)
Record ok (s : symtab) (names : list string) : Prop := {
  ok_nodup : NoDup names;
  ok_len : List.length (sy_id s) = List.length names;
  ok_id : forall x i, id_of (sy_id s) x = Some i <-> nth_error names (N.to_nat i) = Some x;
  ok_name : forall x i, name_of (sy_name s) i = Some x <-> nth_error names (N.to_nat i) = Some x }.

Lemma ok_init : ok symtab_init reserved.
Proof.
  constructor.
  - repeat (constructor; [cbn; intuition discriminate|]). constructor.
  - reflexivity.
  - intros x i. cbn [symtab_init sy_id]. split.
    + unfold id_of.
      repeat (match goal with |- context [String.eqb ?a x] => destruct (String.eqb_spec a x) as [<-|?] end;
              [now intros [= <-]|]). discriminate.
    + intros H. assert (L : (N.to_nat i < 8)%nat) by (apply (proj1 (nth_error_Some reserved (N.to_nat i))); rewrite H; discriminate).
      assert (Hi : i = 0 \/ i = 1 \/ i = 2 \/ i = 3 \/ i = 4 \/ i = 5 \/ i = 6 \/ i = 7) by lia.
      destruct Hi as [->|[->|[->|[->|[->|[->|[->| ->]]]]]]]; injection H as <-; reflexivity.
  - intros x i. cbn [symtab_init sy_name]. split.
    + unfold name_of.
      repeat (match goal with |- context [?a =? i] => destruct (N.eqb_spec a i) as [<-|?] end;
              [now intros [= <-]|]). discriminate.
    + intros H. assert (L : (N.to_nat i < 8)%nat) by (apply (proj1 (nth_error_Some reserved (N.to_nat i))); rewrite H; discriminate).
      assert (Hi : i = 0 \/ i = 1 \/ i = 2 \/ i = 3 \/ i = 4 \/ i = 5 \/ i = 6 \/ i = 7) by lia.
      destruct Hi as [->|[->|[->|[->|[->|[->|[->| ->]]]]]]]; injection H as <-; reflexivity.
Qed.

Definition nadd (names : list string) (x : string) : list string := if in_dec string_dec x names then names else names ++ [x].
Lemma In_nadd names x y : In y (nadd names x) <-> In y names \/ y = x.
Proof.
  unfold nadd. destruct (in_dec string_dec x names) as [i|n].
  - split; [auto|]. intros [H | ->]; auto.
  - rewrite in_app_iff. cbn. intuition.
Qed.
Lemma nadd_ext names x : exists l, nadd names x = names ++ l.
Proof.
  unfold nadd. destruct (in_dec string_dec x names).
  - exists []. now rewrite app_nil_r.
  - now exists [x].
Qed.
Lemma id_of_app l m x : id_of (l ++ m) x = match id_of l x with Some i => Some i | None => id_of m x end.
Proof. induction l as [|[y i] l IH]; cbn; [easy|]. destruct (String.eqb y x); [easy|apply IH]. Qed.
Lemma name_of_set l i s j : name_of (set_name l i s) j = if i =? j then Some s else name_of l j.
Proof.
  induction l as [|[y t] l IH]; cbn.
  - now destruct (i =? j).
  - destruct (N.eqb_spec y i) as [->|n]; cbn.
    + now destruct (i =? j).
    + rewrite IH. destruct (N.eqb_spec y j) as [->|n2]; [|easy]. now destruct (N.eqb_spec i j) as [->|_].
Qed.
Lemma nth_snoc {A} (l : list A) a k : nth_error (l ++ [a]) k = if Nat.eqb k (List.length l) then Some a else nth_error l k.
Proof.
  destruct (Nat.eqb_spec k (List.length l)) as [->|n].
  - rewrite nth_error_app2 by lia. now rewrite Nat.sub_diag.
  - destruct (Nat.lt_ge_cases k (List.length l)) as [L|L].
    + now rewrite nth_error_app1.
    + rewrite (proj2 (nth_error_None _ _)) by (rewrite app_length; cbn; lia).
      symmetry. now apply nth_error_None.
Qed.
Lemma ok_in s names x : ok s names -> (In x names <-> exists i, id_of (sy_id s) x = Some i).
Proof.
  intros H. split.
  - intros Hx. apply In_nth_error in Hx. destruct Hx as (k & Hk). exists (N.of_nat k). apply (ok_id _ _ H).
    now rewrite Nat2N.id.
  - intros (i & Hi). apply (ok_id _ _ H) in Hi. now apply nth_error_In in Hi.
Qed.
Lemma sym_add_ok s names x s' i : ok s names -> sym_add s x = (s', i) ->
  ok s' (nadd names x) /\ nth_error (nadd names x) (N.to_nat i) = Some x.
Proof.
  intros H. unfold sym_add, nadd. destruct (id_of (sy_id s) x) as [k|] eqn:E.
  - intros [= <- <-]. destruct (in_dec string_dec x names) as [_|n].
    + split; [easy|]. now apply (ok_id _ _ H).
    + exfalso. apply n. apply (ok_in s names x H). now exists k.
  - intros [= <- <-]. rewrite (ok_len _ _ H). destruct (in_dec string_dec x names) as [Hx|n].
    + exfalso. apply (ok_in s names x H) in Hx. destruct Hx as (k & Hk). congruence.
    + split.
      * constructor; cbn [sy_id sy_name].
        -- apply (Permutation_NoDup (l := x :: names)); [apply Permutation_cons_append|].
           constructor; [easy|]. exact (ok_nodup _ _ H).
        -- rewrite !app_length, (ok_len _ _ H). reflexivity.
        -- intros y j. rewrite id_of_app. cbn [id_of]. rewrite nth_snoc.
           destruct (id_of (sy_id s) y) as [k|] eqn:Ey.
           ++ apply (ok_id _ _ H) in Ey. assert (Lk : (N.to_nat k < List.length names)%nat) by (apply nth_error_Some; congruence).
              split.
              ** intros [= ->]. destruct (Nat.eqb_spec (N.to_nat j) (List.length names)); [lia|easy].
              ** destruct (Nat.eqb_spec (N.to_nat j) (List.length names)) as [e|ne].
                 --- intros [= <-]. exfalso. apply n. now apply nth_error_In in Ey.
                 --- intros Hj. apply (ok_id _ _ H) in Hj. apply (ok_id _ _ H) in Ey. congruence.
           ++ destruct (String.eqb_spec x y) as [<-|ne].
              ** split.
                 --- intros [= <-]. rewrite Nat2N.id, Nat.eqb_refl. reflexivity.
                 --- destruct (Nat.eqb_spec (N.to_nat j) (List.length names)) as [e|ne].
                     +++ intros _. f_equal. lia.
                     +++ intros Hj. exfalso. apply n. now apply nth_error_In in Hj.
              ** split; [discriminate|]. destruct (Nat.eqb_spec (N.to_nat j) (List.length names)) as [e|ne2].
                 --- intros [= ->]. congruence.
                 --- intros Hj. apply (ok_id _ _ H) in Hj. congruence.
        -- intros y j. rewrite name_of_set, nth_snoc.
           destruct (N.eqb_spec (N.of_nat (List.length names)) j) as [<-|ne].
           ++ rewrite Nat2N.id, Nat.eqb_refl. easy.
           ++ destruct (Nat.eqb_spec (N.to_nat j) (List.length names)) as [e|ne2]; [lia|]. apply (ok_name _ _ H).
      * rewrite Nat2N.id, nth_snoc, Nat.eqb_refl. reflexivity.
Qed.

Definition at_ (names : list string) (x : string) (i : N) : Prop := nth_error names (N.to_nat i) = Some x.
Lemma at_ext names l x i : at_ names x i -> at_ (names ++ l) x i.
Proof. unfold at_. intros H. rewrite nth_error_app1; [easy|]. apply nth_error_Some. congruence. Qed.
Lemma at_back names l x i : NoDup (names ++ l) -> In x names -> at_ (names ++ l) x i -> at_ names x i.
Proof.
  unfold at_. intros Hn Hx H. apply In_nth_error in Hx. destruct Hx as (k & Hk).
  assert (E : N.to_nat i = k).
  { apply (proj1 (NoDup_nth_error (names ++ l)) Hn).
    - apply nth_error_Some. congruence.
    - rewrite H. symmetry. rewrite nth_error_app1; [easy|]. apply nth_error_Some. congruence. }
  now rewrite E.
Qed.

Lemma sym_add_all_ok : forall xs s names s' ids, ok s names -> sym_add_all s xs = (s', ids) ->
  exists names', ok s' names' /\ (exists l, names' = names ++ l) /\ (forall y, In y names' <-> In y names \/ In y xs) /\
    Forall2 (at_ names') xs ids.
Proof.
  induction xs as [|x xs IH]; intros s names s' ids H E; cbn [sym_add_all] in E.
  - injection E as <- <-. exists names. split; [easy|]. split; [exists []; now rewrite app_nil_r|].
    split; [cbn; intuition|constructor].
  - destruct (sym_add s x) as [s1 i] eqn:E1. destruct (sym_add_all s1 xs) as [s2 l] eqn:E2. injection E as <- <-.
    destruct (sym_add_ok _ _ _ _ _ H E1) as [H1 Hi]. destruct (IH _ _ _ _ H1 E2) as (n2 & H2 & (m & ->) & Hin & Hf).
    exists (nadd names x ++ m). split; [easy|]. destruct (nadd_ext names x) as (m0 & Em). split.
    + exists (m0 ++ m). now rewrite Em, app_assoc.
    + split.
      * intros y. rewrite Hin, In_nadd. cbn. intuition.
      * constructor; [|exact Hf]. apply at_ext. exact Hi.
Qed.

(** ** Lists of productions *)
Lemma names_eqb_eq a b : names_eqb a b = true <-> a = b.
Proof.
  revert b. induction a as [|x a IH]; intros [|y b]; cbn; try easy.
  rewrite andb_true_iff, String.eqb_eq, IH. split; [now intros [-> ->]|now intros [= -> ->]].
Qed.
Definition key (e : string * list string * prod * R) : string * list string := fst (fst e).
Lemma same_prod_iff h bd e : same_prod h bd e = true <-> key e = (h, bd).
Proof.
  destruct e as [[[h' bd'] p] r]. unfold same_prod, key. cbn [fst].
  rewrite andb_true_iff, String.eqb_eq, names_eqb_eq. split; [now intros [-> ->]|now intros [= -> ->]].
Qed.
Lemma In_firsts l k : In k (firsts l) <-> In k l.
Proof.
  induction l as [|x l IH]; cbn; [easy|]. rewrite filter_In, IH.
  destruct (key_dec x k) as [->|n]; intuition congruence.
Qed.
Lemma firsts_snoc l k : firsts (l ++ [k]) = if in_dec key_dec k l then firsts l else firsts l ++ [k].
Proof.
  induction l as [|x l IH]; [reflexivity|]. cbn [app firsts]. rewrite IH.
  destruct (in_dec key_dec k l) as [Hi|Hi].
  - destruct (in_dec key_dec k (x :: l)) as [_|n]; [easy|]. exfalso. apply n. now right.
  - destruct (in_dec key_dec k (x :: l)) as [Hx|Hx].
    + destruct Hx as [->|Hx]; [|contradiction]. rewrite filter_app. cbn [filter].
      destruct (key_dec k k); [|congruence]. now rewrite app_nil_r.
    + rewrite filter_app. cbn [filter]. destruct (key_dec x k) as [->|_]; [|easy]. exfalso. apply Hx. now left.
Qed.
Lemma NoDup_firsts l : NoDup (firsts l).
Proof.
  induction l as [|x l IH]; cbn; constructor.
  - rewrite filter_In. intros [_ H]. now destruct (key_dec x x).
  - now apply NoDup_filter.
Qed.
Lemma In_with_root l k : fst k <> cStartPrime -> (In k (with_root l) <-> In k l).
Proof.
  intros Hk. destruct l as [|x r]; cbn; [easy|]. split.
  - intros [H | [<- | H]]; [now left|now cbn in Hk|now right].
  - intros [H | H]; auto.
Qed.
Lemma prods_of_app (l m : list (gcall R)) : call_prods (l ++ m) = call_prods l ++ call_prods m.
Proof. induction l as [|[n|h bd r] l IH]; cbn; [easy|easy|now rewrite IH]. Qed.
Lemma In_call_prods (l : list (gcall R)) h bd : In (h, bd) (call_prods l) <-> exists r, In (CProd h bd r) l.
Proof.
  induction l as [|[n|h' bd' r'] l IH]; cbn.
  - split; [easy|]. now intros (r & []).
  - rewrite IH. split; intros (r & H); exists r; [now right|]. now destruct H.
  - rewrite IH. split.
    + intros [[= -> ->] | (r & H)]; [exists r'; now left|exists r; now right].
    + intros (r & [[= -> -> ->] | H]); [now left|right; now exists r].
Qed.

Lemma F2_impl {A B} (P Q : A -> B -> Prop) l m : (forall a b, P a b -> Q a b) -> Forall2 P l m -> Forall2 Q l m.
Proof. intros H F. induction F; constructor; auto. Qed.

(** ** The invariant *)
Definition entry_ok (names : list string) (calls : list (gcall R)) (e : string * list string * prod * R) : Prop :=
  let '(h, bd, p, r) := e in
  at_ names h (p_head p) /\ Forall2 (at_ names) bd (p_body p) /\
  (h = cStartPrime /\ r = null \/ h <> cStartPrime /\ last_rule calls h bd r).
Record inv (calls : list (gcall R)) (b : builder R) (names : list string) : Prop := {
  iv_ok : ok (b_sym b) names;
  iv_pre : exists l, names = reserved ++ l;
  iv_used : forall x, In x names <-> used calls x;
  iv_terms : forall i, In i (b_terms b) <-> exists x, token_name calls x /\ at_ names x i;
  iv_keys : map key (b_prods b) = with_root (firsts (call_prods calls));
  iv_entries : forall e, In e (b_prods b) -> entry_ok names calls e;
  iv_root : call_prods calls <> [] -> b_root b = 1 }.

Lemma inv_init : inv [] builder_init reserved.
Proof.
  constructor.
  - exact ok_init.
  - exists []. now rewrite app_nil_r.
  - intros x. unfold used, token_name. cbn [call_prods In]. split.
    + intros H. left. now left.
    + intros [[H | []] | [(h & bd & [] & _) | (_ & n)]]; [easy|congruence].
  - intros i. cbn [builder_init b_terms]. unfold token_name, at_. split.
    + intros H. cbn in H. repeat (destruct H as [<-|H]; [eexists; split; [left|reflexivity]; cbn; tauto|]). easy.
    + intros (x & _ & H). assert (L : (N.to_nat i < 8)%nat) by (apply (proj1 (nth_error_Some reserved (N.to_nat i))); rewrite H; discriminate).
      assert (Hi : i = 0 \/ i = 1 \/ i = 2 \/ i = 3 \/ i = 4 \/ i = 5 \/ i = 6 \/ i = 7) by lia.
      cbn. destruct Hi as [->|[->|[->|[->|[->|[->|[->| ->]]]]]]]; tauto.
  - reflexivity.
  - intros e [].
  - intros H. now destruct H.
Qed.

Lemma last_rule_keep (calls : list (gcall R)) c h bd r : ~ In (h, bd) (call_prods [c]) -> last_rule calls h bd r -> last_rule (calls ++ [c]) h bd r.
Proof.
  intros Hc (u & v & -> & Hv). exists u, (v ++ [c]). split; [now rewrite <- app_assoc|].
  rewrite prods_of_app, in_app_iff. intuition.
Qed.
Lemma entry_keep names l calls c e : entry_ok names calls e -> ~ In (key e) (call_prods [c]) -> entry_ok (names ++ l) (calls ++ [c]) e.
Proof.
  destruct e as [[[h bd] p] r]. cbn [key fst]. intros (H1 & H2 & H3) Hk. split; [now apply at_ext|]. split.
  - eapply F2_impl; [|exact H2]. intros x i. apply at_ext.
  - destruct H3 as [H3 | [H3 H4]]; [now left|]. right. split; [easy|]. now apply last_rule_keep.
Qed.
Lemma used_rule (calls : list (gcall R)) n x : used (calls ++ [CRule n]) x <-> used calls x \/ x = n.
Proof.
  unfold used, token_name. rewrite prods_of_app. cbn [call_prods]. rewrite app_nil_r.
  rewrite in_app_iff. cbn [In]. split.
  - intros [[H | [H | [[= ->] | []]]] | H]; auto.
  - intros [[[H | H] | H] | ->]; auto.
Qed.
Lemma token_rule (calls : list (gcall R)) n x : token_name (calls ++ [CRule n]) x <-> token_name calls x \/ x = n.
Proof.
  unfold token_name. rewrite in_app_iff. cbn [In]. split.
  - intros [H | [H | [[= ->] | []]]]; auto.
  - intros [[H | H] | ->]; auto.
Qed.
Lemma token_prod (calls : list (gcall R)) h bd r x : token_name (calls ++ [CProd h bd r]) x <-> token_name calls x.
Proof.
  unfold token_name. rewrite in_app_iff. cbn [In]. split.
  - intros [H | [H | [[=] | []]]]; auto.
  - intros [H | H]; auto.
Qed.
Lemma token_used (calls : list (gcall R)) x : token_name calls x -> used calls x.
Proof. now left. Qed.

(** m_terminals does not notice names that are added for productions. *)
Lemma terms_ext (calls : list (gcall R)) names l (T : list N) : NoDup (names ++ l) -> (forall x, token_name calls x -> In x names) ->
  (forall i, In i T <-> exists x, token_name calls x /\ at_ names x i) ->
  forall i, In i T <-> exists x, token_name calls x /\ at_ (names ++ l) x i.
Proof.
  intros Hn Hin H i. rewrite H. split; intros (x & Hx & Hi); exists x; split; auto.
  - now apply at_ext.
  - eapply at_back; eauto.
Qed.

Lemma inv_rule calls b names n : inv calls b names -> exists names', inv (calls ++ [CRule n]) (call1 b (CRule n)) names'.
Proof.
  intros H. cbn [call1]. unfold add_terminal. destruct (sym_add (b_sym b) n) as [s i] eqn:E.
  destruct (sym_add_ok _ _ _ _ _ (iv_ok _ _ _ H) E) as [Hs Hi]. exists (nadd names n).
  destruct (nadd_ext names n) as (l & El).
  constructor; cbn [b_sym b_terms b_prods b_root].
  - exact Hs.
  - destruct (iv_pre _ _ _ H) as (m & ->). exists (m ++ l). now rewrite El, app_assoc.
  - intros x. rewrite In_nadd, used_rule. now rewrite (iv_used _ _ _ H).
  - intros j. rewrite (In_oins N.compare N.compare_eq_iff). 
    pose proof (ok_nodup _ _ Hs) as Hn. rewrite El in Hn.
    rewrite (terms_ext calls names l _ Hn) by
      (try exact (iv_terms _ _ _ H); intros x Hx; apply (iv_used _ _ _ H); now apply token_used).
    rewrite <- El. split.
    + intros [-> | (x & Hx & Hj)].
      * exists n. split; [apply token_rule; now right|exact Hi].
      * exists x. split; [apply token_rule; now left|exact Hj].
    + intros (x & Hx & Hj). apply token_rule in Hx. destruct Hx as [Hx | ->].
      * right. now exists x.
      * left. unfold at_ in *. apply N2Nat.inj. apply (proj1 (NoDup_nth_error _) (ok_nodup _ _ Hs)).
        -- apply nth_error_Some. congruence.
        -- congruence.
  - rewrite prods_of_app. cbn [call_prods]. rewrite app_nil_r. exact (iv_keys _ _ _ H).
  - intros e He. rewrite El. apply entry_keep; [now apply (iv_entries _ _ _ H)|]. now cbn.
  - rewrite prods_of_app. cbn [call_prods]. rewrite app_nil_r. exact (iv_root _ _ _ H).
Qed.

Lemma In_keys (calls : list (gcall R)) b names h bd : h <> cStartPrime -> inv calls b names ->
  (existsb (same_prod h bd) (b_prods b) = true <-> In (h, bd) (call_prods calls)).
Proof.
  intros Hh H. rewrite existsb_exists, <- (In_firsts (call_prods calls)), <- (In_with_root (firsts (call_prods calls))) by easy.
  rewrite <- (iv_keys _ _ _ H), in_map_iff. split.
  - intros (e & He & Hs). apply same_prod_iff in Hs. now exists e.
  - intros (e & He & Hs). exists e. split; [easy|]. now apply same_prod_iff.
Qed.
Lemma used_prod (calls : list (gcall R)) h bd r x :
  used (calls ++ [CProd h bd r]) x <-> used calls x \/ x = h \/ In x bd \/ x = cStartPrime.
Proof.
  unfold used. rewrite token_prod, prods_of_app. cbn [call_prods]. split.
  - intros [H | [(h' & bd' & H & Hx) | (-> & _)]]; [auto| |auto].
    apply in_app_or in H. destruct H as [H | [[= <- <-] | []]].
    + left. right. left. now exists h', bd'.
    + destruct Hx; auto.
  - assert (Hin : In (h, bd) (call_prods calls ++ [(h, bd)])) by (apply in_or_app; right; now left).
    intros [[H | [(h' & bd' & H & Hx) | (-> & Hn)]] | [-> | [Hx | ->]]].
    + auto.
    + right. left. exists h', bd'. split; [|easy]. apply in_or_app. now left.
    + right. right. split; [easy|]. intros E. apply app_eq_nil in E. now destruct E.
    + right. left. exists h, bd. auto.
    + right. left. exists h, bd. auto.
    + right. right. split; [easy|]. intros E. apply app_eq_nil in E. now destruct E.
Qed.
Lemma last_rule_new (calls : list (gcall R)) h bd r : last_rule (calls ++ [CProd h bd r]) h bd r.
Proof. exists calls, []. split; [easy|]. now cbn. Qed.
Lemma key_prods (calls : list (gcall R)) b names : inv calls b names -> call_prods calls <> [] -> List.length (b_prods b) = 1%nat -> False.
Proof.
  intros H Hn Hl. pose proof (f_equal (@List.length _) (iv_keys _ _ _ H)) as E. rewrite map_length, Hl in E.
  destruct (call_prods calls) as [|k l]; [easy|]. cbn in E. discriminate E.
Qed.

Lemma inv_prod calls b names h bd r : h <> cStartPrime -> inv calls b names ->
  exists names', inv (calls ++ [CProd h bd r]) (call1 b (CProd h bd r)) names'.
Proof.
  intros Hh H. cbn [call1]. unfold add_production, add_production1.
  destruct (sym_add (b_sym b) h) as [s i] eqn:E.
  destruct (sym_add_ok _ _ _ _ _ (iv_ok _ _ _ H) E) as [Hs Hi].
  assert (Hcalls : call_prods (calls ++ [CProd h bd r]) = call_prods calls ++ [(h, bd)]) by (now rewrite prods_of_app).
  assert (Htu : forall x, token_name calls x -> In x names) by (intros x Hx; apply (iv_used _ _ _ H); now left).
  destruct (iv_pre _ _ _ H) as (pre & Epre).
  destruct (existsb (same_prod h bd) (b_prods b)) eqn:Ex.
  - (* the production exists *)
    apply (In_keys calls b names h bd Hh H) in Ex.
    assert (Hne : call_prods calls <> []) by (intros Z; rewrite Z in Ex; easy).
    cbn [b_prods b_sym b_terms b_root]. rewrite map_length.
    destruct (Nat.eqb_spec (List.length (b_prods b)) 1) as [L|_]; [now destruct (key_prods _ _ _ H Hne L)|].
    assert (Hhn : In h names).
    { apply (iv_used _ _ _ H). right. left. exists h, bd. auto. }
    assert (Enadd : nadd names h = names) by (unfold nadd; now destruct (in_dec string_dec h names)).
    rewrite Enadd in *. exists names. constructor; cbn [b_sym b_terms b_prods b_root].
    + exact Hs.
    + now exists pre.
    + intros x. rewrite used_prod, (iv_used _ _ _ H). split; [auto|].
      intros [Hx | [-> | [Hx | ->]]]; [easy|right; left; exists h, bd; auto|right; left; exists h, bd; auto|right; right; auto].
    + intros j. rewrite (iv_terms _ _ _ H). split; intros (x & Hx & Hj); exists x; (split; [|exact Hj]); [apply (proj2 (token_prod calls h bd r x)) | apply (proj1 (token_prod calls h bd r x))]; exact Hx.
    + rewrite Hcalls, firsts_snoc. destruct (in_dec key_dec (h, bd) (call_prods calls)); [|contradiction].
      rewrite <- (iv_keys _ _ _ H), map_map. apply map_ext. intros e. now destruct (same_prod h bd e).
    + intros e He. apply in_map_iff in He. destruct He as (e0 & <- & He0). pose proof (iv_entries _ _ _ H _ He0) as He.
      destruct (same_prod h bd e0) eqn:Es.
      * apply same_prod_iff in Es. destruct e0 as [[[h' bd'] p] r']. cbn [key fst] in *. injection Es as -> ->.
        destruct He as (H1 & H2 & _). split; [easy|]. split; [easy|]. right. split; [easy|]. apply last_rule_new.
      * replace names with (names ++ []) by apply app_nil_r. apply entry_keep; [easy|].
        cbn [call_prods In]. intros [K | []]. symmetry in K. apply same_prod_iff in K. congruence.
    + intros _. now apply (iv_root _ _ _ H).
  - (* a new production *)
    assert (Hnew : ~ In (h, bd) (call_prods calls)).
    { intros K. apply (In_keys calls b names h bd Hh H) in K. congruence. }
    clear Ex. destruct (sym_add_all s bd) as [s2 ids] eqn:E2.
    destruct (sym_add_all_ok _ _ _ _ _ Hs E2) as (n2 & H2 & (l2 & En2) & Hin2 & Hf2).
    destruct (nadd_ext names h) as (l1 & En1).
    assert (Hi2 : at_ n2 h i) by (rewrite En2; now apply at_ext).
    cbn [b_prods b_sym b_terms b_root]. rewrite app_length. cbn [List.length].
    assert (Hfirsts : firsts (call_prods calls ++ [(h, bd)]) = firsts (call_prods calls) ++ [(h, bd)]).
    { rewrite firsts_snoc. now destruct (in_dec key_dec (h, bd) (call_prods calls)). }
    destruct (Nat.eqb_spec (List.length (b_prods b) + 1) 1) as [L|L].
    + (* the first production *)
      assert (L0 : b_prods b = []) by (destruct (b_prods b); [easy|cbn in L; lia]). clear L.
      assert (Hp0 : call_prods calls = []).
      { pose proof (iv_keys _ _ _ H) as K. rewrite L0 in K. destruct (call_prods calls) as [|k0 l0]; [easy|]. discriminate K. }
      cbn [b_sym b_prods b_terms b_root].
      destruct (sym_add s2 "$START_PRIME") as [s3 j] eqn:E3. change "$START_PRIME"%string with cStartPrime in *.
      destruct (sym_add_ok _ _ _ _ _ H2 E3) as [H3 Hj].
      rewrite L0. cbn [app existsb same_prod]. destruct (String.eqb_spec h cStartPrime) as [K|_]; [contradiction|].
      cbn [andb orb sym_add_all].
      destruct (sym_add s3 h) as [s4 i4] eqn:E4. cbn [b_sym b_prods b_terms b_root].
      destruct (sym_add_ok _ _ _ _ _ H3 E4) as [H4 Hi4].
      assert (Hh3 : In h (nadd n2 cStartPrime)).
      { apply In_nadd. left. apply Hin2. left. apply In_nadd. now right. }
      assert (E4n : nadd (nadd n2 cStartPrime) h = nadd n2 cStartPrime).
      { unfold nadd at 1. now destruct (in_dec string_dec h (nadd n2 cStartPrime)). }
      rewrite E4n in *. destruct (nadd_ext n2 cStartPrime) as (l3 & En3).
      exists (nadd n2 cStartPrime). constructor; cbn [b_sym b_terms b_prods b_root].
      * exact H4.
      * rewrite En3, En2, En1, Epre. exists (((pre ++ l1) ++ l2) ++ l3). now rewrite !app_assoc.
      * intros x. rewrite In_nadd, Hin2, In_nadd, used_prod, (iv_used _ _ _ H). tauto.
      * pose proof (ok_nodup _ _ H4) as Hn4. rewrite En3, En2, En1, <- !app_assoc in Hn4. 
        intros j'. rewrite (terms_ext calls names _ _ Hn4 Htu (iv_terms _ _ _ H) j').
        rewrite !app_assoc, <- En1, <- En2, <- En3.
        split; intros (x & Hx & Hj'); exists x; (split; [|exact Hj']); [apply (proj2 (token_prod calls h bd r x)) | apply (proj1 (token_prod calls h bd r x))]; exact Hx.
      * rewrite Hcalls, Hp0. reflexivity.
      * intros e [<- | [<- | []]]; cbn [entry_ok].
        -- split; [rewrite En3; now apply at_ext|]. split.
           ++ eapply F2_impl; [|exact Hf2]. intros x k Hk. rewrite En3. now apply at_ext.
           ++ right. split; [easy|]. apply last_rule_new.
        -- split; [exact Hj|]. split; [constructor; [exact Hi4|constructor]|]. left. auto.
      * reflexivity.
    + (* a later production *)
      assert (Hne : call_prods calls <> []).
      { intros Z. apply L. pose proof (f_equal (@List.length _) (iv_keys _ _ _ H)) as K. rewrite map_length, Z in K. cbn in K. lia. }
      exists n2. constructor; cbn [b_sym b_terms b_prods b_root].
      * exact H2.
      * rewrite En2, En1, Epre. exists ((pre ++ l1) ++ l2). now rewrite !app_assoc.
      * intros x. rewrite Hin2, In_nadd, used_prod, (iv_used _ _ _ H). split; [tauto|].
        intros [Hx | [-> | [Hx | ->]]]; auto. left. left. right. right. auto.
      * pose proof (ok_nodup _ _ H2) as Hn2. rewrite En2, En1, <- !app_assoc in Hn2.
        intros j'. rewrite (terms_ext calls names _ _ Hn2 Htu (iv_terms _ _ _ H) j').
        rewrite !app_assoc, <- En1, <- En2.
        split; intros (x & Hx & Hj'); exists x; (split; [|exact Hj']); [apply (proj2 (token_prod calls h bd r x)) | apply (proj1 (token_prod calls h bd r x))]; exact Hx.
      * rewrite Hcalls, Hfirsts, map_app, (iv_keys _ _ _ H). cbn [map key fst].
        destruct (call_prods calls) as [|k0 l0]; [easy|]. reflexivity.
      * intros e He. apply in_app_or in He. destruct He as [He | [<- | []]].
        -- rewrite En2, En1, <- app_assoc. apply entry_keep; [now apply (iv_entries _ _ _ H)|].
           cbn [call_prods In]. intros [K | []]. apply Hnew. 
           assert (Hk : In (key e) (map key (b_prods b))) by (now apply in_map).
           rewrite <- K, (iv_keys _ _ _ H), In_with_root in Hk by easy. exact (proj1 (In_firsts _ _) Hk).
        -- cbn [entry_ok]. split; [exact Hi2|]. split; [exact Hf2|]. right. split; [easy|]. apply last_rule_new.
      * intros _. now apply (iv_root _ _ _ H).
Qed.

Definition no_start (calls : list (gcall R)) : Prop := forall bd, ~ In (cStartPrime, bd) (call_prods calls).
Theorem inv_all calls : no_start calls -> exists names, inv calls (registered calls) names.
Proof.
  induction calls as [|c l IH] using rev_ind; intros Hns.
  - exists reserved. exact inv_init.
  - unfold no_start in Hns. rewrite prods_of_app in Hns. unfold registered. rewrite fold_left_app. cbn [fold_left].
    destruct IH as (names & IH); [intros bd K; apply (Hns bd), in_or_app; now left|].
    destruct c as [n | h bd r].
    + eapply inv_rule. exact IH.
    + eapply inv_prod; [|exact IH]. intros ->. apply (Hns bd). apply in_or_app. right. now left.
Qed.
End Calls.

(** ** What callers must observe *)

(** Rewriting of sequences of names. *)
Inductive name_step (P : list (string * list string)) : list string -> list string -> Prop :=
| name_step_at : forall u h bd v, In (h, bd) P -> name_step P (u ++ h :: v) (u ++ bd ++ v).
Inductive name_derives (P : list (string * list string)) : list string -> list string -> Prop :=
| nder_refl : forall u, name_derives P u u
| nder_step : forall u v w, name_step P u v -> name_derives P v w -> name_derives P u w.

(** Some production is added; heads are neither tokens nor "$START_PRIME"; a body consists of tokens and heads
    without the end token. *)
Record sensible {R} (calls : list (gcall R)) : Prop := {
  se_some : call_prods calls <> [];
  se_heads : forall h bd, In (h, bd) (call_prods calls) -> h <> cStartPrime /\ ~ token_name calls h;
  se_bodies : forall h bd x, In (h, bd) (call_prods calls) -> In x bd ->
    x <> cTokenEnd /\ x <> cStartPrime /\ (token_name calls x \/ exists bd', In (x, bd') (call_prods calls));
  se_start : ~ token_name calls cStartPrime }.
(** The head of the first production. *)
Definition start_name {R} (calls : list (gcall R)) : string :=
  match call_prods calls with [] => cStartPrime | (h, _) :: _ => h end.

Lemma at_fun (names : list string) x y i : at_ names x i -> at_ names y i -> x = y.
Proof. unfold at_. intros H1 H2. congruence. Qed.
Lemma at_inj (names : list string) x i j : NoDup names -> at_ names x i -> at_ names x j -> i = j.
Proof.
  unfold at_. intros Hn H1 H2. apply N2Nat.inj. apply (proj1 (NoDup_nth_error _) Hn).
  - apply nth_error_Some. congruence.
  - congruence.
Qed.
Lemma F2_in_r {A B} (P : A -> B -> Prop) l m b : Forall2 P l m -> In b m -> exists a, In a l /\ P a b.
Proof.
  intros F. induction F as [|x y l m H F IH]; cbn; [easy|]. intros [<- | Hb].
  - exists x. auto.
  - destruct (IH Hb) as (a & Ha & Hp). exists a. auto.
Qed.
Lemma F2_in_l {A B} (P : A -> B -> Prop) l m a : Forall2 P l m -> In a l -> exists b, In b m /\ P a b.
Proof.
  intros F. induction F as [|x y l m H F IH]; cbn; [easy|]. intros [<- | Hb].
  - exists y. auto.
  - destruct (IH Hb) as (b & Ha & Hp). exists b. auto.
Qed.

Section Grammar.
Context {R : Type} (null : R) (calls : list (gcall R)) (names : list string).
Hypothesis Hse : sensible calls.
Let b := registered null calls.
Hypothesis Hinv : inv null calls b names.

Lemma b_names : NoDup names.
Proof. exact (ok_nodup _ _ (iv_ok _ _ _ _ Hinv)). Qed.
Lemma b_keys : map key (b_prods b) = with_root (firsts (call_prods calls)).
Proof. exact (iv_keys _ _ _ _ Hinv). Qed.

(** The entries of the production table, by name. *)
Lemma g_prod p : In p (g_prods (b_grammar b)) -> exists h bd r, In (h, bd, p, r) (b_prods b) /\
  at_ names h (p_head p) /\ Forall2 (at_ names) bd (p_body p) /\
  (h = cStartPrime /\ bd = [start_name calls] \/ In (h, bd) (call_prods calls)).
Proof.
  unfold b_grammar. cbn [g_prods]. rewrite in_map_iff. intros (e & <- & He).
  pose proof (iv_entries _ _ _ _ Hinv e He) as Ho. destruct e as [[[h bd] p] r]. cbn [fst snd].
  destruct Ho as (H1 & H2 & H3). exists h, bd, r. split; [easy|]. split; [easy|]. split; [easy|].
  assert (Hk : In (h, bd) (map key (b_prods b))) by (apply in_map_iff; exists (h, bd, p, r); auto).
  rewrite b_keys in Hk. pose proof (In_firsts (call_prods calls) (h, bd)) as Hf. unfold start_name.
  destruct (call_prods calls) as [|[h0 bd0] l]; [easy|]. cbn [firsts with_root fst] in Hk. cbn [firsts] in Hf.
  destruct Hk as [Hk | [[= <- <-] | Hk]].
  - right. apply (proj1 Hf). now left.
  - now left.
  - right. apply (proj1 Hf). now right.
Qed.
Lemma g_prod_back h bd : In (h, bd) (call_prods calls) -> exists p, In p (g_prods (b_grammar b)) /\
  at_ names h (p_head p) /\ Forall2 (at_ names) bd (p_body p).
Proof.
  intros H. assert (Hk : In (h, bd) (map key (b_prods b))).
  { rewrite b_keys. apply In_with_root; [|now apply In_firsts]. exact (proj1 (se_heads _ Hse h bd H)). }
  apply in_map_iff in Hk. destruct Hk as (e & Ek & He). pose proof (iv_entries _ _ _ _ Hinv e He) as Ho.
  destruct e as [[[h' bd'] p] r]. injection Ek as -> ->. destruct Ho as (H1 & H2 & _).
  exists p. split; [|auto]. unfold b_grammar. cbn [g_prods]. apply in_map_iff. now exists (h, bd, p, r).
Qed.
Lemma g_nts_iff X : In X (g_nts (b_grammar b)) <-> exists p, In p (g_prods (b_grammar b)) /\ p_head p = X.
Proof.
  unfold b_grammar at 1. cbn [g_nts]. rewrite nodup_In, in_map_iff. unfold b_grammar. cbn [g_prods].
  split; intros (p & H1 & H2); exists p; auto.
Qed.
Lemma used_pos x : used calls x -> exists i, at_ names x i.
Proof.
  intros H. apply (iv_used _ _ _ _ Hinv) in H. apply In_nth_error in H. destruct H as (k & Hk). exists (N.of_nat k).
  unfold at_. now rewrite Nat2N.id.
Qed.
Lemma start_in : exists bd, In (start_name calls, bd) (call_prods calls).
Proof.
  unfold start_name. pose proof (se_some _ Hse) as H. destruct (call_prods calls) as [|[h bd] l]; [easy|]. exists bd. now left.
Qed.

Lemma grammar_wf : N.of_nat (List.length names) <= 10000000 -> forall s, at_ names (start_name calls) s ->
  wf_grammar (b_grammar b) s.
Proof.
  intros Hsz s Hs. pose proof (se_some _ Hse) as Hne.
  assert (Hbody : forall p X, In p (g_prods (b_grammar b)) -> In X (p_body p) -> exists x,
    at_ names x X /\ x <> cTokenEnd /\ x <> cStartPrime /\ (token_name calls x \/ exists bd', In (x, bd') (call_prods calls))).
  { intros p X Hp HX. destruct (g_prod p Hp) as (h & bd & r & _ & _ & Hf & Hk).
    destruct (F2_in_r _ _ _ _ Hf HX) as (x & Hx & Hat). exists x. split; [easy|].
    destruct Hk as [(-> & ->) | Hk].
    - destruct Hx as [<- | []]. destruct start_in as (bd0 & Hin). destruct (se_heads _ Hse _ _ Hin) as [Ha Hb].
      split; [|split; [easy|right; now exists bd0]]. intros K. apply Hb. rewrite K. left. now left.
    - exact (se_bodies _ Hse h bd x Hk Hx). }
  assert (Hend : at_ names cTokenEnd TokenEnd) by (destruct (iv_pre _ _ _ _ Hinv) as (l & ->); reflexivity).
  assert (Hterm : forall x X, at_ names x X -> (In X (g_terms (b_grammar b)) <-> token_name calls x)).
  { intros x X Hat. unfold b_grammar. cbn [g_terms]. rewrite (iv_terms _ _ _ _ Hinv). split.
    - intros (y & Hy & Hy2). now rewrite (at_fun names x y X Hat Hy2).
    - intros Hx. now exists x. }
  constructor.
  - change (g_root (b_grammar b)) with (b_root b). rewrite (iv_root _ _ _ _ Hinv Hne). destruct (used_pos cStartPrime) as (h & Hh).
    { right. right. auto. }
    exists h. split.
    + unfold b_grammar. cbn [g_prods]. pose proof b_keys as Hk. unfold start_name in Hs.
      destruct (call_prods calls) as [|[h0 bd0] l]; [easy|]. cbn [firsts with_root fst] in Hk.
      destruct (b_prods b) as [|e0 [|e1 es]] eqn:Eb; try discriminate Hk. injection Hk as _ Hk _.
      assert (He : In e1 (b_prods b)) by (rewrite Eb; right; now left).
      pose proof (iv_entries _ _ _ _ Hinv e1 He) as Ho. destruct e1 as [[[h1 bd1] p1] r1].
      unfold key in Hk. cbn [fst] in Hk. injection Hk as -> ->. destruct Ho as (H1 & H2 & _).
      cbn. f_equal. destruct p1 as [hd bdy]. cbn [p_head p_body] in *.
      rewrite (at_inj names _ _ _ b_names H1 Hh). f_equal.
      inversion H2 as [|x i bd2 ids2 Hx Hr]; subst. inversion Hr; subst.
      now rewrite (at_inj names _ _ _ b_names Hx Hs).
    + intros p Hp Hin. destruct (Hbody p h Hp Hin) as (x & Hx & _ & Hn & _). apply Hn. exact (at_fun names _ _ _ Hx Hh).
  - apply g_nts_iff. destruct start_in as (bd & Hin). destruct (g_prod_back _ _ Hin) as (p & Hp & Hh & _).
    exists p. split; [easy|]. exact (at_inj names _ _ _ b_names Hh Hs).
  - exact g_nts_iff.
  - intros X HX Ht. apply g_nts_iff in HX. destruct HX as (p & Hp & <-).
    destruct (g_prod p Hp) as (h & bd & r & _ & Hh & _ & Hk). apply (Hterm h _ Hh) in Ht.
    destruct Hk as [(-> & _) | Hk].
    + exact (se_start _ Hse Ht).
    + exact (proj2 (se_heads _ Hse _ _ Hk) Ht).
  - intros p X Hp HX. destruct (Hbody p X Hp HX) as (x & Hx & Hn & _ & Hk). split.
    + destruct Hk as [Hk | (bd' & Hk)]; [left; now apply (Hterm x)|right]. apply g_nts_iff.
      destruct (g_prod_back _ _ Hk) as (q & Hq & Hh & _). exists q. split; [easy|]. exact (at_inj names _ _ _ b_names Hh Hx).
    + intros ->. apply Hn. exact (at_fun names _ _ _ Hx Hend).
  - apply (Hterm _ _ Hend). left. now left.
  - assert (Hlt : forall x X, at_ names x X -> X < g_nsym (b_grammar b)).
    { intros x X Hat. unfold b_grammar. cbn [g_nsym]. rewrite (ok_len _ _ (iv_ok _ _ _ _ Hinv)).
      unfold at_ in Hat. assert (L : (N.to_nat X < List.length names)%nat) by (apply nth_error_Some; congruence). lia. }
    intros X [HX | HX].
    + unfold b_grammar in HX. cbn [g_terms] in HX. apply (iv_terms _ _ _ _ Hinv) in HX. destruct HX as (x & _ & Hx).
      exact (Hlt x X Hx).
    + apply g_nts_iff in HX. destruct HX as (p & Hp & <-). destruct (g_prod p Hp) as (h & bd & r & _ & Hh & _).
      exact (Hlt h _ Hh).
  - unfold b_grammar. cbn [g_nsym]. rewrite (ok_len _ _ (iv_ok _ _ _ _ Hinv)). exact Hsz.
Qed.

(** A derivation from the start symbol, by name. *)
Lemma derives_names u v : derives (g_prods (b_grammar b)) u v -> forall us, Forall2 (at_ names) us u -> ~ In cStartPrime us ->
  exists vs, Forall2 (at_ names) vs v /\ name_derives (call_prods calls) us vs.
Proof.
  intros H. induction H as [u | u v w Hs Hd IH]; intros us Hf Hn.
  - exists us. split; [easy|constructor].
  - inversion Hs as [a p c Hp E1 E2]. rewrite <- E1 in Hf.
    apply Forall2_app_inv_r in Hf. destruct Hf as (ua & ub & Ha & Hb & ->).
    inversion Hb as [|h X ub' c' Hh Hc E3 E4]. rewrite <- E3 in Hn. clear Hb E3 E4 H X c'.
    destruct (g_prod p Hp) as (h' & bd & r & _ & Hh' & Hbd & Hk).
    assert (E : h' = h) by exact (at_fun names _ _ _ Hh' Hh). rewrite E in Hk; clear E h' Hh'.
    destruct Hk as [(-> & _) | Hk]; [exfalso; apply Hn, in_or_app; right; now left|].
    destruct (IH (ua ++ bd ++ ub')) as (vs & Hvs & Hder).
    + rewrite <- E2. apply Forall2_app; [easy|]. now apply Forall2_app.
    + rewrite !in_app_iff. intros [K | [K | K]].
      * apply Hn, in_or_app. now left.
      * now destruct (se_bodies _ Hse h bd _ Hk K) as (_ & K2 & _).
      * apply Hn, in_or_app. right. now right.
    + exists vs. split; [easy|]. eapply nder_step; [|exact Hder]. now constructor.
Qed.
(** And back. *)
Lemma names_derive us vs : name_derives (call_prods calls) us vs -> forall u, Forall2 (at_ names) us u ->
  exists v, Forall2 (at_ names) vs v /\ derives (g_prods (b_grammar b)) u v.
Proof.
  intros H. induction H as [us | us vs ws Hs Hd IH]; intros u Hf.
  - exists u. split; [easy|constructor].
  - inversion Hs as [a h bd c Hk E1 E2]. rewrite <- E1 in Hf. apply Forall2_app_inv_l in Hf.
    destruct Hf as (ua & ub & Ha & Hb & ->). inversion Hb as [|h' X c' ub' Hh Hc E3 E4].
    destruct (g_prod_back _ _ Hk) as (p & Hp & Hh2 & Hbd).
    assert (E : X = p_head p) by exact (at_inj names _ _ _ b_names Hh Hh2). rewrite E in *.
    destruct (IH (ua ++ p_body p ++ ub')) as (v & Hv & Hder).
    + rewrite <- E2. apply Forall2_app; [easy|]. now apply Forall2_app.
    + exists v. split; [easy|]. eapply der_step; [|exact Hder]. now constructor.
Qed.
End Grammar.
