(** SchemaPaths.v -- what the NFA and the DFA of a schema's rules can read; every accepted schema gives a
    lexer configuration on which parsing is defined. *)
From Verif Require Import Base LexerModel LexerSpec LogParserModel EventSpec RegexModel RegexSpec RegexProofs RegexLang
  DfaModel DfaProofs DfaExact SchemaModel SchemaProofs.
From Coq Require Import String Permutation Sorted.
Local Open Scope list_scope.
Local Notation length := List.length.

(** * Labels of a pattern's edges *)
Definition label_possible (P : N -> Prop) (l : label) : Prop :=
  match l with LByte lo hi => forall b, lo <= b <= hi -> P b | _ => True end.
Lemma labels_mono (P Q : label -> Prop) f : (forall l, P l -> Q l) -> labels_ok P f -> labels_ok Q f.
Proof. intros H Hf root e n n' es E p l q Hi. eauto. Qed.
Lemma label_possible_mono (P Q : N -> Prop) l : (forall b, P b -> Q b) -> label_possible P l -> label_possible Q l.
Proof. intros H. destruct l; cbn; auto. Qed.
Lemma interval_edge root a e p l q : In (p, l, q) (add_interval root a e) ->
  p = root /\ q = e /\ exists lo hi, l = LByte lo hi /\ forall b, lo <= b <= hi -> fst a <= b <= snd a /\ b < cSizeOfByte.
Proof.
  unfold add_interval. destruct (N.ltb_spec (fst a) cSizeOfByte); [|contradiction].
  intros [[= <- <- <-]|[]]. split; [reflexivity|]. split; [reflexivity|]. do 2 eexists. split; [reflexivity|].
  unfold cSizeOfByte in *. lia.
Qed.
Lemma add_to_nfa_possible r : neg_ranges_ok r -> labels_ok (label_possible (fun b => possible r b = true)) (add_to_nfa r).
Proof.
  induction r as [|c|ds|wc neg rs|l IHl r IHr|l IHl r IHr|r IH mn mx|r IH t]; cbn [neg_ranges_ok add_to_nfa]; intros Hok.
  - apply labels_nop.
  - intros root e n n' es [= <- <-] p l q Hi. apply interval_edge in Hi as (_ & _ & lo & hi & -> & Hb).
    intros b Hx. specialize (Hb b Hx). cbn in *. apply N.eqb_eq. lia.
  - intros root e n n' es [=].
  - intros root e n n' es [= <- <-] p l q Hi. apply in_flat_map in Hi as ((lo & hi) & Ha & Hi).
    apply interval_edge in Hi as (_ & _ & lo' & hi' & -> & Hb). intros b Hx. specialize (Hb b Hx). cbn [fst snd] in Hb.
    apply (group_possible neg rs); [exact Hok|lia|]. exists lo, hi. split; [exact Ha|lia].
  - destruct Hok as (Hl & Hr). apply labels_seq; apply labels_neg; try exact I.
    + eapply labels_mono; [|apply IHl; exact Hl]. intros x. apply label_possible_mono. intros b E. cbn. rewrite E. reflexivity.
    + eapply labels_mono; [|apply IHr; exact Hr]. intros x. apply label_possible_mono. intros b E. cbn. rewrite E. apply orb_true_r.
  - destruct Hok as (Hl & Hr). apply labels_cat.
    + eapply labels_mono; [|apply IHl; exact Hl]. intros x. apply label_possible_mono. intros b E. cbn. rewrite E. reflexivity.
    + eapply labels_mono; [|apply IHr; exact Hr]. intros x. apply label_possible_mono. intros b E. cbn. rewrite E. apply orb_true_r.
  - apply labels_mult; [exact I|]. apply IH. exact Hok.
  - apply labels_capture; try exact I. apply IH. exact Hok.
Qed.

(** * Rules of a log parser: a byte, or a one-byte pattern followed by any pattern *)
Definition one_byte (a : regex) : Prop := match a with RLit _ | RGroup _ _ _ => True | _ => False end.
Definition first_ok (a : regex) (b : N) : Prop :=
  match a with RLit c => b = c | RGroup _ neg rs => in_ranges (group_ranges neg rs) b | _ => False end.
Definition shaped (r : regex) : Prop :=
  match r with RLit _ => True | RCat a s => one_byte a /\ neg_ranges_ok s | _ => False end.
(** Reading [x] and then the bytes [v] may follow rule [r]. *)
Definition may_read (r : regex) (x : N) (v : list N) : Prop :=
  match r with
  | RLit c => x = c /\ v = []
  | RCat a s => first_ok a x /\ forall b, In b v -> possible s b = true
  | _ => False
  end.
Definition rest_ok (r : regex) (l : label) : Prop :=
  match r with
  | RCat a s => label_possible (fun b => possible s b = true) l
  | _ => False
  end.

Lemma one_byte_edges a root e n n' es : one_byte a -> add_to_nfa a root e n = Ret (n', es) ->
  n' = n /\ forall p l q, In (p, l, q) es -> p = root /\ q = e /\
    exists lo hi, l = LByte lo hi /\ forall b, lo <= b <= hi -> first_ok a b.
Proof.
  destruct a; cbn [one_byte add_to_nfa]; try contradiction; intros _ [= <- <-]; (split; [reflexivity|]); intros p l q Hi.
  - apply interval_edge in Hi as (-> & -> & lo & hi & -> & Hb). repeat split. exists lo, hi. split; [reflexivity|].
    intros b Hx. specialize (Hb b Hx). cbn in *. lia.
  - apply in_flat_map in Hi as ((lo & hi) & Ha & Hi). apply interval_edge in Hi as (-> & -> & lo' & hi' & -> & Hb).
    repeat split. exists lo', hi'. split; [reflexivity|]. intros b Hx. specialize (Hb b Hx). cbn [fst snd] in Hb.
    exists lo, hi. split; [exact Ha|lia].
Qed.

Lemma shaped_edges r n n' es : (0 < n)%nat -> shaped r -> add_to_nfa r n_root n (S n) = Ret (n', es) ->
  (S n <= n')%nat /\
  forall p l q, In (p, l, q) es -> inside n n' q /\
    ((p = n_root /\ exists lo hi, l = LByte lo hi /\ forall b, lo <= b <= hi -> may_read r b []) \/
     (inside n n' p /\ rest_ok r l)).
Proof.
  intros Hn Hsh Hr. unfold n_root in *.
  destruct (add_to_nfa_implements r 0%nat n (S n) n' es ltac:(lia) ltac:(lia) Hr) as [L _ D _]. split; [exact L|].
  intros p l q Hi. split; [specialize (D _ _ _ Hi); unfold inside in *; lia|].
  destruct r as [|c|ds|wc neg rs|a s|a s|s mn mx|s t]; cbn [shaped] in Hsh; try contradiction.
  - left. destruct (one_byte_edges (RLit c) 0%nat n (S n) n' es I Hr) as (_ & H).
    destruct (H p l q Hi) as (-> & _ & lo & hi & -> & Hb). split; [reflexivity|]. exists lo, hi. split; [reflexivity|].
    intros b Hx. cbn. split; [apply Hb; exact Hx|reflexivity].
  - destruct Hsh as (Ha & Hs). cbn [add_to_nfa] in Hr. apply bind_Ret in Hr as ((n1 & e1) & H1 & Hr).
    apply bind_Ret in Hr as ((n2 & e2) & H2 & [= <- <-]).
    destruct (one_byte_edges a 0%nat (S n) (S (S n)) n1 e1 Ha H1) as (-> & He1).
    destruct (add_to_nfa_implements s (S n) n (S (S n)) n2 e2 ltac:(lia) ltac:(lia) H2) as [L2 S2 D2 _].
    apply in_app_iff in Hi as [Hi|Hi].
    + left. destruct (He1 p l q Hi) as (-> & _ & lo & hi & -> & Hb). split; [reflexivity|]. exists lo, hi.
      split; [reflexivity|]. intros b Hx. cbn. split; [apply Hb; exact Hx|]. intros y [].
    + right. split; [specialize (S2 _ _ _ Hi); unfold inside in *; lia|]. cbn.
      exact (add_to_nfa_possible s Hs _ _ _ _ _ H2 _ _ _ Hi).
Qed.

(** Which rule a state belongs to. *)
Lemma add_rules_owner rules : forall n n' es acc, (0 < n)%nat -> (forall i r, In (i, r) rules -> shaped r) ->
  add_rules rules n = Ret (n', es, acc) ->
  (n <= n')%nat /\ exists owner : nat -> regex,
  forall p l q, In (p, l, q) es -> inside n n' q /\ (exists i, In (i, owner q) rules) /\
    ((p = n_root /\ exists lo hi, l = LByte lo hi /\ forall b, lo <= b <= hi -> may_read (owner q) b []) \/
     (inside n n' p /\ owner p = owner q /\ rest_ok (owner q) l)).
Proof.
  induction rules as [|(id & r) rules IH]; cbn [add_rules]; intros n n' es acc Hn Hsh H.
  - injection H as <- <- <-. split; [lia|]. exists (fun _ => REmpty). intros p l q [].
  - apply bind_Ret in H as ((n1 & e1) & H1 & H). apply bind_Ret in H as (((n2 & e2) & acc2) & H2 & [= <- <- <-]).
    destruct (shaped_edges r n n1 e1 Hn (Hsh id r (or_introl eq_refl)) H1) as (L1 & He1).
    destruct (IH n1 n2 e2 acc2 ltac:(lia) (fun i x Hx => Hsh i x (or_intror Hx)) H2) as (L2 & owner & He2).
    split; [lia|]. exists (fun p => if Nat.ltb p n1 then r else owner p). intros p l q Hi.
    apply in_app_iff in Hi as [Hi|Hi].
    + destruct (He1 p l q Hi) as (Hq & Hc). unfold inside in *.
      destruct (Nat.ltb_spec q n1); [|lia]. split; [lia|]. split; [exists id; left; reflexivity|].
      destruct Hc as [(-> & Hx)|(Hp & Hx)]; [left; auto|right]. destruct (Nat.ltb_spec p n1); [|lia].
      split; [lia|auto].
    + destruct (He2 p l q Hi) as (Hq & (i & Hin) & Hc). unfold inside in *.
      destruct (Nat.ltb_spec q n1); [lia|]. split; [lia|]. split; [exists i; right; exact Hin|].
      destruct Hc as [(-> & Hx)|(Hp & Hx)]; [left; auto|right]. destruct (Nat.ltb_spec p n1); [lia|].
      split; [lia|exact Hx].
Qed.

(** Whatever the NFA reads follows one of the rules. *)
Theorem reads_rule rules A x v q : (forall i r, In (i, r) rules -> shaped r) -> nfa_of_rules rules = Ret A ->
  reads (n_edges A) n_root (x :: v) q -> exists i r, In (i, r) rules /\ may_read r x v.
Proof.
  intros Hsh HA. apply bind_Ret in HA as (((n & es) & acc) & H & [= <-]). cbn [n_edges].
  destruct (add_rules_owner rules 1 n es acc ltac:(lia) Hsh H) as (Ln & owner & Ho).
  assert (Hroot : forall p q, reads es p [] q -> p = n_root -> q = n_root).
  { apply (reads_nil_ind es (fun p q => p = n_root -> q = n_root)); [auto|].
    intros p r y (l & Hi & Hl) _ _ ->. destruct (Ho _ _ _ Hi) as (_ & _ & [(_ & lo & hi & -> & _)|(Hp & _)]); [discriminate|].
    unfold inside, n_root in Hp. lia. }
  assert (Hin : forall p w y, reads es p w y -> p <> n_root ->
     (forall b, In b w -> exists l, rest_ok (owner p) l /\ exists lo hi, l = LByte lo hi /\ lo <= b <= hi)).
  { apply (reads_ind' es (fun p w y => p <> n_root -> forall b, In b w ->
       exists l, rest_ok (owner p) l /\ exists lo hi, l = LByte lo hi /\ lo <= b <= hi)).
    - intros p _ b [].
    - intros p r w y (l & Hi & Hl) _ IH Hp b Hb. destruct (Ho _ _ _ Hi) as (Hr & _ & [(-> & _)|(_ & -> & _)]); [congruence|].
      apply IH; [unfold inside, n_root in *; lia|exact Hb].
    - intros p c r w y (lo & hi & Hi & Hlh) _ IH Hp b Hb.
      destruct (Ho _ _ _ Hi) as (Hr & _ & [(-> & _)|(_ & E & Hx)]); [congruence|].
      destruct Hb as [->|Hb].
      + exists (LByte lo hi). rewrite E. split; [exact Hx|eauto].
      + rewrite E. apply IH; [unfold inside, n_root in *; lia|exact Hb]. }
  intros Hr. apply reads_cons in Hr as (r1 & r2 & Hr1 & (lo & hi & Hi & Hlh) & Hr2).
  rewrite (Hroot _ _ Hr1 eq_refl) in *.
  destruct (Ho _ _ _ Hi) as (Hq & (i & Hi2) & [(_ & lo' & hi' & [= <- <-] & Hm)|(Hp & _)]); [|unfold inside, n_root in Hp; lia].
  exists i, (owner r2). split; [exact Hi2|]. specialize (Hm x Hlh).
  specialize (Hin _ _ _ Hr2 ltac:(unfold inside, n_root in *; lia)).
  destruct (owner r2) as [|c|ds|wc neg rs|a s|a s|s mn mx|s t]; cbn [may_read rest_ok] in *; try contradiction.
  - split; [tauto|]. destruct v as [|b v]; [reflexivity|]. destruct (Hin b (or_introl eq_refl)) as (_ & [] & _).
  - split; [tauto|]. intros b Hb. destruct (Hin b Hb) as (l & Hl & lo' & hi' & -> & Hb'). exact (Hl b Hb').
Qed.

(** A rule's first byte can always be read. *)
Lemma rule_edges rules i r : forall n n' es acc, In (i, r) rules -> add_rules rules n = Ret (n', es, acc) ->
  exists m m' es', add_to_nfa r n_root m (S m) = Ret (m', es') /\ incl es' es.
Proof.
  induction rules as [|(id & r0) rules IH]; cbn [add_rules]; intros n n' es acc Hin H; [destruct Hin|].
  apply bind_Ret in H as ((n1 & e1) & H1 & H). apply bind_Ret in H as (((n2 & e2) & acc2) & H2 & [= <- <- <-]).
  destruct Hin as [[= -> ->]|Hin].
  - exists n, n1, e1. split; [exact H1|]. apply incl_appl, incl_refl.
  - destruct (IH _ _ _ _ Hin H2) as (m & m' & es' & E & Hi). exists m, m', es'. split; [exact E|]. apply incl_appr. exact Hi.
Qed.
Lemma interval_edge_in root a e b : fst a <= b <= snd a -> b < cSizeOfByte ->
  exists lo hi, In (root, LByte lo hi, e) (add_interval root a e) /\ lo <= b <= hi.
Proof.
  intros H Hb. unfold add_interval. destruct (N.ltb_spec (fst a) cSizeOfByte); [|lia].
  do 2 eexists. split; [left; reflexivity|]. unfold cSizeOfByte in *. lia.
Qed.
Lemma first_byte_read rules A i a s b : nfa_of_rules rules = Ret A -> In (i, RCat a s) rules -> one_byte a ->
  first_ok a b -> b < cSizeOfByte -> exists q, reads (n_edges A) n_root [b] q.
Proof.
  intros HA Hi Ha Hb Hlt. apply bind_Ret in HA as (((n & es) & acc) & H & [= <-]). cbn [n_edges].
  destruct (rule_edges rules i _ _ _ _ _ Hi H) as (m & m' & es' & E & Hin). cbn [add_to_nfa] in E.
  apply bind_Ret in E as ((n1 & e1) & H1 & E). apply bind_Ret in E as ((n2 & e2) & H2 & [= <- <-]).
  exists (S m). apply reads_byte with (r := S m); [|apply reads_refl].
  destruct a as [|c|ds|wc neg rs| | | |]; cbn [one_byte] in Ha; try contradiction; cbn [add_to_nfa] in H1; injection H1 as <- <-.
  - cbn in Hb. subst c. destruct (interval_edge_in n_root (b, b) (S m) b) as (lo & hi & Hx & Hy); [cbn; lia|exact Hlt|].
    exists lo, hi. split; [|exact Hy]. apply Hin, in_app_iff. left. exact Hx.
  - destruct Hb as (lo0 & hi0 & Hr & Hx). destruct (interval_edge_in n_root (lo0, hi0) (S m) b Hx Hlt) as (lo & hi & Hx' & Hy).
    exists lo, hi. split; [|exact Hy]. apply Hin, in_app_iff. left. apply in_flat_map. exists (lo0, hi0). auto.
Qed.

(** * The rules of a schema *)
Definition prefix {A} (l m : list A) : Prop := exists k, m = l ++ k.
Lemma prefix_refl {A} (l : list A) : prefix l l.
Proof. exists []. symmetry. apply app_nil_r. Qed.
Lemma prefix_trans {A} (l m k : list A) : prefix l m -> prefix m k -> prefix l k.
Proof. intros (a & ->) (b & ->). exists (a ++ b). symmetry. apply app_assoc. Qed.
Lemma sym_add_prefix s ns x s' i : sym_is s ns -> sym_add s x = (s', i) ->
  exists ns', sym_is s' ns' /\ prefix ns ns' /\ id_of (sy_id s') x = Some i /\ (forall y, In y ns' <-> In y ns \/ y = x).
Proof.
  intros Hs H. destruct (sym_add_spec s ns x s' i Hs H) as (ns' & H1 & H2 & [(Hi & ->)|(Hi & ->)]).
  - exists ns. split; [exact H1|]. split; [apply prefix_refl|]. split; [exact H2|].
    intros y. split; [auto|intros [Hy| ->]; auto].
  - exists (ns ++ [x]). split; [exact H1|]. split; [exists [x]; reflexivity|]. split; [exact H2|].
    intros y. rewrite in_app_iff. cbn. split; [intros [Hy|[->|[]]]; auto|intros [Hy| ->]; auto].
Qed.
Lemma id_of_prefix s ns s' ns' x i : sym_is s ns -> sym_is s' ns' -> prefix ns ns' ->
  id_of (sy_id s) x = Some i -> id_of (sy_id s') x = Some i.
Proof.
  intros (Hn & E & _) (Hn' & E' & _) (k & ->). rewrite E, E'. rewrite !id_of_number by assumption.
  intros (j & Hj & ->). exists j. split; [|reflexivity]. rewrite nth_error_app1; [exact Hj|].
  apply nth_error_Some. congruence.
Qed.

(** The rules a variable of the schema gives. *)
Definition var_rules (ds : list N) (s : symtab) (v : string * regex) : list (N * regex) :=
  if String.eqb (fst v) cTimestamp
  then [(TokenFirstTimestamp, RCat (RLit cCharStartOfFile) (snd v)); (TokenNewlineTimestamp, RCat (RLit cNewline) (snd v))]
  else match id_of (sy_id s) (fst v) with
       | Some i => [(i, RCat (group_of ds) (strip_wild ds (snd v)))]
       | None => []
       end.
Lemma flat_map_prefix ds s ns s' ns' vars : sym_is s ns -> sym_is s' ns' -> prefix ns ns' ->
  (forall name r, In (name, r) vars -> name <> cTimestamp -> In name ns) ->
  flat_map (var_rules ds s) vars = flat_map (var_rules ds s') vars.
Proof.
  intros Hs Hs' Hp Hin. apply flat_map_ext_in. intros (name & r) Hi. unfold var_rules. cbn [fst snd].
  destruct (String.eqb_spec name cTimestamp) as [->|Hne]; [reflexivity|].
  specialize (Hin name r Hi Hne). destruct (id_of (sy_id s) name) as [i|] eqn:E.
  - rewrite (id_of_prefix _ _ _ _ _ _ Hs Hs' Hp E). reflexivity.
  - destruct Hs as (Hn & E1 & _). rewrite E1 in E. apply id_of_none in E. contradiction.
Qed.

Lemma reserved_id s ns x j : sym_is s ns -> prefix reserved ns -> nth_error reserved j = Some x ->
  id_of (sy_id s) x = Some (N.of_nat j).
Proof.
  intros Hs Hp Hj. apply (id_of_prefix symtab_init reserved s ns); [apply sym_init|exact Hs|exact Hp|].
  destruct sym_init as (Hn & E & _). rewrite E. apply id_of_number; [exact Hn|]. exists j. split; [exact Hj|lia].
Qed.
Lemma sym_add_known s x i : id_of (sy_id s) x = Some i -> sym_add s x = (s, i).
Proof. intros H. unfold sym_add. rewrite H. reflexivity. Qed.

Lemma add_vars_spec ds vars : forall s ns rules s' rules',
  sym_is s ns -> prefix reserved ns -> add_vars ds vars s rules = Ret (s', rules') ->
  exists ns', sym_is s' ns' /\ prefix ns ns' /\ rules' = rules ++ flat_map (var_rules ds s') vars /\
    (forall name r, In (name, r) vars -> name <> cTimestamp ->
       In name ns' /\ forall d, In d ds -> possible (strip_wild ds r) d = false) /\
    (forall name, In name ns' <-> In name ns \/ exists r, In (name, r) vars /\ name <> cTimestamp).
Proof.
  induction vars as [|(name & r) vars IH]; intros s ns rules s' rules' Hs Hres H; cbn [add_vars] in H.
  - injection H as <- <-. exists ns. split; [exact Hs|]. split; [apply prefix_refl|]. split; [cbn; rewrite app_nil_r; reflexivity|].
    split; [intros name r []|]. intros name. split; [auto|]. intros [Hi|(r & [] & _)]; exact Hi.
  - destruct (String.eqb_spec name cTimestamp) as [->|Hne].
    + rewrite (sym_add_known s cTokenFirstTimestamp 5) in H by (exact (reserved_id s ns _ 5 Hs Hres eq_refl)).
      rewrite (sym_add_known s cTokenNewlineTimestamp 6) in H by (exact (reserved_id s ns _ 6 Hs Hres eq_refl)).
      destruct (IH _ _ _ _ _ Hs Hres H) as (ns' & H1 & H2 & -> & H4 & H5). exists ns'.
      split; [exact H1|]. split; [exact H2|]. split.
      * rewrite <- app_assoc. reflexivity.
      * split.
        { intros name r0 [[= <- <-]|Hi] Hn; [congruence|eauto]. }
        { intros name. rewrite H5. split; (intros [Hi|(r0 & Hi & Hn)]; [auto|right; exists r0]).
          - split; [right; exact Hi|exact Hn].
          - destruct Hi as [[= <- <-]|Hi]; [congruence|auto]. }
    + destruct (existsb (possible (strip_wild ds r)) ds) eqn:Ep; [discriminate|].
      destruct (sym_add s name) as (s1 & i) eqn:Es.
      destruct (sym_add_prefix s ns name s1 i Hs Es) as (ns1 & Hs1 & Hp1 & Hid & Hin1).
      destruct (IH _ _ _ _ _ Hs1 (prefix_trans _ _ _ Hres Hp1) H) as (ns' & H1 & H2 & -> & H4 & H5). exists ns'.
      split; [exact H1|]. split; [eapply prefix_trans; eauto|]. split.
      * rewrite <- app_assoc. cbn [flat_map app]. unfold var_rules at 2. cbn [fst snd].
        destruct (String.eqb_spec name cTimestamp); [congruence|].
        rewrite (id_of_prefix _ _ _ _ _ _ Hs1 H1 H2 Hid). reflexivity.
      * split.
        { intros name0 r0 [[= <- <-]|Hi] Hn; [|eauto]. split.
          - apply H5. left. apply Hin1. auto.
          - intros d Hd. destruct (possible (strip_wild ds r) d) eqn:E; [|reflexivity].
            assert (existsb (possible (strip_wild ds r)) ds = true) by (apply existsb_exists; eauto). congruence. }
        { intros name0. rewrite H5, Hin1. split.
          - intros [[Hi| ->]|(r0 & Hi & Hn)]; [auto| |]; right; [exists r|exists r0]; split; cbn; auto.
          - intros [Hi|(r0 & [[= <- <-]|Hi] & Hn)]; [auto|auto|right; eauto]. }
Qed.

(** What [prepare] gives. *)
Record prepared_ok (sc : schema) (p : prepared) (ds : list N) (ns : list string) : Prop := {
  po_ds : ds = delims_of (pr_delim p);
  po_ne : ds <> [];
  po_sym : sym_is (pr_sym p) ns;
  po_res : prefix reserved ns;
  po_rules : pr_rules p = (TokenNewline, RLit cNewline) :: flat_map (var_rules ds (pr_sym p)) (sc_vars sc);
  po_var : forall name r, In (name, r) (sc_vars sc) -> name <> cTimestamp ->
    In name ns /\ forall d, In d ds -> possible (strip_wild ds r) d = false;
  po_names : forall name, In name ns <-> In name reserved \/ exists r, In (name, r) (sc_vars sc) /\ name <> cTimestamp
}.
Lemma prepare_spec sc p : prepare sc = Ret p ->
  add_delimiter_lines (sc_delims sc) (fun _ => false) = Ret (pr_delim p) /\
  exists ds ns, prepared_ok sc p ds ns.
Proof.
  unfold prepare. intros H. apply bind_Ret in H as (tbl & Ht & H).
  rewrite (sym_add_known symtab_init cTokenNewline 7) in H by reflexivity. cbv zeta beta in H.
  destruct (delims_of tbl) as [|d ds] eqn:Ed; [discriminate|].
  apply bind_Ret in H as ((s & rules) & Hv & [= <-]). split; [exact Ht|]. exists (d :: ds).
  destruct (add_vars_spec _ _ _ _ _ _ _ sym_init (prefix_refl _) Hv) as (ns & H1 & H2 & H3 & H4 & H5). exists ns.
  constructor; cbn [pr_delim pr_sym pr_rules]; auto; try congruence.
Qed.

(** * Schemas on which everything is defined *)
(** The names a schema must not use for its variables (it can: they are never checked). *)
Definition forbidden : list string :=
  [cTokenEnd; cTokenUncaughtString; cTokenNewline; cTokenFirstTimestamp; cTokenNewlineTimestamp].
Record legal (sc : schema) : Prop := {
  lg_some : sc_vars sc <> [];
  lg_names : forall name r, In (name, r) (sc_vars sc) -> ~ In name forbidden;
  lg_ranges : forall name r, In (name, r) (sc_vars sc) -> neg_ranges_ok r
}.

Lemma wild_gaps_ok ds : forall prev, StronglySorted N.lt (prev :: ds) -> (forall d, In d (prev :: ds) -> d <= cUnicodeMax) ->
  ranges_ok (wild_gaps prev ds).
Proof.
  induction ds as [|d ds IH]; intros prev Hs Hm; cbn [wild_gaps].
  - specialize (Hm prev (or_introl eq_refl)).
    destruct (N.eqb_spec prev cUnicodeMax) as [->|Hne]; intros lo hi; [intros []|intros [[= <- <-]|[]]; lia].
  - inversion Hs as [|? ? Hs' Hf]; subst. specialize (IH d Hs' (fun x Hx => Hm x (or_intror Hx))).
    destruct (N.ltb_spec 1 (d - prev)); [|exact IH]. intros lo hi [[= <- <-]|Hi]; [lia|auto].
Qed.
Lemma wild_ranges_ok ds : StronglySorted N.lt ds -> (forall d, In d ds -> d <= cUnicodeMax) -> ranges_ok (wild_ranges ds).
Proof.
  destruct ds as [|d ds]; intros Hs Hm; [intros lo hi []|]. unfold wild_ranges. pose proof (wild_gaps_ok ds d Hs Hm) as H.
  destruct (N.eqb_spec d 0); [exact H|]. intros lo hi [[= <- <-]|Hi]; [lia|auto].
Qed.
Lemma strip_wild_ok ds r : StronglySorted N.lt ds -> (forall d, In d ds -> d <= cUnicodeMax) ->
  neg_ranges_ok r -> neg_ranges_ok (strip_wild ds r).
Proof.
  intros Hs Hm. induction r as [|c|l|wc neg rs|l IHl r IHr|l IHl r IHr|r IH mn mx|r IH t]; cbn [strip_wild neg_ranges_ok]; intros H; try tauto.
  destruct wc; cbn [negb]; [|exact H]. destruct ds as [|d ds]; [exact H|]. intros _. apply wild_ranges_ok; assumption.
Qed.
Lemma strip_wild_nullable ds r : nullable (strip_wild ds r) = nullable r.
Proof.
  induction r as [|c|l|wc neg rs|l IHl r IHr|l IHl r IHr|r IH mn mx|r IH t]; cbn [strip_wild nullable]; try congruence.
  destruct wc; cbn [negb]; [|reflexivity]. destruct ds; reflexivity.
Qed.
Lemma group_of_first ds b : b <= cUnicodeMax -> first_ok (group_of ds) b <-> In b ds.
Proof.
  intros Hb. cbn [group_of first_ok]. rewrite group_ranges_spec; [|intros lo hi Hi; apply in_map_iff in Hi as (x & [= <- <-] & _); lia|exact Hb|discriminate].
  cbn [group_has]. unfold in_ranges. split.
  - intros (lo & hi & Hi & Hx). apply in_map_iff in Hi as (x & [= <- <-] & Hi). replace b with x by lia. exact Hi.
  - intros Hi. exists b, b. split; [apply in_map_iff; exists b; auto|lia].
Qed.
Lemma first_ok_byte ds b : first_ok (group_of ds) b -> (forall d, In d ds -> d < cSizeOfByte) -> In b ds.
Proof.
  intros H Hd. cbn [group_of first_ok group_ranges] in H.
  assert (Hp : in_ranges (map (fun d => (d, d)) ds) b).
  { unfold group_ranges in H. cbv zeta in H. assert (Hs : in_ranges (range_sort (map (fun d => (d, d)) ds)) b).
    { unfold merge in H. destruct (range_sort _) as [|r l]; [exact H|]. apply merge_from_sound. exact H. }
    destruct Hs as (lo & hi & Hi & Hx). exists lo, hi. rewrite <- range_sort_in. auto. }
  destruct Hp as (lo & hi & Hi & Hx). apply in_map_iff in Hi as (x & [= <- <-] & Hi). replace b with x by lia. exact Hi.
Qed.

(** * The constructed parser *)
Record built (sc : schema) (g : logparser) (p : prepared) (A : nfa) (ds : list N) (ns : list string) : Prop := {
  bu_lines : add_delimiter_lines (sc_delims sc) (fun _ => false) = Ret (c_delim (lg_cfg g));
  bu_prep : prepared_ok sc p ds ns;
  bu_delim : c_delim (lg_cfg g) = pr_delim p;
  bu_has : c_has_delims (lg_cfg g) = true;
  bu_sym : lg_sym g = pr_sym p;
  bu_nfa : nfa_of_rules (pr_rules p) = Ret A;
  bu_ids : forall q i, In i (d_ids (c_dfa (lg_cfg g)) q) -> exists r, In (i, r) (pr_rules p);
  bu_run : forall w, run (c_dfa (lg_cfg g)) d_root w = None <-> forall x, ~ reads (n_edges A) n_root w x;
  bu_reads : forall w q, run (c_dfa (lg_cfg g)) d_root w = Some q -> exists x, reads (n_edges A) n_root w x;
  bu_rep : forall w i, In i (reported (c_dfa (lg_cfg g)) d_root w) <-> exists r, In (i, r) (pr_rules p) /\ img (full r) w
}.
Lemma nfa_to_dfa_mono fuel fuel' addr A f : nfa_to_dfa fuel addr A = Ret f -> (fuel <= fuel')%nat -> nfa_to_dfa fuel' addr A = Ret f.
Proof.
  unfold nfa_to_dfa. intros H Hle. apply bind_Ret in H as (s0 & E0 & H). rewrite E0. cbn [bind].
  apply bind_Ret in H as ((sets & tr) & E & H).
  assert (M : forall es f g sets tr st x, dfa_loop f es sets tr st = Ret x -> (f <= g)%nat -> dfa_loop g es sets tr st = Ret x).
  { intros es. induction f0 as [|f0 IHf]; intros [|g] sets0 t st x H0 Hle0; cbn [dfa_loop] in H0 |- *; try discriminate; [lia|].
    destruct st as [|s st]; [exact H0|]. destruct (find_set sets0 s); [|discriminate].
    apply bind_Ret in H0 as (((a & b) & c) & H1 & H2). rewrite H1. cbn [bind]. apply (IHf g); [exact H2|lia]. }
  rewrite (M _ _ _ _ _ _ _ E Hle). cbn [bind]. exact H.
Qed.
Lemma dfa_ids_rules rules A fuel addr f q i : nfa_of_rules rules = Ret A -> nfa_to_dfa fuel addr A = Ret f ->
  In i (d_ids (dfa_of f) q) -> exists r, In (i, r) rules.
Proof.
  intros HA H Hi. destruct (nfa_of_rules_acc rules A HA) as (_ & H2).
  unfold nfa_to_dfa in H. apply bind_Ret in H as (s0 & _ & H). apply bind_Ret in H as ((sets & tr) & _ & [= <-]).
  cbn [dfa_of d_ids f_states] in Hi.
  destruct (nth_in_or_default q (map (ids_of addr (n_acc A)) sets) []) as [Hn|Hn]; [|rewrite Hn in Hi; destruct Hi].
  apply in_map_iff in Hn as (s & Es & _). rewrite <- Es in Hi. apply ids_of_in in Hi as (x & _ & Hx).
  clear -H2 Hx. induction H2 as [|a ir acc rules (H3 & _) H2 IH]; [destruct Hx|].
  destruct Hx as [->|Hx]; [exists (snd ir); left; destruct ir; cbn in *; congruence|].
  destruct (IH Hx) as (r & Hr). exists r. right. exact Hr.
Qed.
Theorem make_parser_built fuel addr sc g : make_parser fuel addr sc = Ret g -> exists p A ds ns, built sc g p A ds ns.
Proof.
  unfold make_parser. intros H. apply bind_Ret in H as (p & Hp & H). apply bind_Ret in H as (A & HA & H).
  apply bind_Ret in H as (f & Hf & [= <-]). destruct (prepare_spec sc p Hp) as (Hl & ds & ns & Hok).
  exists p, A, ds, ns. destruct (nfa_to_dfa_reports addr (pr_rules p) A HA) as (F & HF).
  destruct (HF (Nat.max F fuel) ltac:(lia)) as (f' & Hf' & _ & Hrun & Hrep).
  rewrite (nfa_to_dfa_mono _ (Nat.max F fuel) _ _ _ Hf) in Hf' by lia. injection Hf' as <-.
  constructor; cbn [lg_cfg lg_sym c_delim c_dfa c_has_delims]; auto.
  - intros q i. apply (dfa_ids_rules _ _ _ _ _ _ _ HA Hf).
  - destruct (nfa_to_dfa_run addr A (nfa_of_rules_bytes _ _ HA)) as (F' & HF').
    destruct (HF' (Nat.max F' fuel) ltac:(lia)) as (f' & Hf' & _ & Hr).
    rewrite (nfa_to_dfa_mono _ (Nat.max F' fuel) _ _ _ Hf) in Hf' by lia. injection Hf' as <-.
    intros w q Hq. specialize (Hr w). rewrite Hq in Hr. destruct Hr as (s & _ & Hne & Hx & _).
    destruct s as [|x s]; [congruence|]. exists x. apply Hx. left. reflexivity.
  - intros w i. destruct (Hrep w) as (ids & Hsel & Hperm & _). rewrite <- (selected_in _ _ _ Hsel). split; intros Hi.
    + eapply Permutation_in; eauto.
    + eapply Permutation_in; [symmetry|]; eauto.
Qed.
