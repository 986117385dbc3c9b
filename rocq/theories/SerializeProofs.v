(** SerializeProofs.v -- RegexNFA::serialize visits exactly the reachable states and its text determines the automaton. *)
From Verif Require Import Base RegexModel RegexSpec RegexProofs DfaModel DfaProofs SerializeModel.
From Coq Require Decimal DecimalPos DecimalN.
Import Decimal (uint(..)).


(** * Prefix codes *)
Definition hd_ok (P : N -> Prop) (s : list N) : Prop := match s with c :: _ => P c | [] => False end.
Definition digit (c : N) : Prop := 48 <= c <= 57.
Definition stops (s : list N) : Prop := match s with c :: _ => ~ digit c | [] => True end.

Lemma uint_codes_digits u : Forall digit (uint_codes u).
Proof. induction u; cbn; constructor; unfold digit in *; try lia; auto. Qed.
Lemma uint_codes_inj u v s t : stops s -> stops t -> uint_codes u ++ s = uint_codes v ++ t -> u = v /\ s = t.
Proof.
  intros Hs Ht. revert v. induction u; destruct v; cbn; intros E;
    try (injection E as E; destruct (IHu _ E) as [-> ->]; auto; fail); try discriminate; auto; exfalso.
  all: try (subst s; cbn in Hs; unfold digit in Hs; lia).
  all: try (rewrite <- E in Ht; cbn in Ht; unfold digit in Ht; lia).
Qed.
Lemma dec_inj i j s t : stops s -> stops t -> dec i ++ s = dec j ++ t -> i = j /\ s = t.
Proof.
  intros Hs Ht E. destruct (uint_codes_inj _ _ _ _ Hs Ht E) as [E1 E2]. split; [|exact E2].
  rewrite <- (DecimalN.Unsigned.of_to i), <- (DecimalN.Unsigned.of_to j), E1. reflexivity.
Qed.
Lemma dec_cons i : exists c l, dec i = c :: l /\ digit c.
Proof.
  unfold dec. pose proof (uint_codes_digits (N.to_uint i)) as H. destruct (uint_codes (N.to_uint i)) as [|c l] eqn:E.
  - exfalso. assert (N.to_uint i <> Nil) as Hn.
    { destruct i as [|p]; cbn; [discriminate|]. apply DecimalPos.Unsigned.to_uint_nonnil. }
    destruct (N.to_uint i); cbn in E; try discriminate. apply Hn. reflexivity.
  - exists c, l. split; [reflexivity|]. now inversion H.
Qed.

(** [f] maps elements to texts that end where they end. *)
Definition prefix_code {X} (ok : X -> Prop) (stop : list N -> Prop) (f : X -> list N) : Prop :=
  forall x y s t, ok x -> ok y -> stop s -> stop t -> f x ++ s = f y ++ t -> x = y /\ s = t.

Lemma join_cons sep x y l : join sep (x :: y :: l) = x ++ sep ++ join sep (y :: l).
Proof. reflexivity. Qed.
Lemma join_code {X} (ok : X -> Prop) (stop : list N -> Prop) (f : X -> list N) (k : list N) :
  prefix_code ok stop f -> (forall s, stop (44 :: s)) -> (forall s, stop (k ++ s)) ->
  (forall x s t, ok x -> f x ++ s <> k ++ t) -> (forall s t, 44 :: s <> k ++ t) ->
  forall l l' s t, Forall ok l -> Forall ok l' -> join [44] (map f l) ++ k ++ s = join [44] (map f l') ++ k ++ t -> l = l' /\ s = t.
Proof.
  intros Hc H44 Hk Hfk Hck. induction l as [|x l IH]; intros l' s t Hl Hl' E.
  - destruct l' as [|y l']; [cbn in E; apply app_inv_head in E; auto|exfalso].
    inversion Hl' as [|? ? Hy _]; subst. destruct l' as [|z l']; cbn [map] in E; [cbn [join] in E|rewrite join_cons in E; rewrite <- !app_assoc in E];
      cbn [join app] in E; symmetry in E; exact (Hfk _ _ _ Hy E).
  - inversion Hl as [|? ? Hx Hl1]; subst. destruct l' as [|y l'].
    { exfalso. destruct l as [|z l]; cbn [map] in E; [cbn [join] in E|rewrite join_cons in E; rewrite <- !app_assoc in E];
      cbn [join app] in E; exact (Hfk _ _ _ Hx E). }
    inversion Hl' as [|? ? Hy Hl1']; subst.
    destruct l as [|x2 l], l' as [|y2 l']; cbn [map] in E; rewrite ?join_cons in E; cbn [join] in E; rewrite <- ?app_assoc in E.
    + destruct (Hc _ _ _ _ Hx Hy (Hk _) (Hk _) E) as [-> E2]. apply app_inv_head in E2. auto.
    + cbn [app] in E. destruct (Hc _ _ _ _ Hx Hy (Hk _) (H44 _) E) as [-> E2]. symmetry in E2. destruct (Hck _ _ E2).
    + cbn [app] in E. destruct (Hc _ _ _ _ Hx Hy (H44 _) (Hk _) E) as [-> E2]. destruct (Hck _ _ E2).
    + cbn [app] in E. destruct (Hc _ _ _ _ Hx Hy (H44 _) (H44 _) E) as [-> E2]. injection E2 as E2.
      destruct (IH (y2 :: l') s t Hl1 Hl1' E2) as [-> ->]. auto.
Qed.

(** * Rows *)
Definition plain_name (u : list N) : Prop := u <> [] /\ ~ In 44 u /\ ~ In 93 u.
Record row := mkRow {
  w_id : N; w_acc : option N; w_bytes : list (N * N); w_eps : list N;
  w_starts : list (list N * N); w_end : option (list N * N); w_neg : option (list (list N) * N) }.
Definition byte_item (x : N * N) : list N := fst x :: [45; 45; 62] ++ dec (snd x).
Definition pos_item (x : list N * N) : list N := dec (snd x) ++ [91] ++ fst x ++ [93].
Definition neg_item (x : list (list N) * N) : list N := dec (snd x) ++ [91] ++ join [44] (fst x) ++ [93].
Definition row_text (w : row) : list N :=
  dec (w_id w) ++ [58] ++ match w_acc w with Some k => k_accepting ++ dec k ++ [44] | None => [] end
    ++ k_bytes ++ join [44] (map byte_item (w_bytes w)) ++ k_epsilon ++ join [44] (map dec (w_eps w))
    ++ k_start ++ join [44] (map pos_item (w_starts w)) ++ k_end ++ concat (map pos_item (opt_list (w_end w)))
    ++ k_negative ++ concat (map neg_item (opt_list (w_neg w))) ++ [125].
Definition row_ok (w : row) : Prop :=
  Forall (fun x => plain_name (fst x)) (w_starts w) /\ Forall (fun x => plain_name (fst x)) (opt_list (w_end w)) /\
  Forall (fun x => Forall plain_name (fst x)) (opt_list (w_neg w)).

Lemma stops_cons c s : ~ digit c -> stops (c :: s).
Proof. intros H. exact H. Qed.
Ltac nd := apply stops_cons; unfold digit; lia.
Lemma until_code (c : N) (u v s t : list N) : ~ In c u -> ~ In c v -> u ++ c :: s = v ++ c :: t -> u = v /\ s = t.
Proof.
  revert v. induction u as [|a u IH]; intros [|b v] Hu Hv E; cbn in E.
  - injection E as <-. auto.
  - injection E as <- _. exfalso. apply Hv. now left.
  - injection E as -> _. exfalso. apply Hu. now left.
  - injection E as <- E. destruct (IH v) as [-> ->]; auto; intros Hi; [apply Hu|apply Hv]; now right.
Qed.
Lemma byte_code : prefix_code (fun _ => True) stops byte_item.
Proof.
  intros [b i] [c j] s t _ _ Hs Ht E. unfold byte_item in E. cbn [fst snd app] in E. injection E as -> E.
  destruct (dec_inj _ _ _ _ Hs Ht E) as [-> ->]. auto.
Qed.
Lemma dec_code : prefix_code (fun _ => True) stops dec.
Proof. intros i j s t _ _ Hs Ht E. exact (dec_inj _ _ _ _ Hs Ht E). Qed.
Lemma pos_code stop : prefix_code (fun x => plain_name (fst x)) stop pos_item.
Proof.
  intros [u i] [v j] s t (Hu0 & Hu1 & Hu2) (Hv0 & Hv1 & Hv2) _ _ E. unfold pos_item in E. cbn [fst snd] in *.
  rewrite <- !app_assoc in E. cbn [app] in E.
  destruct (dec_inj i j (91 :: u ++ 93 :: s) (91 :: v ++ 93 :: t)) as [-> E2]; [nd|nd|exact E|].
  injection E2 as E2. destruct (until_code 93 u v s t Hu2 Hv2 E2) as [-> ->]. auto.
Qed.
Lemma name_code : prefix_code plain_name (fun s => match s with c :: _ => c = 44 \/ c = 93 | [] => False end) (fun u => u).
Proof.
  intros u v s t (Hu0 & Hu1 & Hu2) (Hv0 & Hv1 & Hv2) Hs Ht. revert v Hv0 Hv1 Hv2. clear Hu0.
  induction u as [|a u IH]; intros [|b v] Hv0 Hv1 Hv2 E; cbn in E.
  - auto.
  - exfalso. subst s. cbn in Hs. destruct Hs as [-> | ->]; [apply Hv1|apply Hv2]; now left.
  - exfalso. rewrite <- E in Ht. cbn in Ht. destruct Ht as [-> | ->]; [apply Hu1|apply Hu2]; now left.
  - injection E as <- E.
    assert (Hu1' : ~ In 44 u) by (intros H; apply Hu1; now right). assert (Hu2' : ~ In 93 u) by (intros H; apply Hu2; now right).
    assert (Hv1' : ~ In 44 v) by (intros H; apply Hv1; now right). assert (Hv2' : ~ In 93 v) by (intros H; apply Hv2; now right).
    destruct v as [|c v].
    + destruct u as [|d u]; [cbn in E; auto|]. exfalso. cbn in E. rewrite <- E in Ht. cbn in Ht.
      destruct Ht as [-> | ->]; [apply Hu1'|apply Hu2']; now left.
    + destruct (IH Hu1' Hu2' (c :: v)) as [-> ->]; auto. discriminate.
Qed.
Lemma neg_code stop : prefix_code (fun x => Forall plain_name (fst x)) stop neg_item.
Proof.
  intros [u i] [v j] s t Hu Hv _ _ E. unfold neg_item in E. cbn [fst snd] in *.
  rewrite <- !app_assoc in E. cbn [app] in E.
  destruct (dec_inj i j (91 :: join [44] u ++ 93 :: s) (91 :: join [44] v ++ 93 :: t)) as [-> E2]; [nd|nd|exact E|].
  injection E2 as E2.
  destruct (join_code plain_name _ (fun u => u) [93] name_code) with (l := u) (l' := v) (s := s) (t := t) as [-> ->].
  - intros a. left. reflexivity.
  - intros a. cbn. right. reflexivity.
  - intros x a b (Hx & _ & H93) F. destruct x as [|c x]; [congruence|]. cbn in F. injection F as -> _. apply H93. now left.
  - discriminate.
  - exact Hu.
  - exact Hv.
  - rewrite !map_id. exact E2.
  - auto.
Qed.

Lemma dec_not i s c t : ~ digit c -> dec i ++ s <> c :: t.
Proof. intros Hc E. destruct (dec_cons i) as (d & l & Ed & Hd). rewrite Ed in E. cbn in E. injection E as -> _. contradiction. Qed.
Lemma concat_join {X} (f : X -> list N) (o : option X) : concat (map f (opt_list o)) = join [44] (map f (opt_list o)).
Proof. destruct o; cbn; [apply app_nil_r|reflexivity]. Qed.
Lemma opt_list_inj {X} (o o' : option X) : opt_list o = opt_list o' -> o = o'.
Proof. destruct o, o'; cbn; congruence. Qed.

Lemma k_epsilon_hd : exists r, k_epsilon = 125 :: 44 :: r.
Proof. eexists; reflexivity. Qed.
Lemma k_start_hd : exists r, k_start = 125 :: r.
Proof. eexists; reflexivity. Qed.
Lemma k_end_hd : exists r, k_end = 125 :: r.
Proof. eexists; reflexivity. Qed.
Lemma k_negative_hd : exists r, k_negative = 125 :: r.
Proof. eexists; reflexivity. Qed.
Lemma digit_items {X} (ok : X -> Prop) (f : X -> list N) (k : list N) :
  prefix_code ok stops f -> (forall x, exists i r, f x = dec i ++ r) -> (exists r, k = 125 :: r) ->
  forall l l' s t, Forall ok l -> Forall ok l' -> join [44] (map f l) ++ k ++ s = join [44] (map f l') ++ k ++ t -> l = l' /\ s = t.
Proof.
  intros Hc Hd (r & ->). apply (join_code ok stops f (125 :: r) Hc).
  - intros s. nd.
  - intros s. cbn [app]. nd.
  - intros x s t _ E. destruct (Hd x) as (i & u & Eu). rewrite Eu, <- app_assoc in E. cbn [app] in E. revert E. apply dec_not. unfold digit; lia.
  - discriminate.
Qed.

Lemma cons_inj (c : N) s t : c :: s = c :: t -> s = t.
Proof. congruence. Qed.
Lemma app1 (c : N) s : [c] ++ s = c :: s.
Proof. reflexivity. Qed.
Theorem row_code : prefix_code row_ok (fun _ => True) row_text.
Proof.
  intros [i a bs es ss e n] [i' a' bs' es' ss' e' n'] s t (H1 & H2 & H3) (H1' & H2' & H3') _ _ E.
  unfold row_text in E. cbn [w_id w_acc w_bytes w_eps w_starts w_end w_neg] in *.
  rewrite !concat_join in E. rewrite <- !app_assoc in E.
  apply dec_inj in E as [-> E]; [|rewrite app1; nd|rewrite app1; nd]. rewrite !(app1 58) in E. apply cons_inj in E.
  assert (a = a' /\ k_bytes ++ join [44] (map byte_item bs) ++ k_epsilon ++ join [44] (map dec es)
    ++ k_start ++ join [44] (map pos_item ss) ++ k_end ++ join [44] (map pos_item (opt_list e))
    ++ k_negative ++ join [44] (map neg_item (opt_list n)) ++ [125] ++ s =
    k_bytes ++ join [44] (map byte_item bs') ++ k_epsilon ++ join [44] (map dec es')
    ++ k_start ++ join [44] (map pos_item ss') ++ k_end ++ join [44] (map pos_item (opt_list e'))
    ++ k_negative ++ join [44] (map neg_item (opt_list n')) ++ [125] ++ t) as [-> E'].
  { destruct a as [k|], a' as [k'|]; rewrite <- ?app_assoc in E.
    - apply app_inv_head in E. apply dec_inj in E as [-> E]; [|rewrite app1; nd|rewrite app1; nd]. rewrite !(app1 44) in E. apply cons_inj in E. split; [reflexivity|exact E].
    - exfalso. unfold k_accepting, k_bytes in E. cbn [app] in E. discriminate.
    - exfalso. unfold k_accepting, k_bytes in E. cbn [app] in E. discriminate.
    - split; [reflexivity|exact E]. }
  clear E. apply app_inv_head in E'.
  apply (join_code (fun _ => True) stops byte_item k_epsilon byte_code) in E' as [-> E'].
  - apply (digit_items (fun _ => True) dec k_start dec_code) in E' as [-> E'].
    + apply (digit_items _ pos_item k_end (pos_code stops)) in E' as [-> E'].
      * apply (digit_items _ pos_item k_negative (pos_code stops)) in E' as [Ee E'].
        -- apply (digit_items _ neg_item [125] (neg_code stops)) in E' as [En ->].
           ++ apply opt_list_inj in Ee, En. subst. auto.
           ++ intros [x j]. unfold neg_item. cbn. eauto.
           ++ exists []. reflexivity.
           ++ exact H3.
           ++ exact H3'.
        -- intros [x j]. unfold pos_item. cbn. eauto.
        -- apply k_negative_hd.
        -- exact H2.
        -- exact H2'.
      * intros [x j]. unfold pos_item. cbn. eauto.
      * apply k_end_hd.
      * exact H1.
      * exact H1'.
    + intros x. exists x, []. now rewrite app_nil_r.
    + apply k_start_hd.
    + apply Forall_forall. auto.
    + apply Forall_forall. auto.
  - intros x. nd.
  - intros x. destruct k_epsilon_hd as (r & ->). cbn [app]. nd.
  - intros [b j] x y _ F. destruct k_epsilon_hd as (r & Hr). rewrite Hr in F. unfold byte_item in F. cbn [fst snd app] in F. discriminate.
  - intros x y F. destruct k_epsilon_hd as (r & Hr). rewrite Hr in F. discriminate.
  - apply Forall_forall. auto.
  - apply Forall_forall. auto.
Qed.

(** The whole text. *)
Definition rows_text (ws : list row) : list N := join [10] (map row_text ws) ++ [10].
Lemma row_hd w : exists c l, row_text w = c :: l /\ digit c.
Proof. unfold row_text. destruct (dec_cons (w_id w)) as (c & l & E & H). rewrite E. cbn [app]. eauto. Qed.
Theorem rows_code ws ws' : Forall row_ok ws -> Forall row_ok ws' -> rows_text ws = rows_text ws' -> ws = ws'.
Proof.
  unfold rows_text. revert ws'. induction ws as [|w ws IH]; intros [|w' ws'] H H' E.
  - reflexivity.
  - exfalso. destruct (row_hd w') as (c & l & Ec & Hc). destruct ws'; cbn [map] in E; [cbn [join] in E|rewrite join_cons in E]; rewrite Ec in E; cbn in E;
      injection E as <- _; unfold digit in Hc; lia.
  - exfalso. destruct (row_hd w) as (c & l & Ec & Hc). destruct ws; cbn [map] in E; [cbn [join] in E|rewrite join_cons in E]; rewrite Ec in E; cbn in E;
      injection E as -> _; unfold digit in Hc; lia.
  - inversion H as [|? ? Hw Hws]; inversion H' as [|? ? Hw' Hws']; subst.
    destruct ws as [|v ws], ws' as [|v' ws']; cbn [map] in E; rewrite ?join_cons in E; cbn [join] in E; rewrite <- ?app_assoc in E.
    + destruct (row_code _ _ _ _ Hw Hw' I I E) as [-> _]. reflexivity.
    + exfalso. destruct (row_code _ _ _ _ Hw Hw' I I E) as [-> E2]. cbn [app] in E2. apply cons_inj in E2.
      symmetry in E2. apply app_eq_nil in E2 as [_ E2]. discriminate.
    + exfalso. destruct (row_code _ _ _ _ Hw Hw' I I E) as [-> E2]. cbn [app] in E2. apply cons_inj in E2.
      apply app_eq_nil in E2 as [_ E2]. discriminate.
    + destruct (row_code _ _ _ _ Hw Hw' I I E) as [-> E2]. cbn [app] in E2. injection E2 as E2. cbn [map] in IH. f_equal. apply IH; auto.
Qed.

(** * The traversal *)
(** [q] is one transition away from [p]. *)
Definition linked_by (es : list edge) (p q : nat) : Prop := exists w, g_edges es p w q.
Inductive reach (es : list edge) : nat -> Prop :=
| reach_root : reach es n_root
| reach_step : forall p q, reach es p -> linked_by es p q -> reach es q.

(** What the construction guarantees about transitions. *)
Definition ends (es : list edge) : list nat := flat_map (fun e => let '(s, l, _) := e in match l with LPosEnd _ => [s] | _ => [] end) es.
Definition negs (es : list edge) : list nat := flat_map (fun e => let '(s, l, _) := e in match l with LNeg _ => [s] | _ => [] end) es.
Definition byte_sized (es : list edge) : Prop := forall p lo hi q, In (p, LByte lo hi, q) es -> hi < cSizeOfByte.
Record tame (n n' : nat) (es : list edge) : Prop := mkTame {
  tm_le : (n <= n')%nat;
  tm_byte : byte_sized es;
  tm_ends : forall s, In s (ends es) -> inside n n' s;
  tm_negs : forall s, In s (negs es) -> inside n n' s;
  tm_ends_nd : NoDup (ends es);
  tm_negs_nd : NoDup (negs es) }.
Definition tames (f : builder) : Prop := forall root e n n' es, f root e n = Ret (n', es) -> tame n n' es.

Lemma ends_app a b : ends (a ++ b) = ends a ++ ends b.
Proof. apply flat_map_app. Qed.
Lemma negs_app a b : negs (a ++ b) = negs a ++ negs b.
Proof. apply flat_map_app. Qed.
Lemma nodup_app {X} (a b : list X) : NoDup a -> NoDup b -> (forall x, In x a -> In x b -> False) -> NoDup (a ++ b).
Proof.
  induction a as [|x a IH]; cbn; intros Ha Hb H; [exact Hb|]. inversion Ha; subst. constructor.
  - rewrite in_app_iff. intros [Hi|Hi]; [contradiction|]. exact (H x (or_introl eq_refl) Hi).
  - apply IH; auto. intros y Hy. apply H. now right.
Qed.
Lemma tame_app n n1 m n2 e1 e2 : tame n n1 e1 -> tame m n2 e2 -> (n1 <= m)%nat -> tame n n2 (e1 ++ e2).
Proof.
  intros [L1 B1 E1 N1 ED1 ND1] [L2 B2 E2 N2 ED2 ND2] Hm. constructor.
  - lia.
  - intros p lo hi q H. apply in_app_iff in H as [H|H]; eauto.
  - intros s H. rewrite ends_app in H. apply in_app_iff in H as [H|H]; [specialize (E1 s H)|specialize (E2 s H)]; unfold inside in *; lia.
  - intros s H. rewrite negs_app in H. apply in_app_iff in H as [H|H]; [specialize (N1 s H)|specialize (N2 s H)]; unfold inside in *; lia.
  - rewrite ends_app. apply nodup_app; auto. intros x Ha Hb. specialize (E1 x Ha). specialize (E2 x Hb). unfold inside in *. lia.
  - rewrite negs_app. apply nodup_app; auto. intros x Ha Hb. specialize (N1 x Ha). specialize (N2 x Hb). unfold inside in *. lia.
Qed.
Lemma tame_weaken n n' m es : tame n n' es -> (m <= n)%nat -> tame m n' es.
Proof. intros [L B E N ED ND] H. constructor; auto; [lia| |]; intros s Hs; [specialize (E s Hs)|specialize (N s Hs)]; unfold inside in *; lia. Qed.
Lemma tames_seq f g : tames f -> tames g -> tames (b_seq f g).
Proof.
  intros Hf Hg root e n n' es H. unfold b_seq in H. apply bind_Ret in H as ((n1 & e1) & H1 & H). apply bind_Ret in H as ((n2 & e2) & H2 & H).
  injection H as -> <-. exact (tame_app _ _ _ _ _ _ (Hf _ _ _ _ _ H1) (Hg _ _ _ _ _ H2) (le_n _)).
Qed.
Lemma tames_cat f g : tames f -> tames g -> tames (b_cat f g).
Proof.
  intros Hf Hg root e n n' es H. unfold b_cat in H. apply bind_Ret in H as ((n1 & e1) & H1 & H). apply bind_Ret in H as ((n2 & e2) & H2 & H).
  injection H as -> <-. apply (tame_weaken (S n)); [|lia]. exact (tame_app _ _ _ _ _ _ (Hf _ _ _ _ _ H1) (Hg _ _ _ _ _ H2) (le_n _)).
Qed.
Lemma tames_atend f : tames f -> tames (b_atend f).
Proof. intros Hf root e n n' es H. exact (Hf _ _ _ _ _ H). Qed.
Lemma tames_nop : tames b_nop.
Proof. intros root e n n' es [= <- <-]. constructor; try constructor; try contradiction. intros ? ? ? ? []. Qed.
Lemma tames_eps : tames b_eps.
Proof. intros root e n n' es [= <- <-]. constructor; cbn; try constructor; try contradiction. intros ? ? ? ? [[=]|[]]. Qed.
Lemma tames_neg ts f : tames f -> tames (with_neg ts f).
Proof.
  intros Hf root e n n' es H. unfold with_neg in H. destruct ts as [|t ts]; [exact (Hf _ _ _ _ _ H)|].
  apply bind_Ret in H as ((n1 & e1) & H1 & H). injection H as -> <-. destruct (Hf _ _ _ _ _ H1) as [L B E N ED ND].
  constructor; cbn.
  - lia.
  - intros p lo hi q [[=]|H]. eauto.
  - intros s Hs. specialize (E s Hs). unfold inside in *. lia.
  - intros s [<-|Hs]; [unfold inside; lia|]. specialize (N s Hs). unfold inside in *. lia.
  - exact ED.
  - constructor; [|exact ND]. intros Hi. specialize (N n Hi). unfold inside in N. lia.
Qed.
Lemma tames_capture t f : tames f -> tames (b_capture t f).
Proof.
  intros Hf root e n n' es H. unfold b_capture in H.
  apply bind_Ret in H as ((n1 & e1) & H1 & H). injection H as -> <-. destruct (Hf _ _ _ _ _ H1) as [L B E N ED ND].
  constructor; cbn.
  - lia.
  - intros p lo hi q [[=]|[[=]|H]]. eauto.
  - intros s [<-|Hs]; [unfold inside; lia|]. specialize (E s Hs). unfold inside in *. lia.
  - intros s Hs. specialize (N s Hs). unfold inside in *. lia.
  - constructor; [|exact ED]. intros Hi. specialize (E (S n) Hi). unfold inside in E. lia.
  - exact ND.
Qed.
Lemma tames_chain f k g : tames f -> tames g -> tames (b_chain f k g).
Proof. intros Hf Hg. induction k; cbn [b_chain]; auto using tames_cat. Qed.
Lemma tames_upto f k : tames f -> tames (b_upto f k).
Proof. intros Hf. induction k; cbn [b_upto]; auto using tames_cat, tames_seq. Qed.
Lemma tames_mult f mn mx : tames f -> tames (b_mult f mn mx).
Proof.
  intros Hf. unfold b_mult.
  assert (Hr : tames (if mx =? 0 then b_atend f else if mn <? mx then
      (if mn =? 0 then b_upto f (N.to_nat (mx - 1 - mn)) else b_cat f (b_upto f (N.to_nat (mx - 1 - mn)))) else b_nop)).
  { destruct (mx =? 0); [apply tames_atend, Hf|]. destruct (mn <? mx); [|apply tames_nop].
    destruct (mn =? 0); auto using tames_upto, tames_cat. }
  destruct (mn =? 0); [apply tames_seq; [apply tames_eps|exact Hr]|apply tames_chain; [exact Hf|apply tames_seq; assumption]].
Qed.
Lemma tame_bytes n es : (forall p l q, In (p, l, q) es -> exists lo hi, l = LByte lo hi /\ hi < cSizeOfByte) -> tame n n es.
Proof.
  intros H. assert (ends es = [] /\ negs es = []) as [He Hn].
  { clear n. induction es as [|[[p l] q] es IH]; [auto|]. destruct (H p l q (or_introl eq_refl)) as (lo & hi & -> & _). apply IH.
    intros p' l' q' Hi. apply (H p' l' q'). now right. }
  constructor; rewrite ?He, ?Hn; try constructor; try contradiction.
  intros p lo hi q Hi. destruct (H _ _ _ Hi) as (lo' & hi' & [= -> ->] & Hlt). exact Hlt.
Qed.
Lemma add_to_nfa_tames r : tames (add_to_nfa r).
Proof.
  induction r as [|c|ds|w neg rs|l IHl r IHr|l IHl r IHr|r IHr mn mx|r IHr t]; cbn [add_to_nfa].
  - apply tames_nop.
  - intros root e n n' es [= <- <-]. apply tame_bytes. intros p l q H. apply in_interval in H as (_ & _ & _ & ->).
    exists (fst (c, c)), (N.min (snd (c, c)) (cSizeOfByte - 1)). split; [reflexivity|]. unfold cSizeOfByte. lia.
  - discriminate.
  - intros root e n n' es [= <- <-]. apply tame_bytes. intros p l q H. apply in_flat_map in H as (a & _ & H).
    apply in_interval in H as (_ & _ & _ & ->). eexists _, _. split; [reflexivity|]. unfold cSizeOfByte. lia.
  - apply tames_seq; apply tames_neg; assumption.
  - apply tames_cat; assumption.
  - apply tames_mult; assumption.
  - apply tames_capture; assumption.
Qed.
Lemma add_rules_tame rules : forall n n' es acc, add_rules rules n = Ret (n', es, acc) -> tame n n' es.
Proof.
  induction rules as [|[i r] rules IH]; intros n n' es acc H; cbn [add_rules] in H.
  - injection H as <- <- <-. constructor; try constructor; try contradiction. intros ? ? ? ? [].
  - apply bind_Ret in H as ((n1 & e1) & H1 & H). apply bind_Ret in H as (((n2 & e2) & acc2) & H2 & H). injection H as <- <- <-.
    apply (tame_weaken (S n)); [|lia]. exact (tame_app _ _ _ _ _ _ (add_to_nfa_tames r _ _ _ _ _ H1) (IH _ _ _ _ H2) (le_n _)).
Qed.
(** The automata that RegexNFA's constructor makes. *)
Record well_built (A : nfa) : Prop := mkWB {
  wb_bytes : byte_sized (n_edges A);
  wb_ends : NoDup (ends (n_edges A));
  wb_negs : NoDup (negs (n_edges A));
  wb_root : (n_root < n_size A)%nat;
  wb_range : forall p l q, In (p, l, q) (n_edges A) -> (p < n_size A)%nat /\ (q < n_size A)%nat;
  wb_acc : NoDup (map fst (n_acc A)) }.
Lemma nfa_well_built rules A : nfa_of_rules rules = Ret A -> well_built A.
Proof.
  intros H. unfold nfa_of_rules in H. apply bind_Ret in H as (((n & es) & acc) & H & [= <-]).
  destruct (add_rules_spec rules 1 n es acc ltac:(lia) H) as (ers & M1 & _ & _ & L & I & ND & Bd & _).
  destruct (add_rules_tame _ _ _ _ _ H) as [_ B _ _ ED NDg].
  constructor; cbn [n_edges n_size n_acc]; auto.
  - intros p l q Hi. destruct (Bd _ _ _ Hi) as ([-> |Hp] & Hq); unfold inside, n_root in *; lia.
  - rewrite <- M1. exact ND.
Qed.

Lemma end_none es p : ~ In p (ends es) -> end_succs es p = [].
Proof.
  induction es as [|[[s l] d] es IH]; [reflexivity|]. unfold ends. cbn [flat_map]. rewrite in_app_iff. intros H. unfold end_succs. cbn [flat_map].
  fold (end_succs es p). rewrite IH by (intros Hi; apply H; right; exact Hi). rewrite app_nil_r. destruct (Nat.eqb_spec s p) as [->|]; [|reflexivity].
  destruct l; try reflexivity. exfalso. apply H. left. now left.
Qed.
Lemma end_one es p : NoDup (ends es) -> opt_list (optional (end_succs es p)) = end_succs es p.
Proof.
  induction es as [|[[s l] d] es IH]; [reflexivity|]. unfold ends. cbn [flat_map]. fold (ends es). unfold end_succs. cbn [flat_map]. fold (end_succs es p). intros H.
  destruct (Nat.eqb_spec s p) as [->|]; [|apply IH; destruct l; cbn in H; auto; now inversion H].
  destruct l; try (apply IH; exact H). cbn [app] in H. inversion H; subst. rewrite end_none by assumption. reflexivity.
Qed.
Lemma neg_none es p : ~ In p (negs es) -> neg_succs es p = [].
Proof.
  induction es as [|[[s l] d] es IH]; [reflexivity|]. unfold negs. cbn [flat_map]. rewrite in_app_iff. intros H. unfold neg_succs. cbn [flat_map].
  fold (neg_succs es p). rewrite IH by (intros Hi; apply H; right; exact Hi). rewrite app_nil_r. destruct (Nat.eqb_spec s p) as [->|]; [|reflexivity].
  destruct l; try reflexivity. exfalso. apply H. left. now left.
Qed.
Lemma neg_one es p : NoDup (negs es) -> opt_list (optional (neg_succs es p)) = neg_succs es p.
Proof.
  induction es as [|[[s l] d] es IH]; [reflexivity|]. unfold negs. cbn [flat_map]. fold (negs es). unfold neg_succs. cbn [flat_map]. fold (neg_succs es p). intros H.
  destruct (Nat.eqb_spec s p) as [->|]; [|apply IH; destruct l; cbn in H; auto; now inversion H].
  destruct l; try (apply IH; exact H). cbn [app] in H. inversion H; subst. rewrite neg_none by assumption. reflexivity.
Qed.

Lemma eps_in es p d : In d (eps_succs es p) <-> In (p, LEps, d) es.
Proof.
  unfold eps_succs. rewrite in_flat_map. split.
  - intros (((s & l) & q) & Hi & H). destruct (Nat.eqb_spec s p) as [->|]; [|contradiction]. destruct l; cbn in H; try contradiction. destruct H as [->|[]]. exact Hi.
  - intros H. exists (p, LEps, d). split; [exact H|]. rewrite Nat.eqb_refl. now left.
Qed.
Lemma start_in es p t d : In (t, d) (start_succs es p) <-> In (p, LPosStart t, d) es.
Proof.
  unfold start_succs. rewrite in_flat_map. split.
  - intros (((s & l) & q) & Hi & H). destruct (Nat.eqb_spec s p) as [->|]; [|contradiction]. destruct l; cbn in H; try contradiction. destruct H as [[= -> ->]|[]]. exact Hi.
  - intros H. exists (p, LPosStart t, d). split; [exact H|]. rewrite Nat.eqb_refl. now left.
Qed.
Lemma end_in es p t d : In (t, d) (end_succs es p) <-> In (p, LPosEnd t, d) es.
Proof.
  unfold end_succs. rewrite in_flat_map. split.
  - intros (((s & l) & q) & Hi & H). destruct (Nat.eqb_spec s p) as [->|]; [|contradiction]. destruct l; cbn in H; try contradiction. destruct H as [[= -> ->]|[]]. exact Hi.
  - intros H. exists (p, LPosEnd t, d). split; [exact H|]. rewrite Nat.eqb_refl. now left.
Qed.
Lemma neg_in es p t d : In (t, d) (neg_succs es p) <-> In (p, LNeg t, d) es.
Proof.
  unfold neg_succs. rewrite in_flat_map. split.
  - intros (((s & l) & q) & Hi & H). destruct (Nat.eqb_spec s p) as [->|]; [|contradiction]. destruct l; cbn in H; try contradiction. destruct H as [[= -> ->]|[]]. exact Hi.
  - intros H. exists (p, LNeg t, d). split; [exact H|]. rewrite Nat.eqb_refl. now left.
Qed.
Definition byte_pairs (es : list edge) (p : nat) : list (N * nat) := flat_map (fun b => map (fun d => (b, d)) (byte_succs es b p)) all_bytes.
Lemma byte_in es p b d : byte_sized es -> In (b, d) (byte_pairs es p) <-> exists lo hi, In (p, LByte lo hi, d) es /\ lo <= b <= hi.
Proof.
  intros HB. unfold byte_pairs. rewrite in_flat_map. split.
  - intros (c & _ & H). apply in_map_iff in H as (q & [= -> ->] & H). apply byte_succs_in in H. exact H.
  - intros H. assert (b < cSizeOfByte) by (destruct H as (lo & hi & Hi & Hb); specialize (HB _ _ _ _ Hi); lia).
    exists b. split; [now apply all_bytes_in|]. apply in_map_iff. exists d. split; [reflexivity|]. apply byte_succs_in. exact H.
Qed.
Lemma successors_spec A p d : well_built A -> In d (successors (n_edges A) p) <-> linked_by (n_edges A) p d.
Proof.
  intros W. unfold successors. rewrite end_one, neg_one by apply W. rewrite !in_app_iff, !in_map_iff.
  assert (Hb : In d (flat_map (fun b => byte_succs (n_edges A) b p) all_bytes) <-> exists b, In (b, d) (byte_pairs (n_edges A) p)).
  { unfold byte_pairs. rewrite in_flat_map. split.
    - intros (b & Hb & H). exists b. apply in_flat_map. exists b. split; [exact Hb|]. apply in_map_iff. eauto.
    - intros (b & H). apply in_flat_map in H as (c & Hc & H). apply in_map_iff in H as (q & [= -> ->] & H). eauto. }
  rewrite Hb. split.
  - intros [(b & H)|[H|[((t & q) & <- & H)|[((t & q) & <- & H)|((t & q) & <- & H)]]]].
    + apply byte_in in H as (lo & hi & H & Hr); [|apply W]. exists [SByte b], (LByte lo hi). split; [exact H|]. exists b. auto.
    + apply eps_in in H. exists [], LEps. split; [exact H|reflexivity].
    + apply start_in in H. exists [SStart t], (LPosStart t). split; [exact H|reflexivity].
    + apply end_in in H. exists [SEnd t], (LPosEnd t). split; [exact H|reflexivity].
    + apply neg_in in H. exists [SNeg t], (LNeg t). split; [exact H|reflexivity].
  - intros (w & l & H & Hw). destruct l as [lo hi| |t|t|ts].
    + destruct Hw as (b & _ & Hr). left. exists b. apply byte_in; [apply W|]. eauto.
    + right; left. now apply eps_in.
    + right; right; left. exists (t, d). split; [reflexivity|]. now apply start_in.
    + right; right; right; left. exists (t, d). split; [reflexivity|]. now apply end_in.
    + right; right; right; right. exists (ts, d). split; [reflexivity|]. now apply neg_in.
Qed.

(** [add_to_queue_and_visited] of several states. *)
Lemma push_spec ds : forall v q v' q', fold_left push ds (v, q) = (v', q') ->
  exists new, q' = q ++ new /\ (forall x, In x v' <-> In x v \/ In x new) /\ (forall x, In x new -> In x ds /\ ~ In x v) /\
    (forall x, In x ds -> In x v') /\ NoDup new.
Proof.
  induction ds as [|d ds IH]; intros v q v' q' H; cbn [fold_left] in H.
  - injection H as <- <-. exists []. rewrite app_nil_r. cbn. split; [reflexivity|]. split; [tauto|]. split; [tauto|]. split; [tauto|constructor].
  - cbn [push] in H. destruct (existsb (Nat.eqb d) v) eqn:Ed.
    + apply existsb_exists in Ed as (x & Hx & E). apply Nat.eqb_eq in E as <-. destruct (IH _ _ _ _ H) as (new & -> & H1 & H2 & H3 & ND).
      exists new. split; [reflexivity|]. split; [exact H1|]. split; [intros y Hy; destruct (H2 y Hy); split; [now right|assumption]|].
      split; [|exact ND]. intros y [<-|Hy]; [apply H1; now left|now apply H3].
    + assert (Hn : ~ In d v). { intros Hi. assert (existsb (Nat.eqb d) v = true) by (apply existsb_exists; exists d; split; [exact Hi|apply Nat.eqb_refl]). congruence. }
      destruct (IH _ _ _ _ H) as (new & -> & H1 & H2 & H3 & ND). exists (d :: new). rewrite <- app_assoc. split; [reflexivity|]. split; [|split; [|split]].
      * intros x. rewrite H1. cbn. tauto.
      * intros x [<-|Hx]; [split; [now left|exact Hn]|]. destruct (H2 x Hx) as [Ha Hb]. split; [now right|]. intros Hi. apply Hb. now right.
      * intros x [<-|Hx]; [apply H1; left; now left|now apply H3].
      * constructor; [|exact ND]. intros Hi. destruct (H2 d Hi) as [_ Hb]. apply Hb. now left.
Qed.

Record visiting (A : nfa) (v q order : list nat) : Prop := mkV {
  vi_seen : forall x, In x v <-> In x (order ++ q);
  vi_nd : NoDup (order ++ q);
  vi_closed : forall p d, In p order -> linked_by (n_edges A) p d -> In d v;
  vi_reach : forall x, In x v -> reach (n_edges A) x;
  vi_root : nth_error (order ++ q) 0 = Some n_root }.
Lemma reach_bound A x : well_built A -> reach (n_edges A) x -> (x < n_size A)%nat.
Proof. intros W H. destruct H as [|p q _ (w & l & Hi & _)]; [apply W|]. exact (proj2 (wb_range _ W _ _ _ Hi)). Qed.
Lemma bfs_spec A : well_built A -> forall fuel v q order, visiting A v q order -> (fuel + length order > n_size A)%nat ->
  exists res, bfs fuel (n_edges A) v q order = Ret res /\ NoDup res /\ (forall x, In x res <-> reach (n_edges A) x) /\ nth_error res 0 = Some n_root.
Proof.
  intros W. induction fuel as [|fuel IH]; intros v q order V Hf.
  - exfalso. assert (Hl : (length (order ++ q) <= length (seq 0 (n_size A)))%nat).
    { apply NoDup_incl_length; [apply V|]. intros x Hx. apply in_seq. apply (vi_seen _ _ _ _ V) in Hx. apply (vi_reach _ _ _ _ V) in Hx.
      apply (reach_bound _ _ W) in Hx. lia. }
    rewrite app_length, seq_length in Hl. lia.
  - cbn [bfs]. destruct q as [|s q].
    + exists order. destruct V as [V1 V2 V3 V4 V5]. rewrite app_nil_r in *. split; [reflexivity|]. split; [exact V2|]. split; [|exact V5].
      intros x. split; [intros Hx; apply V4, V1; exact Hx|]. intros Hr. apply V1. induction Hr as [|p d Hp IHp Hl].
      * apply V1. eapply nth_error_In. exact V5.
      * eapply V3; [apply V1; exact IHp|exact Hl].
    + destruct (fold_left push (successors (n_edges A) s) (v, q)) as [v' q'] eqn:E.
      destruct (push_spec _ _ _ _ _ E) as (new & -> & H1 & H2 & H3 & ND). destruct V as [V1 V2 V3 V4 V5].
      apply IH; [|rewrite app_length; cbn [length]; lia].
      assert (Eq : (order ++ [s]) ++ q ++ new = (order ++ s :: q) ++ new) by (rewrite <- !app_assoc; reflexivity).
      constructor; rewrite ?Eq.
      * intros x. rewrite H1, in_app_iff, V1. tauto.
      * apply nodup_app; [exact V2|exact ND|]. intros x Ha Hb. apply V1 in Ha. destruct (H2 x Hb) as [_ Hn]. contradiction.
      * intros p d Hp Hl. apply in_app_iff in Hp as [Hp|[<-|[]]]; [apply H1; left; eauto|]. apply H3. apply (successors_spec A s d W). exact Hl.
      * intros x Hx. apply H1 in Hx as [Hx|Hx]; [auto|]. destruct (H2 x Hx) as [Hs _]. apply (successors_spec A s x W) in Hs.
        eapply reach_step; [|exact Hs]. apply V4, V1. apply in_app_iff. right. now left.
      * rewrite nth_error_app1; [exact V5|]. rewrite app_length. cbn. lia.
Qed.
Theorem bfs_order_spec A fuel : well_built A -> (fuel > n_size A)%nat ->
  exists order, bfs_order fuel A = Ret order /\ NoDup order /\ (forall x, In x order <-> reach (n_edges A) x) /\ nth_error order 0 = Some n_root.
Proof.
  intros W Hf. unfold bfs_order. cbn [push existsb app]. apply (bfs_spec A W); [|cbn; lia]. constructor; cbn.
  - tauto.
  - constructor; [intros []|constructor].
  - contradiction.
  - intros x [<-|[]]. constructor.
  - reflexivity.
Qed.

(** * The rows of an automaton *)
Definition idx (order : list nat) (p : nat) : N := match index_of p order with Some i => i | None => 0 end.
Definition row_of (name : tag -> list N) (order : list nat) (A : nfa) (p : nat) : row :=
  let es := n_edges A in let id := idx order in
  mkRow (id p) (accepting_id A p) (map (fun x => (fst x, id (snd x))) (byte_pairs es p)) (map id (eps_succs es p))
    (map (fun x => (name (fst x), id (snd x))) (start_succs es p))
    (option_map (fun x => (name (fst x), id (snd x))) (optional (end_succs es p)))
    (option_map (fun x => (map name (fst x), id (snd x))) (optional (neg_succs es p))).

Lemma index_of_in p l : In p l -> index_of p l = Some (idx l p) /\ nth_error l (N.to_nat (idx l p)) = Some p.
Proof.
  unfold idx. induction l as [|x l IH]; intros H; [contradiction|]. cbn [index_of]. destruct (Nat.eqb_spec x p) as [->|Hn].
  - split; reflexivity.
  - destruct H as [->|H]; [contradiction|]. destruct (IH H) as [E1 E2]. destruct (index_of p l) as [i|]; [|discriminate]. split; [reflexivity|].
    rewrite N.add_1_r, Nnat.N2Nat.inj_succ. exact E2.
Qed.
Lemma each_map {X Y} (f : X -> out Y) (g : X -> Y) l : (forall x, In x l -> f x = Ret (g x)) -> each f l = Ret (map g l).
Proof.
  induction l as [|x l IH]; intros H; [reflexivity|]. cbn [each]. rewrite H by (now left). cbn [bind]. rewrite IH by (intros y Hy; apply H; now right). reflexivity.
Qed.
Lemma opt_list_map {X Y} (f : X -> Y) o : opt_list (option_map f o) = map f (opt_list o).
Proof. now destruct o. Qed.
Lemma linked_label es p l d : byte_sized es -> In (p, l, d) es -> match l with LByte lo hi => lo <= hi | _ => True end -> linked_by es p d.
Proof.
  intros HB Hi Hl. destruct l as [lo hi| |t|t|ts]; eexists _, _; (split; [exact Hi|]); cbn; try reflexivity. exists lo. split; [reflexivity|lia].
Qed.
Lemma state_text_row name A order p : well_built A -> (forall x, In x order <-> reach (n_edges A) x) -> In p order ->
  state_text name (fun x => index_of x order) A p = Ret (row_text (row_of name order A p)).
Proof.
  intros W Ho Hp. set (es := n_edges A) in *.
  assert (Hid : forall d, linked_by es p d -> id_at (fun x => index_of x order) d = Ret (idx order d)).
  { intros d Hd. unfold id_at. destruct (index_of_in d order) as [-> _]; [|reflexivity]. apply Ho. eapply reach_step; [|exact Hd]. now apply Ho. }
  unfold state_text. fold es. fold (byte_pairs es p).
  rewrite (each_map _ (fun x => byte_item (fst x, idx order (snd x))) (byte_pairs es p)).
  2:{ intros (b & d) H. apply byte_in in H as (lo & hi & H & Hr); [|apply W]. cbn [snd fst]. rewrite Hid; [reflexivity|].
      apply (linked_label es p (LByte lo hi) d (wb_bytes _ W) H). lia. }
  cbn [bind].
  rewrite (each_map _ (fun d => dec (idx order d)) (eps_succs es p)).
  2:{ intros d H. apply eps_in in H. rewrite Hid; [reflexivity|]. apply (linked_label es p LEps d (wb_bytes _ W) H I). }
  cbn [bind].
  rewrite (each_map _ (fun x => pos_item (name (fst x), idx order (snd x))) (start_succs es p)).
  2:{ intros (t & d) H. apply start_in in H. unfold positive_text. cbn [snd fst]. rewrite Hid; [reflexivity|]. apply (linked_label es p _ d (wb_bytes _ W) H I). }
  cbn [bind].
  rewrite (each_map _ (fun x => pos_item (name (fst x), idx order (snd x))) (opt_list (optional (end_succs es p)))).
  2:{ intros (t & d) H. rewrite end_one in H by apply W. apply end_in in H. unfold positive_text. cbn [snd fst]. rewrite Hid; [reflexivity|]. apply (linked_label es p _ d (wb_bytes _ W) H I). }
  cbn [bind].
  rewrite (each_map _ (fun x => neg_item (map name (fst x), idx order (snd x))) (opt_list (optional (neg_succs es p)))).
  2:{ intros (t & d) H. rewrite neg_one in H by apply W. apply neg_in in H. unfold negative_text. cbn [snd fst]. rewrite Hid; [reflexivity|]. apply (linked_label es p _ d (wb_bytes _ W) H I). }
  cbn [bind].
  unfold id_at at 1. destruct (index_of_in p order Hp) as [-> _]. cbn [bind].
  unfold row_text, row_of. cbn [w_id w_acc w_bytes w_eps w_starts w_end w_neg]. fold es. rewrite !opt_list_map, !map_map. reflexivity.
Qed.
Theorem serialize_rows name A fuel : well_built A -> (fuel > n_size A)%nat ->
  exists order, serialize fuel name A = Ret (rows_text (map (row_of name order A) order)) /\
    NoDup order /\ (forall x, In x order <-> reach (n_edges A) x) /\ nth_error order 0 = Some n_root.
Proof.
  intros W Hf. destruct (bfs_order_spec A fuel W Hf) as (order & Ho & ND & Hr & H0). exists order. split; [|auto].
  unfold serialize. rewrite Ho. cbn [bind]. rewrite (each_map _ (fun p => row_text (row_of name order A p))).
  - cbn [bind]. unfold rows_text. rewrite map_map. reflexivity.
  - intros p Hp. apply state_text_row; auto.
Qed.

(** * Equal texts *)
Definition plain_tags (name : tag -> list N) (es : list edge) : Prop := forall p l q, In (p, l, q) es ->
  match l with LPosStart t | LPosEnd t => plain_name (name t) | LNeg ts => Forall (fun t => plain_name (name t)) ts | _ => True end.
Lemma row_of_ok name order A p : well_built A -> plain_tags name (n_edges A) -> row_ok (row_of name order A p).
Proof.
  intros W H. unfold row_ok, row_of. cbn [w_starts w_end w_neg]. rewrite !opt_list_map, end_one, neg_one by apply W. split; [|split].
  - apply Forall_map, Forall_forall. intros (t & d) Hi. apply start_in in Hi. exact (H _ _ _ Hi).
  - apply Forall_map, Forall_forall. intros (t & d) Hi. apply end_in in Hi. exact (H _ _ _ Hi).
  - apply Forall_map, Forall_forall. intros (t & d) Hi. apply neg_in in Hi. cbn [fst]. apply Forall_map. exact (H _ _ _ Hi).
Qed.
(** What is read along a path, with the names of the tags. *)
Inductive named_sym := NByte (b : N) | NStart (u : list N) | NEnd (u : list N) | NNeg (us : list (list N)).
Definition named (name : tag -> list N) (s : sym) : named_sym :=
  match s with SByte b => NByte b | SStart t => NStart (name t) | SEnd t => NEnd (name t) | SNeg ts => NNeg (map name ts) end.

Section Same.
  Variables (nm1 nm2 : tag -> list N) (A B : nfa) (o1 o2 : list nat).
  Hypothesis W1 : well_built A. Hypothesis W2 : well_built B.
  Hypothesis R1 : forall x, In x o1 <-> reach (n_edges A) x. Hypothesis R2 : forall x, In x o2 <-> reach (n_edges B) x.
  Hypothesis ND1 : NoDup o1. Hypothesis ND2 : NoDup o2.
  Hypothesis E : map (row_of nm1 o1 A) o1 = map (row_of nm2 o2 B) o2.
  Definition twins (p p' : nat) : Prop := exists i, nth_error o1 i = Some p /\ nth_error o2 i = Some p'.
  Lemma twins_row p p' : twins p p' -> row_of nm1 o1 A p = row_of nm2 o2 B p'.
  Proof.
    intros (i & H1 & H2). apply (map_nth_error (row_of nm1 o1 A)) in H1. apply (map_nth_error (row_of nm2 o2 B)) in H2. rewrite E in H1. congruence.
  Qed.
  Lemma twins_left p : In p o1 -> exists p', twins p p'.
  Proof.
    intros H. apply In_nth_error in H as (i & Hi). assert (i < length o2)%nat as Hl.
    { rewrite <- (map_length (row_of nm2 o2 B)), <- E, map_length. apply nth_error_Some. congruence. }
    apply nth_error_Some in Hl. destruct (nth_error o2 i) as [p'|] eqn:Ep; [|contradiction]. exists p', i. auto.
  Qed.
  Lemma idx_twins d d' : In d o1 -> In d' o2 -> idx o1 d = idx o2 d' -> twins d d'.
  Proof.
    intros H1 H2 Ei. destruct (index_of_in d o1 H1) as [_ N1]. destruct (index_of_in d' o2 H2) as [_ N2]. exists (N.to_nat (idx o1 d)). rewrite Ei at 2. auto.
  Qed.
  Lemma twins_reach2 p p' : twins p p' -> reach (n_edges B) p'.
  Proof. intros (i & _ & H). apply R2. eapply nth_error_In. exact H. Qed.
  Lemma twins_step p p' w q : twins p p' -> g_edges (n_edges A) p w q ->
    exists w' q', twins q q' /\ g_edges (n_edges B) p' w' q' /\ map (named nm1) w = map (named nm2) w'.
  Proof.
    intros Ht (l & Hi & Hw). pose proof (twins_row _ _ Ht) as Er. unfold row_of in Er.
    assert (Hq : In q o1). { apply R1. eapply reach_step; [|exists w, l; eauto]. apply R1. destruct Ht as (i & H & _). eapply nth_error_In. exact H. }
    assert (Hq' : forall l' q' w', In (p', l', q') (n_edges B) -> label_reads l' w' -> In q' o2).
    { intros l' q' w' Hi' Hw'. apply R2. eapply reach_step; [exact (twins_reach2 _ _ Ht)|]. exists w', l'. auto. }
    injection Er as _ _ Eb Ee Es En Eg.
    destruct l as [lo hi| |t|t|ts].
    - destruct Hw as (b & -> & Hr).
      assert (Hx : In (b, idx o1 q) (map (fun x => (fst x, idx o1 (snd x))) (byte_pairs (n_edges A) p))).
      { apply in_map_iff. exists (b, q). split; [reflexivity|]. apply byte_in; [apply W1|]. eauto. }
      rewrite Eb in Hx. apply in_map_iff in Hx as ((b' & q') & [= -> Ei] & Hx). apply byte_in in Hx as (lo' & hi' & Hx & Hr'); [|apply W2].
      assert (Hw' : label_reads (LByte lo' hi') [SByte b]) by (exists b; auto).
      exists [SByte b], q'. split; [apply idx_twins; eauto|]. split; [exists (LByte lo' hi'); auto|reflexivity].
    - cbn in Hw. subst w. assert (Hx : In (idx o1 q) (map (idx o1) (eps_succs (n_edges A) p))) by (apply in_map, eps_in; exact Hi).
      rewrite Ee in Hx. apply in_map_iff in Hx as (q' & Ei & Hx). apply eps_in in Hx.
      exists [], q'. split; [apply idx_twins; eauto; eapply Hq'; [exact Hx|reflexivity]|]. split; [exists LEps; split; [exact Hx|reflexivity]|reflexivity].
    - cbn in Hw. subst w. assert (Hx : In (nm1 t, idx o1 q) (map (fun x => (nm1 (fst x), idx o1 (snd x))) (start_succs (n_edges A) p))).
      { apply in_map_iff. exists (t, q). split; [reflexivity|]. now apply start_in. }
      rewrite Es in Hx. apply in_map_iff in Hx as ((t' & q') & Ex & Hx). cbn [fst snd] in Ex. injection Ex as Et Ei. apply start_in in Hx.
      exists [SStart t'], q'. split; [apply idx_twins; eauto; eapply Hq'; [exact Hx|reflexivity]|]. split; [exists (LPosStart t'); split; [exact Hx|reflexivity]|].
      cbn. rewrite Et. reflexivity.
    - cbn in Hw. subst w. apply (f_equal opt_list) in En. rewrite !opt_list_map, !end_one in En by (apply W1 || apply W2).
      assert (Hx : In (nm1 t, idx o1 q) (map (fun x => (nm1 (fst x), idx o1 (snd x))) (end_succs (n_edges A) p))).
      { apply in_map_iff. exists (t, q). split; [reflexivity|]. now apply end_in. }
      rewrite En in Hx. apply in_map_iff in Hx as ((t' & q') & Ex & Hx). cbn [fst snd] in Ex. injection Ex as Et Ei. apply end_in in Hx.
      exists [SEnd t'], q'. split; [apply idx_twins; eauto; eapply Hq'; [exact Hx|reflexivity]|]. split; [exists (LPosEnd t'); split; [exact Hx|reflexivity]|].
      cbn. rewrite Et. reflexivity.
    - cbn in Hw. subst w. apply (f_equal opt_list) in Eg. rewrite !opt_list_map, !neg_one in Eg by (apply W1 || apply W2).
      assert (Hx : In (map nm1 ts, idx o1 q) (map (fun x => (map nm1 (fst x), idx o1 (snd x))) (neg_succs (n_edges A) p))).
      { apply in_map_iff. exists (ts, q). split; [reflexivity|]. now apply neg_in. }
      rewrite Eg in Hx. apply in_map_iff in Hx as ((ts' & q') & Ex & Hx). cbn [fst snd] in Ex. injection Ex as Et Ei. apply neg_in in Hx.
      exists [SNeg ts'], q'. split; [apply idx_twins; eauto; eapply Hq'; [exact Hx|reflexivity]|]. split; [exists (LNeg ts'); split; [exact Hx|reflexivity]|].
      cbn. rewrite Et. reflexivity.
  Qed.
  Lemma accepting_in C q i : NoDup (map fst (n_acc C)) -> accepting_id C q = Some i <-> In (q, i) (n_acc C).
  Proof.
    intros ND. unfold accepting_id. split.
    - destruct (find _ (n_acc C)) as [[q' j]|] eqn:F; [|discriminate]. intros [= <-]. apply find_some in F as [F Fq]. apply Nat.eqb_eq in Fq. cbn in Fq. subst q'. exact F.
    - intros Hi. destruct (find (fun e => Nat.eqb (fst e) q) (n_acc C)) as [[q' j]|] eqn:F.
      + apply find_some in F as [F Fq]. apply Nat.eqb_eq in Fq. cbn in Fq. subst q'. cbn [snd]. f_equal. exact (nodup_fst_inj _ _ _ _ ND F Hi).
      + exfalso. apply (find_none _ _ F) in Hi. cbn in Hi. rewrite Nat.eqb_refl in Hi. discriminate.
  Qed.
  Lemma twins_acc p p' i : twins p p' -> In (p, i) (n_acc A) -> In (p', i) (n_acc B).
  Proof.
    intros Ht H. apply accepting_in in H; [|apply W1]. apply accepting_in; [apply W2|]. pose proof (twins_row _ _ Ht) as Er. unfold row_of in Er. injection Er as _ Ea _ _ _ _ _. congruence.
  Qed.
  Lemma twins_path p w q : path (g_edges (n_edges A)) p w q -> forall p', twins p p' ->
    exists w' q', twins q q' /\ path (g_edges (n_edges B)) p' w' q' /\ map (named nm1) w = map (named nm2) w'.
  Proof.
    induction 1 as [p|p u r v q Hs Hp IH]; intros p' Ht.
    - exists [], p'. split; [exact Ht|]. split; [constructor|reflexivity].
    - destruct (twins_step _ _ _ _ Ht Hs) as (u' & r' & Hr & Hs' & Eu). destruct (IH r' Hr) as (v' & q' & Hq & Hp' & Ev).
      exists (u' ++ v'), q'. split; [exact Hq|]. split; [econstructor; eauto|]. rewrite !map_app. congruence.
  Qed.
End Same.
Lemma twins_sym o1 o2 p p' : twins o1 o2 p p' -> twins o2 o1 p' p.
Proof. intros (i & H1 & H2). exists i. auto. Qed.
