(** FirstModel.v -- LALR1Parser::generate_first_sets (LALR1Parser.tpp 267-300). *)
From Verif Require Import Base OrdSet GrammarSpec.

(** m_firsts : unordered_map<uint32_t, set<uint32_t>> as an association list; m_nullable as a sorted
    list. [fref] is operator[] (an absent key reads as the empty set that operator[] creates). *)
(** LALR1Parser.hpp 403: m_firsts, an unordered_map; iteration order is never used. *)
Definition fmap : Type := list (N * list N).
(** m_firsts.find (LALR1Parser.tpp 399). *)
Fixpoint fget (m : fmap) (x : N) : option (list N) :=
  match m with
  | [] => None
  | (y, v) :: r => if x =? y then Some v else fget r x
  end.
(** Writing an entry of m_firsts (LALR1Parser.tpp 271, 286). *)
Fixpoint fset (m : fmap) (x : N) (v : list N) : fmap :=
  match m with
  | [] => [(x, v)]
  | (y, w) :: r => if x =? y then (y, v) :: r else (y, w) :: fset r x v
  end.
(** m_firsts[x] read as a set (LALR1Parser.tpp 277, 285). *)
Definition fref (m : fmap) (x : N) : list N := match fget m x with Some v => v | None => [] end.

(** LALR1Parser.tpp 284-291: the loop over the body; the second result says that it was not left by
    [break]. Inserting m_firsts[s] into m_firsts[head] also creates both entries. *)
Fixpoint first_body (nul : list N) (h : N) (body : list N) (fs : fmap) : fmap * bool :=
  match body with
  | [] => (fs, true)
  | s :: r =>
      let fs1 := fset fs s (fref fs s) in
      let fs2 := fset fs1 h (ounion N.compare (fref fs1 s) (fref fs1 h)) in
      if omem N.compare s nul then first_body nul h r fs2 else (fs2, false)
  end.

(** LALR1Parser.tpp 273-298: the variables of generate_first_sets; LALR1Parser.hpp 400, 403. *)
Record fstate : Type := mkF { f_changed : bool; f_null : list N; f_firsts : fmap }.

(** [changed = changed || m_nullable.insert(h).second]: the right operand, and so the insertion, is
    evaluated only if [changed] is still false (LALR1Parser.tpp 279, 293). *)
Definition or_insert (h : N) (st : fstate) : fstate :=
  if f_changed st then st
  else mkF (negb (omem N.compare h (f_null st))) (oins N.compare h (f_null st)) (f_firsts st).

(** LALR1Parser.tpp 276-296: the body of the loop over the productions. *)
Definition first_step (st : fstate) (p : prod) : fstate :=
  let h := p_head p in
  let fs0 := fset (f_firsts st) h (fref (f_firsts st) h) in
  let st0 := mkF (f_changed st) (f_null st) fs0 in
  match p_body p with
  | [] => or_insert h st0
  | body =>
      let (fs1, whole) := first_body (f_null st) h body fs0 in
      let st1 := mkF (f_changed st) (f_null st) fs1 in
      let st2 := if whole then or_insert h st1 else st1 in
      mkF (f_changed st2 || negb (Nat.eqb (length (fref fs1 h)) (length (fref fs0 h))))
          (f_null st2) fs1
  end.

(** LALR1Parser.tpp 273-299: while (changed). *)
Fixpoint first_loop (fuel : nat) (ps : list prod) (nul : list N) (fs : fmap) : out (list N * fmap) :=
  match fuel with
  | O => OutOfFuel
  | S f =>
      let st := fold_left first_step ps (mkF false nul fs) in
      if f_changed st then first_loop f ps (f_null st) (f_firsts st)
      else Ret (f_null st, f_firsts st)
  end.

(** LALR1Parser.tpp 268-272: every terminal starts with {itself} (insert does not overwrite). *)
Definition first_init (terms : list N) : fmap :=
  fold_left (fun m t => match fget m t with Some _ => m | None => fset m t [t] end) terms [].

(** LALR1Parser.tpp 269-299: generate_first_sets. *)
Definition first_sets (fuel : nat) (g : grammar) : out (list N * fmap) :=
  first_loop fuel (g_prods g) [] (first_init (g_terms g)).
