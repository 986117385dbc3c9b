(** RegexModel.v -- executable model of the regex AST (finite_automata/RegexAST.hpp), of the construction of
    an NFA from it (add_to_nfa) and of RegexNFA. Byte automata only (RegexNFAByteState), the instance used
    by LogParser and SchemaParser. *)
From Verif Require Import Base.

(** A capture group's Tag (Tag.hpp); the C++ code passes pointers, here the tag's identity. *)
Definition tag := N.
(** RegexAST.hpp 305: RegexASTGroup::Range. *)
Definition range := (N * N)%type.

(** The AST nodes. RegexAST.hpp 150-189 (Empty), 191-236 (Literal), 238-286 (Integer), 288-429 (Group:
    m_is_wildcard, m_negate, m_ranges), 431-490 (Or), 492-551 (Cat), 553-623 (Multiplication: m_min, m_max),
    632-714 (Capture). *)
Inductive regex :=
| REmpty
| RLit (c : N)
| RInt (digits : list N)
| RGroup (wildcard negate : bool) (ranges : list range)
| ROr (l r : regex)
| RCat (l r : regex)
| RMult (r : regex) (min max : N)
| RCapture (r : regex) (t : tag).

(** m_subtree_positive_tags as computed by the constructors: RegexAST.hpp 659-662 (Capture), 784-787 (Or),
    804-807 (Cat), 842 (Multiplication), empty otherwise. *)
Fixpoint pos_tags (r : regex) : list tag :=
  match r with
  | REmpty | RLit _ | RInt _ | RGroup _ _ _ => []
  | ROr l r => pos_tags l ++ pos_tags r
  | RCat l r => pos_tags l ++ pos_tags r
  | RMult r _ _ => pos_tags r
  | RCapture r t => pos_tags r ++ [t]
  end.

(** * Bracket groups *)

(** std::pair's operator<, as a boolean "not greater". *)
(** Used by RegexAST.hpp 1068 (std::sort of pairs). *)
Definition range_le (a b : range) : bool :=
  (fst a <? fst b) || ((fst a =? fst b) && (snd a <=? snd b)).

(** RegexAST.hpp 1069: std::sort, as insertion sort (the sorted vector is unique). *)
Fixpoint range_insert (a : range) (l : list range) : list range :=
  match l with
  | [] => [a]
  | b :: l' => if range_le a b then a :: l else b :: range_insert a l'
  end.
Fixpoint range_sort (l : list range) : list range :=
  match l with [] => [] | a :: l' => range_insert a (range_sort l') end.

(** RegexAST.hpp 1020-1041: merge. [cur] is the range being grown. *)
Fixpoint merge_from (cur : range) (l : list range) : list range :=
  match l with
  | [] => [cur]
  | r :: l' => if fst r <=? snd cur + 1 then merge_from (fst cur, N.max (snd r) (snd cur)) l'
               else cur :: merge_from r l'
  end.
Definition merge (l : list range) : list range :=
  match l with [] => [] | r :: l' => merge_from r l' end.

(** RegexAST.hpp 1043-1060: complement. *)
Fixpoint complement_from (low : N) (l : list range) : list range :=
  match l with
  | [] => if 0 <? low then [(low, cUnicodeMax)] else []
  | (b, e) :: l' => if 0 <? b then (low, b - 1) :: complement_from (e + 1) l'
                    else complement_from (e + 1) l'
  end.
Definition complement (l : list range) : list range := complement_from 0 l.

(** RegexAST.hpp 1067-1073: the ranges a group adds transitions for. *)
Definition group_ranges (negate : bool) (rs : list range) : list range :=
  let m := merge (range_sort rs) in if negate then complement m else m.

(** * NFA construction

    An NFA is a number of states (indices in m_states), its transitions and its accepting states.
    Simplification: the per-state vectors m_bytes_transitions, m_epsilon_transitions,
    m_positive_tagged_start_transitions, and the optional m_positive_tagged_end_transition and
    m_negative_tagged_transition (RegexNFAState.hpp 113-123) are kept in one list of edges; the vector of one
    state is the sublist of its edges, in order. A byte edge stands for one entry in each of the byte
    vectors of lo..hi. *)
Inductive label :=
| LByte (lo hi : N)
| LEps
| LPosStart (t : tag)
| LPosEnd (t : tag)
| LNeg (ts : list tag).
Definition edge := (nat * label * nat)%type.

(** The part of an add_to_nfa call that changes the NFA, as a function of m_root, of the end state and of
    the number of states; it returns the new number of states and the transitions added, in order.
    "new_state()" is the next index. *)
(** RegexAST.hpp 78, 112-123: add_to_nfa and add_to_nfa_with_negative_tags. *)
Definition builder := nat -> nat -> nat -> out (nat * list edge).

(** RegexNFAState.hpp 126-134: add_interval of a byte state. *)
Definition add_interval (src : nat) (r : range) (dst : nat) : list edge :=
  if fst r <? cSizeOfByte then [(src, LByte (fst r) (N.min (snd r) (cSizeOfByte - 1)), dst)] else [].

(** No statement. *)
(** E.g. RegexAST.hpp 180-185 (RegexASTEmpty::add_to_nfa has an empty body). *)
Definition b_nop : builder := fun _ _ n => Ret (n, []).
(** Two statements one after the other, with the same root and end state. *)
(** E.g. RegexAST.hpp 784-788 (RegexASTOr::add_to_nfa). *)
Definition b_seq (f g : builder) : builder := fun root e n =>
  do (n1, e1) <- f root e n; do (n2, e2) <- g root e n1; Ret (n2, e1 ++ e2).
(** "intermediate = new_state(); f(root, intermediate); set_root(intermediate); g": what follows runs with
    the intermediate state as root (e.g. RegexAST.hpp 814-819). *)
Definition b_cat (f g : builder) : builder := fun root e n =>
  do (n1, e1) <- f root n (S n); do (n2, e2) <- g n e n1; Ret (n2, e1 ++ e2).
(** "set_root(end_state); f" (RegexAST.hpp 859-861). *)
Definition b_atend (f : builder) : builder := fun _ e n => f e e n.
(** get_root()->add_epsilon_transition(end_state) (RegexAST.hpp 851). *)
Definition b_eps : builder := fun root e n => Ret (n, [(root, LEps, e)]).

(** RegexAST.hpp 111-122: add_to_nfa_with_negative_tags, for a node whose m_negative_tags is [ts]. The only
    nodes with negative tags are the children of an Or (RegexAST.hpp 782-783). *)
Definition with_neg (ts : list tag) (f : builder) : builder := fun root e n =>
  match ts with
  | [] => f root e n
  | _ => do (n1, e1) <- f root n (S n); Ret (n1, (n, LNeg ts, e) :: e1)
  end.

(** RegexAST.hpp 853-857: the loop "for i = 1; i < min" ([k] iterations), then [g] with the last root. *)
Fixpoint b_chain (f : builder) (k : nat) (g : builder) : builder :=
  match k with O => g | S k' => b_cat f (b_chain f k' g) end.
(** RegexAST.hpp 868-874: the loop "for i = min + 1; i < max" ([k] iterations) and the statement after
    it. *)
Fixpoint b_upto (f : builder) (k : nat) : builder :=
  match k with O => f | S k' => b_seq f (b_cat f (b_upto f k')) end.

(** RegexAST.hpp 845-877: RegexASTMultiplication::add_to_nfa; [f] adds the operand. *)
Definition b_mult (f : builder) (mn mx : N) : builder :=
  let rest : builder :=
    if mx =? 0 then b_atend f
    else if mn <? mx then
      (if mn =? 0 then b_upto f (N.to_nat (mx - 1 - mn)) else b_cat f (b_upto f (N.to_nat (mx - 1 - mn))))
    else b_nop in
  if mn =? 0 then b_seq b_eps rest else b_chain f (N.to_nat (mn - 1)) (b_seq f rest).

(** RegexNFA.hpp 145-155 and RegexAST.hpp 926-936: capture groups. *)
Definition b_capture (t : tag) (f : builder) : builder := fun root e n =>
  do (n1, e1) <- f n (S n) (S (S n)); Ret (n1, (root, LPosStart t, n) :: (S n, LPosEnd t, e) :: e1).

(** add_to_nfa. RegexAST.hpp 180-185 (Empty: nothing), 726-728 (Literal), 757-762 (Integer throws),
    791-795 (Or), 811-819 (Cat), 845-877 (Multiplication), 889-936 (Capture), 1063-1077 (Group). *)
Fixpoint add_to_nfa (r : regex) : builder :=
  match r with
  | REmpty => b_nop
  | RLit c => fun root e n => Ret (n, add_interval root (c, c) e)
  | RInt _ => fun _ _ _ => Throw
  | RGroup _ negate rs => fun root e n =>
      Ret (n, flat_map (fun a => add_interval root a e) (group_ranges negate rs))
  | ROr l r => b_seq (with_neg (pos_tags r) (add_to_nfa l)) (with_neg (pos_tags l) (add_to_nfa r))
  | RCat l r => b_cat (add_to_nfa l) (add_to_nfa r)
  | RMult r mn mx => b_mult (add_to_nfa r) mn mx
  | RCapture r t => b_capture t (add_to_nfa r)
  end.

(** RegexNFA.hpp 94-95: m_states and m_root; the transitions of all states in one list. *)
Record nfa := mkNfa {
  n_size : nat;                  (* m_states.size() *)
  n_edges : list edge;
  n_acc : list (nat * N)         (* accepting states with m_matching_variable_id *)
}.
(** RegexNFA.hpp 102-103: the root is the first state created. *)
Definition n_root : nat := 0%nat.

(** LexicalRule.hpp 38-43 and RegexNFA.hpp 107-113: the constructor of RegexNFA. State 0 is the root; each
    rule first creates its accepting state. *)
Fixpoint add_rules (rules : list (N * regex)) (n : nat) : out (nat * list edge * list (nat * N)) :=
  match rules with
  | [] => Ret (n, [], [])
  | (id, r) :: rules' =>
      do (n1, e1) <- add_to_nfa r n_root n (S n);
      do (n2, e2, acc) <- add_rules rules' n1;
      Ret (n2, e1 ++ e2, (n, id) :: acc)
  end.
Definition nfa_of_rules (rules : list (N * regex)) : out nfa :=
  do (n, es, acc) <- add_rules rules 1%nat; Ret (mkNfa n es acc).
