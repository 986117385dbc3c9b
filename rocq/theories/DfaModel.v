(** DfaModel.v -- executable model of Lexer::epsilon_closure, Lexer::nfa_to_dfa (Lexer.tpp 391-494),
    RegexDFA::new_state and RegexDFA::get_intersect (RegexDFA.tpp 23-74). *)
From Verif Require Import Base LexerModel RegexModel.

(** std::set<NFAState const*> as the strictly increasing list of its elements' indices. The order in which
    C++ enumerates it is that of the addresses; it matters only in [ids_of] below. *)
(** Lexer.tpp 431: typedef std::set<NFAStateType const*> StateSet. *)
Definition stset := list nat.
(** closure_set.insert(...).second (Lexer.tpp 400). *)
Fixpoint st_mem (x : nat) (l : stset) : bool :=
  match l with [] => false | y :: l' => Nat.eqb x y || st_mem x l' end.
(** std::set::insert (Lexer.tpp 400). *)
Fixpoint st_insert (x : nat) (l : stset) : stset :=
  match l with
  | [] => [x]
  | y :: l' => if Nat.ltb x y then x :: l else if Nat.eqb x y then l else y :: st_insert x l'
  end.
(** std::set::insert of a range (Lexer.tpp 455). *)
Definition st_union (a b : stset) : stset := fold_right st_insert b a.
(** Equality of the keys of dfa_states (Lexer.tpp 434, 471). *)
Fixpoint st_eqb (a b : stset) : bool :=
  match a, b with
  | [], [] => true
  | x :: a', y :: b' => Nat.eqb x y && st_eqb a' b'
  | _, _ => false
  end.

(** Epsilon and tagged transitions are followed alike (Lexer.tpp 402-421). *)
Definition is_silent (l : label) : bool := match l with LByte _ _ => false | _ => true end.
Definition silent_succs (es : list edge) (p : nat) : list nat :=
  map snd (filter (fun e => is_silent (snd (fst e)) && Nat.eqb (fst (fst e)) p) es).

(** Lexer.tpp 390-424: epsilon_closure. The stack's top is the head of the list. Simplification: a state's
    successors are pushed in the order the edges were added. *)
Fixpoint closure_loop (fuel : nat) (es : list edge) (stack : list nat) (set : stset) : out stset :=
  match fuel with
  | O => OutOfFuel
  | S f =>
    match stack with
    | [] => Ret set
    | s :: st => if st_mem s set then closure_loop f es st set
                 else closure_loop f es (silent_succs es s ++ st) (st_insert s set)
    end
  end.
(** The bound is enough: each edge is pushed at most once (proved in DfaProofs). *)
Definition epsilon_closure (es : list edge) (s : nat) : out stset :=
  closure_loop (2 + length es)%nat es [s] [].

(** RegexNFAState.hpp 82-85: get_byte_transitions. *)
Definition byte_succs (es : list edge) (b : N) (p : nat) : list nat :=
  map snd (filter (fun e => Nat.eqb (fst (fst e)) p &&
                            match snd (fst e) with LByte lo hi => (lo <=? b) && (b <=? hi) | _ => false end) es).
Fixpoint closures (es : list edge) (l : list nat) (acc : stset) : out stset :=
  match l with
  | [] => Ret acc
  | s :: l' => do c <- epsilon_closure es s; closures es l' (st_union c acc)
  end.
(** Lexer.tpp 447-454: the entry of ascii_transitions_map for byte [b]; an empty list is no entry.
    Simplification: the entry of each byte is computed on its own (the C++ loop runs over states first). *)
Definition move (es : list edge) (set : stset) (b : N) : out stset :=
  closures es (flat_map (byte_succs es b) set) [].

(** The DFA under construction: the sets of dfa_states, at the index of their DFA state in m_states, and
    the byte transitions. *)
(** Lexer.tpp 469-478: dfa_states.find. *)
Fixpoint find_set (sets : list stset) (s : stset) : option nat :=
  match sets with
  | [] => None
  | x :: l => if st_eqb x s then Some O else match find_set l s with Some i => Some (S i) | None => None end
  end.

(** Lexer.tpp 465-479: the transitions of DFA state [src], byte after byte; unknown sets are created and
    pushed. *)
Fixpoint add_transitions (es : list edge) (set : stset) (src : nat) (bs : list N)
    (sets : list stset) (tr : list (nat * N * nat)) (stack : list stset)
  : out (list stset * list (nat * N * nat) * list stset) :=
  match bs with
  | [] => Ret (sets, tr, stack)
  | b :: bs' =>
    do t <- move es set b;
    match t with
    | [] => add_transitions es set src bs' sets tr stack
    | _ => match find_set sets t with
           | Some d => add_transitions es set src bs' sets ((src, b, d) :: tr) stack
           | None => add_transitions es set src bs' (sets ++ [t]) ((src, b, length sets) :: tr) (t :: stack)
           end
    end
  end.
(** Lexer.tpp 452 and RegexDFA.tpp 29: the loops over cSizeOfByte bytes. *)
Definition all_bytes : list N := map N.of_nat (seq 0 256).

(** Lexer.tpp 440-491: the main loop ([Throw] is dfa_states.at() failing). *)
Fixpoint dfa_loop (fuel : nat) (es : list edge) (sets : list stset) (tr : list (nat * N * nat))
    (stack : list stset) : out (list stset * list (nat * N * nat)) :=
  match fuel with
  | O => OutOfFuel
  | S f =>
    match stack with
    | [] => Ret (sets, tr)
    | set :: st =>
      match find_set sets set with
      | None => Throw
      | Some src =>
        do (sets', tr', st') <- add_transitions es set src all_bytes sets tr st;
        dfa_loop f es sets' tr' st'
      end
    end
  end.

(** RegexDFA.tpp 41-53: new_state collects the ids of the accepting NFA states in the order in which the
    std::set enumerates them: that of their addresses [addr]. *)
Fixpoint insert_by (key : nat -> N) (x : nat) (l : list nat) : list nat :=
  match l with
  | [] => [x]
  | y :: l' => if key x <=? key y then x :: l else y :: insert_by key x l'
  end.
Definition sort_by (key : nat -> N) (l : list nat) : list nat := fold_right (insert_by key) [] l.
Definition acc_ids (acc : list (nat * N)) (q : nat) : list N :=
  map snd (filter (fun a => Nat.eqb (fst a) q) acc).
Definition ids_of (addr : nat -> N) (acc : list (nat * N)) (set : stset) : list N :=
  flat_map (acc_ids acc) (sort_by addr set).

(** RegexDFA.hpp 36-38, 51: m_bytes_transition of a state. *)
Fixpoint find_tr (tr : list (nat * N * nat)) (q : nat) (b : N) : option nat :=
  match tr with
  | [] => None
  | (p, x, d) :: l => if Nat.eqb p q && (x =? b) then Some d else find_tr l q b
  end.

(** A generated DFA: number of states and transitions. *)
(** RegexDFA.hpp 49-50, 143: m_states with their ids and byte transitions. *)
Record fdfa := mkFdfa { f_states : list (list N); f_trans : list (nat * N * nat) }.
(** RegexDFA.hpp 30-45: get_matching_variable_ids and next (bytes) of a generated DFA. *)
Definition dfa_of (f : fdfa) : dfa :=
  mkDfa (find_tr (f_trans f)) (fun q => nth q (f_states f) []).

(** Lexer.tpp 426-494: nfa_to_dfa; state 0 is the root (RegexDFA.hpp 126). *)
Definition nfa_to_dfa (fuel : nat) (addr : nat -> N) (A : nfa) : out fdfa :=
  do s0 <- epsilon_closure (n_edges A) n_root;
  do (sets, tr) <- dfa_loop fuel (n_edges A) [s0] [] [s0];
  Ret (mkFdfa (map (ids_of addr (n_acc A)) sets) tr).

(** * RegexDFA::get_intersect *)
(** RegexDFA.hpp 69-109: RegexDFAStatePair. *)
Definition pair := (nat * nat)%type.
(** Equality of two pairs as elements of a std::set (RegexDFA.hpp 81-86). *)
Definition pair_eqb (a b : pair) : bool := Nat.eqb (fst a) (fst b) && Nat.eqb (snd a) (snd b).
(** RegexDFA.tpp 34: visited_pairs.count. *)
Definition pair_mem (a : pair) (l : list pair) : bool := existsb (pair_eqb a) l.
(** RegexDFA.hpp 79-84: RegexDFAStatePair::operator<; [k1], [k2] are the states' addresses. *)
Definition pair_ltb (k1 k2 : nat -> N) (a b : pair) : bool :=
  if k1 (fst a) =? k1 (fst b) then k2 (snd a) <? k2 (snd b) else k1 (fst a) <? k1 (fst b).
(** std::set::insert. *)
Fixpoint pair_insert (k1 k2 : nat -> N) (a : pair) (l : list pair) : list pair :=
  match l with
  | [] => [a]
  | b :: l' => if pair_ltb k1 k2 a b then a :: l
               else if pair_ltb k1 k2 b a then b :: pair_insert k1 k2 a l' else l
  end.
(** RegexDFA.tpp 23-39: get_reachable_pairs. *)
Fixpoint reachable_pairs (k1 k2 : nat -> N) (d1 d2 : dfa) (cur : pair) (visited : list pair)
    (bs : list N) (unvisited : list pair) : list pair :=
  match bs with
  | [] => unvisited
  | b :: bs' =>
    let unvisited' :=
      match d_next d1 (fst cur) b, d_next d2 (snd cur) b with
      | Some q1, Some q2 => if pair_mem (q1, q2) visited then unvisited
                            else pair_insert k1 k2 (q1, q2) unvisited
      | _, _ => unvisited
      end in
    reachable_pairs k1 k2 d1 d2 cur visited bs' unvisited'
  end.
(** RegexDFA.tpp 55-74. [types] collects the ids inserted in schema_types. *)
Fixpoint intersect_loop (fuel : nat) (k1 k2 : nat -> N) (d1 d2 : dfa) (unvisited visited : list pair)
    (types : list N) : out (list N) :=
  match fuel with
  | O => OutOfFuel
  | S f =>
    match unvisited with
    | [] => Ret types
    | cur :: _ =>
      let types' := if is_accepting d1 (fst cur) && is_accepting d2 (snd cur)
                    then types ++ d_ids d1 (fst cur) else types in
      let visited' := cur :: visited in
      let unvisited' := reachable_pairs k1 k2 d1 d2 cur visited' all_bytes unvisited in
      intersect_loop f k1 k2 d1 d2 (filter (fun a => negb (pair_eqb a cur)) unvisited') visited' types'
    end
  end.
(** RegexDFA.tpp 55-74: get_intersect. *)
Definition get_intersect (fuel : nat) (k1 k2 : nat -> N) (d1 d2 : dfa) : out (list N) :=
  intersect_loop fuel k1 k2 d1 d2 [(d_root, d_root)] [] [].
