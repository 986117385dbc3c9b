(** LrModel.v -- LALR1Parser::generate: item sets, lookaheads and the action table
    (LALR1Parser.hpp 133-215; LALR1Parser.tpp 153-506). *)
From Verif Require Import Base OrdSet GrammarSpec FirstModel.

(** Constants.hpp 12. *)
Definition cNullSymbol : N := 10000000.

(** LALR1Parser.hpp 133-178: struct Item; the production is its index. operator< compares
    (index, dot, lookahead). *)
Record item : Type := mkItem { i_prod : N; i_dot : N; i_la : N }.
Definition icmp (a b : item) : comparison :=
  match N.compare (i_prod a) (i_prod b) with
  | Eq => match N.compare (i_dot a) (i_dot b) with
          | Eq => N.compare (i_la a) (i_la b)
          | c => c
          end
  | c => c
  end.
Definition item_eqb (a b : item) : bool := match icmp a b with Eq => true | _ => false end.

(** LALR1Parser.hpp 284: m_productions[i]. *)
Definition prod_at (g : grammar) (i : N) : prod := nth (N.to_nat i) (g_prods g) (mkProd 0 []).
(** LALR1Parser.hpp 127: m_body of it. *)
Definition body_at (g : grammar) (i : N) : list N := p_body (prod_at g i).
(** has_dot_at_end and next_symbol (LALR1Parser.hpp 159-170). next_symbol is only called when the dot
    is not at the end, so vector::at does not throw. *)
Definition at_end (g : grammar) (it : item) : bool :=
  i_dot it =? N.of_nat (length (body_at g (i_prod it))).
Definition next_symbol (g : grammar) (it : item) : N :=
  nth (N.to_nat (i_dot it)) (body_at g (i_prod it)) 0.
(** symbol_is_token (LALR1Parser.hpp 382). *)
Definition is_token (g : grammar) (s : N) : bool := existsb (N.eqb s) (g_terms g).
(** m_non_terminals.at(X): the productions with head X in the order they were added
    (add_production, LALR1Parser.tpp 140-141); empty stands for "no entry". *)
Fixpoint heads_from (n : N) (ps : list prod) (X : N) : list N :=
  match ps with
  | [] => []
  | p :: r => if p_head p =? X then n :: heads_from (n + 1) r X else heads_from (n + 1) r X
  end.
Definition prods_of (g : grammar) (X : N) : list N := heads_from 0 (g_prods g) X.

(** The worklist shared by generate_lr0_closure (LALR1Parser.tpp 215-236) and generate_lr1_closure
    (385-420), with the insertion done by lr_closure_helper (195-213). The deque is used as a stack;
    its back is the head of the list here. *)
Fixpoint close (fuel : nat) (succ : item -> out (list item)) (q acc : list item) : out (list item) :=
  match fuel with
  | O => OutOfFuel
  | S f =>
      match q with
      | [] => Ret acc
      | it :: q' =>
          if omem icmp it acc then close f succ q' acc
          else do new <- succ it; close f succ (rev_append new q') (oins icmp it acc)
      end
  end.

(** LALR1Parser.tpp 223-235: what an item of an LR(0) closure adds. *)
Definition lr0_succ (g : grammar) (it : item) : out (list item) :=
  if at_end g it then Ret []
  else if is_token g (next_symbol g it) then Ret []
  else match prods_of g (next_symbol g it) with
       | [] => Throw
       | ps => Ret (map (fun p => mkItem p 0 cNullSymbol) ps)
       end.
Definition lr0_closure (fuel : nat) (g : grammar) (K : list item) : out (list item) :=
  close fuel (lr0_succ g) (rev K) [].

(** LALR1Parser.tpp 396-413: the lookaheads an item passes on. m_firsts.find(symbol)->second with no
    entry for the symbol dereferences end(). *)
Fixpoint lookaheads (nul : list N) (fs : fmap) (rest : list N) (la : N) : out (list N) :=
  match rest with
  | [] => Ret [la]
  | s :: r =>
      match fget fs s with
      | None => UB
      | Some f =>
          if omem N.compare s nul then do l <- lookaheads nul fs r la; Ret (f ++ l)
          else Ret f
      end
  end.
Definition lr1_succ (g : grammar) (nul : list N) (fs : fmap) (it : item) : out (list item) :=
  if at_end g it then Ret []
  else if is_token g (next_symbol g it) then Ret []
  else
    do las <- lookaheads nul fs (skipn (S (N.to_nat (i_dot it))) (body_at g (i_prod it))) (i_la it);
    match prods_of g (next_symbol g it) with
    | [] => Throw
    | ps => Ret (flat_map (fun p => map (fun l => mkItem p 0 l) las) ps)
    end.
(** LALR1Parser.tpp 387-419: generate_lr1_closure. *)
Definition lr1_closure (fuel : nat) (g : grammar) (nul : list N) (fs : fmap) (K : list item) :
  out (list item) := close fuel (lr1_succ g nul fs) (rev K) [].

(** ** LR(0) kernels (LALR1Parser.tpp 163-193, 238-265). *)
(** m_lr0_item_sets: kernel -> index, a std::map ordered by kernel. m_go_to_table: (index, symbol) ->
    index; a later write hides an earlier one. The pointers in ItemSet::m_next of the LR(0) sets carry
    the same information as m_go_to_table and are not kept. *)
Definition kcmp : list item -> list item -> comparison := lexcmp icmp.
Fixpoint kfind (K : list item) (sets : list (list item * N)) : option N :=
  match sets with
  | [] => None
  | (K', i) :: r => match kcmp K K' with Lt => None | Eq => Some i | Gt => kfind K r end
  end.
Fixpoint kins (K : list item) (i : N) (sets : list (list item * N)) : list (list item * N) :=
  match sets with
  | [] => [(K, i)]
  | (K', j) :: r => match kcmp K K' with
                    | Lt => (K, i) :: sets
                    | Eq => (K, i) :: r
                    | Gt => (K', j) :: kins K i r
                    end
  end.
(** LALR1Parser.hpp 406: m_go_to_table. *)
Definition gtab : Type := list (N * N * N).
(** LALR1Parser.tpp 372: m_go_to_table[i] at X. *)
Fixpoint goto_at (gt : gtab) (i X : N) : option N :=
  match gt with
  | [] => None
  | (i', X', j) :: r => if (i =? i') && (X =? X') then Some j else goto_at r i X
  end.
(** LALR1Parser.hpp 401, 406. *)
Record lr0 : Type := mkLr0 { k_sets : list (list item * N); k_goto : gtab }.

(** The kernel built by the loop of go_to (LALR1Parser.tpp 243-252). *)
Definition advance (it : item) : item := mkItem (i_prod it) (i_dot it + 1) (i_la it).
Definition goto_kernel (g : grammar) (C : list item) (X : N) : list item :=
  oset icmp (map advance (filter (fun it => negb (at_end g it) && (next_symbol g it =? X)) C)).
(** go_to and the push of a new set by the caller (LALR1Parser.tpp 253-265, 176-191). *)
Definition go_to (g : grammar) (i : N) (C : list item) (st : lr0 * list (N * list item)) (X : N) :
  lr0 * list (N * list item) :=
  let '(a, work) := st in
  match goto_kernel g C X with
  | [] => (a, work)
  | K =>
      match kfind K (k_sets a) with
      | Some j => (mkLr0 (k_sets a) ((i, X, j) :: k_goto a), work)
      | None =>
          let j := N.of_nat (length (k_sets a)) in
          (mkLr0 (kins K j (k_sets a)) ((i, X, j) :: k_goto a), (j, K) :: work)
      end
  end.
Fixpoint lr0_loop (fuel cfuel : nat) (g : grammar) (work : list (N * list item)) (a : lr0) : out lr0 :=
  match fuel with
  | O => OutOfFuel
  | S f =>
      match work with
      | [] => Ret a
      | (i, K) :: w =>
          do C <- lr0_closure cfuel g K;
          let '(a', w') := fold_left (go_to g i C) (g_terms g ++ g_nts g) (a, w) in
          lr0_loop f cfuel g w' a'
      end
  end.
(** LALR1Parser.tpp 165-168. *)
Definition root_item (g : grammar) : item := mkItem (g_root g) 0 cNullSymbol.
(** LALR1Parser.tpp 163-191: generate_lr0_kernels. *)
Definition lr0_kernels (fuel cfuel : nat) (g : grammar) : out lr0 :=
  lr0_loop fuel cfuel g [(0, [root_item g])] (mkLr0 [([root_item g], 0)] []).

(** ** LR(1) sets (LALR1Parser.tpp 302-383). *)
(** m_spontaneous_map (production -> lookaheads), m_propagate_map (item -> items) and the local map
    lookaheads (item -> symbols). The two std::map's keyed by items are kept in order of creation:
    m_propagate_map is only iterated in the while loop, whose result does not depend on the order. *)
Fixpoint aget {V} (m : list (item * list V)) (x : item) : list V :=
  match m with
  | [] => []
  | (y, v) :: r => if item_eqb x y then v else aget r x
  end.
Fixpoint aset {V} (m : list (item * list V)) (x : item) (v : list V) : list (item * list V) :=
  match m with
  | [] => [(x, v)]
  | (y, w) :: r => if item_eqb x y then (y, v) :: r else (y, w) :: aset r x v
  end.
Definition lmap : Type := list (item * list N).
(** LALR1Parser.hpp 405: m_propagate_map. *)
Definition pmap : Type := list (item * list item).

(** LALR1Parser.tpp 309-319: one item of the temporary closure. *)
Definition classify (g : grammar) (l0 : item) (sp : fmap * pmap) (l1 : item) : fmap * pmap :=
  let '(s, p) := sp in
  if negb (i_la l1 =? cNullSymbol) then
    (fset s (i_prod l1) (oins N.compare (i_la l1) (fref s (i_prod l1))), p)
  else if i_dot l1 <? N.of_nat (length (body_at g (i_prod l1))) then
    (s, aset p l0 (oins icmp (mkItem (i_prod l1) (i_dot l1 + 1) cNullSymbol) (aget p l0)))
  else (s, p).
(** LALR1Parser.tpp 303-322, with the loops over the sets and over their kernels flattened. *)
Fixpoint spread (cfuel : nat) (g : grammar) (nul : list N) (fs : fmap) (its : list item)
  (sp : fmap * pmap) : out (fmap * pmap) :=
  match its with
  | [] => Ret sp
  | it :: r =>
      do C <- lr1_closure cfuel g nul fs [it];
      spread cfuel g nul fs r (fold_left (classify g it) C sp)
  end.
(** LALR1Parser.tpp 323-335. *)
Definition la_start (g : grammar) (s : fmap) (its : list item) : lmap :=
  fold_left (fun m it =>
    let m1 := aset m it (ounion N.compare (fref s (i_prod it)) (aget m it)) in
    if i_prod it =? g_root g then aset m1 it (oins N.compare TokenEnd (aget m1 it)) else m1) its [].
(** LALR1Parser.tpp 339-350: one propagation, one pass, and the loop. *)
Definition la_edge (from : item) (st : bool * lmap) (to : item) : bool * lmap :=
  let '(ch, m) := st in
  let old := aget m to in
  let new := ounion N.compare (aget m from) old in
  (ch || Nat.ltb (length old) (length new), aset m to new).
Definition la_pass (p : pmap) (m : lmap) : bool * lmap :=
  fold_left (fun st kv => fold_left (la_edge (fst kv)) (snd kv) st) p (false, m).
Fixpoint la_loop (fuel : nat) (p : pmap) (m : lmap) : out lmap :=
  match fuel with
  | O => OutOfFuel
  | S f => let '(ch, m') := la_pass p m in if ch then la_loop f p m' else Ret m'
  end.

(** An LR(1) item set: m_index, m_closure (its kernel is the key of m_lr1_item_sets). *)
(** LALR1Parser.hpp 184-204: struct ItemSet. *)
Record lr1set : Type := mkLr1 { s_index : N; s_closure : list item }.
(** LALR1Parser.tpp 366: m_lr1_item_sets[kernel] = ..., a std::map ordered by kernel. *)
Fixpoint sins (K : list item) (v : lr1set) (sets : list (list item * lr1set)) :
  list (list item * lr1set) :=
  match sets with
  | [] => [(K, v)]
  | (K', w) :: r => match kcmp K K' with
                    | Lt => (K, v) :: sets
                    | Eq => (K, v) :: r
                    | Gt => (K', w) :: sins K v r
                    end
  end.
(** LALR1Parser.tpp 353-357. *)
Definition lr1_kernel (m : lmap) (K : list item) : list item :=
  oset icmp (flat_map (fun it => map (fun l => mkItem (i_prod it) (i_dot it) l) (aget m it)) K).
(** LALR1Parser.tpp 358-362. *)
Definition is_root (g : grammar) (it : item) : bool := (i_prod it =? g_root g) && (i_dot it =? 0).
(** LALR1Parser.tpp 351-369. m_root_item_set_ptr is the index of the set it points to. *)
Fixpoint lr1_sets (cfuel : nat) (g : grammar) (nul : list N) (fs : fmap) (m : lmap)
  (sets : list (list item * N)) (acc : list (list item * lr1set)) (root : option N) :
  out (list (list item * lr1set) * option N) :=
  match sets with
  | [] => Ret (acc, root)
  | (K, i) :: r =>
      let K1 := lr1_kernel m K in
      do C <- lr1_closure cfuel g nul fs K1;
      lr1_sets cfuel g nul fs m r (sins K1 (mkLr1 i C) acc)
               (if existsb (is_root g) K then Some i else root)
  end.
(** LALR1Parser.tpp 370-382: m_next of the LR(1) sets, by index; no entry if no set has the index. *)
Definition next_of (sets : list (list item * lr1set)) (gt : gtab) (i X : N) : option N :=
  match goto_at gt i X with
  | Some j => if existsb (fun kv => s_index (snd kv) =? j) sets then Some j else None
  | None => None
  end.

(** ** The action table (LALR1Parser.tpp 434-506). *)
(** Action = variant<bool, ItemSet*, Production*>. m_actions starts with [false] everywhere. *)
Inductive action : Type := ABool (b : bool) | AShift (j : N) | AReduce (p : N).
Definition acts : Type := list (N * action).
Fixpoint act_at (a : acts) (X : N) : action :=
  match a with
  | [] => ABool false
  | (Y, v) :: r => if X =? Y then v else act_at r X
  end.
Fixpoint act_set (a : acts) (X : N) (v : action) : acts :=
  match a with
  | [] => [(X, v)]
  | (Y, w) :: r => if X =? Y then (Y, v) :: r else (Y, w) :: act_set r X v
  end.
(** One item. A missing entry of m_next would be a null pointer (the assert at 446 is off in release
    builds); an index outside m_actions is undefined. *)
(** LALR1Parser.tpp 440-515. *)
Definition add_action (g : grammar) (sets : list (list item * lr1set)) (gt : gtab) (i : N)
  (a : acts) (it : item) : out acts :=
  if negb (at_end g it) then
    let X := next_symbol g it in
    if negb (is_token g X) && negb (existsb (N.eqb X) (g_nts g)) then Ret a
    else if g_nsym g <=? X then UB
    else match next_of sets gt i X with
         | None => UB
         | Some j =>
             match act_at a X with
             | ABool _ => Ret (act_set a X (AShift j))
             | AShift j' => if j' =? j then Ret a else Throw
             | AReduce _ => Throw
             end
         end
  else if i_prod it =? g_root g then Ret (act_set a TokenEnd (ABool true))
  else if g_nsym g <=? i_la it then UB
  else match act_at a (i_la it) with
       | ABool _ => Ret (act_set a (i_la it) (AReduce (i_prod it)))
       | _ => Throw
       end.
(** LALR1Parser.tpp 439-517: the loop over m_closure. *)
Fixpoint set_actions (g : grammar) (sets : list (list item * lr1set)) (gt : gtab) (i : N)
  (its : list item) (a : acts) : out acts :=
  match its with
  | [] => Ret a
  | it :: r => do a' <- add_action g sets gt i a it; set_actions g sets gt i r a'
  end.
(** LALR1Parser.hpp 203: m_actions of all item sets, by index. *)
Definition table : Type := list (N * acts).
(** LALR1Parser.tpp 434-519: generate_lalr1_action. *)
Fixpoint all_actions (g : grammar) (all : list (list item * lr1set)) (gt : gtab)
  (sets : list (list item * lr1set)) : out table :=
  match sets with
  | [] => Ret []
  | (_, s) :: r =>
      do a <- set_actions g all gt (s_index s) (s_closure s) [];
      do t <- all_actions g all gt r;
      Ret ((s_index s, a) :: t)
  end.

(** generate (LALR1Parser.tpp 153-161) without the lexer's part: first what its first three calls leave
    behind -- the LR(1) item sets, the goto table and the index of m_root_item_set_ptr (None: null) --
    then the table. [fuel] bounds the loops over item sets, passes and FIRST rounds, [cfuel] the
    closures. *)
Definition item_sets (fuel cfuel : nat) (g : grammar) :
  out (list (list item * lr1set) * gtab * option N) :=
  do a <- lr0_kernels fuel cfuel g;
  do nf <- first_sets fuel g;
  let '(nul, fs) := nf in
  let its := flat_map fst (k_sets a) in
  do sp <- spread cfuel g nul fs its ([], []);
  do m <- la_loop fuel (snd sp) (la_start g (fst sp) its);
  do sr <- lr1_sets cfuel g nul fs m (k_sets a) [] None;
  Ret (fst sr, k_goto a, snd sr).
Definition generate (fuel cfuel : nat) (g : grammar) : out (table * option N) :=
  do s <- item_sets fuel cfuel g;
  let '(sets, gt, root) := s in
  do t <- all_actions g sets gt sets;
  Ret (t, root).
