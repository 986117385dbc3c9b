(** SerializeModel.v -- RegexNFA::serialize: the text that shows an automaton. *)
From Verif Require Import Base RegexModel DfaModel.
From Coq Require Import Decimal DecimalNat DecimalN.

(** Decimal digits (std::to_string, fmt "{}" of a uint32_t). *)
(** Used by RegexNFAState.hpp (serialize), TaggedTransition.hpp (serialize). *)
Fixpoint uint_codes (u : Decimal.uint) : list N :=
  match u with
  | Nil => []
  | D0 u => 48 :: uint_codes u | D1 u => 49 :: uint_codes u | D2 u => 50 :: uint_codes u | D3 u => 51 :: uint_codes u | D4 u => 52 :: uint_codes u
  | D5 u => 53 :: uint_codes u | D6 u => 54 :: uint_codes u | D7 u => 55 :: uint_codes u | D8 u => 56 :: uint_codes u | D9 u => 57 :: uint_codes u
  end.
(** fmt::format of a number (RegexNFAState.hpp, serialize). *)
Definition dec (n : N) : list N := uint_codes (N.to_uint n).
(** fmt::join. *)
(** fmt::join (RegexNFA.hpp serialize; TaggedTransition.hpp serialize). *)
Fixpoint join (sep : list N) (l : list (list N)) : list N :=
  match l with
  | [] => []
  | x :: r => match r with [] => x | _ => x ++ sep ++ join sep r end
  end.

(** The vectors of a state (RegexNFAState.hpp 113-123; the model keeps the transitions in one list, RegexModel.v): m_bytes_transitions is
    DfaModel.byte_succs. *)
Definition eps_succs (es : list edge) (p : nat) : list nat :=
  flat_map (fun e => let '(s, l, d) := e in if Nat.eqb s p then match l with LEps => [d] | _ => [] end else []) es.
Definition start_succs (es : list edge) (p : nat) : list (tag * nat) :=
  flat_map (fun e => let '(s, l, d) := e in if Nat.eqb s p then match l with LPosStart t => [(t, d)] | _ => [] end else []) es.
(** The two optional transitions, as lists of at most one element: the constructors set them (RegexNFAState.hpp 40-47), nothing else does. *)
Definition end_succs (es : list edge) (p : nat) : list (tag * nat) :=
  flat_map (fun e => let '(s, l, d) := e in if Nat.eqb s p then match l with LPosEnd t => [(t, d)] | _ => [] end else []) es.
Definition neg_succs (es : list edge) (p : nat) : list (list tag * nat) :=
  flat_map (fun e => let '(s, l, d) := e in if Nat.eqb s p then match l with LNeg ts => [(ts, d)] | _ => [] end else []) es.
Definition optional {X} (l : list X) : option X := match l with x :: _ => Some x | [] => None end.
Definition opt_list {X} (o : option X) : list X := match o with Some x => [x] | None => [] end.
(** m_accepting and m_matching_variable_id. *)
Definition accepting_id (A : nfa) (p : nat) : option N :=
  match find (fun e => Nat.eqb (fst e) p) (n_acc A) with Some e => Some (snd e) | None => None end.

(** RegexNFA.hpp 178-204: the states that a state leads to, in the order in which get_bfs_traversal_order looks at them. *)
Definition successors (es : list edge) (p : nat) : list nat :=
  flat_map (fun b => byte_succs es b p) all_bytes ++ eps_succs es p ++ map snd (start_succs es p)
  ++ map snd (opt_list (optional (end_succs es p))) ++ map snd (opt_list (optional (neg_succs es p))).
(** RegexNFA.hpp 165-170: add_to_queue_and_visited. *)
Definition push (vq : list nat * list nat) (d : nat) : list nat * list nat :=
  let (visited, queue) := vq in if existsb (Nat.eqb d) visited then vq else (d :: visited, queue ++ [d]).
(** RegexNFA.hpp 172-208. *)
Fixpoint bfs (fuel : nat) (es : list edge) (visited queue order : list nat) : out (list nat) :=
  match fuel with
  | O => OutOfFuel
  | S fuel' =>
      match queue with
      | [] => Ret order
      | s :: q => let (v, q') := fold_left push (successors es s) (visited, q) in bfs fuel' es v q' (order ++ [s])
      end
  end.
Definition bfs_order (fuel : nat) (A : nfa) : out (list nat) :=
  let (v, q) := push ([], []) n_root in bfs fuel (n_edges A) v q [].

Section Text.
  (** The name of a tag (Tag.hpp: get_name). *)
  Variable name : tag -> list N.
  (** state_ids: states to numbers. at() throws for a missing key; the tagged transitions return nullopt, whose value() throws
      (RegexNFA.hpp 225). *)
  Variable ids : nat -> option N.
  Definition id_at (d : nat) : out N := match ids d with Some i => Ret i | None => Throw end.
  Fixpoint each {X Y} (f : X -> out Y) (l : list X) : out (list Y) :=
    match l with [] => Ret [] | x :: r => do y <- f x; do ys <- each f r; Ret (y :: ys) end.
  (** TaggedTransition.hpp 42-49. *)
  Definition positive_text (x : tag * nat) : out (list N) := do i <- id_at (snd x); Ret (dec i ++ [91] ++ name (fst x) ++ [93]).
  (** TaggedTransition.hpp 88-98. *)
  Definition negative_text (x : list tag * nat) : out (list N) := do i <- id_at (snd x); Ret (dec i ++ [91] ++ join [44] (map name (fst x)) ++ [93]).
  (** The literal texts of RegexNFAState.hpp 222-228. *)
  Definition k_accepting : list N := [97; 99; 99; 101; 112; 116; 105; 110; 103; 95; 116; 97; 103; 61].
  Definition k_bytes : list N := [98; 121; 116; 101; 95; 116; 114; 97; 110; 115; 105; 116; 105; 111; 110; 115; 61; 123].
  Definition k_epsilon : list N := [125; 44; 101; 112; 115; 105; 108; 111; 110; 95; 116; 114; 97; 110; 115; 105; 116; 105; 111; 110; 115; 61; 123].
  Definition k_start : list N := [125; 44; 112; 111; 115; 105; 116; 105; 118; 101; 95; 116; 97; 103; 103; 101; 100; 95; 115; 116; 97; 114; 116; 95; 116; 114; 97; 110; 115;
    105; 116; 105; 111; 110; 115; 61; 123].
  Definition k_end : list N := [125; 44; 112; 111; 115; 105; 116; 105; 118; 101; 95; 116; 97; 103; 103; 101; 100; 95; 101; 110; 100; 95; 116; 114; 97; 110; 115;
    105; 116; 105; 111; 110; 115; 61; 123].
  Definition k_negative : list N := [125; 44; 110; 101; 103; 97; 116; 105; 118; 101; 95; 116; 97; 103; 103; 101; 100; 95; 116; 114; 97; 110; 115; 105; 116; 105; 111; 110; 61; 123].
  (** RegexNFAState.hpp 176-238. *)
  Definition state_text (A : nfa) (p : nat) : out (list N) :=
    let es := n_edges A in
    do bytes <- each (fun x => do i <- id_at (snd x); Ret (fst x :: [45; 45; 62] ++ dec i)) (flat_map (fun b => map (fun d => (b, d)) (byte_succs es b p)) all_bytes);
    do eps <- each (fun d => do i <- id_at d; Ret (dec i)) (eps_succs es p);
    do starts <- each positive_text (start_succs es p);
    do e <- each positive_text (opt_list (optional (end_succs es p)));
    do n <- each negative_text (opt_list (optional (neg_succs es p)));
    do i <- id_at p;
    Ret (dec i ++ [58] ++ match accepting_id A p with Some k => k_accepting ++ dec k ++ [44] | None => [] end
         ++ k_bytes ++ join [44] bytes ++ k_epsilon ++ join [44] eps ++ k_start ++ join [44] starts ++ k_end ++ concat e
         ++ k_negative ++ concat n ++ [125]).
End Text.
(** RegexNFA.hpp 215-217: emplace in the traversal order. *)
Fixpoint index_of (p : nat) (l : list nat) : option N :=
  match l with [] => None | x :: r => if Nat.eqb x p then Some 0 else match index_of p r with Some i => Some (i + 1) | None => None end end.
(** RegexNFA.hpp 210-228. *)
Definition serialize (fuel : nat) (name : tag -> list N) (A : nfa) : out (list N) :=
  do order <- bfs_order fuel A;
  do lines <- each (state_text name (fun p => index_of p order) A) order;
  Ret (join [10] lines ++ [10]).
