(** RegisterModel.v -- model of finite_automata/PrefixTree and finite_automata/RegisterHandler.
    Simplifications: node ids are [nat] without the 2^32 bound; positions ([int32_t]) are integers [Z]. *)
From Verif Require Import Base.
Local Open Scope nat_scope.

(** PrefixTree.hpp 60-85: class Node: optional parent id and position. *)
Record node := mkNode { nd_parent : option nat; nd_pos : Z }.
(** PrefixTree.hpp 87: m_nodes. *)
Definition tree := list node.
(** PrefixTree.hpp 26, 28: the tree starts with the root node {nullopt, -1}, whose id is 0. *)
Definition cRootId : nat := 0.
Definition tree_init : tree := [mkNode None (-1)%Z].

(** PrefixTree.hpp 36-43. *)
Definition tree_insert (t : tree) (parent : nat) (pos : Z) : out (tree * nat) :=
  if length t <=? parent then Throw else Ret (t ++ [mkNode (Some parent) pos], length t).

(** Assignment to an element of a std::vector (PrefixTree.hpp 46-48, RegisterHandler.hpp 28-39). *)
Fixpoint upd {A} (l : list A) (i : nat) (f : A -> A) : list A :=
  match l, i with
  | [], _ => []
  | x :: l, 0 => f x :: l
  | x :: l, S i => x :: upd l i f
  end.
(** PrefixTree.hpp 45-47: vector::at throws if the id is out of range. *)
Definition tree_set (t : tree) (id : nat) (pos : Z) : out tree :=
  if length t <=? id then Throw else Ret (upd t id (fun n => mkNode (nd_parent n) pos)).

(** PrefixTree.cpp 12-17: the loop up to the root. A parent id outside of the vector would be undefined
    behaviour ([m_nodes[...]] is unchecked). *)
Fixpoint climb (fuel : nat) (t : tree) (cur : node) : out (list Z) :=
  match fuel with
  | 0 => OutOfFuel
  | S fuel =>
    match nd_parent cur with
    | None => Ret []
    | Some p =>
      match nth_error t p with
      | None => UB
      | Some nxt => do r <- climb fuel t nxt; Ret (nd_pos cur :: r)
      end
    end
  end.
(** PrefixTree.cpp 7-18. The loop visits a node at most once, so the size of the tree is enough fuel (that is
    proved: [climb_path]). *)
Definition get_reversed (t : tree) (id : nat) : out (list Z) :=
  if length t <=? id then Throw
  else match nth_error t id with None => UB | Some n => climb (length t) t n end.

(** RegisterHandler.hpp 47-48: m_prefix_tree and m_registers. *)
Record handler := mkHandler { h_tree : tree; h_regs : list nat }.
Definition handler_init : handler := mkHandler tree_init [].

(** The operations of the public interface, RegisterHandler.hpp 20-44. *)
Inductive reg_op :=
| OpAdd (parent : nat) (pos : Z)
| OpSet (reg : nat) (pos : Z)
| OpCopy (dest src : nat)
| OpAppend (reg : nat) (pos : Z).

(** RegisterHandler.hpp 28-44: m_registers.at(register_id). *)
Definition reg_at (h : handler) (r : nat) : out nat := match nth_error (h_regs h) r with None => Throw | Some x => Ret x end.
(** RegisterHandler.hpp 20-26 (add_register), 28-30 (set_register), 32-34 (copy_register), 36-39
    (append_position). [vector::at] throws on a register that does not exist; in copy_register both sides are
    checked before the assignment happens. *)
Definition reg_step (h : handler) (o : reg_op) : out handler :=
  match o with
  | OpAdd parent pos => do (t, id) <- tree_insert (h_tree h) parent pos; Ret (mkHandler t (h_regs h ++ [id]))
  | OpSet r pos => do id <- reg_at h r; do t <- tree_set (h_tree h) id pos; Ret (mkHandler t (h_regs h))
  | OpCopy d s => do y <- reg_at h s; do _ <- reg_at h d; Ret (mkHandler (h_tree h) (upd (h_regs h) d (fun _ => y)))
  | OpAppend r pos => do id <- reg_at h r; do (t, id') <- tree_insert (h_tree h) id pos;
      Ret (mkHandler t (upd (h_regs h) r (fun _ => id')))
  end.
(** RegisterHandler.hpp 41-44. *)
Definition reg_positions (h : handler) (r : nat) : out (list Z) :=
  do id <- reg_at h r; get_reversed (h_tree h) id.

(** A caller's history: an operation that throws leaves the handler as it was (every check precedes every
    change) and the caller may go on; the list tells which operations threw. *)
(** A sequence of calls of the public members of RegisterHandler.hpp 20-44. *)
Fixpoint reg_run (h : handler) (ops : list reg_op) : out (handler * list bool) :=
  match ops with
  | [] => Ret (h, [])
  | o :: ops =>
    match reg_step h o with
    | Ret h' => do (hf, bs) <- reg_run h' ops; Ret (hf, false :: bs)
    | Throw => do (hf, bs) <- reg_run h ops; Ret (hf, true :: bs)
    | UB => UB
    | OutOfFuel => OutOfFuel
    end
  end.
