(** IntervalTreeModel.v -- model of finite_automata/UnicodeIntervalTree.
    A null dereference and a failed [assert] are [UB]. [balance_factor] subtracts the addresses of the children
    (UnicodeIntervalTree.tpp 166-168), so every node carries its address and the difference, converted to [int],
    is an arbitrary function [bf] of the two addresses (null is [None]); the result of [all] and [find] is
    proved for every [bf] and every choice of addresses. [m_height] is never read; it is left out. *)
From Verif Require Import Base.

Section Tree.
Context {V : Type}.
(** UnicodeIntervalTree.hpp 10: using Interval. *)
Definition interval := (N * N)%type.
(** UnicodeIntervalTree.hpp 295-408: class Node, with m_interval, m_value, m_lower, m_upper, m_left, m_right. *)
Inductive itree := Null | Node (l : itree) (i : interval) (v : V) (lo hi : N) (addr : Z) (r : itree).
Variable bf : option Z -> option Z -> Z.

(** The address of the node a unique_ptr holds (UnicodeIntervalTree.hpp 167-168), null for none. *)
Definition addr_of (t : itree) : option Z := match t with Null => None | Node _ _ _ _ _ a _ => Some a end.
(** UnicodeIntervalTree.hpp 164: m_lower of a node. *)
Definition lower (t : itree) : N := match t with Null => 0 | Node _ _ _ lo _ _ _ => lo end.
(** UnicodeIntervalTree.hpp 165: m_upper of a node. *)
Definition upper (t : itree) : N := match t with Null => 0 | Node _ _ _ _ hi _ _ => hi end.

(** UnicodeIntervalTree.tpp 145-163. *)
Definition update (t : itree) : itree :=
  match t with
  | Null => Null
  | Node l i v _ _ a r =>
    let lo := match l with Null => fst i | _ => lower l end in
    let hi := match l, r with
              | Null, Null => snd i
              | Null, _ => N.max (snd i) (upper r)
              | _, Null => N.max (snd i) (upper l)
              | _, _ => N.max (N.max (snd i) (upper l)) (upper r)
              end in
    Node l i v lo hi a r
  end.
(** UnicodeIntervalTree.tpp 165-168. Without children both pointers are null and the difference is 0. *)
Definition balance_factor (t : itree) : out Z :=
  match t with
  | Null => UB
  | Node Null _ _ _ _ _ Null => Ret 0%Z
  | Node l _ _ _ _ _ r => Ret (bf (addr_of r) (addr_of l))
  end.
(** UnicodeIntervalTree.tpp 202-211. *)
Definition rotate_cw (t : itree) : out itree :=
  match t with
  | Null => UB
  | Node Null _ _ _ _ _ _ => UB
  | Node (Node ll li lv llo lhi la lr) i v lo hi a r => Ret (update (Node ll li lv llo lhi la (update (Node lr i v lo hi a r))))
  end.
(** UnicodeIntervalTree.tpp 213-222. *)
Definition rotate_ccw (t : itree) : out itree :=
  match t with
  | Null => UB
  | Node _ _ _ _ _ _ Null => UB
  | Node l i v lo hi a (Node rl ri rv rlo rhi ra rr) => Ret (update (Node (update (Node l i v lo hi a rl)) ri rv rlo rhi ra rr))
  end.
(** UnicodeIntervalTree.tpp 190-200. *)
Definition rotate (t : itree) (factor : Z) : out itree :=
  if (factor <? 0)%Z then rotate_cw t else if (0 <? factor)%Z then rotate_ccw t else Ret t.
(** UnicodeIntervalTree.tpp 170-188. [factor * factor] is not bounded to [int] here (its overflow would be
    undefined as well). *)
Definition balance (t : itree) : out itree :=
  match t with
  | Null => UB
  | Node l i v lo hi a r =>
    do factor <- balance_factor t;
    if (factor * factor <=? 1)%Z then Ret t
    else
      do sub_factor <- (if (factor <? 0)%Z then balance_factor l else balance_factor r);
      if (0 <? factor * sub_factor)%Z then rotate t factor
      else if (factor =? 2)%Z then do r' <- rotate r sub_factor; rotate (Node l i v lo hi a r') factor
      else do l' <- rotate l sub_factor; rotate (Node l' i v lo hi a r) factor
  end.

(** std::pair's operator<. *)
(** Used by UnicodeIntervalTree.tpp 22-26. *)
Definition ilt (x y : interval) : bool := (fst x <? fst y) || ((fst x =? fst y) && (snd x <? snd y)).
(** UnicodeIntervalTree.tpp 14-32; [a] is the address the new node would get. *)
Fixpoint node_insert (t : itree) (i : interval) (v : V) (a : Z) : out itree :=
  match t with
  | Null => Ret (update (Node Null i v 0 0 a Null))
  | Node l j w lo hi b r =>
    if ilt i j then do l' <- node_insert l i v a; balance (update (Node l' j w lo hi b r))
    else if ilt j i then do r' <- node_insert r i v a; balance (update (Node l j w lo hi b r'))
    else balance (update (Node l j v lo hi b r))
  end.
(** UnicodeIntervalTree.tpp 34-52. *)
Fixpoint all (t : itree) : list (interval * V) :=
  match t with
  | Null => []
  | Node l i v _ _ _ r => all l ++ [(i, v)] ++ all r
  end.
(** UnicodeIntervalTree.tpp 231-236 and, on the bounds of the subtree, 224-229. *)
Definition overlaps (m i : interval) : bool :=
  ((fst m <=? fst i) && (fst i <=? snd m)) || ((fst m <=? snd i) && (snd i <=? snd m)) || ((fst i <=? fst m) && (fst m <=? snd i)).
(** UnicodeIntervalTree.tpp 62-76. *)
Fixpoint node_find (t : itree) (i : interval) : list (interval * V) :=
  match t with
  | Null => []
  | Node l j w lo hi _ r =>
    if negb (overlaps (lo, hi) i) then []
    else node_find l i ++ (if overlaps j i then [(j, w)] else []) ++ node_find r i
  end.
(** UnicodeIntervalTree.tpp 54-60: find on an empty tree dereferences null. *)
Definition find (t : itree) (i : interval) : out (list (interval * V)) :=
  match t with Null => UB | _ => Ret (node_find t i) end.

(** UnicodeIntervalTree.tpp 129-142. *)
Fixpoint pop_min (t : itree) : out (itree * (interval * V * Z)) :=
  match t with
  | Null => UB
  | Node Null i v _ _ a r => match r with Null => UB | _ => Ret (r, (i, v, a)) end
  | Node l i v lo hi a r => do (l', m) <- pop_min l; do t' <- balance (update (Node l' i v lo hi a r)); Ret (t', m)
  end.
(** UnicodeIntervalTree.tpp 93-127. *)
Fixpoint node_pop (t : itree) (q : interval) : out (itree * option (interval * V)) :=
  match t with
  | Null => Ret (Null, None)
  | Node l i v lo hi a r =>
    if negb (overlaps (lo, hi) q) then Ret (t, None)
    else
      do (l', ret) <- node_pop l q;
      match ret with
      | Some x => do t' <- balance (update (Node l' i v lo hi a r)); Ret (t', Some x)
      | None =>
        if negb (overlaps i q) then UB
        else match l', r with
             | Null, Null => Ret (Null, Some (i, v))
             | Null, _ => Ret (r, Some (i, v))
             | _, Null => Ret (l', Some (i, v))
             | _, _ => do (sub, m) <- pop_min r; let '(mi, mv, ma) := m in
                 do t' <- balance (update (Node l' mi mv 0 0 ma sub)); Ret (t', Some (i, v))
             end
      end
  end.
(** UnicodeIntervalTree.tpp 78-91. *)
Fixpoint pop (fuel : nat) (t : itree) (q : interval) : out (itree * list (interval * V)) :=
  match fuel with
  | O => OutOfFuel
  | S fuel => do (t', ret) <- node_pop t q;
    match ret with
    | None => Ret (t', [])
    | Some x => do (tf, l) <- pop fuel t' q; Ret (tf, x :: l)
    end
  end.

(** A history of insertions: interval, value, and the address the node gets if one is created. *)
(** A sequence of calls of insert (UnicodeIntervalTree.tpp 9-11). *)
Fixpoint insert_all (t : itree) (ops : list (interval * V * Z)) : out itree :=
  match ops with
  | [] => Ret t
  | (i, v, a) :: ops => do t' <- node_insert t i v a; insert_all t' ops
  end.
End Tree.
Arguments itree V : clear implicits.
