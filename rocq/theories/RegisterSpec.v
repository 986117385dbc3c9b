(** RegisterSpec.v -- what registers are to their user: lists of cells. Independent of the model except for the
    type of operations. *)
From Verif Require Import Base RegisterModel.
Local Open Scope nat_scope.

(** Specification state: the value of each cell; for each register the cells of its history, oldest first; and
    every history a register ever had ([made], in order of creation, the empty one first), to which
    add_register's first argument refers. *)
Record cells := mkCells { c_val : list Z; c_regs : list (list nat); c_made : list (list nat) }.
Definition cells_init : cells := mkCells [] [] [[]].
(** Appending makes a new cell; copying shares the cells; setting overwrites the last cell, whoever shares it.
    [None]: the operation names a register or history that does not exist, and nothing changes. *)
Definition cell_step (s : cells) (o : reg_op) : option cells :=
  match o with
  | OpAdd parent pos =>
    match nth_error (c_made s) parent with
    | None => None
    | Some h => Some (mkCells (c_val s ++ [pos]) (c_regs s ++ [h ++ [length (c_val s)]]) (c_made s ++ [h ++ [length (c_val s)]]))
    end
  | OpSet r pos =>
    match nth_error (c_regs s) r with
    | None => None
    | Some h => Some (mkCells (upd (c_val s) (last h 0) (fun _ => pos)) (c_regs s) (c_made s))
    end
  | OpCopy d s0 =>
    match nth_error (c_regs s) s0, nth_error (c_regs s) d with
    | Some h, Some _ => Some (mkCells (c_val s) (upd (c_regs s) d (fun _ => h)) (c_made s))
    | _, _ => None
    end
  | OpAppend r pos =>
    match nth_error (c_regs s) r with
    | None => None
    | Some h => Some (mkCells (c_val s ++ [pos]) (upd (c_regs s) r (fun _ => h ++ [length (c_val s)])) (c_made s ++ [h ++ [length (c_val s)]]))
    end
  end.
Fixpoint cell_run (s : cells) (ops : list reg_op) : cells * list bool :=
  match ops with
  | [] => (s, [])
  | o :: ops =>
    match cell_step s o with
    | Some s' => let (f, bs) := cell_run s' ops in (f, false :: bs)
    | None => let (f, bs) := cell_run s ops in (f, true :: bs)
    end
  end.
(** The positions of a register, newest first. *)
Definition cell_positions (s : cells) (r : nat) : option (list Z) :=
  option_map (fun h => rev (map (fun i => nth i (c_val s) 0%Z) h)) (nth_error (c_regs s) r).

(** The simple view, for callers that never use set_register: a register is the list of the positions appended
    to it. *)
Record simple := mkSimple { s_regs : list (list Z); s_made : list (list Z) }.
Definition simple_init : simple := mkSimple [] [[]].
Definition simple_step (s : simple) (o : reg_op) : simple :=
  match o with
  | OpAdd parent pos =>
    match nth_error (s_made s) parent with
    | None => s
    | Some h => mkSimple (s_regs s ++ [h ++ [pos]]) (s_made s ++ [h ++ [pos]])
    end
  | OpSet r pos => s
  | OpCopy d s0 =>
    match nth_error (s_regs s) s0, nth_error (s_regs s) d with
    | Some h, Some _ => mkSimple (upd (s_regs s) d (fun _ => h)) (s_made s)
    | _, _ => s
    end
  | OpAppend r pos =>
    match nth_error (s_regs s) r with
    | None => s
    | Some h => mkSimple (upd (s_regs s) r (fun _ => h ++ [pos])) (s_made s ++ [h ++ [pos]])
    end
  end.
(** The independent-registers view, for callers that never copy and add every register under the root: adding
    starts the list, appending extends it, setting replaces its last position. *)
Definition indep_step (s : list (list Z)) (o : reg_op) : list (list Z) :=
  match o with
  | OpAdd _ pos => s ++ [[pos]]
  | OpSet r pos => upd s r (fun h => removelast h ++ [pos])
  | OpCopy _ _ => s
  | OpAppend r pos => upd s r (fun h => h ++ [pos])
  end.
