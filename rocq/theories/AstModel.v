(** AstModel.v -- RegexAST as objects: the tags a node stores, copying (clone), destruction, the automaton and the text of an AST. *)
From Verif Require Import Base RegexModel SerializeModel.

(** The Tag objects in memory (Tag.hpp): [m_names t] is the name of the object at address [t], [None] if there is no object (not yet
    allocated, or destroyed). New objects get the address [m_next]. *)
Record mem := mkMem { m_next : N; m_names : N -> option (list N) }.
Definition alloc (m : mem) (u : list N) : N * mem :=
  (m_next m, mkMem (m_next m + 1) (fun t => if t =? m_next m then Some u else m_names m t)).
Definition free (m : mem) (t : N) : mem := mkMem (m_next m) (fun t' => if t' =? t then None else m_names m t').
(** Reading the name of a destroyed tag is undefined. *)
Definition name_at (m : mem) (t : N) : out (list N) := match m_names m t with Some u => Ret u | None => UB end.

(** Nodes without children. *)
(** RegexAST.hpp 155-640: RegexASTEmpty, RegexASTLiteral, RegexASTInteger, RegexASTGroup. *)
Inductive leaf := FEmpty | FLit (c : N) | FInt (digits : list N) | FGroup (wildcard negate : bool) (ranges : list range).
(** A node with the two vectors it stores (RegexAST.hpp 149-150: m_subtree_positive_tags, m_negative_tags, pointers to tags). *)
Inductive ast :=
| ALeaf (pos neg : list N) (k : leaf)
| AOr (pos neg : list N) (l r : ast)
| ACat (pos neg : list N) (l r : ast)
| AMult (pos neg : list N) (o : ast) (mn mx : N)
| ACapture (pos neg : list N) (o : ast) (t : N).
Definition a_pos (a : ast) : list N := match a with ALeaf p _ _ | AOr p _ _ _ | ACat p _ _ _ | AMult p _ _ _ _ | ACapture p _ _ _ => p end.
Definition a_neg (a : ast) : list N := match a with ALeaf _ n _ | AOr _ n _ _ | ACat _ n _ _ | AMult _ n _ _ _ | ACapture _ n _ _ => n end.
(** RegexAST.hpp 102-104: set_negative_tags. *)
Definition set_neg (n : list N) (a : ast) : ast :=
  match a with
  | ALeaf p _ k => ALeaf p n k | AOr p _ l r => AOr p n l r | ACat p _ l r => ACat p n l r
  | AMult p _ o mn mx => AMult p n o mn mx | ACapture p _ o t => ACapture p n o t
  end.
(** The constructors: RegexAST.hpp 771-781 (Or), 801-809 (Cat), 833-842 (Multiplication), 640-656 (Capture). *)
Definition mk_or (l r : ast) : ast :=
  let l' := set_neg (a_pos r) l in let r' := set_neg (a_pos l') r in AOr (a_pos l' ++ a_pos r') [] l' r'.
Definition mk_cat (l r : ast) : ast := ACat (a_pos l ++ a_pos r) [] l r.
Definition mk_mult (o : ast) (mn mx : N) : ast := AMult (a_pos o) [] o mn mx.
Definition mk_capture (o : ast) (t : N) : ast := ACapture (a_pos o ++ [t]) [] o t.
(** The object that the constructors make for a pattern; the tags of the pattern are addresses. *)
Fixpoint build (r : regex) : ast :=
  match r with
  | REmpty => ALeaf [] [] FEmpty
  | RLit c => ALeaf [] [] (FLit c)
  | RInt ds => ALeaf [] [] (FInt ds)
  | RGroup w n rs => ALeaf [] [] (FGroup w n rs)
  | ROr l r => mk_or (build l) (build r)
  | RCat l r => mk_cat (build l) (build r)
  | RMult r mn mx => mk_mult (build r) mn mx
  | RCapture r t => mk_capture (build r) t
  end.

(** clone(): the copy constructors. RegexAST.hpp 125 (the base class: both vectors are copied as they are), 437-440 (Or), 500-503 (Cat),
    564-568 (Multiplication), 658-666 (Capture: a new Tag with the same name, and the positive tags of the original), leaves: memberwise.
    Members are copied in declaration order: the operand before the tag. *)
Fixpoint clone (a : ast) (m : mem) : out (ast * mem) :=
  match a with
  | ALeaf p n k => Ret (ALeaf p n k, m)
  | AOr p n l r => do (l', m1) <- clone l m; do (r', m2) <- clone r m1; Ret (AOr p n l' r', m2)
  | ACat p n l r => do (l', m1) <- clone l m; do (r', m2) <- clone r m1; Ret (ACat p n l' r', m2)
  | AMult p n o mn mx => do (o', m1) <- clone o m; Ret (AMult p n o' mn mx, m1)
  | ACapture p n o t => do (o', m1) <- clone o m; do u <- name_at m1 t; let (t', m2) := alloc m1 u in Ret (ACapture p n o' t', m2)
  end.
(** The destructors: a capture owns its tag (unique_ptr). *)
Fixpoint destroy (a : ast) (m : mem) : mem :=
  match a with
  | ALeaf _ _ _ => m
  | AOr _ _ l r | ACat _ _ l r => destroy r (destroy l m)
  | AMult _ _ o _ _ => destroy o m
  | ACapture _ _ o t => destroy o (free m t)
  end.

(** add_to_nfa on objects: every child is added by add_to_nfa_with_negative_tags (RegexAST.hpp 111-122). *)
Fixpoint ast_nfa (a : ast) : builder :=
  match a with
  | ALeaf _ _ FEmpty => b_nop
  | ALeaf _ _ (FLit c) => fun root e n => Ret (n, add_interval root (c, c) e)
  | ALeaf _ _ (FInt _) => fun _ _ _ => Throw
  | ALeaf _ _ (FGroup _ negate rs) => fun root e n => Ret (n, flat_map (fun x => add_interval root x e) (group_ranges negate rs))
  | AOr _ _ l r => b_seq (with_neg (a_neg l) (ast_nfa l)) (with_neg (a_neg r) (ast_nfa r))
  | ACat _ _ l r => b_cat (with_neg (a_neg l) (ast_nfa l)) (with_neg (a_neg r) (ast_nfa r))
  | AMult _ _ o mn mx => b_mult (with_neg (a_neg o) (ast_nfa o)) mn mx
  | ACapture _ _ o t => b_capture t (with_neg (a_neg o) (ast_nfa o))
  end.
(** LexicalRule.hpp 38-43, RegexNFA.hpp 107-113, for objects. *)
Fixpoint add_asts (rules : list (N * ast)) (n : nat) : out (nat * list edge * list (nat * N)) :=
  match rules with
  | [] => Ret (n, [], [])
  | (id, a) :: rules' =>
      do (n1, e1) <- with_neg (a_neg a) (ast_nfa a) n_root n (S n);
      do (n2, e2, acc) <- add_asts rules' n1;
      Ret (n2, e1 ++ e2, (n, id) :: acc)
  end.
Definition nfa_of_asts (rules : list (N * ast)) : out nfa :=
  do (n, es, acc) <- add_asts rules 1%nat; Ret (mkNfa n es acc).

(** serialize(): RegexAST.hpp 130-146 (serialize_negative_tags), 717-719 (Empty), 731-737 (Literal), 761-768 (Integer), 791-798 (Or),
    823-830 (Cat), 881-892 (Multiplication), 943-951 (Capture), 1079-1107 (Group). Code points in place of a u32string. *)
Definition neg_text (m : mem) (ts : list N) : out (list N) :=
  do us <- each (name_at m) ts; Ret (flat_map (fun u => [60; 126] ++ u ++ [62]) us).
Fixpoint ranges_text (rs : list range) : list N :=
  match rs with
  | [] => []
  | (b, e) :: r => [b; 45; e] ++ match r with [] => [] | _ => [44; 32] ++ ranges_text r end
  end.
Definition leaf_text (k : leaf) : list N :=
  match k with
  | FEmpty => []
  | FLit c => [c]
  | FInt ds => flat_map dec ds
  | FGroup w n rs => [91] ++ (if n then [94] else []) ++ (if w then [42] else ranges_text rs) ++ [93]
  end.
(** RegexAST.hpp: the serialize members (Or 795-799, Cat 821-827, Multiplication, Capture, and the leaves above). *)
Fixpoint ast_text (m : mem) (a : ast) : out (list N) :=
  match a with
  | ALeaf _ n k => do t <- neg_text m n; Ret (leaf_text k ++ t)
  | AOr _ n l r => do x <- ast_text m l; do y <- ast_text m r; do t <- neg_text m n; Ret ([40] ++ x ++ [41; 124; 40] ++ y ++ [41] ++ t)
  | ACat _ n l r => do x <- ast_text m l; do y <- ast_text m r; do t <- neg_text m n; Ret (x ++ y ++ t)
  | AMult _ n o mn mx => do x <- ast_text m o; do t <- neg_text m n;
      Ret ([40] ++ x ++ [41; 123] ++ dec mn ++ [44] ++ (if mx =? 0 then [105; 110; 102] else dec mx) ++ [125] ++ t)
  | ACapture _ n o g => do x <- ast_text m o; do u <- name_at m g; do t <- neg_text m n; Ret ([40] ++ x ++ [41; 60] ++ u ++ [62] ++ t)
  end.
