(** SchemaEditModel.v -- model of class Schema (Schema.hpp, Schema.cpp) and SchemaAST::add_schema_var. *)
From Verif Require Import Base.

Section Edit.
(** A parsed variable, a schema text, and try_schema_string's result on it (its variables in order; the
    delimiters of that text are not used by add_variable). *)
Context {var text : Type}.
Variable parse_text : text -> out (list var).

(** SchemaParser.hpp 21-27. [vector::insert] at an iterator outside of the vector is undefined behaviour. *)
Definition add_schema_var (vars : list var) (v : var) (pos : Z) : out (list var) :=
  if (pos =? -1)%Z then Ret (vars ++ [v])
  else if (0 <=? pos)%Z && (pos <=? Z.of_nat (length vars))%Z
       then Ret (firstn (Z.to_nat pos) vars ++ v :: skipn (Z.to_nat pos) vars)
       else UB.
(** Schema.cpp 13-16: only the first variable of the text is used; [m_schema_vars[0]] of an empty vector is
    undefined behaviour. *)
Definition add_variable (vars : list var) (t : text) (priority : Z) : out (list var) :=
  do parsed <- parse_text t;
  match parsed with [] => UB | v :: _ => add_schema_var vars v priority end.
(** Schema.hpp 81-85. *)
Definition release (vars : list var) : list var * list var := (vars, []).
(** A sequence of additions. *)
Fixpoint add_variables (vars : list var) (ops : list (text * Z)) : out (list var) :=
  match ops with
  | [] => Ret vars
  | (t, p) :: ops => do vars' <- add_variable vars t p; add_variables vars' ops
  end.
End Edit.
