(** SchemaActions.v -- the semantic actions of SchemaParser.cpp that build patterns. *)
From Verif Require Import Base RegexModel.

(** Arithmetic on uint32_t (SchemaParser.cpp 222-247). *)
Definition uint32 (n : N) : N := n mod 2 ^ 32.
(** SchemaParser.cpp 225, 239, 246: [(uint32_t)pow(10, k)]. The conversion of a double beyond the range of
    uint32_t is undefined behaviour, so is every k above 9. *)
Definition pow10_u32 (k : nat) : out N := if (k <=? 9)%nat then Ret (10 ^ N.of_nat k) else UB.
(** SchemaParser.cpp 222-226 (and 236-240, 243-247): the loop over the digits, from the first to the last. *)
Fixpoint rep_loop (reps : N) (ds : list N) : out N :=
  match ds with
  | [] => Ret reps
  | d :: ds' => do p <- pow10_u32 (length ds'); rep_loop (uint32 (reps + uint32 (d * p))) ds'
  end.
Definition rep_count (ds : list N) : out N := rep_loop 0 ds.
(** RegexAST.hpp 740-750: the digits of an integer are its characters minus '0'. *)
Definition digits_of (text : list N) : list N := map (fun c => c - 48) text.

(** SchemaParser.cpp 202-210. *)
Definition act_zero_or_more (r : regex) : regex := ROr REmpty (RMult r 1 0).
(** SchemaParser.cpp 212-217. *)
Definition act_one_or_more (r : regex) : regex := RMult r 1 0.
(** SchemaParser.cpp 219-231. *)
Definition act_exactly (r : regex) (ds : list N) : out regex := do n <- rep_count ds; Ret (RMult r n n).
(** SchemaParser.cpp 233-261. *)
Definition act_range (r : regex) (ds es : list N) : out regex :=
  do mn <- rep_count ds; do mx <- rep_count es;
  if mn =? 0 then Ret (ROr REmpty (RMult r 1 mx)) else Ret (RMult r mn mx).
