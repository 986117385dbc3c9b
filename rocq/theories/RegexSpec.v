(** RegexSpec.v -- languages, the documented meaning of patterns, and paths of an NFA. *)
From Verif Require Import Base RegexModel.

Section Lang.
Context {A : Type}.
Definition lang := list A -> Prop.
Definition l_empty : lang := fun _ => False.
Definition l_eps : lang := fun w => w = [].
Definition l_word (u : list A) : lang := fun w => w = u.
Definition l_or (L M : lang) : lang := fun w => L w \/ M w.
Definition l_cat (L M : lang) : lang := fun w => exists u v, w = u ++ v /\ L u /\ M v.
(** [l_pow L k]: exactly [k] words of [L] one after the other. *)
Fixpoint l_pow (L : lang) (k : nat) : lang :=
  match k with O => l_eps | S k' => l_cat L (l_pow L k') end.
Definition l_star (L : lang) : lang := fun w => exists k, l_pow L k w.
(** Between [a] and [b] words; from [a] up if [b] is 0 (RegexAST.hpp 606: a maximum of 0 is infinity). *)
Definition l_rep (L : lang) (a b : N) : lang := fun w =>
  exists k, l_pow L k w /\ a <= N.of_nat k /\ (b = 0 \/ N.of_nat k <= b).
Definition l_eq (L M : lang) : Prop := forall w, L w <-> M w.
End Lang.
Arguments lang A : clear implicits.

(** Byte [b] lies in one of the ranges. *)
Definition in_ranges (rs : list range) (b : N) : Prop := exists lo hi, In (lo, hi) rs /\ lo <= b <= hi.
(** What a bracket expression is documented to match. *)
Definition group_has (negate : bool) (rs : list range) (b : N) : Prop :=
  if negate then ~ in_ranges rs b else in_ranges rs b.

(** The documented meaning of a pattern: the byte strings it matches. *)
Fixpoint matches (r : regex) : lang N :=
  match r with
  | REmpty => l_eps
  | RLit c => fun w => w = [c] /\ c < cSizeOfByte
  | RInt _ => l_empty
  | RGroup _ neg rs => fun w => exists b, w = [b] /\ b < cSizeOfByte /\ group_has neg rs b
  | ROr l r => l_or (matches l) (matches r)
  | RCat l r => l_cat (matches l) (matches r)
  | RMult r mn mx => l_rep (matches r) mn mx
  | RCapture r _ => matches r
  end.

(** What is read along a path: bytes, and the tags of the tagged transitions. *)
Inductive sym := SByte (b : N) | SStart (t : tag) | SEnd (t : tag) | SNeg (ts : list tag).
Definition label_reads (l : label) (w : list sym) : Prop :=
  match l with
  | LByte lo hi => exists b, w = [SByte b] /\ lo <= b <= hi
  | LEps => w = []
  | LPosStart t => w = [SStart t]
  | LPosEnd t => w = [SEnd t]
  | LNeg ts => w = [SNeg ts]
  end.

(** Paths of a graph whose edges may read any word. *)
Section Path.
Context {A : Type}.
Definition graph := nat -> list A -> nat -> Prop.
Inductive path (G : graph) : nat -> list A -> nat -> Prop :=
| path_nil : forall p, path G p [] p
| path_cons : forall p u r v q, G p u r -> path G r v q -> path G p (u ++ v) q.
End Path.
Arguments graph A : clear implicits.

Definition g_edges (es : list edge) : graph sym := fun p w q =>
  exists l, In (p, l, q) es /\ label_reads l w.

(** The bytes of a tagged word. *)
Fixpoint bytes_of (w : list sym) : list N :=
  match w with
  | [] => []
  | SByte b :: w' => b :: bytes_of w'
  | _ :: w' => bytes_of w'
  end.

(** The NFA accepts the tagged word [w] (or the byte string [bs]) with rule id [i]. *)
Definition accepts_tagged (A : nfa) (i : N) (w : list sym) : Prop :=
  exists q, In (q, i) (n_acc A) /\ path (g_edges (n_edges A)) n_root w q.
Definition accepts (A : nfa) (i : N) (bs : list N) : Prop :=
  exists w, bytes_of w = bs /\ accepts_tagged A i w.

(** * What the construction really accepts

    [lead r] are the tagged words read from the root to the end state, [trail r] those read by the loops the
    construction leaves on the end state itself (RegexAST.hpp 859-861 puts the loop of an unbounded
    repetition on the end state it was given, which is shared with everything else that ends there). The
    automaton of [r] accepts [lead r] followed by any number of words of [trail r]. *)
Definition neg_lead (ts : list tag) (P T : lang sym) : lang sym :=
  match ts with [] => P | _ => l_cat P (l_cat (l_star T) (l_word [SNeg ts])) end.
Definition neg_trail (ts : list tag) (T : lang sym) : lang sym :=
  match ts with [] => T | _ => l_empty end.

Fixpoint lead (r : regex) : lang sym :=
  match r with
  | REmpty | RInt _ => l_empty
  | RLit c => fun w => w = [SByte c] /\ c < cSizeOfByte
  | RGroup _ neg rs => fun w => exists b, w = [SByte b] /\ b < cSizeOfByte /\ in_ranges (group_ranges neg rs) b
  | ROr l r => l_or (neg_lead (pos_tags r) (lead l) (trail l)) (neg_lead (pos_tags l) (lead r) (trail r))
  | RCat l r => l_cat (lead l) (l_cat (l_star (trail l)) (lead r))
  | RMult r mn mx => fun w =>
      (mn = 0 /\ w = []) \/
      exists k, l_cat (l_pow (l_cat (lead r) (l_star (trail r))) k) (lead r) w /\
        (mn = N.of_nat k + 1 \/ (mn < N.of_nat k + 1 /\ N.of_nat k + 1 <= mx))
  | RCapture r t => l_cat (l_word [SStart t]) (l_cat (lead r) (l_cat (l_star (trail r)) (l_word [SEnd t])))
  end
with trail (r : regex) : lang sym :=
  match r with
  | REmpty | RInt _ | RLit _ | RGroup _ _ _ | RCapture _ _ => l_empty
  | ROr l r => l_or (neg_trail (pos_tags r) (trail l)) (neg_trail (pos_tags l) (trail r))
  | RCat l r => trail r
  | RMult r mn mx => if mx =? 0 then l_or (lead r) (trail r) else trail r
  end.

(** [selected P rules ids]: [ids] are the ids of the rules whose pattern satisfies [P], in rule order. *)
Inductive selected (P : regex -> Prop) : list (N * regex) -> list N -> Prop :=
| sel_nil : selected P [] []
| sel_take : forall i r rules ids, P r -> selected P rules ids -> selected P ((i, r) :: rules) (i :: ids)
| sel_skip : forall i r rules ids, ~ P r -> selected P rules ids -> selected P ((i, r) :: rules) ids.

(** The pattern with every [R*] (parsed as Or(Empty, R{1,})) replaced by [R+], every [R{0,M}] by [R{1,M}]
    (SchemaParser.cpp 202-210, 250-256). *)
Fixpoint star_as_plus (r : regex) : regex :=
  match r with
  | ROr REmpty r => star_as_plus r
  | ROr l r => ROr (star_as_plus l) (star_as_plus r)
  | RCat l r => RCat (star_as_plus l) (star_as_plus r)
  | RMult r mn mx => RMult (star_as_plus r) mn mx
  | RCapture r t => RCapture (star_as_plus r) t
  | _ => r
  end.

(** The documented tagged matches: a capture group is entered and left around its text; an alternative that
    was taken is followed by a record that the captures of the other one are unmatched. *)
Definition then_neg (ts : list tag) (L : lang sym) : lang sym :=
  match ts with [] => L | _ => l_cat L (l_word [SNeg ts]) end.
Fixpoint tmatches (r : regex) : lang sym :=
  match r with
  | REmpty => l_eps
  | RLit c => fun w => w = [SByte c] /\ c < cSizeOfByte
  | RInt _ => l_empty
  | RGroup _ neg rs => fun w => exists b, w = [SByte b] /\ b < cSizeOfByte /\ group_has neg rs b
  | ROr l r => l_or (then_neg (pos_tags r) (tmatches l)) (then_neg (pos_tags l) (tmatches r))
  | RCat l r => l_cat (tmatches l) (tmatches r)
  | RMult r mn mx => l_rep (tmatches r) mn mx
  | RCapture r t => l_cat (l_word [SStart t]) (l_cat (tmatches r) (l_word [SEnd t]))
  end.

(** Capture [t] is recorded as matched / as unmatched on the way. *)
Definition rec_matched (w : list sym) (t : tag) : Prop := In (SStart t) w /\ In (SEnd t) w.
Definition rec_unmatched (w : list sym) (t : tag) : Prop := exists ts, In (SNeg ts) w /\ In t ts.
(** No part of the way belongs to capture [t]. *)
Definition rec_never (w : list sym) (t : tag) : Prop := ~ In (SStart t) w /\ ~ In (SEnd t) w.
