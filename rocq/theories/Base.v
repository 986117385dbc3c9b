(** Base.v -- common definitions of the log-surgeon model. Stdlib only. *)
From Coq Require Export List Arith NArith ZArith Lia Bool.
From Coq Require Export ZifyNat ZifyN.
Export ListNotations.

#[global] Arguments N.add : simpl never.
#[global] Arguments N.sub : simpl never.
#[global] Arguments N.mul : simpl never.
#[global] Arguments N.div : simpl never.
#[global] Arguments N.eqb : simpl never.
#[global] Arguments N.leb : simpl never.
#[global] Arguments N.ltb : simpl never.

Open Scope N_scope.

(** Outcome of a modelled C++ function.
    [Ret]    : normal return;
    [UB]     : undefined behaviour (null dereference, read outside an allocation);
    [Throw]  : a C++ exception leaves the function;
    [OutOfFuel] : the model's loop bound was exhausted (never a normal outcome). *)
(** Conventions, no code: the outcomes of a C++ call (returned value, undefined behaviour, exception, fuel used up). *)
Inductive out (A : Type) : Type :=
| Ret (a : A)
| UB
| Throw
| OutOfFuel.
Arguments Ret {A} a.
Arguments UB {A}.
Arguments Throw {A}.
Arguments OutOfFuel {A}.

(** Conventions, no code: sequencing of calls. *)
Definition bind {A B} (x : out A) (f : A -> out B) : out B :=
  match x with
  | Ret a => f a
  | UB => UB
  | Throw => Throw
  | OutOfFuel => OutOfFuel
  end.
Notation "'do' p <- x ; y" := (bind x (fun p => y))
  (at level 200, p pattern, x at level 100, y at level 200).

(** Constants.hpp 7-12, 49-58. *)
Definition cUnicodeMax : N := 1114111.
Definition cSizeOfByte : N := 256.
Definition cCharEOF : N := 255.
Definition cCharStartOfFile : N := 253.
Definition cNewline : N := 10.
Definition cStaticByteBuffSize : N := 48000.

(** Constants.hpp 30-39: enum class SymbolId. *)
Definition TokenEnd : N := 0.
Definition TokenUncaughtString : N := 1.
Definition TokenInt : N := 2.
Definition TokenFloat : N := 3.
Definition TokenHex : N := 4.
Definition TokenFirstTimestamp : N := 5.
Definition TokenNewlineTimestamp : N := 6.
Definition TokenNewline : N := 7.
