(** Arithmetic interface of the model.

    Python floats and numpy float64 values are modelled by a record of operations
    WITHOUT laws.  Every model function is written once for an arbitrary [num];
    NumR.v (reals), NumQ.v (rationals) and NumF.v (IEEE binary64) give instances. *)
From Coq Require Import ZArith.

Record num := Num {
  car :> Type;
  n0 : car;
  n1 : car;
  nadd : car -> car -> car;
  nsub : car -> car -> car;
  nmul : car -> car -> car;
  ndiv : car -> car -> car;
  nopp : car -> car;
  nabs : car -> car;
  nsqrt : car -> car;
  nexp : car -> car;
  nsin : car -> car;
  ncos : car -> car;
  npi : car;
  nofZ : Z -> car;
  nfloor : car -> Z;
  nltb : car -> car -> bool;
  nleb : car -> car -> bool;
  neqb : car -> car -> bool
}.

Arguments n0 {_}.
Arguments n1 {_}.
Arguments nadd {_} _ _.
Arguments nsub {_} _ _.
Arguments nmul {_} _ _.
Arguments ndiv {_} _ _.
Arguments nopp {_} _.
Arguments nabs {_} _.
Arguments nsqrt {_} _.
Arguments nexp {_} _.
Arguments nsin {_} _.
Arguments ncos {_} _.
Arguments npi {_}.
Arguments nofZ {_} _.
Arguments nfloor {_} _.
Arguments nltb {_} _ _.
Arguments nleb {_} _ _.
Arguments neqb {_} _ _.

Declare Scope num_scope.
Delimit Scope num_scope with num.
Notation "x + y" := (nadd x y) : num_scope.
Notation "x - y" := (nsub x y) : num_scope.
Notation "x * y" := (nmul x y) : num_scope.
Notation "x / y" := (ndiv x y) : num_scope.
Notation "- x" := (nopp x) : num_scope.
Notation "x <? y" := (nltb x y) : num_scope.
Notation "x <=? y" := (nleb x y) : num_scope.
Notation "x =? y" := (neqb x y) : num_scope.

Section Constants.
Context {N : num}.
Local Open Scope num_scope.
(** the literals 2, 0.5 and powers of ten used in the code *)
Definition n2 : N := nofZ 2.
Definition nhalf : N := n1 / n2.
Definition n1e10 : N := nofZ 10000000000.
Definition n1em10 : N := n1 / nofZ 10000000000.
Definition n1em6 : N := n1 / nofZ 1000000.
Definition n1e22 : N := nofZ 10000000000000000000000.
(** a Python bool used as a factor: True = 1, False = 0 *)
Definition nb (b : bool) : N := if b then n1 else n0.
(** [x ** 2] *)
Definition nsq (x : N) : N := x * x.
End Constants.
