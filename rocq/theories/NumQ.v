(** Executable rational instance, results always in lowest terms.  Used only to compute
    witnesses and examples.  [nsqrt] is exact on squares of rationals (all uses in the
    witnesses); the transcendental functions are not available on Q and are the constant
    0, no witness evaluates them. *)
From Coq Require Import QArith Qreduction Qround Qabs ZArith.
From Verif Require Import Num.

Definition Qltb (x y : Q) : bool :=
  (Qnum x * Zpos (Qden y) <? Qnum y * Zpos (Qden x))%Z.
Definition Qsqrt (x : Q) : Q :=
  let y := Qred x in Qred (Z.sqrt (Qnum y) # Pos.sqrt (Qden y)).

Definition NumQ : num := {|
  car := Q; n0 := 0%Q; n1 := 1%Q;
  nadd := fun x y => Qred (x + y);
  nsub := fun x y => Qred (x - y);
  nmul := fun x y => Qred (x * y);
  ndiv := fun x y => Qred (x / y);
  nopp := fun x => Qred (- x);
  nabs := fun x => Qred (Qabs x);
  nsqrt := Qsqrt;
  nexp := fun _ => 0%Q; nsin := fun _ => 0%Q; ncos := fun _ => 0%Q; npi := 0%Q;
  nofZ := fun z => inject_Z z;
  nfloor := Qfloor;
  nltb := Qltb;
  nleb := fun x y => negb (Qltb y x);
  neqb := Qeq_bool |}.
