(** IEEE-754 binary64 with round-to-nearest-even, through the standard library's
    executable specification [SpecFloat] (no primitive floats, no axioms).  Used for
    floating-point counterexamples.  The transcendental functions are not part of the
    standard and are not used by any witness (constant NaN here). *)
From Coq Require Import ZArith SpecFloat.
From Verif Require Import Num.

Definition f64_prec := 53%Z.
Definition f64_emax := 1024%Z.
Definition fadd := SFadd f64_prec f64_emax.
Definition fsub := SFsub f64_prec f64_emax.
Definition fmul := SFmul f64_prec f64_emax.
Definition fdiv := SFdiv f64_prec f64_emax.
Definition fsqrt := SFsqrt f64_prec f64_emax.
Definition fofZ (z : Z) : spec_float := binary_normalize f64_prec f64_emax z 0 false.
(** floor of a finite float; 0 for infinities and NaN (numpy raises on them later) *)
Definition ffloor (x : spec_float) : Z :=
  match x with
  | S754_finite s m e =>
      let z := if s then Zneg m else Zpos m in
      match e with
      | Z0 => z
      | Zpos p => (z * 2 ^ Zpos p)%Z
      | Zneg p => (z / 2 ^ Zpos p)%Z
      end
  | _ => 0%Z
  end.

Definition NumF : num := {|
  car := spec_float; n0 := S754_zero false; n1 := fofZ 1;
  nadd := fadd; nsub := fsub; nmul := fmul; ndiv := fdiv;
  nopp := SFopp; nabs := SFabs; nsqrt := fsqrt;
  nexp := fun _ => S754_nan; nsin := fun _ => S754_nan; ncos := fun _ => S754_nan;
  npi := S754_nan;
  nofZ := fofZ; nfloor := ffloor;
  nltb := SFltb; nleb := SFleb; neqb := SFeqb |}.
