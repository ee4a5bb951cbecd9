(** The real-number instance ("exact arithmetic"). *)
From Coq Require Import Reals ZArith.
From Verif Require Import Num Arr.
Local Open Scope R_scope.

Definition Rltb (x y : R) : bool := if Rlt_dec x y then true else false.
Definition Rleb (x y : R) : bool := if Rle_dec x y then true else false.
Definition Reqb (x y : R) : bool := if Req_EM_T x y then true else false.

Definition NumR : num := {|
  car := R; n0 := 0; n1 := 1;
  nadd := Rplus; nsub := Rminus; nmul := Rmult; ndiv := Rdiv;
  nopp := Ropp; nabs := Rabs; nsqrt := sqrt; nexp := exp; nsin := sin; ncos := cos;
  npi := PI; nofZ := IZR; nfloor := Int_part;
  nltb := Rltb; nleb := Rleb; neqb := Reqb |}.

(** sum of [f 0 .. f (n-1)]: the model's sum at the real instance *)
Notation sumR := (@sumn NumR).
