(** The speed of a plane wave on a line.  No proofs here.  Used by C68. *)
From Coq Require Import String List Arith ZArith Reals.
From Verif Require Import Num Py Arr NumR Line SpecLine.
Import ListNotations.
Local Open Scope R_scope.

(** [v] is the largest of the phase velocities 1/sqrt(e) of all cells, [e] an eigenvalue of the product of the
    inductance of the cell and the capacitance of the node after it *)
Definition fastest (LA : lapack NumR) (m : mtl NumR) (v : R) : Prop :=
  let modes k := la_eig LA (conductors m) (mm (conductors m) (getm (k_l (m_core m)) k) (getm (k_c (m_core m)) (S k))) in
  (exists k e, (k < cells m)%nat /\ In e (modes k) /\ v = 1 / sqrt e) /\
  (forall k e, (k < cells m)%nat -> In e (modes k) -> 1 / sqrt e <= v).
