(** Vocabulary of reciprocity: exchanging generator and observer.  No proofs here. *)
From Coq Require Import List Arith Reals.
From Verif Require Import Num Arr NumR Line SpecLine SpecR SpecDyn SpecEnergy.
Import ListNotations.
Local Open Scope R_scope.

(** the two ends of a line ([far = false]: the one where the line starts): node number and impedance in series with conductor [c] *)
Definition end_node (m : mtl NumR) (far : bool) : nat := if far then cells m else 0%nat.
Definition end_Z (m : mtl NumR) (far : bool) (c : nat) : R := if far then Zl_ m c c else Zs_ m c c.

(** what the generator of conductor [c] at an end contributes to step [k] of a run: the sum of its values at the
    start of the step and one step before (twice the mean) *)
Definition drive (m : mtl NumR) (far : bool) (c k : nat) : R :=
  let t := m_time m + INR k * step_dt m in
  source m c (end_node m far) t + source m c (end_node m far) (t - step_dt m).

(** a line at rest with symmetric matrices, without dispersive elements or external field, with an impedance at
    every terminal; [m0] (the line as constructed) gives the conductances of the end nodes *)
Record reciprocal_line (LA : lapack NumR) (m0 m : mtl NumR) : Prop := {
  rl_history : history LA m0 m; rl_und : undispersed m; rl_field : no_field m; rl_silent : silent m;
  rl_L : forall k, (k < cells m)%nat -> symm (conductors m) (L_ m k);
  rl_R : forall k, (k < cells m)%nat -> symm (conductors m) (R_ m k);
  rl_C : forall k, (k <= cells m)%nat -> symm (conductors m) (C_ m k);
  rl_G : forall k, (k <= cells m)%nat -> symm (conductors m) (node_G m0 m k);
  rl_Z : forall far c, (c < conductors m)%nat -> end_Z m far c <> 0
}.

(** the same line with other generators at its terminals *)
Definition other_sources (m m' : mtl NumR) : Prop := exists x, m' = m_set_vsrc m x.
