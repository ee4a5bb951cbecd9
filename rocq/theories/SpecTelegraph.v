(** The telegrapher's equations of a line of one conductor with a Thevenin circuit at each end.
    No proofs here. *)
From Coq Require Import Reals.
From Verif Require Import Num NumR Line SpecLine.
Local Open Scope R_scope.

(** [curved K a b f f']: on the interval from [a] to [b] (one-sided at its ends) [f'] is the
    derivative of [f], with [f] departing from its tangents by at most [K] times the square of
    the distance.  [PropTelegraph] proves that a function with a second derivative bounded by [K]
    is such, and that [f'] is then the derivative in the usual sense. *)
Definition curved (K a b : R) (f f' : R -> R) : Prop :=
  forall x y, a <= x <= b -> a <= y <= b -> Rabs (f y - f x - f' x * (y - x)) <= K * (y - x) ^ 2.

(** [telegraph l c r g len zs zl Tm vs vl V I K]: from time 0 to [Tm], [V z t] and [I z t] are the
    voltage and the current at [z] of a line from 0 to [len] with inductance, capacitance,
    resistance and conductance [l], [c], [r], [g] per unit length, at rest at time 0, closed at 0
    by the generator [vs] behind [zs] and at [len] by the generator [vl] behind [zl] *)
Definition telegraph (l c r g len zs zl Tm : R) (vs vl : R -> R) (V I : R -> R -> R) (K : R) : Prop :=
  exists Vz Vt Iz It : R -> R -> R,
  (forall t, 0 <= t <= Tm -> curved K 0 len (fun z => V z t) (fun z => Vz z t) /\ curved K 0 len (fun z => I z t) (fun z => Iz z t)) /\
  (forall z, 0 <= z <= len -> curved K 0 Tm (fun t => V z t) (fun t => Vt z t) /\ curved K 0 Tm (fun t => I z t) (fun t => It z t)) /\
  (forall z t, 0 <= z <= len -> 0 <= t <= Tm ->
     l * It z t + r * I z t + Vz z t = 0 /\ c * Vt z t + g * V z t + Iz z t = 0) /\
  (forall t, 0 <= t <= Tm -> V 0 t + zs * I 0 t = vs t /\ V len t - zl * I len t = vl t) /\
  (forall z, 0 <= z <= len -> V z 0 = 0 /\ I z 0 = 0) /\
  (forall t, t < 0 -> vs t = 0 /\ vl t = 0).

(** distances to the exact voltage at a node and to the exact current in a cell, [k] steps from the start *)
Definition volt_error (st : nat -> mtl NumR) (V : R -> R -> R) (h dt : R) (k j : nat) : R := volt (st k) 0 j - V (INR j * h) (INR k * dt).
Definition curr_error (st : nat -> mtl NumR) (I : R -> R -> R) (h dt : R) (k j : nat) : R := curr (st k) 0 j - I ((INR j + / 2) * h) ((INR k + / 2) * dt).
