(** The convolution a dispersive element stands for.  No proofs here. *)
From Coq Require Import List Arith Reals.
From Coquelicot Require Import Coquelicot.
From Verif Require Import Num Arr NumR Dispersive.
Local Open Scope R_scope.

Notation cR := (cplx NumR).
(** impulse response [r * e^(p t)] of one pole [p] with residue [r]: real and imaginary part *)
Definition response_re (r p : cR) (t : R) : R :=
  exp (fst p * t) * (fst r * cos (snd p * t) - snd r * sin (snd p * t)).
Definition response_im (r p : cR) (t : R) : R :=
  exp (fst p * t) * (fst r * sin (snd p * t) + snd r * cos (snd p * t)).
(** [convolved r p x t z]: the convolution of the current [x] (a function of time, zero before
    time 0) with the impulse response, at time [t], is [z] *)
Definition convolved (r p : cR) (x : R -> R) (t : R) (z : cR) : Prop :=
  is_RInt (fun s => response_re r p (t - s) * x s) 0 t (fst z) /\
  is_RInt (fun s => response_im r p (t - s) * x s) 0 t (snd z).
(** [exact_step dt r p q1 q2 q3]: for every current that is linear between [t] and [t+dt], the
    convolution at [t+dt] is [q1 * x(t+dt) + q2 * x(t) + q3 * (convolution at t)] *)
Definition exact_step (dt : R) (r p q1 q2 q3 : cR) : Prop :=
  forall (x : R -> R) (t i0 i1 : R) (z : cR), 0 <= t ->
    (forall s, 0 <= s <= dt -> x (t + s) = i0 + (i1 - i0) * (s / dt)) ->
    convolved r p x t z ->
    convolved r p x (t + dt) (cadd (cadd (@cscal NumR i1 q1) (@cscal NumR i0 q2)) (cmul q3 z)).
