(** Vocabulary of settling: the direct-current solution of a line and what it means to tend to it.  No proofs here. *)
From Coq Require Import List Arith Reals.
From Verif Require Import Num Arr NumR Line SpecLine SpecR SpecDyn SpecEnergy SpecRecip.
Local Open Scope R_scope.

(** from time [t1] on the generators of conductor [c] at the two ends stay at [s0 c] and [sN c] *)
Definition steady_from (t1 : R) (m : mtl NumR) (s0 sN : nat -> R) : Prop :=
  forall c t, (c < conductors m)%nat -> t1 <= t -> source m c 0 t = s0 c /\ source m c (cells m) t = sN c.

(** [dc_solution m0 m s0 sN V I]: the voltages [V c k] (conductor, node) and currents [I c k] (conductor, cell)
    solve the resistive circuit left of the line when nothing changes any more: Ohm's law in every cell,
    Kirchhoff's law at every node, the generators [s0], [sN] behind the impedances of the ends.  [m0] (the line as
    constructed) gives the conductances of the end nodes (C32). *)
Record dc_solution (m0 m : mtl NumR) (s0 sN : nat -> R) (V I : nat -> nat -> R) : Prop := {
  dc_cell : forall c k, (c < conductors m)%nat -> (k < cells m)%nat ->
    V c (S k) - V c k = - (cell_len m k * mulv (conductors m) (R_ m k) (fun p => I p k) c);
  dc_node : forall c k, (c < conductors m)%nat -> (S k < cells m)%nat ->
    I c (S k) - I c k = - (share m (S k) * mulv (conductors m) (node_G m0 m (S k)) (fun p => V p (S k)) c);
  dc_left : forall c, (c < conductors m)%nat ->
    V c 0%nat = s0 c - end_Z m false c * (I c 0%nat + share m 0 * mulv (conductors m) (node_G m0 m 0) (fun p => V p 0%nat) c);
  dc_right : forall c, (c < conductors m)%nat -> let e := cells m in
    V c e = sN c + end_Z m true c * (I c (e - 1)%nat - share m e * mulv (conductors m) (node_G m0 m e) (fun p => V p e) c)
}.

(** a run from [m] can reach any number of steps, if its final time is large enough *)
Definition endless (LA : lapack NumR) (m : mtl NumR) : Prop := forall k, exists T a, run_state LA m T k a.

(** from some step on, every state of every run from [m] is as close as wanted to [V], [I] *)
Definition settles (LA : lapack NumR) (m : mtl NumR) (V I : nat -> nat -> R) : Prop :=
  forall eps, 0 < eps -> exists K, forall T k a, (K <= k)%nat -> run_state LA m T k a ->
    (forall c j, (c < conductors m)%nat -> (j <= cells m)%nat -> Rabs (volt a c j - V c j) < eps) /\
    (forall c j, (c < conductors m)%nat -> (j < cells m)%nat -> Rabs (curr a c j - I c j) < eps).
(** the same of the means of two consecutive states *)
Definition settles_on_average (LA : lapack NumR) (m : mtl NumR) (V I : nat -> nat -> R) : Prop :=
  forall eps, 0 < eps -> exists K, forall T k a b, (K <= k)%nat -> run_step LA m T k a b ->
    (forall c j, (c < conductors m)%nat -> (j <= cells m)%nat -> Rabs ((volt b c j + volt a c j) / 2 - V c j) < eps) /\
    (forall c j, (c < conductors m)%nat -> (j < cells m)%nat -> Rabs ((curr b c j + curr a c j) / 2 - I c j) < eps).

(** one end of the line has a resistance in series with every conductor *)
Definition damped (m : mtl NumR) : Prop := exists far, forall c, (c < conductors m)%nat -> 0 < end_Z m far c.

(** a conductor tied to a generator without impedance starts at the voltage of that generator *)
Definition starts_tied (m : mtl NumR) : Prop :=
  forall far c, (c < conductors m)%nat -> end_Z m far c = 0 -> volt m c (end_node m far) = source m c (end_node m far) (m_time m - step_dt m).

(** *** conductors that do not leak and have no common resistance: each is a series circuit *)
(** resistance of conductor [c] from the start of the line to node [k] *)
Definition wire_R (m : mtl NumR) (c k : nat) : R := sumR k (fun i => cell_len m i * R_ m i c c).
Definition loop_I (m : mtl NumR) (s0 sN : nat -> R) (c : nat) : R :=
  (s0 c - sN c) / (end_Z m false c + wire_R m c (cells m) + end_Z m true c).
Definition loop_V (m : mtl NumR) (s0 sN : nat -> R) (c k : nat) : R :=
  s0 c - loop_I m s0 sN c * (end_Z m false c + wire_R m c k).
