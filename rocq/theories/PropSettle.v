(** Property C114: a line closed by a resistance settles to the direct-current solution of its
    circuit once its generators stay constant.  Real arithmetic, any correct LAPACK. *)
From Coq Require Import String List Arith ZArith Bool Lia Reals Lra.
From Verif Require Import Num Py Arr NumR RFacts LinAlg LapackR Probes Line SpecLine SpecR SpecDyn TotalFacts RunProps SpecEnergy SpecRecip SpecSettle SettleProps SettleMore DcProps ExampleSettle.
Import ListNotations.
Local Open Scope R_scope.

(** A line of any number of conductors, without connectors or external field, that can only lose
    energy, with a resistance in series with every conductor at one end at least, run with less
    than the constructor's time step: when its generators stay constant from some time on, all
    its voltages and currents tend to the solution of the resistive circuit left, whatever the
    state it started from. *)
Theorem C114_settles (LA : lapack NumR) : lapack_ok LA -> forall (m0 m : mtl NumR) s0 sN V I t1,
  history LA m0 m -> endless LA m -> undispersed m -> no_field m -> lossy m0 m ->
  (forall k, (k < cells m)%nat -> 0 < cell_len m k) -> (forall k, (k < cells m)%nat -> pos_def (conductors m) (L_ m k)) -> (forall k, (k <= cells m)%nat -> pos_def (conductors m) (C_ m k)) ->
  courant m (step_dt m0) -> step_dt m < step_dt m0 -> damped m -> starts_tied m -> steady_from t1 m s0 sN -> dc_solution m0 m s0 sN V I ->
  settles LA m V I.
Proof. exact (settling LA). Qed.
Print Assumptions C114_settles.

(** With the constructor's own time step the means of consecutive states still do. *)
Theorem C114_settles_on_average (LA : lapack NumR) : lapack_ok LA -> forall (m0 m : mtl NumR) s0 sN V I t1,
  history LA m0 m -> endless LA m -> undispersed m -> no_field m -> lossy m0 m ->
  (forall k, (k < cells m)%nat -> pos_semidef (conductors m) (L_ m k)) -> (forall k, (k <= cells m)%nat -> pos_semidef (conductors m) (C_ m k)) ->
  courant m (step_dt m0) -> step_dt m <= step_dt m0 -> damped m -> steady_from t1 m s0 sN -> dc_solution m0 m s0 sN V I ->
  settles_on_average LA m V I.
Proof. exact (settling_means LA). Qed.
Print Assumptions C114_settles_on_average.

(** Generators that go to zero: the line rings down to rest. *)
Theorem C114_ring_down (LA : lapack NumR) : lapack_ok LA -> forall (m0 m : mtl NumR) t1,
  history LA m0 m -> endless LA m -> undispersed m -> no_field m -> lossy m0 m ->
  (forall k, (k < cells m)%nat -> 0 < cell_len m k) -> (forall k, (k < cells m)%nat -> pos_def (conductors m) (L_ m k)) -> (forall k, (k <= cells m)%nat -> pos_def (conductors m) (C_ m k)) ->
  courant m (step_dt m0) -> step_dt m < step_dt m0 -> damped m -> starts_tied m -> steady_from t1 m (fun _ => 0) (fun _ => 0) ->
  settles LA m (fun _ _ => 0) (fun _ _ => 0).
Proof. exact (ring_down LA). Qed.
Print Assumptions C114_ring_down.

(** Conductors that do not leak and share no resistance, however they are coupled by inductance
    and capacitance: each ends as a series circuit of its two generators and its resistances. *)
Theorem C114_series_circuits (LA : lapack NumR) : lapack_ok LA -> forall (m0 m : mtl NumR) s0 sN t1,
  history LA m0 m -> endless LA m -> undispersed m -> no_field m -> lossy m0 m ->
  (forall k, (k < cells m)%nat -> 0 < cell_len m k) -> (forall k, (k < cells m)%nat -> pos_def (conductors m) (L_ m k)) -> (forall k, (k <= cells m)%nat -> pos_def (conductors m) (C_ m k)) ->
  courant m (step_dt m0) -> step_dt m < step_dt m0 -> damped m -> starts_tied m -> steady_from t1 m s0 sN ->
  (forall k c p, (k < cells m)%nat -> (c < conductors m)%nat -> (p < conductors m)%nat -> p <> c -> R_ m k c p = 0) ->
  (forall k c p, (k <= cells m)%nat -> (c < conductors m)%nat -> (p < conductors m)%nat -> node_G m0 m k c p = 0) ->
  settles LA m (loop_V m s0 sN) (fun c _ => loop_I m s0 sN c).
Proof. exact (loops LA). Qed.
Print Assumptions C114_series_circuits.

(** One conductor, as the user writes it: built, given a generator at each end, its time step
    reduced.  Every run settles to the voltage divider made of the impedances of the ends and the
    resistance of the wire, and runs of any length exist. *)
Theorem C114_voltage_divider (LA : lapack NumR) : lapack_ok LA -> lapack_complete LA ->
  forall ju jdu (l c r len zs zl : R) (N : nat) name (Vs Vl : R -> R) NDT T (s0 sN t1 : R) (m0 m1 m2 m : mtl NumR),
  0 < l -> 0 < c -> 0 <= r -> len <> 0 -> (1 <= N)%nat -> 0 <= zs -> 0 <= zl -> 0 < zs + zl ->
  mtl_new LA ju jdu (@PFloat NumR l) (@PFloat NumR c) (@PFloat NumR r) (@PFloat NumR 0) len [] [N] (@ZScal NumR zs) (@ZScal NumR zl) name = Ok m0 ->
  add_voltage_source m0 (@PosF NumR 0) 0 Vs = Ok m1 -> add_voltage_source m1 (@PosF NumR len) 0 Vl = Ok m2 -> set_time_step m2 NDT T = m ->
  0 < T / IZR NDT < step_dt m0 ->
  (forall t, t < 0 -> Vs t = 0 /\ Vl t = 0) -> (forall t, t1 <= t -> Vs t = s0 /\ Vl t = sN) ->
  let i := (s0 - sN) / (zs + r * Rabs len + zl) in
  endless LA m /\ settles LA m (fun _ k => s0 - i * (zs + r * Rabs len * (INR k / INR N))) (fun _ _ => i).
Proof. exact (divider LA). Qed.
Print Assumptions C114_voltage_divider.

(** The resistive circuit has one solution and only one, whatever the conductances and resistances
    shared by the conductors. *)
Theorem C114_one_solution (LA : lapack NumR) (m0 m : mtl NumR) s0 sN : history LA m0 m -> lossy m0 m -> damped m ->
  exists V I, dc_solution m0 m s0 sN V I /\ forall V' I', dc_solution m0 m s0 sN V' I' ->
  (forall c k, (c < conductors m)%nat -> (k <= cells m)%nat -> V' c k = V c k) /\ (forall c k, (c < conductors m)%nat -> (k < cells m)%nat -> I' c k = I c k).
Proof. exact (dc_one_solution LA m0 m s0 sN). Qed.
Print Assumptions C114_one_solution.

(** Why [starts_tied] is asked: a conductor connected without impedance to a constant generator
    [s] alternates about it for ever, 0, 2s, 0, 2s, ... when it starts at rest.  The end of the
    line follows the mean of the generator over a step, not its value. *)
Theorem C114_untied_alternates (LA : lapack NumR) : lapack_ok LA -> forall (m0 m : mtl NumR) T k a far c s,
  history LA m0 m -> no_field m -> 0 < step_dt m -> (c < conductors m)%nat -> end_Z m far c = 0 ->
  (forall t, m_time m - step_dt m <= t -> source m c (end_node m far) t = s) -> run_state LA m T k a ->
  volt a c (end_node m far) = s + (-1) ^ k * (volt m c (end_node m far) - s).
Proof. exact (untied LA). Qed.
Print Assumptions C114_untied_alternates.

(** 1 V behind 50 ohm, 5 ohm of wire, 45 ohm: 10 mA, 0.45 V at the end *)
Example C114_example : exists (m0 m1 m2 m : mtl NumR),
  mtl_new LR (fun _ => []) (fun _ => []) (@PFloat NumR 4) (@PFloat NumR 1) (@PFloat NumR 5) (@PFloat NumR 0) 1 [] [4%nat] (@ZScal NumR 50) (@ZScal NumR 45) "line" = Ok m0 /\
  add_voltage_source m0 (@PosF NumR 0) 0 unit_step = Ok m1 /\ add_voltage_source m1 (@PosF NumR 1) 0 (fun _ => 0) = Ok m2 /\ set_time_step m2 1 (step_dt m0 / 2) = m /\
  0 < step_dt m0 / 2 / 1 < step_dt m0 /\ (forall t, t < 0 -> unit_step t = 0) /\ (forall t, 0 <= t -> unit_step t = 1) /\
  history LR m0 m /\ endless LR m /\ undispersed m /\ no_field m /\ lossy m0 m /\
  (forall k, (k < cells m)%nat -> 0 < cell_len m k) /\ (forall k, (k < cells m)%nat -> pos_def (conductors m) (L_ m k)) /\ (forall k, (k <= cells m)%nat -> pos_def (conductors m) (C_ m k)) /\
  courant m (step_dt m0) /\ step_dt m < step_dt m0 /\ damped m /\ starts_tied m /\ steady_from 0 m (fun _ => 1) (fun _ => 0) /\
  dc_solution m0 m (fun _ => 1) (fun _ => 0) (loop_V m (fun _ => 1) (fun _ => 0)) (fun c _ => loop_I m (fun _ => 1) (fun _ => 0) c) /\
  loop_I m (fun _ => 1) (fun _ => 0) 0 = 1 / 100 /\ loop_V m (fun _ => 1) (fun _ => 0) 0 4 = 45 / 100.
Proof. exact settle_example. Qed.
