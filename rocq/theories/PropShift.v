(** Property C113: time invariance.  A line at rest does nothing before something drives it, and
    driving it later only delays what it does.  Real arithmetic, any LAPACK. *)
From Coq Require Import String List Arith ZArith Bool Lia Reals Lra.
From Verif Require Import Num Py Arr NumR RFacts LapackR Probes Line SpecLine SpecR SpecDyn RunProps SpecShift ShiftProps ExampleShift.
Import ListNotations.
Local Open Scope R_scope.

(** Generators and fields that are zero before [t1] have no effect on a line at rest (with or
    without connectors) in any step that ends at or before [t1]: the step that ends at [t1]
    does not look ahead. *)
Theorem C113_quiet (LA : lapack NumR) : forall (m : mtl NumR) T k a t1,
  reachable LA m -> 0 < step_dt m -> silent m -> off_before t1 m -> m_time m + INR k * step_dt m <= t1 ->
  run_state LA m T k a -> silent a.
Proof. exact (quiet_until LA). Qed.
Print Assumptions C113_quiet.

(** [m'] is [m] with every generator and every field delayed by [k] time steps: after [k + n]
    steps it has the voltages and currents [m] has after [n], wherever the two runs end. *)
Theorem C113_time_invariance (LA : lapack NumR) : forall (m m' : mtl NumR) T T' k n a b,
  reachable LA m -> undispersed m -> 0 < step_dt m -> silent m -> off_before (m_time m) m ->
  delayed (INR k * step_dt m) m m' -> run_state LA m T n a -> run_state LA m' T' (k + n) b ->
  (forall c j, (c < conductors m)%nat -> (j <= cells m)%nat -> volt b c j = volt a c j) /\
  (forall c j, (c < conductors m)%nat -> (j < cells m)%nat -> curr b c j = curr a c j).
Proof. exact (time_invariance LA). Qed.
Print Assumptions C113_time_invariance.

(** The same for one generator added by the user, anywhere on the line. *)
Theorem C113_later_generator (LA : lapack NumR) : forall (m : mtl NumR) P p (f : R -> R) k m1 m2 T T' n a b,
  reachable LA m -> undispersed m -> 0 < step_dt m -> silent m -> undriven m ->
  (forall t, t < m_time m -> f t = 0) ->
  add_voltage_source m P p f = Ok m1 -> add_voltage_source m P p (fun t => f (t - INR k * step_dt m)) = Ok m2 ->
  run_state LA m1 T n a -> run_state LA m2 T' (k + n) b ->
  (forall c j, (c < conductors m)%nat -> (j <= cells m)%nat -> volt b c j = volt a c j) /\
  (forall c j, (c < conductors m)%nat -> (j < cells m)%nat -> curr b c j = curr a c j).
Proof. exact (later_generator LA). Qed.
Print Assumptions C113_later_generator.

(** two coupled lossy conductors, three cells; a unit step now, or two steps later *)
Example C113_example : exists m m1 m2 a b T, reachable LR m /\ undispersed m /\ 0 < step_dt m /\ silent m /\ undriven m /\ conductors m = 2%nat /\ cells m = 3%nat /\
  (forall t, t < m_time m -> unit_step t = 0) /\ unit_step (m_time m) = 1 /\
  add_voltage_source m (@PosF NumR 0) 0 unit_step = Ok m1 /\
  add_voltage_source m (@PosF NumR 0) 0 (fun t => unit_step (t - INR 2 * step_dt m)) = Ok m2 /\
  run_state LR m1 T 2 a /\ run_state LR m2 T (2 + 2) b.
Proof. exact shift_example. Qed.
