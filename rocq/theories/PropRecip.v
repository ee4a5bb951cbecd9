(** Property C112: reciprocity.  Exchanging a generator with the place where the voltage is read
    gives the same response.  Real arithmetic; [LA] is any LAPACK whose answers are right. *)
From Coq Require Import String List Arith ZArith Bool Lia Reals Lra.
From Verif Require Import Num Py Arr NumR RFacts LapackR Probes Line SpecLine SpecR SpecDyn SpecEnergy SpecRecip RunProps RecipProps ExampleRecip.
Import ListNotations.
Local Open Scope R_scope.

(** Two runs of a line (any number of conductors and cells, cells of any length, any losses) that
    differ only in the generators at the terminals: the generators of the first, each divided by
    the impedance in series with it and convolved with the voltage the second run has at that
    terminal, give the same sum as the generators of the second with the voltages of the first;
    after every number of steps. *)
Theorem C112_reciprocity (LA : lapack NumR) : lapack_ok LA ->
  forall (m0 m m' : mtl NumR) T n (st st' : nat -> mtl NumR),
  reciprocal_line LA m0 m -> reciprocal_line LA m0 m' -> other_sources m m' ->
  (forall k, (k <= n)%nat -> run_state LA m T k (st k)) -> (forall k, (k <= n)%nat -> run_state LA m' T k (st' k)) ->
  sumR (conductors m) (fun c =>
      sumR (S n) (fun k => drive m false c k * volt (st' (n - k)%nat) c 0) / Zs_ m c c
    + sumR (S n) (fun k => drive m true c k * volt (st' (n - k)%nat) c (cells m)) / Zl_ m c c) =
  sumR (conductors m) (fun c =>
      sumR (S n) (fun k => drive m' false c k * volt (st (n - k)%nat) c 0) / Zs_ m c c
    + sumR (S n) (fun k => drive m' true c k * volt (st (n - k)%nat) c (cells m)) / Zl_ m c c).
Proof. exact (recip_runs LA). Qed.
Print Assumptions C112_reciprocity.

(** One generator [f], once in conductor [p] at the end [e1] and once in conductor [q] at the end
    [e2] (the same end or the other): what the first run shows at [q], [e2] and what the second
    shows at [p], [e1], each divided by the impedance there, are the same at every step.  [k0]
    is the step in which the generator starts to act; the runs are that much longer. *)
Theorem C112_exchange (LA : lapack NumR) : lapack_ok LA ->
  forall (m0 m m1 m2 : mtl NumR) P Q p q e1 e2 (f : R -> R) T n k0 a b a' b',
  reciprocal_line LA m0 m -> undriven m ->
  add_voltage_source m P p f = Ok m1 -> closest (m_u m) (pos_vec P) (end_node m e1) ->
  add_voltage_source m Q q f = Ok m2 -> closest (m_u m) (pos_vec Q) (end_node m e2) ->
  (forall k, (k < k0)%nat -> f (m_time m + INR k * step_dt m) + f (m_time m + INR k * step_dt m - step_dt m) = 0) ->
  f (m_time m + INR k0 * step_dt m) + f (m_time m + INR k0 * step_dt m - step_dt m) <> 0 ->
  run_state LA m1 T n a -> run_state LA m1 T (n + k0) a' -> run_state LA m2 T n b -> run_state LA m2 T (n + k0) b' ->
  volt a q (end_node m e2) / end_Z m e2 q = volt b p (end_node m e1) / end_Z m e1 p.
Proof. exact (exchange LA). Qed.
Print Assumptions C112_exchange.

(** two coupled lossy conductors, three cells: a unit step once behind the 1 ohm of conductor 0 at
    the near end, once behind the 2 ohm of conductor 1 at the far end *)
Example C112_example : exists m m1 m2 a b T, lapack_ok LR /\ reciprocal_line LR m m /\ undriven m /\ conductors m = 2%nat /\ cells m = 3%nat /\
  add_voltage_source m (@PosF NumR 0) 0 unit_step = Ok m1 /\ closest (m_u m) (pos_vec (@PosF NumR 0)) (end_node m false) /\
  add_voltage_source m (@PosF NumR 3) 1 unit_step = Ok m2 /\ closest (m_u m) (pos_vec (@PosF NumR 3)) (end_node m true) /\
  unit_step (m_time m + INR 0 * step_dt m) + unit_step (m_time m + INR 0 * step_dt m - step_dt m) <> 0 /\
  run_state LR m1 T 4 a /\ run_state LR m2 T 4 b /\
  end_Z m false 0 = 1 /\ end_Z m true 1 = 2 /\ L_ m 0 0 1 = 1.
Proof. exact rec_example. Qed.
