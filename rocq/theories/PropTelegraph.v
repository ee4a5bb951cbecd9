(** Property C111: the runs of a line of one conductor tend to the solution of the telegrapher's
    equations.  Real arithmetic; [LA] is any LAPACK whose answers are right. *)
From Coq Require Import String List Arith ZArith Bool Lia Reals Lra.
From Verif Require Import Num Py Arr NumR RFacts LapackR Probes Line SpecLine SpecR SpecTelegraph TelegraphProps ExampleTelegraph.
Import ListNotations.
Local Open Scope R_scope.

(** One constant [B] for all numbers of cells [S P], all time steps up to the default and all
    runs, up to the time to which the solution is known.  With a step shorter than the default
    one the inner voltages and the currents are right to first order in the cell length; with any
    step up to the default one that holds for the voltages averaged over a step, and for those
    at the two ends summed over the run. *)
Theorem C111_error_bounds (LA : lapack NumR) : lapack_ok LA -> lapack_complete LA ->
  forall (l c r g len zs zl Tm : R) (vs vl : R -> R) (V I : R -> R -> R) (K : R),
  0 < l -> 0 < c -> 0 <= r -> 0 <= g -> 0 < len -> 0 < zs -> 0 < zl -> 0 < Tm -> telegraph l c r g len zs zl Tm vs vl V I K ->
  exists B, 0 <= B /\ forall ju jdu P name (m0 m1 m2 m : mtl NumR) T n st,
    mtl_new LA ju jdu (@PFloat NumR l) (@PFloat NumR c) (@PFloat NumR r) (@PFloat NumR g) len [] [S P]
        (@ZScal NumR zs) (@ZScal NumR zl) name = Ok m0 ->
    add_voltage_source m0 (@PosF NumR 0) 0 vs = Ok m1 -> add_voltage_source m1 (@PosF NumR len) 0 vl = Ok m2 ->
    m = m2 \/ (exists NDT Tf, m = set_time_step m2 NDT Tf) -> 0 < step_dt m <= step_dt m0 ->
    (forall k, (k <= n)%nat -> run_state LA m T k (st k)) -> (INR n + / 2) * step_dt m <= Tm ->
    let h := len / INR (S P) in let dt := step_dt m in let X := volt_error st V h dt in let Y := curr_error st I h dt in
    (dt < step_dt m0 -> h * sumR P (fun j => X n (S j) ^ 2) + h * sumR (S P) (fun k => Y n k ^ 2) <= B * h ^ 2 / (1 - dt / step_dt m0)) /\
    dt * sumR n (fun k => ((X (S k) 0%nat + X k 0%nat) / 2) ^ 2 + ((X (S k) (S P) + X k (S P)) / 2) ^ 2) <= B * h ^ 2 /\
    (forall k, (k < n)%nat -> h * sumR P (fun j => ((X (S k) (S j) + X k (S j)) / 2) ^ 2) <= B * h ^ 2).
Proof. exact (converges LA). Qed.
Print Assumptions C111_error_bounds.

(** every inner node and every cell tends to the solution when the cells get shorter, with a time
    step that stays below a fixed part of the default one *)
Theorem C111_pointwise_limit (LA : lapack NumR) : lapack_ok LA -> lapack_complete LA ->
  forall (l c r g len zs zl Tm : R) (vs vl : R -> R) (V I : R -> R -> R) (K q eps : R),
  0 < l -> 0 < c -> 0 <= r -> 0 <= g -> 0 < len -> 0 < zs -> 0 < zl -> 0 < Tm -> telegraph l c r g len zs zl Tm vs vl V I K ->
  0 < q < 1 -> 0 < eps ->
  exists P0, forall ju jdu P name (m0 m1 m2 m : mtl NumR) T n a, (P0 <= P)%nat ->
    mtl_new LA ju jdu (@PFloat NumR l) (@PFloat NumR c) (@PFloat NumR r) (@PFloat NumR g) len [] [S P]
        (@ZScal NumR zs) (@ZScal NumR zl) name = Ok m0 ->
    add_voltage_source m0 (@PosF NumR 0) 0 vs = Ok m1 -> add_voltage_source m1 (@PosF NumR len) 0 vl = Ok m2 ->
    m = m2 \/ (exists NDT Tf, m = set_time_step m2 NDT Tf) -> 0 < step_dt m <= q * step_dt m0 ->
    run_state LA m T n a -> (INR n + / 2) * step_dt m <= Tm ->
    let h := len / INR (S P) in let dt := step_dt m in
    (forall j, (0 < j <= P)%nat -> Rabs (volt a 0 j - V (INR j * h) (INR n * dt)) <= eps) /\
    (forall k, (k <= P)%nat -> Rabs (curr a 0 k - I ((INR k + / 2) * h) ((INR n + / 2) * dt)) <= eps).
Proof. exact (pointwise LA). Qed.
Print Assumptions C111_pointwise_limit.

(** [curved] in terms of the derivatives of analysis *)
Theorem C111_curved_if_second_derivative (K a b : R) f f' f'' :
  (forall x, a <= x <= b -> derivable_pt_lim f x (f' x)) -> (forall x, a <= x <= b -> derivable_pt_lim f' x (f'' x)) ->
  (forall x, a <= x <= b -> Rabs (f'' x) <= K) -> curved K a b f f'.
Proof. exact (curved_of_second K a b f f' f''). Qed.
Print Assumptions C111_curved_if_second_derivative.
Theorem C111_curved_has_derivative (K a b : R) f f' x : curved K a b f f' -> a < x < b -> derivable_pt_lim f x (f' x).
Proof. exact (curved_derivative K a b f f' x). Qed.
Print Assumptions C111_curved_has_derivative.

(** a pulse along a matched line of impedance 2 and unit length, and its runs for every number of
    cells with half the default time step *)
Example C111_example_solution : telegraph 4 1 0 0 1 2 2 3 (fun t => 2 * ramp2 t) (fun _ => 0) exV exI 4 /\ exV (/ 4) 1 = / 4.
Proof. exact (conj (ex_solution 3 ltac:(lra)) ex_moves). Qed.
Example C111_example_runs P : exists (m0 m1 m2 m : mtl NumR) T (st : nat -> mtl NumR), lapack_ok LR /\ lapack_complete LR /\
  mtl_new LR (fun _ => []) (fun _ => []) (@PFloat NumR 4) (@PFloat NumR 1) (@PFloat NumR 0) (@PFloat NumR 0) 1 [] [S P]
      (@ZScal NumR 2) (@ZScal NumR 2) "line" = Ok m0 /\
  add_voltage_source m0 (@PosF NumR 0) 0 (fun t => 2 * ramp2 t) = Ok m1 /\ add_voltage_source m1 (@PosF NumR 1) 0 (fun _ => 0) = Ok m2 /\
  m = set_time_step m2 2 (step_dt m0) /\ 0 < step_dt m <= / 2 * step_dt m0 /\ step_dt m < step_dt m0 /\
  (forall k, (k <= 2)%nat -> run_state LR m T k (st k)) /\ (INR 2 + / 2) * step_dt m <= 3.
Proof. exact (ex_runs P). Qed.
