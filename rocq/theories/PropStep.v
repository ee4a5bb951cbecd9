(** Properties C05, C09, C10, C11, C32, C84: attachment to nodes, the equations satisfied by
    every step, totality on physical lines.  Real arithmetic; [LA] is any LAPACK whose
    answers are right ([lapack_ok]). *)
From Coq Require Import String List Arith ZArith Bool Lia Reals Lra.
From Verif Require Import Num Py Arr NumR LapackR Probes Line SpecLine SpecR
  NearestFacts TotalFacts NewTotal RunEqFacts AttachFacts StepProps ExampleLine ExampleRun.
Import ListNotations.
Local Open Scope R_scope.

(** ** C05 *)
Theorem C05_nearest_node (u : list (list R)) (p : list R) : u <> [] -> closest u p (@nearest NumR u p).
Proof. exact (nearest_closest u p). Qed.
Print Assumptions C05_nearest_node.

Theorem C05_probe_node (LA : lapack NumR) (m m' : mtl NumR) p ty : reachable LA m -> add_probe m p ty = Ok m' ->
  exists q, m_probes m' = m_probes m ++ [q] /\ p_type q = ty /\ closest (m_u m) (pos_vec p) (p_index q) /\
            (p_index q <= cells m)%nat.
Proof. exact (probe_node LA m m' p ty). Qed.
Print Assumptions C05_probe_node.

Theorem C05_source_node (LA : lapack NumR) (m m' : mtl NumR) p c f : reachable LA m -> add_voltage_source m p c f = Ok m' ->
  exists k, closest (m_u m) (pos_vec p) k /\ (k <= cells m)%nat /\ (c < conductors m)%nat /\
    source m' c k = f /\ forall c' k', (c', k') <> (c, k) -> source m' c' k' = source m c' k'.
Proof. exact (source_node LA m m' p c f). Qed.
Print Assumptions C05_source_node.

(** a tie: nodes at z = 0 and z = 1, position z = 1/2: the first is chosen *)
Example C05_example : closest [[0; 0; 0]; [0; 0; 1]] [0; 0; / 2] 0.
Proof. exact tie_example. Qed.

(** ** C09 *)
Theorem C09_voltage_equation (LA : lapack NumR) : lapack_ok LA -> forall (m a b : mtl NumR) T k c j,
  reachable LA m -> run_step LA m T k a b ->
  (c < conductors m)%nat -> (0 < j)%nat -> (j < cells m)%nat ->
  let n := conductors m in let dt := step_dt m in let t := m_time m + INR k * dt in
  let de p := eTran m p j t - eTran m p j (t - dt) in
  width m j * (mulv n (C_ m j) (fun p => volt b p j - volt a p j + de p) c / dt
             + mulv n (G_ m j) (fun p => volt b p j + volt a p j + de p) c / 2)
  + curr a c j - curr a c (j - 1) = 0.
Proof. exact (fun H m a b T k c j => voltage_eq LA H m T k a b c j). Qed.
Print Assumptions C09_voltage_equation.

Example C09_example : exists m a b T k, lapack_ok LR /\ reachable LR m /\ run_step LR m T k a b /\ conductors m = 2%nat /\ cells m = 3%nat.
Proof. exact step_example. Qed.

(** ** C10 *)
Theorem C10_current_equation (LA : lapack NumR) : lapack_ok LA -> forall (m a b : mtl NumR) T k c j,
  reachable LA m -> run_step LA m T k a b -> (c < conductors m)%nat -> (j < cells m)%nat ->
  let n := conductors m in let dt := step_dt m in let t := m_time m + INR k * dt in
  cell_len m j *
    (mulv n (L_ m j) (fun p => curr b p j - curr a p j) c / dt
     + mulv n (R_ m j) (fun p => curr b p j + curr a p j) c / 2
     + mulv n (D_ m j) (fun p => curr b p j + curr a p j) c / 2
     + mulv n (E_ m j) (fun p => curr b p j - curr a p j) c / dt
     + mulv n (Q1_ m j) (fun p => curr b p j) c
     + mulv n (Q2_ m j) (fun p => curr a p j) c
     + hist_ b j c)
  + (volt b c (S j) - volt b c j) + (eTran m c (S j) t - eTran m c j t)
  = cell_len m j * (eLong m c j (t + dt / 2) + eLong m c j (t - dt / 2)) / 2.
Proof. exact (fun H m a b T k c j => current_eq LA H m T k a b c j). Qed.
Print Assumptions C10_current_equation.

Theorem C10_plain_current_equation (LA : lapack NumR) : lapack_ok LA -> forall (m a b : mtl NumR) T k c j,
  reachable LA m -> undispersed m -> run_step LA m T k a b -> (c < conductors m)%nat -> (j < cells m)%nat ->
  let n := conductors m in let dt := step_dt m in let t := m_time m + INR k * dt in
  cell_len m j *
    (mulv n (L_ m j) (fun p => curr b p j - curr a p j) c / dt
     + mulv n (R_ m j) (fun p => curr b p j + curr a p j) c / 2)
  + (volt b c (S j) - volt b c j) + (eTran m c (S j) t - eTran m c j t)
  = cell_len m j * (eLong m c j (t + dt / 2) + eLong m c j (t - dt / 2)) / 2.
Proof. exact (fun H m a b T k c j => current_eq_plain LA H m T k a b c j). Qed.
Print Assumptions C10_plain_current_equation.

Example C10_example : exists m a b T k, lapack_ok LR /\ reachable LR m /\ undispersed m /\ run_step LR m T k a b /\
  conductors m = 2%nat /\ cells m = 3%nat.
Proof. exact step_example_plain. Qed.

(** ** C11: [m0] is the line as constructed; the step and the conductance at the end node are
    still those of the construction *)
Theorem C11_left_terminal (LA : lapack NumR) : lapack_ok LA -> forall (m0 m a b : mtl NumR) T k c,
  history LA m0 m -> run_step LA m T k a b -> (c < conductors m)%nat ->
  step_dt m = step_dt m0 -> (forall i j, G_ m 0 i j = G_ m0 0 i j) ->
  let dt := step_dt m in let t := m_time m + INR k * dt in
  thevenin (conductors m) (Zs_ m) (C_ m 0) (G_ m 0) (cell_len m 0) dt
    (fun p => volt a p 0) (fun p => volt b p 0)
    (fun p => eTran m p 0 t - eTran m p 0 (t - dt))
    (fun p => source m p 0 t + source m p 0 (t - dt))
    (fun p => curr a p 0) c.
Proof. exact (left_thevenin LA). Qed.
Print Assumptions C11_left_terminal.

(** the current entering the line from its end is minus the current of the last cell *)
Theorem C11_right_terminal (LA : lapack NumR) : lapack_ok LA -> forall (m0 m a b : mtl NumR) T k c,
  history LA m0 m -> run_step LA m T k a b -> (c < conductors m)%nat ->
  let e := cells m in
  step_dt m = step_dt m0 -> (forall i j, G_ m e i j = G_ m0 e i j) ->
  let dt := step_dt m in let t := m_time m + INR k * dt in
  thevenin (conductors m) (Zl_ m) (C_ m e) (G_ m e) (cell_len m (e - 1)) dt
    (fun p => volt a p e) (fun p => volt b p e)
    (fun p => eTran m p e t - eTran m p e (t - dt))
    (fun p => source m p e t + source m p e (t - dt))
    (fun p => - curr a p (e - 1)) c.
Proof. exact (right_thevenin LA). Qed.
Print Assumptions C11_right_terminal.

(** a zero terminal impedance imposes the mean of the source, whatever the time step *)
Theorem C11_short_circuit_left (LA : lapack NumR) : lapack_ok LA -> forall (m a b : mtl NumR) T k c,
  reachable LA m -> run_step LA m T k a b -> (c < conductors m)%nat ->
  (forall j, (j < conductors m)%nat -> Zs_ m c j = 0) ->
  let dt := step_dt m in let t := m_time m + INR k * dt in
  (volt b c 0 + volt a c 0) / 2 = (source m c 0 t + source m c 0 (t - dt)) / 2.
Proof. exact (left_short LA). Qed.
Print Assumptions C11_short_circuit_left.

Theorem C11_short_circuit_right (LA : lapack NumR) : lapack_ok LA -> forall (m a b : mtl NumR) T k c,
  reachable LA m -> run_step LA m T k a b -> (c < conductors m)%nat ->
  (forall j, (j < conductors m)%nat -> Zl_ m c j = 0) ->
  let dt := step_dt m in let t := m_time m + INR k * dt in let e := cells m in
  (volt b c e + volt a c e) / 2 = (source m c e t + source m c e (t - dt)) / 2.
Proof. exact (right_short LA). Qed.
Print Assumptions C11_short_circuit_right.

(** conductor 1 of the example line has a zero impedance at its start *)
Example C11_example : exists m0 m a b T k, lapack_ok LR /\ history LR m0 m /\ run_step LR m T k a b /\
  conductors m = 2%nat /\ cells m = 3%nat /\ step_dt m = step_dt m0 /\
  (forall k i j, G_ m k i j = G_ m0 k i j) /\ (forall j, (j < 2)%nat -> Zs_ m 1 j = 0).
Proof. exact terminal_example. Qed.

(** ** C32: whatever was done to the line since its construction, the terminals use the
    construction-time step and conductance *)
Theorem C32_terminals_keep_old_step (LA : lapack NumR) : lapack_ok LA -> forall (m0 m a b : mtl NumR) T k c,
  history LA m0 m -> run_step LA m T k a b -> (c < conductors m)%nat ->
  (forall p x, eTran m p 0 x = 0) -> (forall p x, eTran m p (cells m) x = 0) ->
  let dt := step_dt m in let t := m_time m + INR k * dt in let e := cells m in
  thevenin (conductors m) (Zs_ m) (C_ m 0) (G_ m0 0) (cell_len m 0) (step_dt m0)
    (fun p => volt a p 0) (fun p => volt b p 0) (fun _ => 0)
    (fun p => source m p 0 t + source m p 0 (t - dt)) (fun p => curr a p 0) c /\
  thevenin (conductors m) (Zl_ m) (C_ m e) (G_ m0 e) (cell_len m (e - 1)) (step_dt m0)
    (fun p => volt a p e) (fun p => volt b p e) (fun _ => 0)
    (fun p => source m p e t + source m p e (t - dt)) (fun p => - curr a p (e - 1)) c.
Proof. exact (old_step LA). Qed.
Print Assumptions C32_terminals_keep_old_step.

(** with one conductor, after a change of the time step, the equation of C11 fails in every
    step in which the end voltage moves *)
Theorem C32_equation_broken (LA : lapack NumR) : lapack_ok LA -> forall (m0 m a b : mtl NumR) T k,
  history LA m0 m -> run_step LA m T k a b -> conductors m = 1%nat ->
  (forall i j, G_ m 0 i j = G_ m0 0 i j) -> (forall p x, eTran m p 0 x = 0) ->
  step_dt m <> step_dt m0 -> 0 < step_dt m -> 0 < step_dt m0 ->
  cell_len m 0 * Zs_ m 0 0 * C_ m 0 0 0 <> 0 -> volt b 0 0 <> volt a 0 0 ->
  let dt := step_dt m in let t := m_time m + INR k * dt in
  ~ thevenin 1 (Zs_ m) (C_ m 0) (G_ m 0) (cell_len m 0) dt
    (fun p => volt a p 0) (fun p => volt b p 0) (fun p => eTran m p 0 t - eTran m p 0 (t - dt))
    (fun p => source m p 0 t + source m p 0 (t - dt)) (fun p => curr a p 0) 0.
Proof. exact (broken_step LA). Qed.
Print Assumptions C32_equation_broken.

(** such a run exists: set_time_step makes the textbook terminal equation false *)
Theorem C32_set_time_step_refuted : exists LA (m0 m1 m a b : mtl NumR) T k,
  lapack_ok LA /\ built LA m0 /\ add_voltage_source m0 (@PosF NumR 0) 0 (fun _ => 1) = Ok m1 /\
  m = set_time_step m1 2 1 /\ history LA m0 m /\ run_step LA m T k a b /\ conductors m = 1%nat /\
  let dt := step_dt m in let t := m_time m + INR k * dt in
  ~ thevenin 1 (Zs_ m) (C_ m 0) (G_ m 0) (cell_len m 0) dt
    (fun p => volt a p 0) (fun p => volt b p 0) (fun p => eTran m p 0 t - eTran m p 0 (t - dt))
    (fun p => source m p 0 t + source m p 0 (t - dt)) (fun p => curr a p 0) 0.
Proof. exact broken_exists. Qed.
Print Assumptions C32_set_time_step_refuted.

(** if C vanishes at the end node the equation of C11 holds with any time step *)
Theorem C32_no_capacitance_agrees (LA : lapack NumR) : lapack_ok LA -> forall (m0 m a b : mtl NumR) T k c,
  history LA m0 m -> run_step LA m T k a b -> (c < conductors m)%nat ->
  (forall i j, G_ m 0 i j = G_ m0 0 i j) -> (forall i j, C_ m 0 i j = 0) ->
  let dt := step_dt m in let t := m_time m + INR k * dt in
  thevenin (conductors m) (Zs_ m) (C_ m 0) (G_ m 0) (cell_len m 0) dt
    (fun p => volt a p 0) (fun p => volt b p 0)
    (fun p => eTran m p 0 t - eTran m p 0 (t - dt))
    (fun p => source m p 0 t + source m p 0 (t - dt))
    (fun p => curr a p 0) c.
Proof. exact (resistive_agrees LA). Qed.
Print Assumptions C32_no_capacitance_agrees.

(** ** C84 *)
Theorem C84_run_never_raises (LA : lapack NumR) : lapack_complete LA -> forall (m : mtl NumR) T,
  reachable LA m -> 0 < step_dt m -> (forall k, (k < cells m)%nat -> 0 < cell_len m k) ->
  (forall k, (k <= cells m)%nat -> pos_def (conductors m) (C_ m k) /\ pos_semidef (conductors m) (G_ m k)) ->
  (forall k, (k < cells m)%nat -> pos_def (conductors m) (L_ m k) /\ pos_semidef (conductors m) (R_ m k)) ->
  undispersed m ->
  Forall (fun p => p_type p = "voltage"%string \/ p_type p = "current"%string) (m_probes m) ->
  exists m', run_until LA m T = Ok m' /\ conductors m' = conductors m /\ cells m' = cells m.
Proof. exact (run_physical LA). Qed.
Print Assumptions C84_run_never_raises.

Theorem C84_single_conductor_line (LA : lapack NumR) : lapack_ok LA -> lapack_complete LA ->
  forall ju jdu (l c r g len zs zl : R) N name,
  0 < l -> 0 < c -> 0 <= r -> 0 <= g -> len <> 0 -> (1 <= N)%nat -> 0 <= zs -> 0 <= zl ->
  exists m : mtl NumR,
    mtl_new LA ju jdu (@PFloat NumR l) (@PFloat NumR c) (@PFloat NumR r) (@PFloat NumR g) len [] [N]
      (@ZScal NumR zs) (@ZScal NumR zl) name = Ok m /\ physical m.
Proof. exact (one_conductor_total LA). Qed.
Print Assumptions C84_single_conductor_line.

Theorem C84_coupled_lines (LA : lapack NumR) : lapack_complete LA ->
  forall ju jdu n (L C R0 G : mat NumR) (len : NumR) (np : mat NumR) d s (zs zl : vec NumR) name,
  let np' : mat NumR := match np with [] => [[0; 0; 0]; [0; 0; len]] | _ => np end in
  (1 <= n)%nat -> (1 <= d)%nat -> (1 <= s)%nat -> (length np' = s + 1)%nat ->
  (forall i, (i < s)%nat -> exists k, (k < 3)%nat /\ @get NumR (nth (S i) np' []) k <> @get NumR (nth i np' []) k) ->
  pos_def n (get2 L) -> pos_def n (get2 C) -> pos_semidef n (get2 R0) -> pos_semidef n (get2 G) ->
  (forall i, (i < n)%nat -> 0 <= get zs i) -> (forall i, (i < n)%nat -> 0 <= get zl i) ->
  real_eigen LA n (mm n (mk2 n n (get2 L)) (mk2 n n (get2 C))) ->
  exists m : mtl NumR,
    mtl_new LA ju jdu (PArr n n L) (PArr n n C) (PArr n n R0) (PArr n n G) len np (repeat d s)
      (ZVec n zs) (ZVec n zl) name = Ok m /\ physical m /\ conductors m = n /\ cells m = (s * d)%nat.
Proof. exact (coupled_total LA). Qed.
Print Assumptions C84_coupled_lines.

Example C84_example : lapack_ok LR /\ lapack_complete LR /\ exists m, ex_new (fun _ => []) (fun _ => []) = Ok m /\ physical m.
Proof. exact physical_example. Qed.
