(** Properties C01, C02, C03, C04, C08, C15, C23, C24: how many steps a run makes, what the
    probes record, composition of runs, and which sources matter.
    [reachable LA m]: some program can hold line [m]; [run_state LA m T n a]: run_until(T)
    called on [m] is in state [a] after [n] of its steps; [run_step LA m T k a b]: step number
    [k] (from 0) of that run leads from [a] to [b]. *)
From Coq Require Import String List Arith ZArith Bool Lia QArith_base Reals Lra.
From Verif Require Import Num Py Arr NumR NumQ NumF LapackR LapackQ Probes Line SpecLine SpecR SpecProbe
  ProbeFacts RecordFacts SimFacts ExampleQ ExampleF RunProps.
Import ListNotations.
Local Open Scope R_scope.

(** ** C01 *)
Theorem C01_number_of_steps (LA : lapack NumR) (m : mtl NumR) T m' :
  reachable LA m -> 0 < step_dt m -> run_until LA m T = Ok m' ->
  exists n : nat, run_state LA m T n m' /\ m_time m' = m_time m + INR n * step_dt m /\
    (0 <= T -> INR n * step_dt m <= T < INR (S n) * step_dt m) /\ (T < step_dt m -> n = 0%nat).
Proof. exact (steps_of_run LA m T m'). Qed.
Print Assumptions C01_number_of_steps.

(** T is a duration: j runs of T advance the clock by j times the same number of steps *)
Theorem C01_repeated_runs (LA : lapack NumR) (m : mtl NumR) T (n : nat) :
  0 < step_dt m -> INR n * step_dt m <= T < INR (S n) * step_dt m ->
  forall j m', reachable LA m -> iterM j (fun x => run_until LA x T) m = Ok m' ->
  m_time m' = m_time m + INR j * (INR n * step_dt m).
Proof. exact (repeated_runs LA m T n). Qed.
Print Assumptions C01_repeated_runs.

(** a driven two-conductor line for which every run, and a run after it, succeeds *)
Example C01_example : exists m0 m : mtl NumR, add_voltage_source m0 (@PosF NumR 0) 0 unit_step = Ok m /\ reachable LR m /\
  0 < step_dt m /\ conductors m = 2%nat /\ cells m = 3%nat /\
  forall T, exists m', run_until LR m T = Ok m' /\ forall T', exists m'', run_until LR m' T' = Ok m''.
Proof. exact real_runs. Qed.

(** ** C02 *)
Theorem C02_exact_steps (LA : lapack NumR) (m : mtl NumR) (NDT : nat) T m' :
  reachable LA m -> (1 <= NDT)%nat -> 0 < T ->
  run_until LA (set_time_step m (Z.of_nat NDT) T) T = Ok m' ->
  run_state LA (set_time_step m (Z.of_nat NDT) T) T NDT m' /\ m_time m' = m_time m + T.
Proof. exact (exact_steps LA m NDT T m'). Qed.
Print Assumptions C02_exact_steps.

Example C02_example : exists m : mtl NumR, reachable LR m /\ forall (NDT : nat) T, (1 <= NDT)%nat -> 0 < T ->
  exists m', run_until LR (set_time_step m (Z.of_nat NDT) T) T = Ok m'.
Proof. exact real_time_step. Qed.

(** binary64: set_time_step(11, 0.1) and run_until(0.1) make ten steps, on any line *)
Theorem C02_binary64_refuted (LA : lapack NumF) (m m' : mtl NumF) :
  run_until LA (set_time_step m 11 tenth) tenth = Ok m' ->
  run_state LA (set_time_step m 11 tenth) tenth 10 m'.
Proof. exact (float_steps LA m m'). Qed.
Print Assumptions C02_binary64_refuted.

Example C02_binary64_example : exists (LA : lapack NumF) (m m' : mtl NumF) (p : probe NumF), reachable LA m /\
  run_until LA (set_time_step m 11 tenth) tenth = Ok m' /\ m_probes m' = [p] /\ length (p_t p) = 10%nat.
Proof. exact float_run. Qed.

(** ** C03, in any arithmetic; the number of frames is that of C01 and the times those of C01 *)
Theorem C03_every_step_recorded (N : num) (LA : lapack N) (m : mtl N) T m' :
  reachable LA m -> run_until LA m T = Ok m' ->
  exists steps, run_state LA m T steps m' /\ time_range_len T (step_dt m) = Ok steps /\
    length (m_probes m') = length (m_probes m) /\
    forall j p, nth_error (m_probes m) j = Some p ->
    exists q, nth_error (m_probes m') j = Some q /\
      p_type q = p_type p /\ p_index q = p_index p /\ p_dt q = p_dt p /\
      length (p_t q) = steps /\ length (rows_of m' q) = steps /\
      forall k, (k < steps)%nat -> exists a b, run_step LA m T k a b /\
        frame_of p b (nth k (p_t q) n0) (nth k (rows_of m' q) []).
Proof. exact (recorded LA m T m'). Qed.
Print Assumptions C03_every_step_recorded.

(** the state after step k+1 carries the clock t0 + (k+1) dt *)
Theorem C03_stamps (LA : lapack NumR) (m : mtl NumR) T k a b : reachable LA m -> run_step LA m T k a b ->
  m_time b = m_time m + INR (S k) * step_dt m.
Proof. exact (step_clock LA m T k a b). Qed.
Print Assumptions C03_stamps.

Example C03_example : exists m m', reachable LQ m /\ q2_ready = Ok m /\ run_until LQ m (3%Q : NumQ) = Ok m' /\
  conductors m = 2%nat /\ cells m = 4%nat /\ step_dt m = 1%Q /\
  stamps m' = ([[1; 2; 3]; [3#2; 5#2; 7#2]]%Q : list (list QArith_base.Q)) /\
  tables m' = ([[[6#13; 0]; [10350#20449; 0]; [13846422#32166277; 0]]; [[0; 0]; [0; 0]; [0; 0]]]%Q : list (list (list QArith_base.Q))).
Proof. exact q2_run. Qed.

(** ** C04 *)
Theorem C04_later_frames_appended (N : num) (LA : lapack N) (m : mtl N) T m1 j m2 :
  reachable LA m -> run_until LA m T = Ok m1 -> iterM j mtl_step m1 = Ok m2 ->
  length (m_probes m2) = length (m_probes m1) /\
  forall i p, nth_error (m_probes m1) i = Some p ->
  exists q ts rs, nth_error (m_probes m2) i = Some q /\
    (p_type q = p_type p /\ p_index q = p_index p /\ p_dt q = p_dt p) /\
    p_t q = p_t p ++ ts /\ rows_of m2 q = rows_of m1 p ++ rs /\ length ts = j /\ length rs = j /\
    forall k b, (k < j)%nat -> iterM (S k) mtl_step m1 = Ok b -> frame_of p b (nth k ts n0) (nth k rs []).
Proof. exact (run_then_steps LA m T m1 j m2). Qed.
Print Assumptions C04_later_frames_appended.

(** a probe stepped without a run: after the second step its first row shows the second state *)
Theorem C04_first_frame_is_live (N : num) (LA : lapack N) (m : mtl N) (p : posarg N) ty m1 m2 m3 :
  reachable LA m -> add_probe m p ty = Ok m1 -> mtl_step m1 = Ok m2 -> mtl_step m2 = Ok m3 ->
  exists q2 q3 r2 r3, nth_error (m_probes m2) (length (m_probes m)) = Some q2 /\
    nth_error (m_probes m3) (length (m_probes m)) = Some q3 /\
    rows_of m2 q2 = [r2] /\ rows_of m3 q3 = [r3; r3] /\
    frame_of q2 m2 (nth 0 (p_t q2) n0) r2 /\ frame_of q3 m3 (nth 1 (p_t q3) n0) r3 /\
    nth 0 (p_t q3) n0 = nth 0 (p_t q2) n0.
Proof. exact (live_first_frame LA m p ty m1 m2 m3). Qed.
Print Assumptions C04_first_frame_is_live.

Theorem C04_immutability_refuted : exists (m1 m2 m3 : mtl NumQ), reachable LQ m1 /\
  mtl_step m1 = Ok m2 /\ mtl_step m2 = Ok m3 /\
  tables m2 = ([[[-1]]]%Q : list (list (list QArith_base.Q))) /\ tables m3 = ([[[2]; [2]]]%Q : list (list (list QArith_base.Q))).
Proof. exact live_row_changes. Qed.
Print Assumptions C04_immutability_refuted.

(** ** C08 *)
Theorem C08_any_type_accepted (N : num) (m : mtl N) (p : posarg N) ty ty' :
  (exists m1, add_probe m p ty = Ok m1) <-> (exists m1, add_probe m p ty' = Ok m1).
Proof. exact (add_probe_any_type m p ty ty'). Qed.
Print Assumptions C08_any_type_accepted.

Theorem C08_detected_when_stepping (N : num) (LA : lapack N) (m : mtl N) (p : posarg N) ty m1 :
  reachable LA m -> add_probe m p ty = Ok m1 -> forall m2, mtl_step m = Ok m2 ->
  (ty = "voltage"%string \/ ty = "current"%string ->
     exists m3, mtl_step m1 = Ok m3 /\ m_core m3 = m_core m2 /\ m_time m3 = m_time m2) /\
  (ty <> "voltage"%string -> ty <> "current"%string -> mtl_step m1 = Err ValueError).
Proof. exact (add_probe_then_step LA m p ty m1). Qed.
Print Assumptions C08_detected_when_stepping.

Theorem C08_known_types_never_raise (N : num) (LA : lapack N) (m : mtl N) t : reachable LA m ->
  Forall (fun p => p_type p = "voltage"%string \/ p_type p = "current"%string) (m_probes m) ->
  exists ps, update_probes (m_core m) t (m_probes m) = Ok ps.
Proof. exact (update_never_raises LA m t). Qed.
Print Assumptions C08_known_types_never_raise.

Example C08_example : exists (m m1 m2 m3 : mtl NumQ), reachable LQ m /\ mtl_step m = Ok m1 /\
  add_probe m (@PosF NumQ 1%Q) "current" = Ok m2 /\ add_probe m (@PosF NumQ 1%Q) "power" = Ok m3.
Proof. exact q2_stepping. Qed.

(** ** C15 *)
Theorem C15_causality (LA : lapack NumR) (m : mtl NumR) p c f g mf mg T n a :
  reachable LA m -> 0 <= step_dt m ->
  add_voltage_source m p c f = Ok mf -> add_voltage_source m p c g = Ok mg ->
  (forall t, t <= m_time m + (INR n - 1) * step_dt m -> f t = g t) ->
  run_state LA mf T n a ->
  exists a', run_state LA mg T n a' /\ m_core a' = m_core a /\ m_probes a' = m_probes a.
Proof. exact (two_sources LA m p c f g mf mg T n a). Qed.
Print Assumptions C15_causality.

(** all sources replaced at once *)
Theorem C15_causality_all (LA : lapack NumR) (m : mtl NumR) vs T n a :
  reachable LA m -> 0 <= step_dt m -> run_state LA m T n a ->
  (forall c t, (c < conductors m)%nat -> t <= m_time m + (INR n - 1) * step_dt m ->
     source m c 0 t = source (m_set_vsrc m vs) c 0 t /\
     source m c (cells m) t = source (m_set_vsrc m vs) c (cells m) t) ->
  exists a', run_state LA (m_set_vsrc m vs) T n a' /\ m_core a' = m_core a /\ m_probes a' = m_probes a.
Proof. exact (future_sources LA m vs T n a). Qed.
Print Assumptions C15_causality_all.

Example C15_example : exists (m0 mf mg : mtl NumR) a, reachable LR m0 /\ 0 <= step_dt m0 /\
  add_voltage_source m0 (@PosF NumR 0) 0 unit_step = Ok mf /\
  add_voltage_source m0 (@PosF NumR 0) 0 (fun t => if Rltb (m_time m0 + 1.5 * step_dt m0) t then 7 else unit_step t) = Ok mg /\
  run_state LR mf (2.5 * step_dt m0) 2 a.
Proof. exact real_two_sources. Qed.

(** ** C23 *)
Theorem C23_second_run (N : num) (LA : lapack N) (m : mtl N) T1 m1 T2 m2 :
  reachable LA m -> run_until LA m T1 = Ok m1 -> run_until LA m1 T2 = Ok m2 ->
  exists n x, time_range_len T2 (step_dt m) = Ok n /\ iterM n mtl_step m1 = Ok x /\
    m_core m2 = m_core x /\ m_time m2 = m_time x.
Proof. exact (second_run LA m T1 m1 T2 m2). Qed.
Print Assumptions C23_second_run.

Theorem C23_one_long_run (N : num) (LA : lapack N) (m : mtl N) T1 m1 T2 m2 T n1 n2 :
  reachable LA m -> run_until LA m T1 = Ok m1 -> run_until LA m1 T2 = Ok m2 ->
  time_range_len T1 (step_dt m) = Ok n1 -> time_range_len T2 (step_dt m) = Ok n2 ->
  time_range_len T (step_dt m) = Ok (n1 + n2)%nat ->
  exists x, run_until LA m T = Ok x /\ m_core x = m_core m2 /\ m_time x = m_time m2.
Proof. exact (joint_run LA m T1 m1 T2 m2 T n1 n2). Qed.
Print Assumptions C23_one_long_run.

(** whole numbers of steps, in real arithmetic: T1 then T2 is T1 + T2 *)
Theorem C23_exact_durations (LA : lapack NumR) (m : mtl NumR) (n1 n2 : nat) m1 m2 :
  reachable LA m -> 0 < step_dt m ->
  run_until LA m (INR n1 * step_dt m) = Ok m1 -> run_until LA m1 (INR n2 * step_dt m) = Ok m2 ->
  exists x, run_until LA m (INR n1 * step_dt m + INR n2 * step_dt m) = Ok x /\
    m_core x = m_core m2 /\ m_time x = m_time m2.
Proof. exact (exact_durations LA m n1 n2 m1 m2). Qed.
Print Assumptions C23_exact_durations.

Theorem C23_prepare_idempotent (N : num) (LA : lapack N) (m : mtl N) n p n' : mtl_prepare LA m n = Ok p ->
  exists p', mtl_prepare LA p n' = Ok p' /\ m_core p' = m_core p /\ m_time p' = m_time p /\ m_vsrc p' = m_vsrc p.
Proof. exact (prepare_again LA m n p n'). Qed.
Print Assumptions C23_prepare_idempotent.

(** the lines of C01_example satisfy the hypotheses of C23 *)

(** ** C24 *)
Theorem C24_interior_source_ignored (N : num) (LA : lapack N) (m : mtl N) p c f m1 T :
  reachable LA m -> add_voltage_source m p c f = Ok m1 ->
  (0 < nearest (m_u m) (pos_vec p) < cells m)%nat ->
  match run_until LA m T, run_until LA m1 T with
  | Ok a, Ok b => m_core a = m_core b /\ m_time a = m_time b /\ m_probes a = m_probes b
  | Err e, Err e' => e = e'
  | _, _ => False
  end.
Proof. exact (interior_source LA m p c f m1 T). Qed.
Print Assumptions C24_interior_source_ignored.

Theorem C24_source_replaced (N : num) (LA : lapack N) (m : mtl N) p c f m1 : reachable LA m ->
  add_voltage_source m p c f = Ok m1 -> forall g, add_voltage_source m1 p c g = add_voltage_source m p c g.
Proof. exact (source_replaced LA m p c f m1). Qed.
Print Assumptions C24_source_replaced.

Example C24_example : exists (m m1 m2 : mtl NumQ), reachable LQ m /\
  add_voltage_source m (@PosF NumQ 2%Q) 1 ustep = Ok m1 /\ (0 < nearest (m_u m) (pos_vec (@PosF NumQ 2%Q)) < cells m)%nat /\
  add_voltage_source m (@PosF NumQ 4%Q) 1 ustep = Ok m2 /\ nearest (m_u m) (pos_vec (@PosF NumQ 4%Q)) = cells m.
Proof. exact q2_sources. Qed.
