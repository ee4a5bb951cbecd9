(** C119: a run of a network of lines can be split in two. *)
From Coq Require Import String List Arith ZArith Bool Lia Reals Lra QArith.
From Verif Require Import Num Py Arr ArrFacts NumR NumQ LapackR LapackQ Utils Probes Dispersive Line Bundle Networks Mtln SpecLine SpecBundle SpecNet SpecMtln SpecCompose NetCompose
  ComposeR ExampleQ ExampleCompose.
Import ListNotations.

(** [run_until(T1, dt)] followed by [run_until(T2)], with the step kept or given again, leaves the
    network of lines as the single call [run_until(T, dt)] with as many steps does; the single call
    succeeds if the two calls do.  Bundles, terminal networks and clock are the same; the probes hold
    the second run only.  Any arithmetic. *)
Theorem C119_runs_join (N : num) (LA : lapack N) (x : mtln N) T1 dt x1 T2 dt2 x2 T n1 n2 :
  let d := t_dt (override_dt x dt) in
  mtln_run_until LA x T1 dt = Ok x1 -> mtln_run_until LA x1 T2 dt2 = Ok x2 -> dt2 = dt \/ neqb dt2 n0 = true ->
  time_range_len T1 d = Ok n1 -> time_range_len T2 d = Ok n2 -> time_range_len T d = Ok (n1 + n2)%nat ->
  exists z, mtln_run_until LA x T dt = Ok z /\ net_but_probes x2 z.
Proof. exact (runs_join LA x T1 dt x1 T2 dt2 x2 T n1 n2). Qed.
Print Assumptions C119_runs_join.

(** whole numbers of steps, in real arithmetic: running for T1 and then for T2 is running for
    T1 + T2 *)
Theorem C119_durations (LA : lapack NumR) (x : mtln NumR) (dt : R) (n1 n2 : nat) x1 x2 : (0 < dt)%R ->
  mtln_run_until LA x (INR n1 * dt)%R dt = Ok x1 -> mtln_run_until LA x1 (INR n2 * dt)%R 0%R = Ok x2 ->
  exists z, mtln_run_until LA x (INR n1 * dt + INR n2 * dt)%R dt = Ok z /\ net_but_probes x2 z.
Proof. exact (runs_durations LA x dt n1 n2 x1 x2). Qed.
Print Assumptions C119_durations.

(** a driven line with a probe: two steps and three, or five; the probe holds three rows, or five *)
Example C119_example : exists (x x1 x2 z : mtln NumQ) b, lines_net LQ x /\ mtln_run_until LQ x 1%Q (1#2)%Q = Ok x1 /\ mtln_run_until LQ x1 (3#2)%Q (1#2)%Q = Ok x2 /\
  mtln_run_until LQ x (5#2)%Q (1#2)%Q = Ok z /\ bundle_of x2 "b0" = Some b /\ b_volt b 0 2 <> 0%Q /\ qc_rows x2 = 3%nat /\ qc_rows z = 5%nat.
Proof. exact compose_example. Qed.
