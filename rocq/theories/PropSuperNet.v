(** Properties C67 and C13 for networks of lines: superposition and quiescence.  Real
    arithmetic.  [lines_sum al be x y z]: [x], [y], [z] consist of the same lines and circuits
    and every voltage, current, memory, state variable, source and field of [z] is [al] times
    that of [x] plus [be] times that of [y] (SpecSuper.v).  [reaches LA x T dt k x']:
    run_until(T, dt) called on [x] is in state [x'] after [k] steps. *)
From Coq Require Import String List Arith ZArith Bool Lia Reals Lra.
From Verif Require Import Num Py Arr NumR LapackR Utils Line Bundle Networks Mtln SpecLine SpecBundle SpecNet SpecMtln SpecTele SpecDyn SpecSuper
  SuperNet SuperNet2 ExampleSuper.
Import ListNotations.
Local Open Scope R_scope.

(** ** C67 *)
(** any circuits, when the linear solver refuses singular systems as numpy.linalg.solve does *)
Theorem C67_superposition (LA : lapack NumR) (al be : R) x y z (T dt : R) k x' y' z' : lapack_ok LA -> regular LA ->
  lines_net LA x -> lines_net LA y -> lines_net LA z -> lines_sum al be x y z ->
  reaches LA x T dt k x' -> reaches LA y T dt k y' -> reaches LA z T dt k z' -> lines_sum al be x' y' z'.
Proof. exact (fun A Rg Lx Ly Lz S => super_reaches LA A al be x y z T dt k x' y' z' Lx Ly Lz S (or_introl Rg)). Qed.
Print Assumptions C67_superposition.
(** circuits of resistors and capacitors, whatever the solver does with singular systems *)
Theorem C67_superposition_rc (LA : lapack NumR) (al be : R) x y z (T dt : R) k x' y' z' : lapack_ok LA ->
  lines_net LA x -> lines_net LA y -> lines_net LA z -> lines_sum al be x y z ->
  (forall w, In w (nets x) -> exists ds, rc_circuit LA ds w) -> 0 < dt \/ dt = 0 /\ 0 < t_dt x ->
  reaches LA x T dt k x' -> reaches LA y T dt k y' -> reaches LA z T dt k z' -> lines_sum al be x' y' z'.
Proof. exact (fun A Lx Ly Lz S C D => super_reaches LA A al be x y z T dt k x' y' z' Lx Ly Lz S (or_intror (conj C D))). Qed.
Print Assumptions C67_superposition_rc.
(** complete runs *)
Theorem C67_run (LA : lapack NumR) (al be : R) x y z (T dt : R) x' y' z' : lapack_ok LA -> regular LA ->
  lines_net LA x -> lines_net LA y -> lines_net LA z -> lines_sum al be x y z ->
  mtln_run_until LA x T dt = Ok x' -> mtln_run_until LA y T dt = Ok y' -> mtln_run_until LA z T dt = Ok z' -> lines_sum al be x' y' z'.
Proof. exact (fun A Rg Lx Ly Lz S => super_run LA A al be x y z T dt x' y' z' Lx Ly Lz S (or_introl Rg)). Qed.
Print Assumptions C67_run.
(** circuits described by the same calls, with combined sources: the circuits are the combination *)
Theorem C67_calls (al be : R) ds (w0 : network NumR) a b c u v w : network_new ds = Ok w0 -> (forall i t, (i < w_nodes w0)%nat -> nField w0 i t = 0) ->
  Forall3 (call_sum al be) a b c -> do_calls w0 a = Ok u -> do_calls w0 b = Ok v -> do_calls w0 c = Ok w -> circuit_sum al be u v w.
Proof. exact (calls_sum al be ds w0 a b c u v w). Qed.
Print Assumptions C67_calls.
(** networks of lines put together from combined bundles and circuits are the combination *)
Theorem C67_built (al be : R) a b c d e f x y z : Forall3 (bundle_sum_named al be) a b c -> Forall3 (Forall3 (named_sum (circuit_sum al be))) d e f ->
  mtln_new a d = Ok x -> mtln_new b e = Ok y -> mtln_new c f = Ok z -> lines_sum al be x y z.
Proof. exact (new_sum al be a b c d e f x y z). Qed.
Print Assumptions C67_built.
(** a line with a source behind a resistor at one end, a resistor at the other and a field along
    it: source sin and field 1, source cos and field 5, source 2 sin + 3 cos and field 17; runs
    of ten steps; the network is not at rest *)
Example C67_example : exists m b w1 w2 x v1 v2 y u1 u2 z x' y' z', one m b /\
  lone m b sin 1 w1 w2 x /\ lone m b cos 5 v1 v2 y /\ lone m b (fun t => 2 * sin t + 3 * cos t) 17 u1 u2 z /\
  lapack_ok LR /\ regular LR /\ lines_net LR x /\ lines_net LR y /\ lines_net LR z /\ (forall w, In w (nets x) -> exists ds, rc_circuit LR ds w) /\
  circuit_sum 2 3 w1 v1 u1 /\ lines_sum 2 3 x y z /\
  mtln_run_until LR x 5 (1/2) = Ok x' /\ mtln_run_until LR y 5 (1/2) = Ok y' /\ mtln_run_until LR z 5 (1/2) = Ok z' /\ lines_sum 2 3 x' y' z'.
Proof.
  destruct one_exists as (m & b & S). destruct (lone_exists m b sin 1 S) as (w1 & w2 & x & X). destruct (lone_exists m b cos 5 S) as (v1 & v2 & y & Y).
  destruct (lone_exists m b (fun t => 2 * sin t + 3 * cos t) (2 * 1 + 3 * 5) S) as (u1 & u2 & z & Z). destruct (lone_sum m b 2 3 sin cos 1 5 _ _ _ _ _ _ _ _ _ S X Y Z) as (S1 & _ & S3).
  replace (2 * 1 + 3 * 5) with 17 in Z by ring. pose proof (lo_net _ _ _ _ _ _ _ X) as Nx. pose proof (lo_net _ _ _ _ _ _ _ Y) as Ny. pose proof (lo_net _ _ _ _ _ _ _ Z) as Nz.
  destruct (lone_total _ _ _ _ _ _ _ 5 X) as [x' Ex]. destruct (lone_total _ _ _ _ _ _ _ 5 Y) as [y' Ey]. destruct (lone_total _ _ _ _ _ _ _ 5 Z) as [z' Ez].
  exists m, b, w1, w2, x, v1, v2, y, u1, u2, z, x', y', z'. do 4 (split; [assumption|]). split; [exact LR_ok|]. split; [exact LR_regular|]. do 3 (split; [assumption|]).
  split; [exact (rn_nets _ _ (lo_run _ _ _ _ _ _ _ X))|]. do 5 (split; [assumption|]). exact (C67_run LR 2 3 x y z 5 (1/2) x' y' z' LR_ok LR_regular Nx Ny Nz S3 Ex Ey Ez).
Qed.

(** ** C13 for networks of lines *)
(** [lines_rest x]: voltages, currents, memories, state variables, sources and fields are zero *)
Theorem C13_network (LA : lapack NumR) x (T dt : R) k x' : lapack_ok LA -> regular LA -> lines_net LA x -> lines_rest x -> reaches LA x T dt k x' -> lines_rest x'.
Proof. exact (fun A Rg L S => rest_reaches LA A x T dt k x' L S (or_introl Rg)). Qed.
Print Assumptions C13_network.
Theorem C13_network_rc (LA : lapack NumR) x (T dt : R) k x' : lapack_ok LA -> lines_net LA x -> lines_rest x ->
  (forall w, In w (nets x) -> exists ds, rc_circuit LA ds w) -> 0 < dt \/ dt = 0 /\ 0 < t_dt x -> reaches LA x T dt k x' -> lines_rest x'.
Proof. exact (fun A L S C D => rest_reaches LA A x T dt k x' L S (or_intror (conj C D))). Qed.
Print Assumptions C13_network_rc.
Theorem C13_network_run (LA : lapack NumR) x (T dt : R) x' : lapack_ok LA -> regular LA -> lines_net LA x -> lines_rest x -> mtln_run_until LA x T dt = Ok x' -> lines_rest x'.
Proof. exact (fun A Rg L S => rest_run LA A x T dt x' L S (or_introl Rg)). Qed.
Print Assumptions C13_network_run.
(** newly built bundles, circuits without sources, and networks of lines made of them are at rest *)
Theorem C13_new_bundle levels name (b : bundle NumR) : mtld_new levels name = Ok b -> bundle_rest b.
Proof. exact (new_bundle_rest levels name b). Qed.
Print Assumptions C13_new_bundle.
Theorem C13_new_circuit ds (w0 : network NumR) cs w : network_new ds = Ok w0 -> (forall i t, (i < w_nodes w0)%nat -> nField w0 i t = 0) ->
  Forall sourceless cs -> do_calls w0 cs = Ok w -> circuit_rest w.
Proof. exact (calls_rest ds w0 cs w). Qed.
Print Assumptions C13_new_circuit.
Theorem C13_new_network bs ds x : Forall bundle_rest bs -> Forall (Forall (fun lw => circuit_rest (snd lw))) ds -> mtln_new bs ds = Ok x -> lines_rest x.
Proof. exact (new_lines_rest bs ds x). Qed.
Print Assumptions C13_new_network.
(** the same line and resistors with source and field zero *)
Example C13_network_example : exists m b w1 w2 x x', one m b /\ lone m b (fun _ => 0) 0 w1 w2 x /\ lapack_ok LR /\ regular LR /\ lines_net LR x /\ lines_rest x /\
  (forall w, In w (nets x) -> exists ds, rc_circuit LR ds w) /\ mtln_run_until LR x 5 (1/2) = Ok x' /\ lines_rest x'.
Proof.
  destruct one_exists as (m & b & S). destruct (lone_exists m b (fun _ => 0) 0 S) as (w1 & w2 & x & X). destruct (lone_total _ _ _ _ _ _ _ 5 X) as [x' Ex].
  pose proof (lone_rest _ _ _ _ _ S X) as Rx. pose proof (lo_net _ _ _ _ _ _ _ X) as Nx. exists m, b, w1, w2, x, x'. do 2 (split; [assumption|]). split; [exact LR_ok|]. split; [exact LR_regular|]. do 2 (split; [assumption|]).
  split; [exact (rn_nets _ _ (lo_run _ _ _ _ _ _ _ X))|]. split; [exact Ex|]. exact (C13_network_run LR x 5 (1/2) x' LR_ok LR_regular Nx Rx Ex).
Qed.
