(** Properties C12 and C13: superposition and quiescence of a line, dispersive connectors
    included.  Real arithmetic.  [lin_state al be a b c]: every voltage, current and connector
    memory of [c] is [al] times that of [a] plus [be] times that of [b]; [lin_drive]: the same
    for terminal sources and external fields (SpecDyn.v). *)
From Coq Require Import String List Arith ZArith Bool Lia Reals Lra.
From Verif Require Import Num Py Arr NumR LapackR Probes Line SpecLine SpecGeom SpecDyn ExampleLine ExampleRun RunProps SuperFacts SuperProps.
Import ListNotations.
Local Open Scope R_scope.

(** ** C12 *)
Theorem C12_superposition (LA : lapack NumR) (al be : R) (m : mtl NumR) (x y z : inputs NumR) T n a b c : reachable LA m ->
  lin_state al be (with_inputs m x) (with_inputs m y) (with_inputs m z) ->
  lin_drive al be (with_inputs m x) (with_inputs m y) (with_inputs m z) ->
  run_state LA (with_inputs m x) T n a -> run_state LA (with_inputs m y) T n b -> run_state LA (with_inputs m z) T n c ->
  lin_state al be a b c.
Proof. exact (super_run LA al be m x y z T n a b c). Qed.
Print Assumptions C12_superposition.

(** a source al f + be g on a line at rest gives al times the response to f plus be times that to g *)
Theorem C12_sources (LA : lapack NumR) (al be : R) (m mf mg mh : mtl NumR) p c (f g : R -> R) T n a b d :
  reachable LA m -> silent m -> undriven m ->
  add_voltage_source m p c f = Ok mf -> add_voltage_source m p c g = Ok mg ->
  add_voltage_source m p c (fun t => al * f t + be * g t) = Ok mh ->
  run_state LA mf T n a -> run_state LA mg T n b -> run_state LA mh T n d ->
  (forall j k, (j < conductors m)%nat -> (k <= cells m)%nat -> volt d j k = al * volt a j k + be * volt b j k) /\
  (forall j k, (j < conductors m)%nat -> (k < cells m)%nat -> curr d j k = al * curr a j k + be * curr b j k).
Proof. exact (super_sources LA al be m mf mg mh p c f g T n a b d). Qed.
Print Assumptions C12_sources.

Example C12_example : exists (m mf mg mh : mtl NumR), reachable LR m /\ silent m /\ undriven m /\
  add_voltage_source m (@PosF NumR 0) 0 unit_step = Ok mf /\ add_voltage_source m (@PosF NumR 0) 0 sin = Ok mg /\
  add_voltage_source m (@PosF NumR 0) 0 (fun t => 2 * unit_step t + 3 * sin t) = Ok mh /\
  conductors m = 2%nat /\ cells m = 3%nat /\
  forall T, 0 <= T -> exists n a b d, run_state LR mf T n a /\ run_state LR mg T n b /\ run_state LR mh T n d /\ (step_dt m <= T -> n <> 0%nat).
Proof. exact super_example. Qed.
(** the same lines, seen as one line with three inputs *)
Example C12_inputs_example : exists (m : mtl NumR) (x y z : inputs NumR), reachable LR m /\
  lin_state 2 3 (with_inputs m x) (with_inputs m y) (with_inputs m z) /\
  lin_drive 2 3 (with_inputs m x) (with_inputs m y) (with_inputs m z) /\ in_src x <> in_src y /\
  forall T, 0 <= T -> exists n a b d, run_state LR (with_inputs m x) T n a /\ run_state LR (with_inputs m y) T n b /\ run_state LR (with_inputs m z) T n d.
Proof. exact super_inputs_example. Qed.

(** ** C13 *)
(** [marched LA m m']: any sequence of step() and run_until(T) calls leads from m to m' *)
Theorem C13_line (LA : lapack NumR) (m m' : mtl NumR) : reachable LA m -> silent m -> undriven m -> marched LA m m' -> silent m'.
Proof. exact (fun R S D M => proj1 (silent_for_ever LA m m' R S D M)). Qed.
Print Assumptions C13_line.
(** a newly built line is at rest and undriven *)
Theorem C13_new_line (LA : lapack NumR) (m : mtl NumR) : built LA m -> silent m /\ undriven m.
Proof. exact (new_silent LA m). Qed.
Print Assumptions C13_new_line.
Example C13_example : exists m m' : mtl NumR, reachable LR m /\ silent m /\ undriven m /\ run_until LR m 10 = Ok m' /\
  conductors m = 2%nat /\ cells m = 3%nat.
Proof. exact silent_example. Qed.
