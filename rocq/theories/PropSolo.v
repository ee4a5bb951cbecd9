(** Property C61: a line whose two ends are connected to ground in a network of lines carries the
    same signals as the line simulated by itself.  [soloed m name x]: [x] is the network of lines
    with the one line [m], each conductor connected to ground at either end through the terminal
    impedance and the source [m] has there (SpecSolo.v).  Real arithmetic. *)
From Coq Require Import String List Arith ZArith Bool Lia Reals Lra.
From Verif Require Import Num Py Arr NumR LapackR Probes Line Bundle Networks Mtln SpecLine SpecR SpecBundle SpecNet SpecMtln SpecSolo SoloRun ExampleSuper ExampleSolo.
Import ListNotations.
Local Open Scope R_scope.

(** no conductance at the two end nodes: the same times, voltages and currents after any number
    of steps of the two runs *)
Theorem C61_same (LA : lapack NumR) (m0 m : mtl NumR) name (x : mtln NumR) T T' k a y : lapack_ok LA ->
  plain_line LA m0 m -> open_ends m -> soloed m name x -> run_state LA m T k a -> reaches LA x T' 0 k y ->
  t_time y = m_time a /\ exists b, bundle_of y name = Some b /\ same_signals b a.
Proof. intros LAok. exact (same_as_alone LA LAok m0 m name x T T' k a y). Qed.
Print Assumptions C61_same.

Example C61_example n : exists (m0 m : mtl NumR) (x : mtln NumR) a y, driven m0 m x 0 /\ open_ends m /\ run_state LR m (INR n) n a /\ reaches LR x (INR n) 0 n y.
Proof. exact (solo_together_runs n). Qed.

(** conductance at the end nodes: the two agree before and after a step only if that conductance
    carries no current in that step *)
Theorem C61_conductance (LA : lapack NumR) (m0 m : mtl NumR) name (x : mtln NumR) T T' k a a' y z b b' : lapack_ok LA ->
  plain_line LA m0 m -> soloed m name x -> run_step LA m T k a a' -> steps_to LA x T' 0 k y z ->
  bundle_of y name = Some b -> bundle_of z name = Some b' -> same_signals b a -> same_signals b' a' ->
  forall i, (i < conductors m)%nat ->
    cell_len m 0 * mulv (conductors m) (G_ m 0) (fun p => volt a' p 0 + volt a p 0) i = 0 /\
    cell_len m (cells m - 1) * mulv (conductors m) (G_ m (cells m)) (fun p => volt a' p (cells m) + volt a p (cells m)) i = 0.
Proof. intros LAok. exact (same_no_leak LA LAok m0 m name x T T' k a a' y z b b'). Qed.
Print Assumptions C61_conductance.

(** and with any positive conductance a line driven by a constant source already differs after
    the first step *)
Theorem C61_conductance_refuted (g : R) : 0 < g -> exists (m0 m : mtl NumR) (x : mtln NumR) a y, driven m0 m x g /\
  run_state LR m 1 1 a /\ reaches LR x 1 0 1 y /\ forall b, bundle_of y "b0" = Some b -> ~ same_signals b a.
Proof. exact (solo_differs g). Qed.
Print Assumptions C61_conductance_refuted.
