(** Vocabulary of the theorem on splitting a run of a network of lines in two: networks of lines
    that differ in nothing but what their probes have recorded.  No proofs here. *)
From Coq Require Import String List Arith ZArith Bool.
From Verif Require Import Num Py Arr Utils Probes Dispersive Line Bundle Networks Mtln.
Import ListNotations.

Section SpecCompose.
Context {N : num}.
(** two bundles with the same name, geometry, levels and the same core: per-unit-length data, step,
    field sources, dispersive memory, voltages and currents *)
Record bundle_but_probes (b c : bundle N) : Prop := {
  bp_name : b_name c = b_name b;
  bp_u : b_u c = b_u b;
  bp_du : b_du c = b_du b;
  bp_core : b_core c = b_core b;
  bp_levels : b_levels c = b_levels b;
  bp_cil : b_cil c = b_cil b
}.
Record net_but_probes (x y : mtln N) : Prop := {
  np_bundles : Forall2 (fun p q => fst q = fst p /\ bundle_but_probes (snd p) (snd q)) (t_bundles x) (t_bundles y);
  np_networks : t_networks y = t_networks x;
  np_dt : t_dt y = t_dt x;
  np_time : t_time y = t_time x
}.
End SpecCompose.
