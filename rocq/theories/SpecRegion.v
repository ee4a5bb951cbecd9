(** Vocabulary for the region edits of bundles.  No proofs here. *)
From Coq Require Import String List Arith Bool Reals.
From Verif Require Import Num Py Arr NumR Probes Dispersive Line Bundle SpecLine SpecR SpecGeom SpecGeom SpecBundle.
Import ListNotations.
Local Open Scope R_scope.

(** the length a resistance or conductance given for the region between nodes [k1] and [k2] is divided by *)
Definition bundle_region_len (b : bundle NumR) (k1 k2 : nat) : R :=
  if (k1 =? k2)%nat then norm3 (nth k1 (b_du b) []) else dist3 (nth k2 (b_u b) []) (nth k1 (b_u b) []).

(** everything of [b'] but its resistances, conductances and update coefficients is as in [b] *)
Definition bundle_rest (b b' : bundle NumR) : Prop :=
  b_conductors b' = b_conductors b /\ b_cells b' = b_cells b /\ b_levels b' = b_levels b /\ b_cil b' = b_cil b /\ b_name b' = b_name b /\
  b_u b' = b_u b /\ b_du b' = b_du b /\ b_probes b' = b_probes b /\ k_dt (b_core b') = k_dt (b_core b) /\
  k_v (b_core b') = k_v (b_core b) /\ k_i (b_core b') = k_i (b_core b) /\ k_l (b_core b') = k_l (b_core b) /\
  k_c (b_core b') = k_c (b_core b) /\ k_h (b_core b') = k_h (b_core b) /\ k_disp (b_core b') = k_disp (b_core b) /\
  k_eL (b_core b') = k_eL (b_core b) /\ k_eT (b_core b') = k_eT (b_core b).
