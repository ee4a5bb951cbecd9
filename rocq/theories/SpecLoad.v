(** Lines loaded with passive connectors.  No proofs here. *)
From Coq Require Import String List Arith ZArith Bool Reals.
From Verif Require Import Num Py Arr NumR Probes Dispersive Line Bundle Networks Mtln SpecLine SpecR SpecBundle SpecDisp.
Import ListNotations.
Local Open Scope R_scope.

(** resistance and inductance not negative, poles real and negative, residues real and not
    negative *)
Definition passive_model (m : ratmodel NumR) : Prop :=
  0 <= rm_cte m /\ 0 <= rm_prop m /\
  forall l, (l < n_poles m)%nat ->
    fst (pole m l) < 0 /\ snd (pole m l) = 0 /\ 0 <= @get NumR (rm_rre m) l /\ @get NumR (rm_rim m) l = 0.

(** a line with sound matrices, no dispersive elements and known probes *)
Definition sound_line (m : mtl NumR) : Prop :=
  0 < step_dt m /\ (forall k, (k < cells m)%nat -> 0 < cell_len m k) /\
  (forall k, (k <= cells m)%nat -> pos_def (conductors m) (C_ m k) /\ pos_semidef (conductors m) (G_ m k)) /\
  (forall k, (k < cells m)%nat -> pos_def (conductors m) (L_ m k) /\ pos_semidef (conductors m) (R_ m k)) /\
  undispersed m /\
  Forall (fun p => p_type p = "voltage"%string \/ p_type p = "current"%string) (m_probes m).

(** [loaded LA q m0 m]: [m] is the newly built sound line [m0] after sources, known probes and connectors
    with passive models were added and positive time steps were set; the connectors of cell [k] have one pole or [q k] poles *)
Inductive loaded (LA : lapack NumR) (q : nat -> nat) (m0 : mtl NumR) : mtl NumR -> Prop :=
| ld_line : built LA m0 -> sound_line m0 -> loaded LA q m0 m0
| ld_time_step m NDT T : loaded LA q m0 m -> 0 < T / IZR NDT -> loaded LA q m0 (set_time_step m NDT T)
| ld_source m p c f m' : loaded LA q m0 m -> add_voltage_source m p c f = Ok m' -> loaded LA q m0 m'
| ld_probe m p ty m' : loaded LA q m0 m -> ty = "voltage"%string \/ ty = "current"%string ->
    add_probe m p ty = Ok m' -> loaded LA q m0 m'
| ld_connector m p c model m' : loaded LA q m0 m -> passive_model model ->
    (n_poles model = 1 \/ n_poles model = q (node_of m p))%nat -> 0 < node_gap m (node_of m p) ->
    mtl_add_dispersive_connector m p c model = Ok m' -> loaded LA q m0 m'.
