(** The equations a marched bundle is meant to satisfy.  No proofs here. *)
From Coq Require Import String List Arith Bool Reals.
From Verif Require Import Num Py Arr NumR RFacts Probes Dispersive Line Bundle Networks Mtln SpecLine SpecR SpecBundle SpecCore SpecNet SpecMtln TotalFacts.
Import ListNotations.
Local Open Scope R_scope.

(** [telegraph d dt t b b']: between states [b] and [b'] of a bundle the discrete telegrapher's
    equations with time step [d] hold, the fields being sampled around time [t] with step [dt] *)
Definition telegraph (d dt t : R) (b b' : bundle NumR) : Prop :=
  let s := b_core b in let s' := b_core b' in let n := b_conductors b in
  (forall c k, (c < n)%nat -> (0 < k)%nat -> (k < b_cells b)%nat ->
     let de p := kTran s p k t - kTran s p k (t - dt) in
     kwidth s k * (sumR n (fun p => kC s k c p * (b_volt b' p k - b_volt b p k + de p)) / d
                   + sumR n (fun p => kG s k c p * (b_volt b' p k + b_volt b p k + de p)) / 2)
     + b_curr b c k - b_curr b c (k - 1) = 0) /\
  (forall c k, (c < n)%nat -> (k < b_cells b)%nat ->
     klen s k *
       (sumR n (fun p => kL s k c p * (b_curr b' p k - b_curr b p k)) / d
        + sumR n (fun p => kR s k c p * (b_curr b' p k + b_curr b p k)) / 2
        + sumR n (fun p => kD s k c p * (b_curr b' p k + b_curr b p k)) / 2
        + sumR n (fun p => kE s k c p * (b_curr b' p k - b_curr b p k)) / d
        + sumR n (fun p => kQ1 s k c p * b_curr b' p k)
        + sumR n (fun p => kQ2 s k c p * b_curr b p k)
        + kmem s' k c)
     + (b_volt b' c (S k) - b_volt b' c k) + (kTran s c (S k) t - kTran s c k t)
     = klen s k * (kLong s c k (t + dt / 2) + kLong s c k (t - dt / 2)) / 2).

(** nothing moves: no current changes, and no interior voltage changes but by the change of the transverse field *)
Definition frozen (dt t : R) (b b' : bundle NumR) : Prop :=
  (forall c k, (c < b_conductors b)%nat -> (k < b_cells b)%nat -> b_curr b' c k = b_curr b c k) /\
  (forall c k, (c < b_conductors b)%nat -> (0 < k)%nat -> (k < b_cells b)%nat ->
     b_volt b' c k = b_volt b c k - (kTran (b_core b) c k t - kTran (b_core b) c k (t - dt))).

(** lengths positive, inductance and capacitance matrices positive definite, no dispersive elements *)
Definition sound_bundle (b : bundle NumR) : Prop :=
  (forall k, (k < b_cells b)%nat -> 0 < klen (b_core b) k) /\
  (forall k, (k <= b_cells b)%nat -> pos_def (b_conductors b) (kC (b_core b) k)) /\
  (forall k, (k < b_cells b)%nat -> pos_def (b_conductors b) (kL (b_core b) k)) /\
  (forall k i j, kE (b_core b) k i j = 0).

(** lengths positive, matrices of capacitance and inductance positive definite, of conductance and
    resistance positive semidefinite, no dispersive element (one empty slot of poles), probes of a known type on the bundle *)
Record physical_bundle (b : bundle NumR) : Prop := {
  pb_len : forall k, (k < b_cells b)%nat -> 0 < klen (b_core b) k;
  pb_C : forall k, (k <= b_cells b)%nat -> pos_def (b_conductors b) (kC (b_core b) k);
  pb_G : forall k, (k <= b_cells b)%nat -> pos_semidef (b_conductors b) (kG (b_core b) k);
  pb_L : forall k, (k < b_cells b)%nat -> pos_def (b_conductors b) (kL (b_core b) k);
  pb_R : forall k, (k < b_cells b)%nat -> pos_semidef (b_conductors b) (kR (b_core b) k);
  pb_D : forall k i j, kD (b_core b) k i j = 0 /\ kE (b_core b) k i j = 0 /\ kQ1 (b_core b) k i j = 0;
  pb_q : forall k i j, length (qget3 (ds_q1 (b_disp b)) k i j) = 1%nat /\ length (qget3 (ds_q2 (b_disp b)) k i j) = 1%nat /\ length (qget3 (ds_q3 (b_disp b)) k i j) = 1%nat;
  pb_phi : forall k j, length (qget2 (ds_phi (b_disp b)) k j) = 1%nat;
  pb_probes : Forall (fun p => (p_type p = "voltage"%string \/ p_type p = "current"%string) /\ (p_index p <= b_cells b)%nat) (b_probes b)
}.

(** a circuit between physical lines, each with all its conductors connected, made of shorts, resistors (with or without
    a time function in series) and capacitors, first those to ground and then those between nodes, with no state variables; possibly registered and run since *)
Definition rc_circuit (LA : lapack NumR) (ds : list (descr NumR)) (w : network NumR) : Prop :=
  Forall (fun d : descr NumR => physical (d_line d)) ds /\ all_connected ds /\
  exists w0 gs bs w1, network_new ds = Ok w0 /\ w_ns w0 = 0%nat /\ Forall to_ground gs /\ Forall between_nodes bs /\
    do_calls w0 (gs ++ bs) = Ok w1 /\ after LA (@no_call NumR) w1 w.

(** bundles physical with positive steps, circuits of resistors and capacitors, every node on a registered conductor *)
Record runnable (LA : lapack NumR) (x : mtln NumR) : Prop := {
  rn_bundles : forall name b, bundle_of x name = Some b -> physical_bundle b;
  rn_nets : forall w, In w (nets x) -> exists ds, rc_circuit LA ds w;
  rn_nodes : forall w kn, In w (nets x) -> In kn (w_conns w) -> resolves (t_bundles x) kn
}.
