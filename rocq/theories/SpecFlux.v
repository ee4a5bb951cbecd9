(** Flux and charge of a stretch of a conductor.  No proofs here.  Used by C122. *)
From Coq Require Import String List Arith Bool Reals.
From Verif Require Import Num Py Arr NumR RFacts Probes Dispersive Line Bundle Networks Mtln SpecLine SpecR SpecBundle SpecCore SpecDisp SpecNet SpecMtln SpecTele SpecNetEnergy.
Import ListNotations.
Local Open Scope R_scope.

(** the [m] cells from cell [a] on: magnetic flux linked with conductor [c], voltage lost in the resistances in a
    step, voltage of the longitudinal field around time [t] *)
Definition flux (b : bundle NumR) (c a m : nat) : R :=
  sumR m (fun i => klen (b_core b) (a + i) * sumR (b_conductors b) (fun p => kL (b_core b) (a + i) c p * b_curr b p (a + i)%nat)).
Definition ohmic (b b' : bundle NumR) (c a m : nat) : R :=
  sumR m (fun i => klen (b_core b) (a + i) * sumR (b_conductors b) (fun p => kR (b_core b) (a + i) c p * ((b_curr b' p (a + i)%nat + b_curr b p (a + i)%nat) / 2))).
Definition pushed (dt t : R) (b : bundle NumR) (c a m : nat) : R :=
  sumR m (fun i => klen (b_core b) (a + i) * ((kLong (b_core b) c (a + i) (t + dt / 2) + kLong (b_core b) c (a + i) (t - dt / 2)) / 2)).
(** voltage of a node with the transverse field at time [t] *)
Definition node_volt (t : R) (b : bundle NumR) (c k : nat) : R := b_volt b c k + kTran (b_core b) c k t.
(** the [m] nodes from node [a] on: charge of conductor [c], and the current that leaks from it in a step *)
Definition charge (t : R) (b : bundle NumR) (c a m : nat) : R :=
  sumR m (fun i => b_share b (a + i) * sumR (b_conductors b) (fun p => kC (b_core b) (a + i) c p * node_volt t b p (a + i))).
Definition leaked (dt t : R) (b b' : bundle NumR) (c a m : nat) : R :=
  sumR m (fun i => b_share b (a + i) * sumR (b_conductors b) (fun p => kG (b_core b) (a + i) c p *
    ((b_volt b' p (a + i)%nat + b_volt b p (a + i)%nat + (kTran (b_core b) p (a + i) t - kTran (b_core b) p (a + i) (t - dt))) / 2))).

(** no dispersive element *)
Definition plain_bundle (LA : lapack NumR) (b : bundle NumR) : Prop :=
  (forall k i j, kD (b_core b) k i j = 0 /\ kE (b_core b) k i j = 0 /\ kQ1 (b_core b) k i j = 0 /\ kQ2 (b_core b) k i j = 0) /\
  exists b0, one_way LA (fun _ => False) b0 b.
(** the states of the bundle [name] in the first [n] steps of a run *)
Definition history_of (LA : lapack NumR) (x : mtln NumR) (T dt : R) (name : string) (n : nat) (X : nat -> mtln NumR) (B : nat -> bundle NumR) : Prop :=
  forall j, (j <= n)%nat -> reaches LA x T dt j (X j) /\ bundle_of (X j) name = Some (B j).
