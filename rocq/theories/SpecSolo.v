(** Vocabulary of the comparison of a line simulated by itself with the same line in a network
    of lines whose two ends are connected to ground.  No proofs here. *)
From Coq Require Import String List Arith ZArith Reals.
From Verif Require Import Num Py Arr NumR Utils Probes Dispersive Line Bundle Networks Mtln SpecLine SpecBundle SpecNet SpecMtln.
Import ListNotations.
Local Open Scope R_scope.

(** the argument [V] of a connection to ground stands for the time function [f] *)
Definition drives (V : tfun NumR) (f : R -> R) : Prop :=
  (exists g, V = @TFun NumR g /\ forall t, g t = f t) \/ (V = @TInt NumR 0 /\ forall t, f t = 0).

(** [to_ground_each d Z f w]: the network [w] has one line end, every conductor of it connected
    to ground through the diagonal entry of [Z] in series with the source [f] *)
Definition to_ground_each (d : descr NumR) (Z : nat -> nat -> R) (f : nat -> R -> R) (w : network NumR) : Prop :=
  Permutation.Permutation (map c_cond (d_conns d)) (seq 0 (conductors (d_line d))) /\
  exists w0 cs, network_new [d] = Ok w0 /\ do_calls w0 cs = Ok w /\
    Forall2 (fun x c => exists V, drives V (f (c_cond x)) /\ c = @GroundR NumR (c_id x) (Z (c_cond x) (c_cond x)) V) (d_conns d) cs.

(** [x] is the network of lines with the one line [m], connected at its ends to ground through
    the terminal impedances and sources of [m] *)
Definition soloed (m : mtl NumR) (name : string) (x : mtln NumR) : Prop :=
  exists b conns conns' w1 w2, mtld_new [[m]] name = Ok b /\
    to_ground_each (m, ("S", (name, conns)))%string (Zs_ m) (fun c => source m c 0) w1 /\
    to_ground_each (m, ("L", (name, conns')))%string (Zl_ m) (fun c => source m c (cells m)) w2 /\
    mtln_new [b] [[(0%nat, w1)]; [(0%nat, w2)]] = Ok x.

(** a line at rest with diagonal terminal impedances, neither fields nor dispersive elements; its
    time step and conductance at the ends are those it was built with ([m0]) *)
Record plain_line (LA : lapack NumR) (m0 m : mtl NumR) : Prop := {
  pl_hist : history LA m0 m;
  pl_und : undispersed m;
  pl_v : forall c k, volt m c k = 0; pl_i : forall c k, curr m c k = 0; pl_t : m_time m = 0;
  pl_eT : forall c k t, (c < conductors m)%nat -> eTran m c k t = 0;
  pl_eL : forall c k t, (c < conductors m)%nat -> eLong m c k t = 0;
  pl_dt : step_dt m = step_dt m0; pl_small : step_dt m < 10000000000; pl_dt0 : step_dt m <> 0;
  pl_G0 : forall i j, G_ m 0 i j = G_ m0 0 i j; pl_GN : forall i j, G_ m (cells m) i j = G_ m0 (cells m) i j;
  pl_Zs : forall i j, (i < conductors m)%nat -> (j < conductors m)%nat -> i <> j -> Zs_ m i j = 0;
  pl_Zl : forall i j, (i < conductors m)%nat -> (j < conductors m)%nat -> i <> j -> Zl_ m i j = 0;
  pl_Zs0 : forall i, (i < conductors m)%nat -> Zs_ m i i <> 0;
  pl_Zl0 : forall i, (i < conductors m)%nat -> Zl_ m i i <> 0
}.
(** no conductance at the two ends *)
Definition open_ends (m : mtl NumR) : Prop :=
  forall i j, (i < conductors m)%nat -> (j < conductors m)%nat -> G_ m 0 i j = 0 /\ G_ m (cells m) i j = 0.

(** the bundle and the line hold the same voltages and currents *)
Definition same_signals (b : bundle NumR) (a : mtl NumR) : Prop :=
  b_conductors b = conductors a /\ b_cells b = cells a /\
  (forall c k, (c < conductors a)%nat -> (k <= cells a)%nat -> b_volt b c k = volt a c k) /\
  (forall c k, (c < conductors a)%nat -> (k < cells a)%nat -> b_curr b c k = curr a c k).
